(** C50, C61, C62: spherical parameterisation, stereographic projection, clipping to the field of view. *)
From Coq Require Import Reals Lra.
From Verif Require Import Outcome Pose PoseProofs GeomModel GeomSpec GeomExamples SphereModel SphereSpec SphereProofs SphereClip.
Open Scope R_scope.

(** ** C50 *)
Theorem C50_accepts : forall center radius init, 0 < radius -> vnorm (vsub init center) = radius ->
  exists s, sp_new center radius init = Ok s.
Proof. exact sp_accepts. Qed.
Print Assumptions C50_accepts.

(** The updated value is on the sphere, or the centre itself when value and update cancel. *)
Theorem C50_on_sphere : forall center radius init s v d1 d2,
  0 < radius -> sp_new center radius init = Ok s ->
  sp_plus s v d1 d2 = center \/ vnorm (vsub (sp_plus s v d1 d2) center) = radius.
Proof. exact sp_on_sphere. Qed.
Print Assumptions C50_on_sphere.

Theorem C50_zero_update : forall center radius init s v,
  0 < radius -> sp_new center radius init = Ok s -> vnorm (vsub v center) = radius ->
  sp_plus s v 0 0 = v.
Proof. exact sp_zero_update. Qed.
Print Assumptions C50_zero_update.

(** Unit sphere around the origin, value not near the antipode of the initial one: the update is
    the projection of a step along two orthonormal tangents. *)
Theorem C50_tangent : forall init s v,
  vnorm init = 1 -> sp_new vzero 1 init = Ok s -> vnorm v = 1 -> 1 / 100 <= vnorm (vadd v init) ->
  exists e1 e2, vnorm e1 = 1 /\ vnorm e2 = 1 /\ dot e1 e2 = 0 /\ dot e1 v = 0 /\ dot e2 v = 0 /\
    forall d1 d2, let w := vadd v (vadd (vscale d1 e1) (vscale d2 e2)) in
      sp_plus s v d1 d2 = vscale (/ vnorm w) w.
Proof. exact sp_tangent'. Qed.
Print Assumptions C50_tangent.

Theorem C50_reaches : forall init s v w,
  vnorm init = 1 -> sp_new vzero 1 init = Ok s -> vnorm v = 1 -> 1 / 100 <= vnorm (vadd v init) ->
  vnorm w = 1 -> 0 < dot w v -> exists d1 d2, sp_plus s v d1 d2 = w.
Proof. exact sp_reaches'. Qed.
Print Assumptions C50_reaches.

(** Without the distance to the antipode a non-zero update can be without effect. *)
Theorem C50_antipode_refuted : exists init s v d1 d2,
  vnorm init = 1 /\ sp_new vzero 1 init = Ok s /\ vnorm v = 1 /\ (d1 <> 0 \/ d2 <> 0) /\
  forall t, 0 <= t <= 1 -> sp_plus s v (t * d1) (t * d2) = v.
Proof. exact sp_antipode_stuck. Qed.
Print Assumptions C50_antipode_refuted.

(** Nor around another centre, even at the initial value. *)
Theorem C50_center_refuted : exists s, sp_new (V3 2 0 0) 1 (V3 2 0 1) = Ok s /\
  forall d, 0 <= d -> sp_plus s (V3 2 0 1) 0 d = V3 2 0 1.
Proof. exact sp_center_stuck. Qed.
Print Assumptions C50_center_refuted.

(** Initial values far inside the sphere are accepted. *)
Theorem C50_inside_refuted : exists s, sp_new vzero 1 (V3 (1 / 100) 0 0) = Ok s.
Proof. exact sp_one_sided. Qed.
Print Assumptions C50_inside_refuted.

Example C50_case : exists s, sp_new vzero 1 (V3 1 0 0) = Ok s /\ vnorm (V3 1 0 0) = 1 /\
  vnorm (V3 0 1 0) = 1 /\ 1 / 100 <= vnorm (vadd (V3 0 1 0) (V3 1 0 0)).
Proof.
  assert (U : vnorm (V3 1 0 0) = 1) by (apply dot_unit; unfold dot; cbn [vx vy vz]; ring).
  assert (Z : vsub (V3 1 0 0) vzero = V3 1 0 0) by (unfold vsub, vzero; cbn [vx vy vz]; f_equal; ring).
  destruct (sp_accepts vzero 1 (V3 1 0 0)) as [s S]; [lra|rewrite Z; exact U|].
  exists s. split; [exact S|]. split; [exact U|].
  split; [apply dot_unit; unfold dot; cbn [vx vy vz]; ring|].
  replace (vadd (V3 0 1 0) (V3 1 0 0)) with (V3 1 1 0) by (unfold vadd; cbn [vx vy vz]; f_equal; ring).
  unfold vnorm, dot. cbn [vx vy vz]. apply Rle_trans with (sqrt 1); [rewrite sqrt_1; lra|apply sqrt_le_1_alt; lra].
Qed.

(** ** C61 *)
Theorem C61_scale : forall k r, 0 < k -> r <> vzero ->
  stereographicProject (vscale k r) = stereographicProject r.
Proof. exact project_scale. Qed.
Print Assumptions C61_scale.

Theorem C61_defined : forall r, r <> vzero ->
  ((exists p, stereographicProject r = Some p) <-> ~ same_direction (V3 0 0 (-1)) r).
Proof. exact project_defined. Qed.
Print Assumptions C61_defined.

Theorem C61_injective : forall a b p, a <> vzero -> b <> vzero ->
  stereographicProject a = Some p -> stereographicProject b = Some p -> same_direction a b.
Proof. exact project_injective. Qed.
Print Assumptions C61_injective.

Theorem C61_surjective : forall p, exists r, vnorm r = 1 /\ stereographicProject r = Some p.
Proof. intros p. exists (lift p). split; [apply dot_unit, lift_unit|apply project_lift]. Qed.
Print Assumptions C61_surjective.

(** The rays at a fixed angle to an axis: a circle, or a line when straight back is among them. *)
Theorem C61_circles : forall n c, dot n n = 1 -> Rabs c < 1 ->
  let image p := exists r, r <> vzero /\ dot n r = c * vnorm r /\ stereographicProject r = Some p in
  (c + vz n <> 0 -> is_circle image) /\ (c + vz n = 0 -> is_line image).
Proof. exact circle_image. Qed.
Print Assumptions C61_circles.

Example C61_case : dot (V3 0 0 1) (V3 0 0 1) = 1 /\ Rabs (1 / 2) < 1 /\ 1 / 2 + vz (V3 0 0 1) <> 0 /\
  exists r, r <> vzero /\ dot (V3 0 0 1) r = 1 / 2 * vnorm r.
Proof.
  split; [unfold dot; cbn [vx vy vz]; ring|]. split; [rewrite Rabs_right; lra|]. split; [cbn [vz]; lra|].
  assert (S : sqrt (3 / 4) * sqrt (3 / 4) = 3 / 4) by (apply sqrt_sqrt; lra).
  assert (U : dot (V3 (sqrt (3 / 4)) 0 (1 / 2)) (V3 (sqrt (3 / 4)) 0 (1 / 2)) = 1)
    by (unfold dot; cbn [vx vy vz]; rewrite S; lra).
  exists (V3 (sqrt (3 / 4)) 0 (1 / 2)). split; [apply unit_nz, U|].
  rewrite (dot_unit _ U). unfold dot. cbn [vx vy vz]. ring.
Qed.

(** ** C62 *)
Theorem C62_first : forall solve s d1 d2, least_squares_solver solve -> 0 <= s -> s + 1 / 10000 <= PI ->
  d1 <> vzero -> d2 <> vzero -> ~ parallel d1 d2 ->
  ~ in_sector (s + 1 / 10000) d1 -> in_sector s d2 ->
  exists p, intersectOnSphere solve s d1 d2 = Ok (true, p, d2) /\
    on_border s p /\ on_arc d1 d2 p /\ forall q, on_arc p d2 q -> in_sector s q.
Proof. exact clip_first'. Qed.
Print Assumptions C62_first.

Theorem C62_second : forall solve s d1 d2, least_squares_solver solve -> 0 <= s -> s + 1 / 10000 <= PI ->
  d1 <> vzero -> d2 <> vzero -> ~ parallel d1 d2 ->
  in_sector s d1 -> ~ in_sector (s + 1 / 10000) d2 ->
  exists p, intersectOnSphere solve s d1 d2 = Ok (true, d1, p) /\
    on_border s p /\ on_arc d1 d2 p /\ forall q, on_arc d1 p q -> in_sector s q.
Proof. exact clip_second'. Qed.
Print Assumptions C62_second.

Theorem C62_none : forall solve s d1 d2, 0 <= s -> s + 1 / 10000 <= PI -> d1 <> vzero -> d2 <> vzero ->
  ~ in_sector (s + 1 / 10000) d1 -> ~ in_sector (s + 1 / 10000) d2 ->
  intersectOnSphere solve s d1 d2 = Ok (false, d1, d2).
Proof. exact clip_none'. Qed.
Print Assumptions C62_none.

Theorem C62_both : forall solve s d1 d2, 0 <= s -> s + 1 / 10000 <= PI -> d1 <> vzero -> d2 <> vzero ->
  in_sector (s + 1 / 10000) d1 -> in_sector (s + 1 / 10000) d2 ->
  intersectOnSphere solve s d1 d2 = Ok (true, d1, d2).
Proof. exact clip_both'. Qed.
Print Assumptions C62_both.

(** With one end in the tolerance band the answer can be "intersects" although no part of the arc is
    in the sector; the end in the band is replaced by a direction off the arc, the other one kept. *)
Theorem C62_band_refuted : forall solve, least_squares_solver solve -> exists s d1 d2 p,
  0 <= s /\ s + 1 / 10000 <= PI /\ in_sector (s + 1 / 10000) d1 /\ ~ in_sector (s + 1 / 10000) d2 /\
  intersectOnSphere solve s d1 d2 = Ok (true, p, d2) /\
  ~ on_arc d1 d2 p /\ ~ (exists q, on_arc d1 d2 q /\ in_sector s q).
Proof. exact clip_band'. Qed.
Print Assumptions C62_band_refuted.

(** An arc through the middle of the sector with both ends outside is rejected. *)
Theorem C62_missed_refuted : forall s, 0 <= s -> s < PI / 2 - 1 / 10000 -> exists d1 d2,
  (forall solve, intersectOnSphere solve s d1 d2 = Ok (false, d1, d2)) /\
  exists q, on_arc d1 d2 q /\ same_direction (V3 0 0 1) q.
Proof. exact clip_misses. Qed.
Print Assumptions C62_missed_refuted.

(** Opposite ends abort the process. *)
Theorem C62_opposite_refuted : forall solve s, 0 <= s -> s + 1 / 10000 < PI ->
  intersectOnSphere solve s (V3 0 0 1) (V3 0 0 (-1)) = Abort.
Proof. exact clip_opposite. Qed.
Print Assumptions C62_opposite_refuted.

Example C62_case : least_squares_solver cramer /\
  exists s d1 d2, 0 <= s /\ s + 1 / 10000 <= PI /\ d1 <> vzero /\ d2 <> vzero /\
  ~ parallel d1 d2 /\ ~ in_sector (s + 1 / 10000) d1 /\ in_sector s d2.
Proof. split; [exact cramer_ok|exact sector_case]. Qed.
