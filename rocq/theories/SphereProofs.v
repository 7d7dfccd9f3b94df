(** Proofs for SphereModel. *)
From Coq Require Import Reals Bool Lra Lia Psatz.
From Verif Require Import Outcome Pose PoseProofs GeomModel GeomSpec GeomProofs GeomExamples SphereModel SphereSpec.
Open Scope R_scope.

(** * Vectors *)
Lemma dot_pos v : v <> vzero -> 0 < dot v v.
Proof.
  intros N. pose proof (dot_self_nonneg v). destruct (Req_dec (dot v v) 0) as [E|E]; [|lra].
  apply dot_zero in E. contradiction.
Qed.
Lemma vnorm_pos v : v <> vzero -> 0 < vnorm v.
Proof. intros N. apply sqrt_lt_R0, dot_pos, N. Qed.
Lemma normalized_nz v : v <> vzero -> normalized v = vscale (/ vnorm v) v.
Proof. intros N. unfold normalized. destruct (Rlt_dec 0 (dot v v)) as [_|C]; [reflexivity|]. exfalso. apply C, dot_pos, N. Qed.
Lemma normalized_norm v : v <> vzero -> vnorm (normalized v) = 1.
Proof.
  intros N. rewrite normalized_nz by exact N. pose proof (vnorm_pos v N) as P.
  rewrite vnorm_scale, Rabs_right by (apply Rle_ge, Rlt_le, Rinv_0_lt_compat, P). field. lra.
Qed.
Lemma normalized_zero : normalized vzero = vzero.
Proof.
  unfold normalized. destruct (Rlt_dec 0 (dot vzero vzero)) as [H|_]; [|reflexivity].
  exfalso. unfold dot, vzero in H. cbn in H. lra.
Qed.
Lemma unit_dot v : vnorm v = 1 -> dot v v = 1.
Proof. intros H. rewrite <- vnorm_sq, H. ring. Qed.
Lemma dot_unit v : dot v v = 1 -> vnorm v = 1.
Proof. intros H. unfold vnorm. rewrite H. apply sqrt_1. Qed.
Lemma unit_nz v : dot v v = 1 -> v <> vzero.
Proof. intros H ->. unfold dot, vzero in H. cbn in H. lra. Qed.
Lemma normalized_unit v : dot v v = 1 -> normalized v = v.
Proof.
  intros H. rewrite normalized_nz by (apply unit_nz, H). rewrite (dot_unit v H), Rinv_1. apply vscale_1.
Qed.
Lemma normalized_scale k v : 0 < k -> v <> vzero -> normalized (vscale k v) = normalized v.
Proof.
  intros K N. assert (N' : vscale k v <> vzero).
  { intros C. apply N. apply vnorm_0. pose proof (vnorm_scale k v) as E. rewrite C, vnorm_zero, Rabs_right in E by lra.
    symmetry in E. apply Rmult_integral in E. destruct E; [lra|assumption]. }
  rewrite (normalized_nz v N), (normalized_nz _ N'), vnorm_scale, Rabs_right, vscale_scale by lra. f_equal.
  pose proof (vnorm_pos v N). field. split; lra.
Qed.

Lemma dot_lin2 k a b : dot a (vscale k b) = k * dot a b.
Proof. rewrite dot_comm, dot_lin1, dot_comm. reflexivity. Qed.
Lemma dot_add2 a b c : dot a (vadd b c) = dot a b + dot a c.
Proof. rewrite dot_comm, dot_add1, (dot_comm b), (dot_comm c). reflexivity. Qed.
Lemma dot_neg1 a b : dot (vneg a) b = - dot a b.
Proof. destruct a, b. unfold dot, vneg. cbn. ring. Qed.
Lemma dot_neg2 a b : dot a (vneg b) = - dot a b.
Proof. rewrite dot_comm, dot_neg1, dot_comm. reflexivity. Qed.
Lemma dot_cross_l a b : dot (cross a b) a = 0.
Proof. destruct a, b. unfold dot, cross. cbn. ring. Qed.
Lemma dot_cross_r a b : dot (cross a b) b = 0.
Proof. destruct a, b. unfold dot, cross. cbn. ring. Qed.

Lemma cauchy a b : dot a b * dot a b <= dot a a * dot b b.
Proof. pose proof (lagrange a b). pose proof (dot_self_nonneg (cross a b)). lra. Qed.
Lemma dot_le_norm a b : dot a b <= vnorm a * vnorm b.
Proof.
  pose proof (cauchy a b) as C. rewrite <- !vnorm_sq in C. pose proof (vnorm_nonneg a). pose proof (vnorm_nonneg b).
  apply Rnot_lt_le. intros L. assert (0 <= vnorm a * vnorm b) by (apply Rmult_le_pos; assumption).
  assert ((vnorm a * vnorm b) * (vnorm a * vnorm b) < dot a b * dot a b)
    by (apply Rmult_le_0_lt_compat; lra). nra.
Qed.
Lemma vnorm_triangle a b : vnorm (vadd a b) <= vnorm a + vnorm b.
Proof.
  pose proof (vnorm_nonneg a). pose proof (vnorm_nonneg b). pose proof (vnorm_nonneg (vadd a b)).
  apply Rnot_lt_le. intros L.
  assert ((vnorm a + vnorm b) * (vnorm a + vnorm b) < vnorm (vadd a b) * vnorm (vadd a b))
    by (apply Rmult_le_0_lt_compat; lra).
  assert (E : vnorm (vadd a b) * vnorm (vadd a b) = dot a a + 2 * dot a b + dot b b).
  { rewrite vnorm_sq, dot_add1, !dot_add2, (dot_comm b a). ring. }
  rewrite E in *. rewrite <- !vnorm_sq in *. pose proof (dot_le_norm a b). nra.
Qed.

(** An orthonormal triple is a basis. *)
Lemma orthonormal_basis e1 e2 v w :
  dot e1 e1 = 1 -> dot e2 e2 = 1 -> dot v v = 1 -> dot e1 e2 = 0 -> dot e1 v = 0 -> dot e2 v = 0 ->
  w = vadd (vadd (vscale (dot w e1) e1) (vscale (dot w e2) e2)) (vscale (dot w v) v).
Proof.
  intros H1 H2 H3 H12 H13 H23.
  set (r := vsub w (vadd (vadd (vscale (dot w e1) e1) (vscale (dot w e2) e2)) (vscale (dot w v) v))).
  assert (R1 : dot r e1 = 0).
  { unfold r. rewrite dot_sub1, !dot_add1, !dot_lin1, H1, (dot_comm e2), H12, (dot_comm v), H13. ring. }
  assert (R2 : dot r e2 = 0).
  { unfold r. rewrite dot_sub1, !dot_add1, !dot_lin1, H2, H12, (dot_comm v), H23. ring. }
  assert (R3 : dot r v = 0).
  { unfold r. rewrite dot_sub1, !dot_add1, !dot_lin1, H3, H13, H23. ring. }
  assert (Z : r = vzero).
  { apply dot_zero.
    (* r is parallel to e1 x e2 and orthogonal to it, as is v *)
    set (n := cross e1 e2).
    assert (N : dot n n = 1) by (unfold n; rewrite lagrange, H1, H2, H12; ring).
    assert (X : forall q, dot q e1 = 0 -> dot q e2 = 0 -> dot q q = dot q n * dot q n).
    { intros q Q1 Q2. assert (C : cross q n = vzero).
      { unfold n. assert (B : cross q (cross e1 e2) = vsub (vscale (dot q e2) e1) (vscale (dot q e1) e2)).
        { destruct q, e1, e2. unfold cross, vsub, vscale, dot. cbn. f_equal; ring. }
        rewrite B, Q1, Q2, !vscale_0. unfold vsub, vzero. cbn. f_equal; ring. }
      pose proof (lagrange q n) as L. rewrite C, N, Rmult_1_r in L.
      replace (dot vzero vzero) with 0 in L by (unfold dot, vzero; cbn; ring). lra. }
    rewrite (X r R1 R2).
    assert (V : dot v n * dot v n = 1) by (rewrite <- (X v); [exact H3|rewrite dot_comm; exact H13|rewrite dot_comm; exact H23]).
    assert (VN : v = vscale (dot v n) n).
    { assert (D : vsub v (vscale (dot v n) n) = vzero).
      { apply dot_zero. rewrite dot_sub1, !dot_lin1.
        assert (A1 : dot v (vsub v (vscale (dot v n) n)) = 0).
        { rewrite dot_comm, dot_sub1, dot_lin1, H3, (dot_comm n v). lra. }
        assert (A2 : dot n (vsub v (vscale (dot v n) n)) = 0).
        { rewrite dot_comm, dot_sub1, dot_lin1, N. ring. }
        rewrite A1, A2. ring. }
      revert D. generalize (vscale (dot v n) n). intros m. destruct v as [x y z], m as [x' y' z'].
      unfold vsub, vzero. cbn. intros D. injection D as D1 D2 D3. f_equal; lra. }
    assert (RN : dot r n = 0).
    { rewrite VN, dot_lin2 in R3. apply Rmult_integral in R3. destruct R3 as [R3|R3]; [|exact R3].
      rewrite R3 in V. lra. }
    rewrite RN. ring. }
  unfold r in Z. revert Z. generalize (vadd (vadd (vscale (dot w e1) e1) (vscale (dot w e2) e2)) (vscale (dot w v) v)).
  intros m. destruct w as [x y z], m as [x' y' z']. unfold vsub, vzero. cbn. intros D. injection D as D1 D2 D3. f_equal; lra.
Qed.

(** * SphericalPlus *)
Definition frame_ok (s : spherical_plus) : Prop :=
  dot (sp_k s) (sp_k s) = 1 /\ dot (sp_v1 s) (sp_v1 s) = 1 /\ dot (sp_v2 s) (sp_v2 s) = 1 /\
  dot (sp_v1 s) (sp_v2 s) = 0 /\ dot (sp_v1 s) (sp_k s) = 0 /\ dot (sp_v2 s) (sp_k s) = 0.

Lemma min_abs_spec k : match min_abs_index k with
  | 0%nat => Rabs (vx k) <= Rabs (vy k) /\ Rabs (vx k) <= Rabs (vz k)
  | 1%nat => Rabs (vy k) <= Rabs (vx k) /\ Rabs (vy k) <= Rabs (vz k)
  | _ => Rabs (vz k) <= Rabs (vx k) /\ Rabs (vz k) <= Rabs (vy k)
  end.
Proof.
  unfold min_abs_index. destruct (Rlt_dec (Rabs (vy k)) (Rabs (vx k)));
    match goal with |- context [Rlt_dec ?a ?b] => destruct (Rlt_dec a b) end; lra.
Qed.

Lemma abs_zero_le x y : Rabs x <= Rabs y -> y = 0 -> x = 0.
Proof. intros H ->. rewrite Rabs_R0 in H. pose proof (Rabs_pos x).
  destruct (Req_dec x 0) as [E|E]; [exact E|]. apply Rabs_no_R0 in E. lra. Qed.

Lemma normalized_dot v : v <> vzero -> dot (normalized v) (normalized v) = 1.
Proof. intros N. apply unit_dot, normalized_norm, N. Qed.
Lemma dot_normalized v w : dot v w = 0 -> dot (normalized v) w = 0.
Proof.
  intros H. unfold normalized. destruct (Rlt_dec 0 (dot v v)); [|exact H]. rewrite dot_lin1, H. ring.
Qed.

Lemma sp_new_fields center radius init s : sp_new center radius init = Ok s ->
  sp_center s = center /\ sp_radius s = radius /\ sp_k s = normalized (vsub init center) /\ radius <> 0.
Proof.
  unfold sp_new. destruct (Req_EM_T radius 0) as [|N]; [discriminate|].
  destruct (Rlt_dec _ _); [|discriminate]. intros H. injection H as <-. cbn. auto.
Qed.

Lemma sp_new_frame center radius init s : init <> center -> sp_new center radius init = Ok s -> frame_ok s.
Proof.
  intros N H. unfold sp_new in H. destruct (Req_EM_T radius 0); [discriminate|].
  destruct (Rlt_dec _ _); [|discriminate]. injection H as <-. unfold frame_ok. cbn [sp_k sp_v1 sp_v2].
  set (k := normalized (vsub init center)).
  assert (K : dot k k = 1).
  { apply normalized_dot. intros C. apply N. destruct init as [x y z], center as [x' y' z'].
    unfold vsub, vzero in C. cbn in C. injection C as C1 C2 C3. f_equal; lra. }
  set (v1 := match min_abs_index k with
              | 0%nat => normalized (V3 0 (- vz k) (vy k))
              | 1%nat => normalized (V3 (- vz k) 0 (vx k))
              | _ => normalized (V3 (- vy k) (vx k) 0)
              end).
  assert (V1 : dot v1 v1 = 1 /\ dot v1 k = 0).
  { pose proof (min_abs_spec k) as M. unfold v1. clearbody k. destruct k as [a b c]. cbn [vx vy vz] in *.
    unfold dot in K. cbn in K.
    destruct (min_abs_index {| vx := a; vy := b; vz := c |}) as [|[|m]]; destruct M as [M1 M2].
    - split; [apply normalized_dot|apply dot_normalized; unfold dot; cbn; ring].
      unfold vzero. intros C. injection C as C1 C2. assert (b = 0) by lra. assert (c = 0) by lra.
      assert (a = 0) by (apply (abs_zero_le a b); assumption). subst. lra.
    - split; [apply normalized_dot|apply dot_normalized; unfold dot; cbn; ring].
      unfold vzero. intros C. injection C as C1 C2. assert (a = 0) by lra. assert (c = 0) by lra.
      assert (b = 0) by (apply (abs_zero_le b a); assumption). subst. lra.
    - split; [apply normalized_dot|apply dot_normalized; unfold dot; cbn; ring].
      unfold vzero. intros C. injection C as C1 C2. assert (a = 0) by lra. assert (b = 0) by lra.
      assert (c = 0) by (apply (abs_zero_le c a); assumption). subst. lra. }
  clearbody v1. destruct V1 as [V11 V1k].
  assert (C1 : dot (cross k v1) (cross k v1) = 1).
  { rewrite lagrange, K, V11, (dot_comm k v1), V1k. ring. }
  split; [exact K|]. split; [exact V11|]. split; [apply normalized_dot, unit_nz, C1|].
  rewrite (normalized_unit _ C1). split; [rewrite dot_comm; apply dot_cross_r|]. split; [exact V1k|apply dot_cross_l].
Qed.

(** The rotation. *)
Lemma sp_rot_lin s v a b p q :
  sp_rot s v (vadd (vscale a p) (vscale b q)) = vadd (vscale a (sp_rot s v p)) (vscale b (sp_rot s v q)).
Proof.
  unfold sp_rot. destruct (Rlt_dec _ _) as [LT|LT].
  - unfold degenerateR. destruct p, q. unfold vadd, vscale. cbn. f_equal; ring.
  - set (n := vadd v (sp_k s)). rewrite dot_add2, !dot_lin2. set (x := dot n p). set (y := dot n q). set (m := 2 / dot n n).
    clearbody x y m. destruct p, q, n. unfold vadd, vneg, vscale. cbn. f_equal; ring.
Qed.

Lemma reflect_dot n p q m : m * dot n n = 2 ->
  dot (vadd (vneg p) (vscale (m * dot n p) n)) (vadd (vneg q) (vscale (m * dot n q) n)) = dot p q.
Proof.
  intros M. repeat rewrite ?dot_add1, ?dot_add2, ?dot_lin1, ?dot_lin2, ?dot_neg1, ?dot_neg2.
  rewrite (dot_comm p n). set (np := dot n p). set (nq := dot n q).
  transitivity (dot p q - 2 * m * np * nq + m * np * nq * (m * dot n n)); [ring|]. rewrite M. ring.
Qed.

Lemma sp_rot_dot s v p q : 0 < dot (vadd v (sp_k s)) (vadd v (sp_k s)) ->
  dot (sp_rot s v p) (sp_rot s v q) = dot p q.
Proof.
  intros P. unfold sp_rot. destruct (Rlt_dec _ _) as [LT|LT].
  - unfold degenerateR, dot. cbn. ring.
  - apply reflect_dot. field. lra.
Qed.

Lemma sp_rot_k s v : dot (sp_k s) (sp_k s) = 1 -> dot v v = 1 ->
  1 / 10000 <= dot (vadd v (sp_k s)) (vadd v (sp_k s)) -> sp_rot s v (sp_k s) = v.
Proof.
  intros K V P. unfold sp_rot. destruct (Rlt_dec _ _) as [LT|LT]; [lra|].
  set (k := sp_k s) in *. set (n := vadd v k) in *.
  assert (E : dot n n = 2 * dot n k).
  { unfold n. repeat rewrite ?dot_add1, ?dot_add2. rewrite (dot_comm k v), K, V. ring. }
  replace (2 / dot n n * dot n k) with 1 by (rewrite E; field; lra).
  unfold n. destruct v, k. unfold vadd, vneg, vscale. cbn. f_equal; ring.
Qed.

Lemma sp_tangent init s v :
  init <> vzero -> sp_new vzero 1 init = Ok s -> vnorm v = 1 ->
  1 / 100 <= vnorm (vadd v (normalized init)) ->
  exists e1 e2, dot e1 e1 = 1 /\ dot e2 e2 = 1 /\ dot e1 e2 = 0 /\ dot e1 v = 0 /\ dot e2 v = 0 /\
    forall d1 d2, sp_plus s v d1 d2 = normalized (vadd v (vadd (vscale d1 e1) (vscale d2 e2))).
Proof.
  intros N H V P. destruct (sp_new_fields _ _ _ _ H) as (F1 & F2 & F3 & _).
  destruct (sp_new_frame _ _ _ _ N H) as (K & V1 & V2 & V12 & V1k & V2k).
  assert (Z : forall x, vsub x vzero = x).
  { intros [x y z]. unfold vsub, vzero. cbn. f_equal; ring. }
  rewrite Z in F3. rewrite <- F3 in P.
  assert (PP : 1 / 10000 <= dot (vadd v (sp_k s)) (vadd v (sp_k s))).
  { rewrite <- vnorm_sq. pose proof (vnorm_nonneg (vadd v (sp_k s))). nra. }
  exists (sp_rot s v (sp_v1 s)), (sp_rot s v (sp_v2 s)).
  assert (D : forall p, dot (sp_rot s v p) v = dot p (sp_k s)).
  { intros p. transitivity (dot (sp_rot s v p) (sp_rot s v (sp_k s))).
    - rewrite (sp_rot_k s v K (unit_dot v V) PP). reflexivity.
    - apply sp_rot_dot. lra. }
  rewrite !D, !sp_rot_dot by lra. repeat (split; [assumption|]).
  intros d1 d2. unfold sp_plus. rewrite F1, F2, Z, vscale_1, sp_rot_lin, vadd_zero_r. reflexivity.
Qed.

Lemma sp_on_sphere center radius init s v d1 d2 :
  0 < radius -> sp_new center radius init = Ok s ->
  sp_plus s v d1 d2 = center \/ vnorm (vsub (sp_plus s v d1 d2) center) = radius.
Proof.
  intros R H. destruct (sp_new_fields _ _ _ _ H) as (F1 & F2 & _ & _).
  unfold sp_plus. rewrite F1, F2.
  set (w := vadd (vsub v center) (sp_rot s v (vadd (vscale d1 (sp_v1 s)) (vscale d2 (sp_v2 s))))).
  destruct (Req_dec (dot w w) 0) as [Z|Z].
  - left. apply dot_zero in Z. rewrite Z, normalized_zero, vscale_zero. apply vadd_zero_l.
  - right. assert (E : forall x, vsub (vadd x center) center = x).
    { intros [x y z]. unfold vsub, vadd. cbn. f_equal; ring. }
    rewrite E, vnorm_scale, normalized_norm, Rabs_right; [ring|lra|].
    intros C. apply Z. rewrite C. unfold dot, vzero. cbn. ring.
Qed.

Lemma sp_zero_update center radius init s v :
  0 < radius -> sp_new center radius init = Ok s -> vnorm (vsub v center) = radius ->
  sp_plus s v 0 0 = v.
Proof.
  intros R H V. destruct (sp_new_fields _ _ _ _ H) as (F1 & F2 & _ & _).
  unfold sp_plus. rewrite F1, F2, sp_rot_lin, !vscale_0, !vadd_zero_r.
  assert (N : vsub v center <> vzero).
  { intros C. rewrite C, vnorm_zero in V. lra. }
  rewrite normalized_nz, V, vscale_scale by exact N. replace (radius * / radius) with 1 by (field; lra).
  rewrite vscale_1. destruct v, center. unfold vsub, vadd. cbn. f_equal; ring.
Qed.

(** Every direction of the open half sphere around [v] is reached. *)
Lemma sp_reaches init s v w :
  init <> vzero -> sp_new vzero 1 init = Ok s -> vnorm v = 1 ->
  1 / 100 <= vnorm (vadd v (normalized init)) -> vnorm w = 1 -> 0 < dot w v ->
  exists d1 d2, sp_plus s v d1 d2 = w.
Proof.
  intros N H V P W D. destruct (sp_tangent init s v N H V P) as (e1 & e2 & E1 & E2 & E12 & E1v & E2v & F).
  exists (dot w e1 / dot w v), (dot w e2 / dot w v). rewrite F.
  pose proof (orthonormal_basis e1 e2 v w E1 E2 (unit_dot v V) E12 E1v E2v) as B.
  set (c := dot w v) in *. set (x := dot w e1) in *. set (y := dot w e2) in *.
  assert (S : vadd v (vadd (vscale (x / c) e1) (vscale (y / c) e2)) = vscale (/ c) w).
  { clearbody c x y. rewrite B.
    destruct e1 as [a1 a2 a3], e2 as [b1 b2 b3], v as [c1 c2 c3]. unfold vadd, vscale. cbn [vx vy vz].
    f_equal; field; lra. }
  rewrite S, normalized_scale.
  - apply normalized_unit, unit_dot, W.
  - apply Rinv_0_lt_compat, D.
  - apply unit_nz, unit_dot, W.
Qed.

(** At the antipode the fallback rotation can map a tangent direction to the normal. *)
Definition skew : vec := V3 (sqrt (1 / 2)) (1 / 2) (1 / 2).
Lemma half_sq : sqrt (1 / 2) * sqrt (1 / 2) = 1 / 2.
Proof. apply sqrt_sqrt. lra. Qed.
Lemma skew_unit : dot skew skew = 1.
Proof. unfold skew, dot. cbn [vx vy vz]. rewrite half_sq. lra. Qed.

Lemma sp_new_inside center radius init : 0 < radius -> vnorm (vsub init center) <= radius ->
  exists s, sp_new center radius init = Ok s.
Proof.
  intros R H. unfold sp_new. destruct (Req_EM_T radius 0); [lra|].
  destruct (Rlt_dec _ _) as [L|L]; [eauto|]. exfalso. apply L.
  assert (0 < / radius) by (apply Rinv_0_lt_compat, R). unfold Rdiv. nra.
Qed.

Lemma sp_antipode_stuck : exists init s v d1 d2,
  vnorm init = 1 /\ sp_new vzero 1 init = Ok s /\ vnorm v = 1 /\ (d1 <> 0 \/ d2 <> 0) /\
  forall t, 0 <= t <= 1 -> sp_plus s v (t * d1) (t * d2) = v.
Proof.
  assert (Z : forall x, vsub x vzero = x).
  { intros [x y z]. unfold vsub, vzero. cbn. f_equal; ring. }
  destruct (sp_new_inside vzero 1 skew) as [s H]; [lra|rewrite Z, (dot_unit _ skew_unit); lra|].
  destruct (sp_new_fields _ _ _ _ H) as (F1 & F2 & F3 & _).
  destruct (sp_new_frame _ _ _ _ (unit_nz _ skew_unit) H) as (K & V1 & V2 & V12 & V1k & V2k).
  rewrite Z, (normalized_unit _ skew_unit) in F3.
  set (w := vscale (1 / 2) (degenerateR skew)).
  assert (WK : dot w (sp_k s) = 0).
  { rewrite F3. unfold w, degenerateR, skew, dot, vscale. cbn [vx vy vz].
    pose proof half_sq. set (q := sqrt (1 / 2)) in *. lra. }
  pose proof (orthonormal_basis _ _ _ w V1 V2 K V12 V1k V2k) as B. rewrite WK, vscale_0, vadd_zero_r in B.
  exists skew, s, (vneg skew), (dot w (sp_v1 s)), (dot w (sp_v2 s)).
  split; [apply dot_unit, skew_unit|]. split; [exact H|].
  split; [apply dot_unit; rewrite dot_neg1, dot_neg2, skew_unit; ring|]. split.
  - destruct (Req_dec (dot w (sp_v1 s)) 0) as [A|A]; [|left; exact A]. right. intros C.
    rewrite A, C, !vscale_0, vadd_zero_l in B. unfold w, degenerateR, skew, vscale, vzero in B. cbn in B.
    injection B as _ B2 _. lra.
  - intros t T. unfold sp_plus. rewrite F1, F2.
    assert (E : vadd (vscale (t * dot w (sp_v1 s)) (sp_v1 s)) (vscale (t * dot w (sp_v2 s)) (sp_v2 s)) = vscale t w).
    { rewrite <- !vscale_scale. rewrite B at 3. clear B. generalize (vscale (dot w (sp_v1 s)) (sp_v1 s)) (vscale (dot w (sp_v2 s)) (sp_v2 s)).
      intros p q. destruct p, q. unfold vadd, vscale. cbn. f_equal; ring. }
    rewrite E. unfold sp_rot. rewrite F3.
    assert (N0 : vadd (vneg skew) skew = vzero).
    { generalize skew. intros [x y z]. unfold vadd, vneg, vzero. cbn. f_equal; ring. }
    rewrite N0. destruct (Rlt_dec _ _) as [_|C]; [|exfalso; apply C; unfold dot, vzero; cbn; lra].
    assert (R : degenerateR (vscale t w) = vscale (t / 2) skew).
    { unfold w. generalize skew. intros [x y z]. unfold degenerateR, vscale. cbn. f_equal; field. }
    rewrite R, Z.
    replace (vadd (vneg skew) (vscale (t / 2) skew)) with (vscale (1 - t / 2) (vneg skew)).
    + rewrite normalized_scale, normalized_unit; [|rewrite dot_neg1, dot_neg2, skew_unit; ring|lra|].
      * rewrite vscale_1. apply vadd_zero_r.
      * apply unit_nz. rewrite dot_neg1, dot_neg2, skew_unit. ring.
    + generalize skew. intros [x y z]. unfold vadd, vneg, vscale. cbn. f_equal; ring.
Qed.

(** With another centre even the first update can be stuck: keyframes at (2,0,0) and (2,0,1). *)
Lemma sp_center_stuck :
  exists s, sp_new (V3 2 0 0) 1 (V3 2 0 1) = Ok s /\
    forall d, 0 <= d -> sp_plus s (V3 2 0 1) 0 d = V3 2 0 1.
Proof.
  assert (U : dot (V3 0 0 1) (V3 0 0 1) = 1) by (unfold dot; cbn [vx vy vz]; ring).
  assert (U1 : dot (V3 0 (-1) 0) (V3 0 (-1) 0) = 1) by (unfold dot; cbn [vx vy vz]; ring).
  assert (U2 : dot (V3 1 0 0) (V3 1 0 0) = 1) by (unfold dot; cbn [vx vy vz]; ring).
  assert (E : vsub (V3 2 0 1) (V3 2 0 0) = V3 0 0 1) by (unfold vsub; cbn [vx vy vz]; f_equal; ring).
  exists {| sp_v1 := V3 0 (-1) 0; sp_v2 := V3 1 0 0; sp_center := V3 2 0 0; sp_radius := 1; sp_k := V3 0 0 1 |}.
  split.
  - unfold sp_new. rewrite E, (normalized_unit _ U). destruct (Req_EM_T 1 0); [lra|].
    rewrite (dot_unit _ U). destruct (Rlt_dec _ _) as [_|C]; [|exfalso; apply C; lra].
    assert (M : min_abs_index (V3 0 0 1) = 0%nat).
    { unfold min_abs_index. cbn [vx vy vz]. rewrite Rabs_R0, Rabs_R1.
      destruct (Rlt_dec 0 0); [lra|]. destruct (Rlt_dec 1 0); [lra|]. reflexivity. }
    rewrite M. cbn [vx vy vz]. replace (- (1)) with (-1) by ring. rewrite (normalized_unit _ U1).
    replace (cross (V3 0 0 1) (V3 0 (-1) 0)) with (V3 1 0 0) by (unfold cross; cbn [vx vy vz]; f_equal; ring).
    rewrite (normalized_unit _ U2). reflexivity.
  - intros d D. unfold sp_plus, sp_rot. cbn [sp_v1 sp_v2 sp_center sp_radius sp_k].
    set (n := vadd (V3 2 0 1) (V3 0 0 1)).
    assert (NN : n = V3 2 0 2) by (unfold n, vadd; cbn [vx vy vz]; f_equal; ring). rewrite NN. clear n NN.
    assert (N8 : dot (V3 2 0 2) (V3 2 0 2) = 8) by (unfold dot; cbn [vx vy vz]; ring). rewrite N8.
    destruct (Rlt_dec 8 (1 / 10000)); [lra|].
    rewrite E, vscale_0, vadd_zero_l, dot_lin2, vscale_1.
    replace (dot (V3 2 0 2) (V3 1 0 0)) with 2 by (unfold dot; cbn [vx vy vz]; ring).
    replace (vadd (V3 0 0 1) _) with (vscale (1 + d) (V3 0 0 1))
      by (unfold vadd, vneg, vscale; cbn [vx vy vz]; f_equal; field).
    rewrite normalized_scale, (normalized_unit _ U); [|lra|apply unit_nz, U].
    unfold vadd. cbn [vx vy vz]. f_equal; ring.
Qed.

(** * Stereographic projection *)
Lemma back_iff r : dot r r = 1 -> (1 + vz r = 0 <-> r = V3 0 0 (-1)).
Proof.
  intros U. destruct r as [x y z]. unfold dot in U. cbn [vx vy vz] in *. split.
  - intros H. assert (z = -1) by lra. subst z. assert (x * x + y * y = 0) by lra.
    assert (x = 0) by nra. assert (y = 0) by nra. subst. reflexivity.
  - intros H. injection H as -> -> ->. lra.
Qed.

Definition lift (p : pt) : vec :=
  let rho := px p * px p + py p * py p in
  V3 (4 * px p / (4 + rho)) (4 * py p / (4 + rho)) ((4 - rho) / (4 + rho)).

Lemma rho_pos p : 0 < 4 + (px p * px p + py p * py p).
Proof. nra. Qed.
Lemma lift_unit p : dot (lift p) (lift p) = 1.
Proof. unfold lift, dot. cbn [vx vy vz]. pose proof (rho_pos p). field. lra. Qed.
Lemma lift_project r p : dot r r = 1 -> stereographicProject r = Some p -> lift p = r.
Proof.
  intros U H. unfold stereographicProject in H. rewrite (normalized_unit _ U) in H.
  destruct (Req_EM_T (1 + vz r) 0) as [|N]; [discriminate|]. injection H as <-.
  destruct r as [x y z]. unfold dot in U. cbn [vx vy vz] in *. unfold lift. cbn [px py].
  set (s := 2 / (1 + z)).
  assert (Q : s * x * (s * x) + s * y * (s * y) = 4 * (1 - z) / (1 + z)).
  { transitivity (s * s * (1 - z * z)); [transitivity (s * s * (x * x + y * y)); [ring|f_equal; lra]|].
    unfold s. field. exact N. }
  rewrite Q. unfold s. f_equal; field; lra.
Qed.
Lemma project_lift p : stereographicProject (lift p) = Some p.
Proof.
  unfold stereographicProject. rewrite (normalized_unit _ (lift_unit p)). pose proof (rho_pos p) as P.
  assert (E : 1 + vz (lift p) = 8 / (4 + (px p * px p + py p * py p))).
  { unfold lift. cbn [vz]. field. lra. }
  destruct (Req_EM_T (1 + vz (lift p)) 0) as [Z|N].
  - exfalso. rewrite E in Z. assert (0 < 8 / (4 + (px p * px p + py p * py p))) by (apply Rdiv_lt_0_compat; lra). lra.
  - rewrite E. f_equal. apply pt_eq; unfold lift; cbn [vx vy px py]; field; lra.
Qed.

Lemma project_normalized r : r <> vzero -> stereographicProject (normalized r) = stereographicProject r.
Proof.
  intros N. unfold stereographicProject at 1. rewrite (normalized_unit _ (normalized_dot r N)). reflexivity.
Qed.

Lemma project_defined r : r <> vzero ->
  ((exists p, stereographicProject r = Some p) <-> ~ same_direction (V3 0 0 (-1)) r).
Proof.
  intros N. pose proof (normalized_dot r N) as U.
  assert (S : same_direction (V3 0 0 (-1)) r <-> normalized r = V3 0 0 (-1)).
  { split.
    - intros (k & K & E). rewrite E, normalized_scale; [apply normalized_unit|exact K|];
        try apply unit_nz; unfold dot; cbn; ring.
    - intros E. exists (vnorm r). split; [apply vnorm_pos, N|]. rewrite <- E, normalized_nz, vscale_scale by exact N.
      pose proof (vnorm_pos r N). replace (vnorm r * / vnorm r) with 1 by (field; lra). symmetry. apply vscale_1. }
  rewrite S, <- (back_iff _ U). unfold stereographicProject. destruct (Req_EM_T (1 + vz (normalized r)) 0) as [E|E].
  - split; [intros [p H]; discriminate|intros C; contradiction].
  - split; [auto|eauto].
Qed.

Lemma project_injective a b p : a <> vzero -> b <> vzero ->
  stereographicProject a = Some p -> stereographicProject b = Some p -> same_direction a b.
Proof.
  intros A B HA HB. rewrite <- (project_normalized a A) in HA. rewrite <- (project_normalized b B) in HB.
  apply lift_project in HA; [|apply normalized_dot, A]. apply lift_project in HB; [|apply normalized_dot, B].
  assert (E : normalized a = normalized b) by congruence.
  rewrite (normalized_nz a A), (normalized_nz b B) in E.
  pose proof (vnorm_pos a A). pose proof (vnorm_pos b B).
  exists (vnorm b / vnorm a). split; [apply Rdiv_lt_0_compat; assumption|].
  replace (vscale (vnorm b / vnorm a) a) with (vscale (vnorm b) (vscale (/ vnorm a) a)) by (rewrite vscale_scale; reflexivity).
  rewrite E, vscale_scale. replace (vnorm b * / vnorm b) with 1 by (field; lra). symmetry. apply vscale_1.
Qed.

Lemma project_scale k r : 0 < k -> r <> vzero -> stereographicProject (vscale k r) = stereographicProject r.
Proof. intros K N. unfold stereographicProject. rewrite normalized_scale by assumption. reflexivity. Qed.

(** The image of the circle of directions n . r = c |r|. *)
Definition image_of (n : vec) (c : R) (p : pt) : Prop :=
  exists r, r <> vzero /\ dot n r = c * vnorm r /\ stereographicProject r = Some p.

Lemma image_equation n c p : image_of n c p <->
  (c + vz n) * (px p * px p + py p * py p) - 4 * vx n * px p - 4 * vy n * py p + 4 * (c - vz n) = 0.
Proof.
  pose proof (rho_pos p) as P.
  assert (L : dot n (lift p) = c <->
    (c + vz n) * (px p * px p + py p * py p) - 4 * vx n * px p - 4 * vy n * py p + 4 * (c - vz n) = 0).
  { set (rho := px p * px p + py p * py p) in *.
    assert (E : (dot n (lift p) - c) * (4 + rho) = - ((c + vz n) * rho - 4 * vx n * px p - 4 * vy n * py p + 4 * (c - vz n))).
    { unfold lift, dot. cbn [vx vy vz]. fold rho. field. lra. }
    split; intros H.
    - rewrite H in E. lra.
    - rewrite H in E. assert (X : (dot n (lift p) - c) * (4 + rho) = 0) by lra. apply Rmult_integral in X. lra. }
  rewrite <- L. split.
  - intros (r & N & E & H). rewrite <- (project_normalized r N) in H.
    apply lift_project in H; [|apply normalized_dot, N]. rewrite H, normalized_nz, dot_lin2, E by exact N.
    pose proof (vnorm_pos r N). field. lra.
  - intros H. exists (lift p). split; [apply unit_nz, lift_unit|]. split; [|apply project_lift].
    rewrite H, (dot_unit _ (lift_unit p)). ring.
Qed.

Lemma circle_image n c : dot n n = 1 -> Rabs c < 1 ->
  (c + vz n <> 0 -> is_circle (image_of n c)) /\ (c + vz n = 0 -> is_line (image_of n c)).
Proof.
  intros N C. assert (CC : c * c < 1) by (apply Rabs_def2 in C; nra). split.
  - intros A. set (k := c + vz n) in *.
    assert (N' : vx n * vx n + vy n * vy n + vz n * vz n = 1) by exact N.
    exists (P2 (2 * vx n / k) (2 * vy n / k)), (2 * sqrt (1 - c * c) / Rabs k).
    assert (PK : 0 < Rabs k) by (apply Rabs_pos_lt, A).
    split; [apply Rdiv_lt_0_compat; [|exact PK]; assert (0 < sqrt (1 - c * c)) by (apply sqrt_lt_R0; lra); lra|].
    intros p. rewrite image_equation. fold k.
    assert (R2 : 2 * sqrt (1 - c * c) / Rabs k * (2 * sqrt (1 - c * c) / Rabs k) = 4 * (1 - c * c) / (k * k)).
    { replace (k * k) with (Rabs k * Rabs k) by (rewrite <- Rabs_mult; apply Rabs_right; nra).
      transitivity (4 * (sqrt (1 - c * c) * sqrt (1 - c * c)) / (Rabs k * Rabs k)); [field; lra|].
      rewrite sqrt_sqrt by lra. reflexivity. }
    rewrite R2.
    assert (F : (dist2 p (P2 (2 * vx n / k) (2 * vy n / k)) - 4 * (1 - c * c) / (k * k)) * k
              = k * (px p * px p + py p * py p) - 4 * vx n * px p - 4 * vy n * py p + 4 * (c - vz n)).
    { unfold dist2. cbn [px py].
      transitivity (k * (px p * px p + py p * py p) - 4 * vx n * px p - 4 * vy n * py p
                    + 4 * (vx n * vx n + vy n * vy n - 1 + c * c) / k); [field; exact A|].
      replace (vx n * vx n + vy n * vy n - 1 + c * c) with ((c - vz n) * k) by (unfold k; lra). field. exact A. }
    rewrite <- F. split; intros H.
    + apply Rmult_integral in H. destruct H; [lra|contradiction].
    + rewrite H. ring.
  - intros A. exists (vx n), (vy n), (c - vz n). split.
    + destruct (Req_dec (vx n) 0) as [X|X]; [|left; exact X]. right. intros Y.
      assert (N' : vx n * vx n + vy n * vy n + vz n * vz n = 1) by exact N. rewrite X, Y in N'.
      replace (vz n) with (- c) in N' by lra. lra.
    + intros p. rewrite image_equation, A. split; intros H; lra.
Qed.

(** ** Forms for the theorems *)
Lemma sp_accepts center radius init : 0 < radius -> vnorm (vsub init center) = radius ->
  exists s, sp_new center radius init = Ok s.
Proof. intros R H. apply sp_new_inside; lra. Qed.

Lemma sp_tangent' init s v :
  vnorm init = 1 -> sp_new vzero 1 init = Ok s -> vnorm v = 1 -> 1 / 100 <= vnorm (vadd v init) ->
  exists e1 e2, vnorm e1 = 1 /\ vnorm e2 = 1 /\ dot e1 e2 = 0 /\ dot e1 v = 0 /\ dot e2 v = 0 /\
    forall d1 d2, let w := vadd v (vadd (vscale d1 e1) (vscale d2 e2)) in
      sp_plus s v d1 d2 = vscale (/ vnorm w) w.
Proof.
  intros N H V P. pose proof (unit_dot _ N) as N2.
  destruct (sp_tangent init s v (unit_nz _ N2) H V) as (e1 & e2 & A & B & C & D & E & F).
  - rewrite (normalized_unit _ N2). exact P.
  - exists e1, e2. repeat (split; [first [assumption|apply dot_unit; assumption]|]).
    intros d1 d2 w. rewrite F. apply normalized_nz. intros Z.
    assert (W : dot w v = 1).
    { unfold w. rewrite !dot_add1, !dot_lin1, D, E, (unit_dot v V). ring. }
    unfold w in *. rewrite Z in W. destruct v. unfold dot, vzero in W. cbn in W. lra.
Qed.

Lemma sp_reaches' init s v w :
  vnorm init = 1 -> sp_new vzero 1 init = Ok s -> vnorm v = 1 -> 1 / 100 <= vnorm (vadd v init) ->
  vnorm w = 1 -> 0 < dot w v -> exists d1 d2, sp_plus s v d1 d2 = w.
Proof.
  intros N H V P. pose proof (unit_dot _ N) as N2. apply (sp_reaches init s v w (unit_nz _ N2) H V).
  rewrite (normalized_unit _ N2). exact P.
Qed.

(** The check of the constructor is one sided. *)
Lemma sp_one_sided : exists s, sp_new vzero 1 (V3 (1 / 100) 0 0) = Ok s.
Proof.
  apply sp_new_inside; [lra|].
  replace (vsub (V3 (1 / 100) 0 0) vzero) with (vscale (1 / 100) (V3 1 0 0))
    by (unfold vsub, vscale, vzero; cbn [vx vy vz]; f_equal; ring).
  rewrite vnorm_scale, (dot_unit (V3 1 0 0)), Rabs_right by (try (unfold dot; cbn [vx vy vz]; ring); lra). lra.
Qed.
