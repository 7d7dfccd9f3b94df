From Coq Require Import Reals ZArith List Bool Lra Psatz.
From Verif Require Import Outcome Pose PoseProofs GeomModel SphereModel CamModel LightModel BundleModel PhotoModel PhotoSpec.
Import ListNotations.
Open Scope R_scope.

Lemma atan2_scale k y x : 0 < k -> atan2 (k * y) (k * x) = atan2 y x.
Proof.
  intro Hk. unfold atan2.
  destruct (Rlt_dec 0 (k * x)), (Rlt_dec 0 x); try (exfalso; nra).
  - f_equal. field. lra.
  - destruct (Rlt_dec (k * x) 0), (Rlt_dec x 0); try (exfalso; nra).
    + replace (k * y / (k * x)) with (y / x) by (field; lra).
      destruct (Rlt_dec (k * y) 0), (Rlt_dec y 0); try (exfalso; nra); reflexivity.
    + destruct (Rlt_dec 0 (k * y)), (Rlt_dec 0 y); try (exfalso; nra); try reflexivity.
      destruct (Rlt_dec (k * y) 0), (Rlt_dec y 0); try (exfalso; nra); reflexivity.
Qed.

Lemma map_ray_scale c k v : 0 < k -> map_ray c (vscale k v) = map_ray c v.
Proof.
  intro Hk. unfold map_ray. cbn [vx vy vz vscale].
  set (h := vx v * vx v + vy v * vy v).
  assert (Hh : 0 <= h) by (unfold h; nra).
  replace (k * vx v * (k * vx v) + k * vy v * (k * vy v)) with (k * k * h) by (unfold h; ring).
  rewrite sqrt_mult by nra. rewrite sqrt_square by lra.
  rewrite atan2_scale by exact Hk.
  pose proof (sqrt_pos h) as Hs.
  destruct (Rlt_dec 0 (k * sqrt h)), (Rlt_dec 0 (sqrt h)); try (exfalso; nra).
  - replace (k * vx v / (k * sqrt h)) with (vx v / sqrt h) by (field; lra).
    replace (k * vy v / (k * sqrt h)) with (vy v / sqrt h) by (field; lra). reflexivity.
  - assert (E : sqrt h = 0) by lra. apply sqrt_eq_0 in E; [|exact Hh].
    assert (vx v = 0) by (unfold h in E; nra). assert (vy v = 0) by (unfold h in E; nra).
    rewrite H, H0. rewrite !Rmult_0_r. reflexivity.
Qed.

Lemma sim_relative g k p q x : rigid g -> rigid q ->
  act (smul (sinv (sim_pose g k q)) (sim_pose g k p)) (vscale k x) = vscale k (act (smul (sinv q) p) x).
Proof.
  intros Hg Hq. unfold sim_pose.
  rewrite sinv_mul by (try exact Hg; exact Hq).
  rewrite <- smul_assoc, (smul_assoc (sinv g) g), sinv_l, smul_id_l by exact Hg.
  rewrite !act_mul. unfold act, sinv. cbn [so3 tr].
  rewrite !rot_add, !rot_scale, !rot_neg, !rot_scale. unfold vadd, vneg, vscale. cbn. f_equal; ring.
Qed.

Section P.
Variable cam : camera.
Variable image : Z -> pt -> R.
Variable grad : Z -> pt -> R.
Variable pattern : list pt.
Variable border : R.
Variable c : R.

Lemma reprojected_sim g k lid p q pos : rigid g -> rigid q -> 0 < k ->
  reprojected cam (lid - ln k) (sim_pose g k p) (sim_pose g k q) pos = reprojected cam lid p q pos.
Proof.
  intros Hg Hq Hk. unfold reprojected.
  replace (exp (- (lid - ln k))) with (k * exp (- lid)).
  2:{ replace (- (lid - ln k)) with (ln k + - lid) by ring. rewrite exp_plus, exp_ln by exact Hk. reflexivity. }
  rewrite <- vscale_scale, sim_relative by assumption. apply map_ray_scale. exact Hk.
Qed.

Lemma sim_oob g k base ref o : rigid g -> rigid (k_pose ref) -> 0 < k ->
  is_oob cam border (sim_frame g k base) (sim_frame g k ref) (sim_point k o) = is_oob cam border base ref o.
Proof.
  intros Hg Hr Hk. unfold is_oob, sim_point. cbn. destruct (o_lid o) as [lid|]; [|reflexivity].
  unfold pixel; cbn. rewrite reprojected_sim by assumption. reflexivity.
Qed.

Lemma find_sim g k l id : find_frame (map (sim_frame g k) l) id = option_map (sim_frame g k) (find_frame l id).
Proof.
  unfold find_frame. induction l as [|f l IH]; [reflexivity|]. cbn.
  destruct (k_id f =? id)%Z; [reflexivity|exact IH].
Qed.

Lemma find_frame_in l id f : find_frame l id = Some f -> In f l /\ k_id f = id.
Proof.
  unfold find_frame. intro H. apply find_some in H. destruct H as [H E].
  split; [exact H|]. apply Z.eqb_eq. exact E.
Qed.

Lemma sim_value g k l r : rigid g -> all_rigid l -> 0 < k ->
  photo_value cam image pattern (map (sim_frame g k) l) r = photo_value cam image pattern l r.
Proof.
  intros Hg Hl Hk. unfold photo_value. rewrite !find_sim.
  destruct (find_frame l (r_base r)) as [b|]; [|reflexivity]. cbn [option_map].
  destruct (find_frame l (r_ref r)) as [f|] eqn:Ef; [|reflexivity]. cbn [option_map].
  cbn [sim_frame k_pts]. rewrite nth_error_map.
  destruct (nth_error (k_pts b) (r_point r)) as [o|]; [|reflexivity]. cbn [option_map].
  destruct (nth_error pattern (r_pattern r)) as [d|]; [|reflexivity].
  cbn [sim_point o_lid]. destruct (o_lid o) as [lid|]; [|reflexivity].
  unfold direct_residual. cbn [k_pose sim_frame k_id k_light]. unfold pixel; cbn [sim_point o_pos].
  rewrite reprojected_sim; [reflexivity|exact Hg| |exact Hk].
  apply Hl. apply (find_frame_in _ _ _ Ef).
Qed.

Lemma sim_weight g k l r :
  photo_weight grad pattern c (map (sim_frame g k) l) r = photo_weight grad pattern c l r.
Proof.
  unfold photo_weight. rewrite find_sim.
  destruct (find_frame l (r_base r)) as [b|]; [|reflexivity]. cbn [option_map sim_frame k_pts].
  rewrite nth_error_map. destruct (nth_error (k_pts b) (r_point r)) as [o|]; reflexivity.
Qed.

Lemma cost_ext s pr l l' :
  (forall r, In r (p_residuals pr) -> photo_value cam image pattern l r = photo_value cam image pattern l' r) ->
  (forall r, In r (p_residuals pr) -> photo_weight grad pattern c l r = photo_weight grad pattern c l' r) ->
  cost cam image grad pattern c s pr l = cost cam image grad pattern c s pr l'.
Proof.
  intros Hv Hw. unfold cost. f_equal. apply map_ext_in. intros r Hr. rewrite (Hv r Hr), (Hw r Hr). reflexivity.
Qed.

Lemma sim_cost s pr g k l : rigid g -> all_rigid l -> 0 < k ->
  cost cam image grad pattern c s pr (map (sim_frame g k) l) = cost cam image grad pattern c s pr l.
Proof.
  intros Hg Hl Hk. apply cost_ext; intros r _; [apply sim_value; assumption|apply sim_weight].
Qed.

(** ** The residuals put into the problem do not depend on the similarity *)
Lemma numbered_map {A B} (f : A -> B) n l : numbered n (map f l) = map (fun no => (fst no, f (snd no))) (numbered n l).
Proof. revert n. induction l as [|x l IH]; intro n; [reflexivity|]. cbn. f_equal. apply IH. Qed.

Lemma flat_map_map {A B C} (f : A -> B) (g : B -> list C) l : flat_map g (map f l) = flat_map (fun x => g (f x)) l.
Proof. induction l as [|x l IH]; [reflexivity|]. cbn. rewrite IH. reflexivity. Qed.

Lemma flat_map_in {A B} (f g : A -> list B) l : (forall x, In x l -> f x = g x) -> flat_map f l = flat_map g l.
Proof.
  intro H. induction l as [|x l IH]; [reflexivity|]. cbn. rewrite (H x (or_introl eq_refl)), IH; [reflexivity|].
  intros y Hy. apply H. right. exact Hy.
Qed.

Lemma sim_residuals s g k l first second sp second' sp' : rigid g -> all_rigid l -> 0 < k ->
  p_residuals (build s (is_oob cam border) (map (sim_frame g k) l) first second' sp') =
  p_residuals (build s (is_oob cam border) l first second sp).
Proof.
  intros Hg Hl Hk. cbn [p_residuals build]. rewrite flat_map_map. apply flat_map_in. intros b Hb.
  unfold frame_residuals. change (k_pts (sim_frame g k b)) with (map (sim_point k) (k_pts b)).
  rewrite numbered_map, flat_map_map.
  apply flat_map_in. intros [n o] _. cbn [fst snd]. unfold point_residuals.
  assert (E0 : o_lid (sim_point k o) = match o_lid o with Some lid => Some (lid - ln k) | None => None end) by reflexivity.
  rewrite E0. destruct (o_lid o) as [lid|] eqn:El; [|reflexivity].
  rewrite flat_map_map. apply flat_map_in. intros f Hf.
  change (k_id (sim_frame g k f)) with (k_id f). change (k_id (sim_frame g k b)) with (k_id b).
  destruct (k_id f =? k_id b)%Z; [reflexivity|].
  rewrite (sim_oob g k b f o Hg (Hl f Hf) Hk). reflexivity.
Qed.

(** ** Common gain *)
Lemma find_gain d l id : find_frame (map (gain_frame d) l) id = option_map (gain_frame d) (find_frame l id).
Proof.
  unfold find_frame. induction l as [|f l IH]; [reflexivity|]. cbn.
  destruct (k_id f =? id)%Z; [reflexivity|exact IH].
Qed.
Lemma gain_value d l r :
  photo_value cam image pattern (map (gain_frame d) l) r = photo_value cam image pattern l r.
Proof.
  unfold photo_value. rewrite !find_gain.
  destruct (find_frame l (r_base r)) as [b|]; [|reflexivity]. cbn [option_map].
  destruct (find_frame l (r_ref r)) as [f|] eqn:Ef; [|reflexivity]. cbn [option_map gain_frame k_pts].
  destruct (nth_error (k_pts b) (r_point r)) as [o|]; [|reflexivity].
  destruct (nth_error pattern (r_pattern r)) as [q|]; [|reflexivity].
  destruct (o_lid o) as [lid|]; [|reflexivity].
  unfold direct_residual, ba_residual, light_of. cbn.
  unfold light_apply. cbn. replace (fst (k_light b) + d - (fst (k_light f) + d)) with (fst (k_light b) - fst (k_light f)) by ring.
  reflexivity.
Qed.
Lemma gain_cost s pr d l :
  cost cam image grad pattern c s pr (map (gain_frame d) l) = cost cam image grad pattern c s pr l.
Proof.
  apply cost_ext; intros r _; [apply gain_value|].
  unfold photo_weight. rewrite find_gain. destruct (find_frame l (r_base r)) as [b|]; reflexivity.
Qed.

(** ** The cost and its zeros *)
Lemma huber_nonneg a s : 0 < a -> 0 <= s -> 0 <= huber a s.
Proof.
  intros Ha Hs. unfold huber. destruct (Rle_dec s (a * a)); [exact Hs|].
  assert (a < sqrt s). { rewrite <- (sqrt_square a) by lra. apply sqrt_lt_1; nra. } nra.
Qed.
Lemma huber_zero a s : 0 < a -> 0 <= s -> (huber a s = 0 <-> s = 0).
Proof.
  intros Ha Hs. unfold huber. destruct (Rle_dec s (a * a)) as [H|H]; [tauto|].
  assert (a < sqrt s). { rewrite <- (sqrt_square a) by lra. apply sqrt_lt_1; nra. }
  split; intro E; nra.
Qed.
(** The loss in terms of the residual. *)
Lemma huber_residual a x : 0 < a ->
  huber a (x * x) = if Rle_dec (Rabs x) a then x * x else a * (2 * Rabs x - a).
Proof.
  intro Ha. unfold huber. assert (E : x * x = Rabs x * Rabs x) by (rewrite <- Rabs_mult, Rabs_right; nra).
  pose proof (Rabs_pos x) as Hp. rewrite E.
  destruct (Rle_dec (Rabs x * Rabs x) (a * a)), (Rle_dec (Rabs x) a); try (exfalso; nra); [reflexivity|].
  rewrite sqrt_square by exact Hp. ring.
Qed.

Lemma weight_range l r : 0 < c -> 0 <= photo_weight grad pattern c l r <= 1.
Proof.
  intro Hc. unfold photo_weight.
  destruct (find_frame l (r_base r)) as [b|]; [|lra].
  destruct (nth_error (k_pts b) (r_point r)) as [o|]; [|lra].
  destruct (nth_error pattern (r_pattern r)) as [d|]; [|lra].
  set (g := grad _ _). cbv zeta.
  assert (H : c <= sqrt (c * c + g * g)).
  { rewrite <- (sqrt_square c) at 1 by lra. apply sqrt_le_1; nra. }
  assert (0 < sqrt (c * c + g * g)) by lra. split.
  - apply Rlt_le. apply Rdiv_lt_0_compat; lra.
  - apply (Rmult_le_reg_r (sqrt (c * c + g * g))); [lra|]. unfold Rdiv. rewrite Rmult_assoc, Rinv_l by lra. lra.
Qed.
End P.
