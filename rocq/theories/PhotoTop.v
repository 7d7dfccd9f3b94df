From Coq Require Import Reals ZArith List Bool Lra Psatz.
From Verif Require Import Outcome Pose PoseProofs GeomModel SphereModel CamModel LightModel LightProofs BundleModel
  BundleSpec BundleMore PhotoModel PhotoSpec PhotoProofs.
Import ListNotations.
Open Scope R_scope.

Lemma find_frame_unique l f : NoDup (map k_id l) -> In f l -> find_frame l (k_id f) = Some f.
Proof.
  intros Hn Hf. unfold find_frame. induction l as [|x l IH]; [destruct Hf|]. cbn in *. inversion Hn; subst.
  destruct Hf as [->|Hf]; [rewrite Z.eqb_refl; reflexivity|].
  destruct (Z.eqb_spec (k_id x) (k_id f)) as [E|_]; [|apply IH; assumption].
  exfalso. apply H1. rewrite E. apply in_map. exact Hf.
Qed.

Lemma sum_zero {A} (f : A -> R) l : (forall x, In x l -> 0 <= f x) ->
  0 <= fold_right Rplus 0 (map f l) /\ (fold_right Rplus 0 (map f l) = 0 <-> forall x, In x l -> f x = 0).
Proof.
  induction l as [|x l IH]; intro H; cbn.
  - split; [lra|]. split; [intros _ y []|reflexivity].
  - destruct IH as [I1 I2]. { intros y Hy. apply H. right. exact Hy. }
    pose proof (H x (or_introl eq_refl)) as Hx. split; [lra|]. split.
    + intros E y [<-|Hy]; [lra|]. apply I2; [lra|exact Hy].
    + intro E. rewrite (E x (or_introl eq_refl)). rewrite (proj2 I2); [lra|]. intros y Hy. apply E. right. exact Hy.
Qed.

Section P.
Variable cam : camera.
Variable image : Z -> pt -> R.
Variable grad : Z -> pt -> R.
Variable pattern : list pt.
Variable border : R.
Variable c : R.

Lemma photo_gauge s g k l first sec sec' sp sp' : rigid g -> all_rigid l -> 0 < k ->
  let l' := map (sim_frame g k) l in
  (forall base ref o, In ref l -> is_oob cam border (sim_frame g k base) (sim_frame g k ref) (sim_point k o) = is_oob cam border base ref o) /\
  p_residuals (build s (is_oob cam border) l' first sec' sp') = p_residuals (build s (is_oob cam border) l first sec sp) /\
  (forall r, photo_value cam image pattern l' r = photo_value cam image pattern l r) /\
  forall pr, cost cam image grad pattern c s pr l' = cost cam image grad pattern c s pr l.
Proof.
  intros Hg Hl Hk l'. split; [|split; [|split]].
  - intros base ref o Hr. apply sim_oob; auto.
  - apply sim_residuals; assumption.
  - intro r. apply sim_value; assumption.
  - intro pr. apply sim_cost; assumption.
Qed.

Lemma photo_gain s d l :
  (forall r, photo_value cam image pattern (map (gain_frame d) l) r = photo_value cam image pattern l r) /\
  forall pr, cost cam image grad pattern c s pr (map (gain_frame d) l) = cost cam image grad pattern c s pr l.
Proof. split; [intro r; apply gain_value|intro pr; apply gain_cost]. Qed.

Lemma reprojected_world lid base ref pos :
  reprojected cam lid base ref pos = map_ray cam (act (sinv ref) (world_point base (direction cam pos) (exp (- lid)))).
Proof. unfold reprojected, world_point. rewrite act_mul. reflexivity. Qed.

Lemma photo_visible base ref o : is_oob cam border base ref o = false <->
  exists lid, o_lid o = Some lid /\
    let p := map_ray cam (act (sinv (k_pose ref)) (world_point (k_pose base) (direction cam (P2 (vx (o_pos o)) (vy (o_pos o)))) (exp (- lid)))) in
    border <= px p <= IZR (width cam) - border /\ border <= py p <= IZR (height cam) - border.
Proof.
  clear. unfold is_oob. destruct (o_lid o) as [lid|]; [|split; [discriminate|intros (lid & H & _); discriminate]].
  rewrite reprojected_world. fold (pixel o). set (p := map_ray cam _).
  assert (A : is_on_image cam border p = true <-> border <= px p <= IZR (width cam) - border /\ border <= py p <= IZR (height cam) - border).
  { unfold is_on_image. destruct (Rle_dec border (px p)), (Rle_dec (px p) (IZR (width cam) - border)), (Rle_dec border (py p)), (Rle_dec (py p) (IZR (height cam) - border));
      cbn [andb]; split; intros; try discriminate; try tauto; lra. }
  rewrite negb_false_iff, A. split.
  - intros H. exists lid. split; [reflexivity|exact H].
  - intros (lid' & E & H). injection E as <-. exact H.
Qed.

Lemma photo_zero s pr l : 0 < c -> 0 < b_outlierDiff s -> NoDup (map k_id l) ->
  0 <= cost cam image grad pattern c s pr l /\
  (cost cam image grad pattern c s pr l = 0 <-> consistent (map_ray cam) (direction cam) image pattern pr l).
Proof.
  intros Hc Ha Hn. unfold cost.
  set (f := fun r => / 2 * (photo_weight grad pattern c l r * huber (b_outlierDiff s) (photo_value cam image pattern l r * photo_value cam image pattern l r))).
  assert (Hpos : forall r, In r (p_residuals pr) -> 0 <= f r).
  { intros r _. unfold f. pose proof (weight_range grad pattern c l r Hc) as W.
    pose proof (huber_nonneg (b_outlierDiff s) (photo_value cam image pattern l r * photo_value cam image pattern l r) Ha) as Hh.
    assert (0 <= huber (b_outlierDiff s) (photo_value cam image pattern l r * photo_value cam image pattern l r)) by (apply Hh; nra).
    assert (0 <= photo_weight grad pattern c l r * huber (b_outlierDiff s) (photo_value cam image pattern l r * photo_value cam image pattern l r)) by nra.
    lra. }
  destruct (sum_zero f (p_residuals pr) Hpos) as [S1 S2]. split; [exact S1|]. rewrite S2. clear S1 S2 Hpos.
  unfold consistent. split.
  - intros E r base ref o lid d Hr Hb Href Eb Er Eo El Ed.
    specialize (E r Hr). unfold f, photo_weight, photo_value in E.
    rewrite <- Eb, <- Er in E. rewrite !find_frame_unique in E by assumption. rewrite Eo, Ed, El in E.
    set (g := grad _ _) in E. cbv zeta in E.
    assert (Hw : 0 < c / sqrt (c * c + g * g)) by (apply Rdiv_lt_0_compat; [lra|]; apply sqrt_lt_R0; nra).
    set (v := direct_residual _ _ _ _ _ _ _ _ _ _) in E.
    assert (Hv : v = 0).
    { assert (Hh : huber (b_outlierDiff s) (v * v) = 0) by nra.
      apply huber_zero in Hh; [nra|exact Ha|nra]. }
    unfold v, direct_residual in Hv. apply ba_zero_iff in Hv. rewrite reprojected_world in Hv.
    unfold agree. exact Hv.
  - intros H r Hr. unfold f, photo_value, photo_weight.
    assert (Z0 : forall w, / 2 * (w * huber (b_outlierDiff s) (0 * 0)) = 0).
    { intro w. rewrite Rmult_0_l. unfold huber. destruct (Rle_dec 0 (b_outlierDiff s * b_outlierDiff s)); [ring|nra]. }
    destruct (find_frame l (r_base r)) as [b|] eqn:Eb; [|apply Z0].
    destruct (find_frame l (r_ref r)) as [q|] eqn:Eq; [|apply Z0].
    destruct (nth_error (k_pts b) (r_point r)) as [o|] eqn:Eo; [|apply Z0].
    destruct (nth_error pattern (r_pattern r)) as [d|] eqn:Ed; [|apply Z0].
    destruct (o_lid o) as [lid|] eqn:El; [|apply Z0].
    apply find_frame_in in Eb. apply find_frame_in in Eq. destruct Eb as [Ib Eb], Eq as [Iq Eq].
    pose proof (H r b q o lid d Hr Ib Iq Eb Eq Eo El Ed) as A.
    replace (direct_residual _ _ _ _ _ _ _ _ _ _) with 0; [apply Z0|]. symmetry.
    unfold direct_residual. apply ba_zero_iff. rewrite reprojected_world. exact A.
Qed.

(** The residual of the bundle adjustment and that of the tracker. *)
Lemma photo_tracking baseId refId pos lid base ref aff :
  exp (la aff) * direct_residual cam image baseId refId pos lid base ref light_default aff =
  point_residual cam image refId (smul (sinv ref) base) aff (vscale (exp (- lid)) (direction cam pos)) (image baseId pos).
Proof.
  unfold direct_residual, point_residual, tracking_residual. rewrite ba_residual_value.
  unfold reprojected. set (t := image refId _). rewrite <- Rmult_assoc, <- exp_plus, Rplus_opp_r, exp_0.
  unfold light_apply at 2. unfold light_default; cbn. rewrite exp_0. ring.
Qed.

(** The pixels of a pattern are taken to lie on a sphere around the base camera. *)
Lemma photo_sphere base pos depth : rigid base -> unmap cam pos <> vzero -> 0 < depth ->
  vnorm (vsub (world_point base (direction cam pos) depth) (tr base)) = depth.
Proof.
  intros Hb Hu Hd. unfold world_point, act.
  replace (vsub (vadd (rot (so3 base) (vscale depth (direction cam pos))) (tr base)) (tr base))
    with (rot (so3 base) (vscale depth (direction cam pos))).
  2:{ destruct (rot _ _), (tr base). unfold vsub, vadd; cbn. f_equal; ring. }
  rewrite rot_norm by exact Hb. rewrite vnorm_scale, Rabs_right by lra.
  unfold direction, normalized. destruct (Rlt_dec 0 (dot (unmap cam pos) (unmap cam pos))) as [H|H].
  - assert (0 < vnorm (unmap cam pos)) by (apply sqrt_lt_R0; exact H).
    rewrite vnorm_scale, Rabs_right. 2:{ apply Rle_ge, Rlt_le, Rinv_0_lt_compat. assumption. }
    rewrite Rinv_l by lra. ring.
  - exfalso. apply Hu. apply vnorm_0. unfold vnorm.
    pose proof (dot_self_nonneg (unmap cam pos)). replace (dot (unmap cam pos) (unmap cam pos)) with 0 by lra. apply sqrt_0.
Qed.

(** The residuals of the model do not depend on the states of the points. *)
Lemma photo_blind : state_blind (photo_value cam image pattern).
Proof.
  intros l l' r H. unfold photo_value.
  assert (F : forall id, match find_frame l id, find_frame l' id with
    | Some k, Some k' => successor k k' /\ same_params k k' | None, None => True | _, _ => False end).
  { intro id. unfold find_frame. induction H as [|k k' l l' Hk Hl IH]; cbn; [exact I|].
    destruct Hk as [Hs Hp]. destruct Hs as [Ei Hs]. rewrite Ei.
    destruct (k_id k =? id)%Z; [split; [split; assumption|assumption]|exact IH]. }
  pose proof (F (r_base r)) as Fb. pose proof (F (r_ref r)) as Fr.
  destruct (find_frame l (r_base r)) as [b|], (find_frame l' (r_base r)) as [b'|]; try contradiction; [|reflexivity].
  destruct (find_frame l (r_ref r)) as [q|], (find_frame l' (r_ref r)) as [q'|]; try contradiction; [|reflexivity].
  destruct Fb as [(Eb & Hlen & Hpos) (Pb & Lb & Db)], Fr as [(Er & _ & _) (Pr & Lr & _)].
  destruct (nth_error (k_pts b) (r_point r)) as [o|] eqn:Eo.
  - destruct (nth_error (k_pts b') (r_point r)) as [o'|] eqn:Eo'.
    2:{ exfalso. apply nth_error_None in Eo'. rewrite Hlen in Eo'. apply nth_error_None in Eo'. congruence. }
    destruct (nth_error pattern (r_pattern r)) as [d|]; [|reflexivity].
    rewrite (Db _ _ _ Eo Eo'). destruct (o_lid o) as [lid|]; [|reflexivity].
    unfold pixel. rewrite (Hpos _ _ _ Eo Eo'), Eb, Er, Pb, Pr, Lb, Lr. reflexivity.
  - destruct (nth_error (k_pts b') (r_point r)) as [o'|] eqn:Eo'; [|reflexivity].
    exfalso. apply nth_error_None in Eo. rewrite <- Hlen in Eo. apply nth_error_None in Eo. congruence.
Qed.
End P.

(** ** The constraints leave nothing of the freedom *)
Lemma qmul_cancel a q : unit_quat q -> qmul a q = q -> a = qone.
Proof.
  intros Hq E. assert (H : qmul (qmul a q) (qconj q) = qmul q (qconj q)) by (rewrite E; reflexivity).
  rewrite <- qmul_assoc, qconj_r, qmul_one_r in H by exact Hq. exact H.
Qed.

Lemma sim_baseline g k p q : rigid g -> 0 < k -> baseline (sim_pose g k p) (sim_pose g k q) = k * baseline p q.
Proof.
  intros Hg Hk. unfold baseline, sim_pose. cbn [tr smul].
  replace (vsub _ _) with (rot (so3 g) (vscale k (vsub (tr q) (tr p)))).
  2:{ rewrite !rot_scale. replace (vsub (tr q) (tr p)) with (vadd (tr q) (vneg (tr p))) by (unfold vsub, vadd, vneg; cbn; f_equal; ring).
      rewrite rot_add, rot_neg. unfold vsub, vadd, vneg, vscale; cbn. f_equal; ring. }
  rewrite rot_norm by exact Hg. rewrite vnorm_scale, Rabs_right by lra. reflexivity.
Qed.

Lemma sim_pinned g k p q : rigid g -> rigid p -> 0 < k -> tr q <> tr p ->
  sim_pose g k p = p -> baseline (sim_pose g k p) (sim_pose g k q) = baseline p q -> g = sid /\ k = 1.
Proof.
  intros Hg Hp Hk Hne Ep Eb. rewrite sim_baseline in Eb by assumption.
  assert (Hb : baseline p q <> 0).
  { intro E. apply vnorm_0 in E. apply Hne. destruct (tr p), (tr q). unfold vsub, vzero in E. cbn in E.
    injection E as E1 E2 E3. f_equal; lra. }
  assert (E1 : k = 1) by (apply (Rmult_eq_reg_r (baseline p q)); [lra|exact Hb]). subst k.
  split; [|reflexivity]. destruct g as [gq gt], p as [pq ptr].
  assert (E4 := f_equal so3 Ep). assert (E3 := f_equal tr Ep). unfold sim_pose, smul in E3, E4. cbn [so3 tr] in E3, E4.
  apply qmul_cancel in E4; [|exact Hp]. subst gq.
  assert (E5 : vadd (rot qone (vscale 1 ptr)) gt = ptr). { exact E3. }
  rewrite rot_one, vscale_1 in E5. unfold sid. f_equal.
  destruct gt, ptr. unfold vadd in E5. cbn in E5. injection E5 as X Y Z. unfold vzero. f_equal; lra.
Qed.

Lemma photo_pinned s isOOB value solve ks l' g k : solver solve -> NoDup (map k_id ks) -> all_rigid ks ->
  adjust_frames s isOOB value solve ks = Ok l' -> rigid g -> 0 < k ->
  (forall f f', became ks l' f f' -> k_pose f' = sim_pose g k (k_pose f)) -> g = sid /\ k = 1.
Proof.
  intros Hs Hn Hr Ha Hg Hk Hall.
  destruct ks as [|f ks]; [discriminate|].
  destruct ks as [|f2 ks'].
  { destruct (ba_defined s isOOB value solve f [] Hn) as (D & _). rewrite (D eq_refl) in Ha. discriminate. }
  (* the second keyframe: the one with the least address *)
  assert (E : exists q, second_of (f :: f2 :: ks') q).
  { assert (M : forall x l, exists q, In q (x :: l) /\ forall j, In j (x :: l) -> (k_id q <= k_id j)%Z).
    { intros x l. revert x. induction l as [|y l IH]; intro x.
      - exists x. split; [left; reflexivity|]. intros j [<-|[]]. apply Z.le_refl.
      - destruct (IH y) as (q & Iq & Lq). destruct (Z.le_ge_cases (k_id x) (k_id q)).
        + exists x. split; [left; reflexivity|]. intros j [<-|Hj]; [apply Z.le_refl|]. specialize (Lq j Hj). eapply Z.le_trans; eassumption.
        + exists q. split; [right; exact Iq|]. intros j [<-|Hj]; [assumption|apply Lq; exact Hj]. }
    destruct (M f2 ks') as (q & Iq & Lq). exists q, f, (f2 :: ks'). split; [reflexivity|]. split; assumption. }
  destruct E as [q Hq].
  assert (Hne : tr (k_pose q) <> tr (k_pose f)).
  { intro E. destruct (ba_defined s isOOB value solve f (f2 :: ks') Hn) as (_ & D & _). rewrite (D q Hq E) in Ha. discriminate. }
  destruct (ba_frames s isOOB value solve _ l' Hs Hn Ha) as [Perm _].
  assert (B : forall x, In x (f :: f2 :: ks') -> exists x', became (f :: f2 :: ks') l' x x').
  { intros x Hx. assert (Hi : In (k_id x) (map k_id l')).
    { eapply Permutation.Permutation_in; [apply Permutation.Permutation_sym; exact Perm|]. apply in_map. exact Hx. }
    apply in_map_iff in Hi. destruct Hi as (x' & E & Ix). exists x'. split; [exact Hx|split; assumption]. }
  destruct (B f (or_introl eq_refl)) as [f' Bf].
  destruct Hq as (f0 & ks0 & Ef & Iq & Lq). injection Ef as <- <-.
  destruct (B q (or_intror Iq)) as [q' Bq].
  assert (Hfirst : first_of (f :: f2 :: ks') f) by (exists (f2 :: ks'); reflexivity).
  assert (Hsec : second_of (f :: f2 :: ks') q) by (exists f, (f2 :: ks'); split; [reflexivity|split; assumption]).
  destruct (ba_first s isOOB value solve _ l' f f' Hs Hn Ha Hfirst Bf) as [Pf _].
  pose proof (ba_scale s isOOB value solve _ l' f f' q q' Hs Hn Ha Hfirst Hsec Bf Bq) as Sc. cbv zeta in Sc.
  pose proof (Hall f f' Bf) as Sf. pose proof (Hall q q' Bq) as Sq.
  assert (E1 : sim_pose g k (k_pose f) = k_pose f) by congruence.
  apply (sim_pinned g k (k_pose f) (k_pose q) Hg (Hr f (or_introl eq_refl)) Hk Hne E1).
  rewrite <- Sf, <- Sq. unfold baseline. destruct Sc as [Sc|Sc]; [exact Sc|].
  exfalso. pose proof (sim_baseline g k (k_pose f) (k_pose q) Hg Hk) as Sb. rewrite <- Sf, <- Sq in Sb. unfold baseline in Sb.
  rewrite Sc in Sb.
  assert (Z0 : vsub (tr (k_pose f')) (tr (k_pose f')) = vzero) by (unfold vsub, vzero; f_equal; ring).
  rewrite Z0, vnorm_zero in Sb.
  assert (Hz : vnorm (vsub (tr (k_pose q)) (tr (k_pose f))) = 0) by nra.
  apply vnorm_0 in Hz. apply Hne. destruct (tr (k_pose q)), (tr (k_pose f)). unfold vsub, vzero in Hz. cbn in Hz.
  injection Hz as X Y Z. f_equal; lra.
Qed.

Lemma photo_gain_pinned s isOOB value solve f ks l' d : solver solve -> NoDup (map k_id (f :: ks)) ->
  adjust_frames s isOOB value solve (f :: ks) = Ok l' ->
  (forall x x', became (f :: ks) l' x x' -> fst (k_light x') = fst (k_light x) + d) -> d = 0.
Proof.
  intros Hs Hn Ha Hall.
  destruct (ba_frames s isOOB value solve _ l' Hs Hn Ha) as [Perm _].
  assert (Hi : In (k_id f) (map k_id l')).
  { eapply Permutation.Permutation_in; [apply Permutation.Permutation_sym; exact Perm|]. left. reflexivity. }
  apply in_map_iff in Hi. destruct Hi as (f' & E & If).
  assert (B : became (f :: ks) l' f f') by (split; [left; reflexivity|split; assumption]).
  destruct (ba_first s isOOB value solve _ l' f f' Hs Hn Ha (ex_intro _ ks eq_refl) B) as [_ L].
  pose proof (Hall f f' B) as G. rewrite L in G. lra.
Qed.
