(** Statements about the bundle adjustment, from the lemmas of BundleProofs. *)
From Coq Require Import Reals ZArith List Bool Permutation Lia Lra.
From Verif Require Import Outcome Pose SphereModel SphereSpec SphereProofs BundleModel BundleSpec BundleProofs.
Import ListNotations.
Open Scope R_scope.

Lemma first_unique ks f g : first_of ks f -> first_of ks g -> f = g.
Proof. intros [l ->] [l' E]. congruence. Qed.

Lemma second_unique ks f g : NoDup (ids ks) -> second_of ks f -> second_of ks g -> f = g.
Proof.
  intros ND (x & l & -> & I & L) (y & l' & E & I' & L'). injection E as <- <-.
  cbn in ND. inversion ND; subst. eapply id_inj; eauto. specialize (L _ I'). specialize (L' _ I). lia.
Qed.

Lemma first_in ks f : first_of ks f -> In f ks.
Proof. intros [l ->]. now left. Qed.
Lemma second_in ks f : second_of ks f -> In f ks.
Proof. intros (x & l & -> & I & _). now right. Qed.
Lemma first_not_second ks f g : NoDup (ids ks) -> first_of ks f -> second_of ks g -> k_id g <> k_id f.
Proof.
  intros ND [l ->] (y & l' & E & I & _) X. injection E as <- <-. cbn in ND. inversion ND; subst.
  apply H1. rewrite <- X. now apply in_map.
Qed.

Section Step.
Variables (s : bsettings) (isOOB : oob_test) (value : list bframe -> residual -> R)
          (solve : problem -> list bframe -> list bframe).
Hypothesis SO : solver solve.
Variables (ks l l' : list bframe) (f sec : bframe) (pr : problem) (sp : spherical_plus).
Hypothesis ND : NoDup (ids ks).
Hypothesis ST : step s isOOB value ks l (solve pr l) l' f sec pr sp.
Let l1 := solve pr l.

Lemma ndl : NoDup (ids l).
Proof. apply (Permutation_NoDup (Permutation_map k_id (Permutation_sym (st_perm _ _ _ _ _ _ _ _ _ _ _ ST))) ND). Qed.

Lemma rel1 : Forall2 (fun k k' => successor k k' /\ same_states k k') l l1.
Proof. exact (so_shape _ _ _ (SO pr l)). Qed.

Lemma rel2 : Forall2 (fun k k' => successor k k' /\ same_params k k') l1 l'.
Proof.
  rewrite (st_mark _ _ _ _ _ _ _ _ _ _ _ ST). apply Forall2_map_r, Forall2_refl'. intros k. apply mark_frame_keeps.
Qed.

Lemma ids1 : Forall2 (fun a b => k_id b = k_id a) l l1.
Proof. eapply Forall2_impl'; [|exact rel1]. intros x y [[E _] _]. exact E. Qed.
Lemma ids2 : Forall2 (fun a b => k_id b = k_id a) l1 l'.
Proof. eapply Forall2_impl'; [|exact rel2]. intros x y [[E _] _]. exact E. Qed.

Lemma ids_map : forall a b, Forall2 (fun a b => k_id b = k_id a) a b -> ids b = ids a.
Proof. induction 1 as [|x y a b E F IH]; [reflexivity|]. cbn. f_equal; auto. Qed.

Lemma ndl1 : NoDup (ids l1).
Proof. rewrite (ids_map _ _ ids1). exact ndl. Qed.

(** the intermediate keyframe *)
Lemma middle k k' : became ks l' k k' ->
  In k l /\ exists m, In m l1 /\ k_id m = k_id k /\ k_id k' = k_id m /\ In k' l' /\
    k' = mark_frame s (value l1) (p_residuals pr) (k_id sec) m.
Proof.
  intros (K & K' & E). pose proof (st_perm _ _ _ _ _ _ _ _ _ _ _ ST) as P.
  assert (I : In k l) by (apply (Permutation_in _ (Permutation_sym P)); exact K). split; [exact I|].
  pose proof K' as K2. rewrite (st_mark _ _ _ _ _ _ _ _ _ _ _ ST) in K2. fold l1 in K2. apply in_map_iff in K2.
  destruct K2 as (m & <- & M). exists m. split; [exact M|].
  assert (X : k_id (mark_frame s (value l1) (p_residuals pr) (k_id sec) m) = k_id m) by apply mark_frame_keeps.
  split; [congruence|split; [exact X|split; [exact K'|reflexivity]]].
Qed.

Lemma pose_light (k k' m : bframe) : k' = mark_frame s (value l1) (p_residuals pr) (k_id sec) m ->
  k_pose k' = k_pose m /\ k_light k' = k_light m.
Proof. intros ->. destruct (mark_frame_keeps s (value l1) (p_residuals pr) (k_id sec) m) as [_ (A & B & _)]. auto. Qed.

Lemma keep_trans k k' : became ks l' k k' -> In (Trans (k_id k)) (p_constant pr) -> tr (k_pose k') = tr (k_pose k).
Proof.
  intros B I. destruct (middle _ _ B) as (K & m & M & E & _ & _ & X). destruct (pose_light k k' m X) as [-> _].
  exact (partner _ _ _ _ _ (so_trans _ _ _ (SO pr l)) ids1 ndl K M E I).
Qed.
Lemma keep_rot k k' : became ks l' k k' -> In (Rot (k_id k)) (p_constant pr) -> so3 (k_pose k') = so3 (k_pose k).
Proof.
  intros B I. destruct (middle _ _ B) as (K & m & M & E & _ & _ & X). destruct (pose_light k k' m X) as [-> _].
  exact (partner _ _ _ _ _ (so_rot _ _ _ (SO pr l)) ids1 ndl K M E I).
Qed.
Lemma keep_light k k' : became ks l' k k' -> In (Light (k_id k)) (p_constant pr) -> k_light k' = k_light k.
Proof.
  intros B I. destruct (middle _ _ B) as (K & m & M & E & _ & _ & X). destruct (pose_light k k' m X) as [_ ->].
  exact (partner _ _ _ _ _ (so_light _ _ _ (SO pr l)) ids1 ndl K M E I).
Qed.

Lemma const_eq : p_constant pr =
  (if b_optimizeLight s then [] else map (fun k => Light (k_id k)) l) ++ [Trans (k_id f); Rot (k_id f); Light (k_id f)] ++
       (if b_fixedRotation s then [Rot (k_id sec)] else []) ++
       (if b_fixedMotion s && (Z.of_nat (length l) =? 2)%Z
        then [Trans (k_id sec); Rot (k_id sec); Light (k_id sec)] else []).
Proof. rewrite (st_pr _ _ _ _ _ _ _ _ _ _ _ ST). reflexivity. Qed.

Lemma keeps_shape k k' : became ks l' k k' -> successor k k'.
Proof.
  intros B. destruct (middle _ _ B) as (K & m & M & E & _ & _ & X). subst k'.
  destruct (partner _ _ _ _ _ rel1 ids1 ndl K M E) as [(A1 & A2 & A3) _].
  destruct (mark_frame_keeps s (value l1) (p_residuals pr) (k_id sec) m) as [(B1 & B2 & B3) _].
  split; [congruence|split; [congruence|]]. intros n o o' P P'.
  assert (exists q, is_point m n q) as [q Q].
  { unfold is_point in *. destruct (nth_error (k_pts m) n) as [q|] eqn:N; [eauto|].
    apply nth_error_None in N. assert (nth_error (k_pts k) n <> None) by congruence. apply nth_error_Some in H. lia. }
  rewrite (B3 _ _ _ Q P'). eapply A3; eauto.
Qed.

Lemma lid_after k k' n o o' : became ks l' k k' -> is_point k n o -> is_point k' n o' ->
  (o_lid o = None <-> o_lid o' = None) /\
  (~ In (Depth (k_id k) n) (p_blocks pr) -> o_lid o' = o_lid o).
Proof.
  intros B P P'. destruct (middle _ _ B) as (K & m & M & E & _ & _ & X). subst k'.
  destruct (partner _ _ _ _ _ rel1 ids1 ndl K M E) as [(A1 & A2 & A3) _].
  destruct (mark_frame_keeps s (value l1) (p_residuals pr) (k_id sec) m) as [_ (B1 & B2 & B3)].
  assert (exists q, is_point m n q) as [q Q].
  { unfold is_point in *. destruct (nth_error (k_pts m) n) as [q|] eqn:N; [eauto|].
    apply nth_error_None in N. assert (nth_error (k_pts k) n <> None) by congruence. apply nth_error_Some in H. lia. }
  rewrite (B3 _ _ _ Q P'). split.
  - exact (partner _ _ _ _ _ (so_finite _ _ _ (SO pr l)) ids1 ndl K M E n o q P Q).
  - intros N. exact (partner _ _ _ _ _ (so_depth _ _ _ (SO pr l)) ids1 ndl K M E n o q P Q (or_introl N)).
Qed.

Lemma others k k' n o o' : became ks l' k k' -> k_id k <> k_id sec -> is_point k n o -> is_point k' n o' ->
  o_state o' = o_state o.
Proof.
  intros B NE P P'. destruct (middle _ _ B) as (K & m & M & E & _ & _ & X).
  destruct (partner _ _ _ _ _ rel1 ids1 ndl K M E) as [_ SS].
  assert (k' = m) as ->; [|eapply SS; eauto].
  rewrite X. unfold mark_frame. destruct (k_id m =? k_id sec)%Z eqn:EE; [|reflexivity]. apply Z.eqb_eq in EE. congruence.
Qed.

Lemma second_points k k' n o o' : state_blind value -> became ks l' k k' -> k_id k = k_id sec ->
  is_point k n o -> is_point k' n o' ->
  forall rs, NoDup rs -> (forall r, In r rs <-> contributes s isOOB ks r /\ r_base r = k_id k /\ r_point r = n) ->
  marked (b_outlierDiff s) (map (value l') rs) o o'.
Proof.
  intros SB B ES P P' rs NR RS. destruct (middle _ _ B) as (K & m & M & E & _ & _ & X).
  destruct (partner _ _ _ _ _ rel1 ids1 ndl K M E) as [_ SS]. subst k'.
  destruct (mark_frame_point _ _ _ _ _ _ _ (eq_trans E ES) P') as (q & Q & ->).
  assert (EQ : o_state q = o_state o) by (eapply SS; eauto).
  set (rs' := filter _ _).
  assert (PM : Permutation rs' rs).
  { apply NoDup_Permutation.
    - apply NoDup_filter. rewrite (st_pr _ _ _ _ _ _ _ _ _ _ _ ST). apply residuals_nodup, ndl.
    - exact NR.
    - intros r. rewrite RS. unfold rs'. rewrite filter_In, andb_true_iff, Z.eqb_eq, Nat.eqb_eq.
      rewrite (st_pr _ _ _ _ _ _ _ _ _ _ _ ST), in_residuals.
      pose proof (st_perm _ _ _ _ _ _ _ _ _ _ _ ST) as PE.
      assert (C : contributes s isOOB l r <-> contributes s isOOB ks r).
      { unfold contributes. split; intros (b & p & c & H1 & H2 & H3); exists b, p, c.
        - split; [now apply (Permutation_in _ PE)|split; [now apply (Permutation_in _ PE)|exact H3]].
        - split; [now apply (Permutation_in _ (Permutation_sym PE))|split; [now apply (Permutation_in _ (Permutation_sym PE))|exact H3]]. }
      rewrite C, ES. tauto. }
  assert (VE : forall r, value l' r = value l1 r) by (intros r; apply SB, rel2).
  assert (MM : marked (b_outlierDiff s) (map (value l') rs') q (mark s (map (value l1) rs') q)).
  { rewrite (map_ext _ _ VE). apply mark_spec. }
  apply (marked_perm _ _ (map (value l') rs)) in MM; [|now apply Permutation_map].
  unfold marked in *. rewrite EQ in MM. exact MM.
Qed.

Lemma bounds_after : l1 = l \/ forall b i lo hi v, In (b, i, lo, hi) (p_bounds pr) -> parameter l' b i v -> lo <= v <= hi.
Proof.
  destruct (so_bounds _ _ _ (SO pr l)) as [E|H]; [left; exact E|right]. intros b i lo hi v I (k & K & PB). apply (H b i lo hi v I).
  fold l1. pose proof K as K2. rewrite (st_mark _ _ _ _ _ _ _ _ _ _ _ ST) in K2. apply in_map_iff in K2. fold l1 in K2.
  destruct K2 as (m & <- & M). destruct (mark_frame_keeps s (value l1) (p_residuals pr) (k_id sec) m) as [(B1 & B2 & B3) (C1 & C2 & C3)].
  exists m. split; [exact M|]. fold l1 in PB. destruct b as [id|id|id|id n]; auto.
  - rewrite B1, C2 in PB. exact PB.
  - destruct PB as (E & -> & o & P & L). rewrite B1 in E. split; [exact E|split; [reflexivity|]].
    assert (exists q, is_point m n q) as [q Q].
    { unfold is_point in *. destruct (nth_error (k_pts m) n) as [q|] eqn:N; [eauto|].
      apply nth_error_None in N. assert (X : nth_error (k_pts (mark_frame s (value l1) (p_residuals pr) (k_id sec) m)) n <> None) by congruence.
      apply nth_error_Some in X. lia. }
    exists q. split; [exact Q|]. rewrite <- (C3 _ _ _ Q P). exact L.
Qed.

Lemma sphere_after : forall k', became ks l' sec k' ->
  tr (k_pose k') = tr (k_pose sec) \/ exists v d1 d2, tr (k_pose k') = sp_plus sp v d1 d2.
Proof.
  intros k' B. destruct (middle _ _ B) as (K & m & M & E & _ & _ & X). destruct (pose_light sec k' m X) as [-> _].
  pose proof (partner _ _ _ _ _ (so_sphere _ _ _ (SO pr l)) ids1 ndl K M E) as H. cbn beta in H.
  assert (PS : p_sphere pr = (k_id sec, sp)) by (rewrite (st_pr _ _ _ _ _ _ _ _ _ _ _ ST); reflexivity).
  rewrite PS in H. apply H. reflexivity.
Qed.
End Step.

(* ---------- the statements ---------- *)

Lemma ba_frames : forall s isOOB value solve ks l', solver solve -> NoDup (map k_id ks) ->
  adjust_frames s isOOB value solve ks = Ok l' ->
  Permutation (map k_id l') (map k_id ks) /\ forall k k', became ks l' k k' -> successor k k'.
Proof.
  intros s isOOB value solve ks l' SO ND H. destruct (adjust_step _ _ _ _ _ _ ND H) as (l & f & sec & pr & sp & ST). split.
  - fold (ids l'). rewrite (ids_map _ _ (ids2 _ _ _ _ _ _ _ _ _ _ _ ST)), (ids_map _ _ (ids1 _ SO l pr)).
    apply Permutation_map, (st_perm _ _ _ _ _ _ _ _ _ _ _ ST).
  - intros k k'. eapply keeps_shape; eauto.
Qed.

Lemma ba_first : forall s isOOB value solve ks l' k k', solver solve -> NoDup (map k_id ks) ->
  adjust_frames s isOOB value solve ks = Ok l' -> first_of ks k -> became ks l' k k' ->
  k_pose k' = k_pose k /\ k_light k' = k_light k.
Proof.
  intros s isOOB value solve ks l' k k' SO ND H F B. destruct (adjust_step _ _ _ _ _ _ ND H) as (l & f & sec & pr & sp & ST).
  assert (f = k) by (eapply first_unique; [apply (st_first _ _ _ _ _ _ _ _ _ _ _ ST)|exact F]). subst f.
  pose proof (const_eq _ _ _ _ _ _ _ _ _ _ _ ST) as C.
  assert (T := keep_trans _ _ _ _ SO _ _ _ _ _ _ _ ND ST _ _ B).
  assert (R := keep_rot _ _ _ _ SO _ _ _ _ _ _ _ ND ST _ _ B).
  assert (L := keep_light _ _ _ _ SO _ _ _ _ _ _ _ ND ST _ _ B).
  rewrite C in T, R, L. split.
  - destruct (k_pose k') as [q t], (k_pose k) as [q0 t0]; cbn in *.
    f_equal; [apply R|apply T]; apply in_or_app; right; cbn; auto.
  - apply L. apply in_or_app. right. cbn. auto.
Qed.

Lemma ba_fixed_motion : forall s isOOB value solve ks l' k k', solver solve -> NoDup (map k_id ks) ->
  adjust_frames s isOOB value solve ks = Ok l' -> b_fixedMotion s = true -> length ks = 2%nat -> became ks l' k k' ->
  k_pose k' = k_pose k /\ k_light k' = k_light k.
Proof.
  intros s isOOB value solve ks l' k k' SO ND H FM L2 B.
  destruct (adjust_step _ _ _ _ _ _ ND H) as (l & f & sec & pr & sp & ST).
  destruct (st_first _ _ _ _ _ _ _ _ _ _ _ ST) as [kt EK].
  destruct (st_second _ _ _ _ _ _ _ _ _ _ _ ST) as (f' & kt' & EK' & IS & _).
  assert (f' = f /\ kt' = kt) as [-> ->] by (rewrite EK in EK'; injection EK' as <- <-; auto). clear EK'.
  destruct B as (K & K' & E). assert (B : became ks l' k k') by (repeat split; auto).
  rewrite EK in K. destruct K as [<-|K]; [eapply ba_first; eauto; exists kt; exact EK|].
  assert (k = sec) as ->.
  { rewrite EK in L2. cbn in L2. destruct kt as [|a [|b kt]]; cbn in L2; try lia.
    destruct K as [<-|[]], IS as [<-|[]]. reflexivity. }
  pose proof (const_eq _ _ _ _ _ _ _ _ _ _ _ ST) as C.
  assert (LL : length l = 2%nat) by (rewrite (Permutation_length (st_perm _ _ _ _ _ _ _ _ _ _ _ ST)); exact L2).
  rewrite FM, LL in C. cbn [andb] in C. change (Z.of_nat 2 =? 2)%Z with true in C. cbn iota in C.
  assert (T := keep_trans _ _ _ _ SO _ _ _ _ _ _ _ ND ST _ _ B).
  assert (R := keep_rot _ _ _ _ SO _ _ _ _ _ _ _ ND ST _ _ B).
  assert (L := keep_light _ _ _ _ SO _ _ _ _ _ _ _ ND ST _ _ B).
  rewrite C in T, R, L.
  assert (INC : forall x, In x [Trans (k_id sec); Rot (k_id sec); Light (k_id sec)] ->
     In x ((if b_optimizeLight s then [] else map (fun k => Light (k_id k)) l) ++ [Trans (k_id f); Rot (k_id f); Light (k_id f)] ++
       (if b_fixedRotation s then [Rot (k_id sec)] else []) ++ [Trans (k_id sec); Rot (k_id sec); Light (k_id sec)])).
  { intros x I. apply in_or_app. right. apply in_or_app. right. apply in_or_app. right. exact I. }
  split.
  - destruct (k_pose k') as [q t], (k_pose sec) as [q0 t0]; cbn [so3 tr] in *.
    f_equal; [apply R|apply T]; apply INC; cbn; auto.
  - apply L, INC. cbn. auto.
Qed.

Lemma ba_fixed_rotation : forall s isOOB value solve ks l' k k', solver solve -> NoDup (map k_id ks) ->
  adjust_frames s isOOB value solve ks = Ok l' -> b_fixedRotation s = true -> second_of ks k -> became ks l' k k' ->
  so3 (k_pose k') = so3 (k_pose k).
Proof.
  intros s isOOB value solve ks l' k k' SO ND H FR S B.
  destruct (adjust_step _ _ _ _ _ _ ND H) as (l & f & sec & pr & sp & ST).
  assert (sec = k) by (eapply second_unique; [exact ND|apply (st_second _ _ _ _ _ _ _ _ _ _ _ ST)|exact S]). subst sec.
  pose proof (const_eq _ _ _ _ _ _ _ _ _ _ _ ST) as C.
  assert (R := keep_rot _ _ _ _ SO _ _ _ _ _ _ _ ND ST _ _ B). apply R. rewrite C, FR.
  apply in_or_app. right. apply in_or_app. right. now left.
Qed.

Lemma ba_fixed_light : forall s isOOB value solve ks l' k k', solver solve -> NoDup (map k_id ks) ->
  adjust_frames s isOOB value solve ks = Ok l' -> b_optimizeLight s = false -> became ks l' k k' ->
  k_light k' = k_light k.
Proof.
  intros s isOOB value solve ks l' k k' SO ND H FR B.
  destruct (adjust_step _ _ _ _ _ _ ND H) as (l & f & sec & pr & sp & ST).
  pose proof (const_eq _ _ _ _ _ _ _ _ _ _ _ ST) as C.
  assert (L := keep_light _ _ _ _ SO _ _ _ _ _ _ _ ND ST _ _ B). apply L. rewrite C, FR.
  apply in_or_app. left. apply in_map_iff. exists k. split; [reflexivity|].
  destruct B as (K & _). apply (Permutation_in _ (Permutation_sym (st_perm _ _ _ _ _ _ _ _ _ _ _ ST))). exact K.
Qed.

Lemma ba_scale : forall s isOOB value solve ks l' f f' k k', solver solve -> NoDup (map k_id ks) ->
  adjust_frames s isOOB value solve ks = Ok l' -> first_of ks f -> second_of ks k ->
  became ks l' f f' -> became ks l' k k' ->
  let baseline := fun a b => vnorm (vsub (tr (k_pose b)) (tr (k_pose a))) in
  baseline f' k' = baseline f k \/ tr (k_pose k') = tr (k_pose f').
Proof.
  intros s isOOB value solve ks l' f f' k k' SO ND H F S BF BK baseline.
  destruct (ba_first _ _ _ _ _ _ _ _ SO ND H F BF) as [PF _].
  destruct (adjust_step _ _ _ _ _ _ ND H) as (l & f0 & sec & pr & sp & ST).
  assert (sec = k) by (eapply second_unique; [exact ND|apply (st_second _ _ _ _ _ _ _ _ _ _ _ ST)|exact S]). subst sec.
  assert (f0 = f) by (eapply first_unique; [apply (st_first _ _ _ _ _ _ _ _ _ _ _ ST)|exact F]). subst f0.
  unfold baseline. rewrite PF.
  destruct (sphere_after _ _ _ _ SO _ _ _ _ _ _ _ ND ST _ BK) as [->|(v & d1 & d2 & ->)]; [left; reflexivity|].
  pose proof (st_sp _ _ _ _ _ _ _ _ _ _ _ ST) as SP.
  assert (RP : 0 < vnorm (vsub (tr (k_pose k)) (tr (k_pose f)))).
  { unfold sp_new in SP. destruct (Req_EM_T (vnorm (vsub (tr (k_pose k)) (tr (k_pose f)))) 0); [discriminate|].
    pose proof (sqrt_pos (dot (vsub (tr (k_pose k)) (tr (k_pose f))) (vsub (tr (k_pose k)) (tr (k_pose f))))) as Q.
    unfold vnorm in *. lra. }
  destruct (sp_on_sphere _ _ _ _ v d1 d2 RP SP) as [E|E]; [right; exact E|left; exact E].
Qed.

Lemma ba_bounds : forall s isOOB value solve ks l', solver solve -> NoDup (map k_id ks) ->
  adjust_frames s isOOB value solve ks = Ok l' ->
  (forall k k', became ks l' k k' -> same_params k k') \/
  forall k', In k' l' ->
    b_minA s <= fst (k_light k') <= b_maxA s /\ b_minB s <= snd (k_light k') <= b_maxB s /\
    forall n o v, is_point k' n o -> o_lid o = Some v -> - ln (b_maxDepth s) <= v <= - ln (b_minDepth s).
Proof.
  intros s isOOB value solve ks l' SO ND H. destruct (adjust_step _ _ _ _ _ _ ND H) as (l & f & sec & pr & sp & ST).
  destruct (bounds_after _ _ _ _ SO _ _ _ _ _ _ _ ST) as [E|BD].
  - left. intros k k' B. destruct (middle _ _ _ _ _ _ _ _ _ _ _ ST _ _ B) as (K & m & M & E1 & _ & _ & ->).
    rewrite E in M. assert (m = k) by (eapply id_inj; [eapply ndl; eauto|exact M|exact K|exact E1]). subst m.
    apply mark_frame_keeps.
  - right. intros k' K'.
    assert (exists k, In k l /\ k_id k' = k_id k) as (k & K & E).
    { assert (I : In (k_id k') (ids l')) by now apply in_map.
      rewrite (ids_map _ _ (ids2 _ _ _ _ _ _ _ _ _ _ _ ST)), (ids_map _ _ (ids1 _ SO l pr)) in I.
      apply in_map_iff in I. destruct I as (k & E & K). exists k. auto. }
    assert (BE : p_bounds pr = flat_map (fun k => [(Light (k_id k), 0%nat, b_minA s, b_maxA s); (Light (k_id k), 1%nat, b_minB s, b_maxB s)]) l ++
       map (fun b => (b, 0%nat, - ln (b_maxDepth s), - ln (b_minDepth s))) (flat_map depth_blocks l))
      by (rewrite (st_pr _ _ _ _ _ _ _ _ _ _ _ ST); reflexivity).
    rewrite BE in BD. split; [|split].
    + apply (BD (Light (k_id k)) 0%nat).
      * apply in_or_app. left. apply in_flat_map. exists k. split; [exact K|now left].
      * exists k'. split; [exact K'|]. split; [exact E|]. left. auto.
    + apply (BD (Light (k_id k)) 1%nat).
      * apply in_or_app. left. apply in_flat_map. exists k. split; [exact K|right; now left].
      * exists k'. split; [exact K'|]. split; [exact E|]. right. auto.
    + intros n o v P L. apply (BD (Depth (k_id k) n) 0%nat).
      * apply in_or_app. right. apply in_map_iff. exists (Depth (k_id k) n). split; [reflexivity|].
        assert (B : became ks l' k k').
        { split; [|split; [exact K'|exact E]]. apply (Permutation_in _ (st_perm _ _ _ _ _ _ _ _ _ _ _ ST)). exact K. }
        destruct (keeps_shape _ _ _ _ SO _ _ _ _ _ _ _ ND ST _ _ B) as (_ & LE & _).
        assert (exists q, is_point k n q) as [q Q].
        { unfold is_point in *. destruct (nth_error (k_pts k) n) as [q|] eqn:N; [eauto|].
          apply nth_error_None in N. assert (X : nth_error (k_pts k') n <> None) by congruence. apply nth_error_Some in X. lia. }
        apply in_depth_blocks. exists k, q. repeat split; auto.
        destruct (lid_after _ _ _ _ SO _ _ _ _ _ _ _ ND ST _ _ _ _ _ B Q P) as [F _].
        intros N. apply F in N. congruence.
      * exists k'. split; [exact K'|]. split; [exact E|split; [reflexivity|]]. exists o. auto.
Qed.

Lemma ba_marking : forall s isOOB value solve ks l' k k' n o o' rs, solver solve -> state_blind value -> NoDup (map k_id ks) ->
  adjust_frames s isOOB value solve ks = Ok l' -> second_of ks k -> became ks l' k k' ->
  is_point k n o -> is_point k' n o' ->
  NoDup rs -> (forall r, In r rs <-> contributes s isOOB ks r /\ r_base r = k_id k /\ r_point r = n) ->
  marked (b_outlierDiff s) (map (value l') rs) o o'.
Proof.
  intros s isOOB value solve ks l' k k' n o o' rs SO SB ND H S B P P' NR RS.
  destruct (adjust_step _ _ _ _ _ _ ND H) as (l & f & sec & pr & sp & ST).
  assert (sec = k) by (eapply second_unique; [exact ND|apply (st_second _ _ _ _ _ _ _ _ _ _ _ ST)|exact S]). subst sec.
  eapply second_points; eauto.
Qed.

Lemma ba_others : forall s isOOB value solve ks l' k k' n o o', solver solve -> NoDup (map k_id ks) ->
  adjust_frames s isOOB value solve ks = Ok l' -> ~ second_of ks k -> became ks l' k k' ->
  is_point k n o -> is_point k' n o' -> o_state o' = o_state o.
Proof.
  intros s isOOB value solve ks l' k k' n o o' SO ND H S B P P'.
  destruct (adjust_step _ _ _ _ _ _ ND H) as (l & f & sec & pr & sp & ST).
  eapply others; eauto. intros E. apply S. assert (k = sec) as ->; [|apply (st_second _ _ _ _ _ _ _ _ _ _ _ ST)].
  eapply id_inj; eauto; [apply B|]. eapply second_in, (st_second _ _ _ _ _ _ _ _ _ _ _ ST).
Qed.

Lemma ba_never : forall s isOOB value solve ks l' k k' n o o', solver solve -> NoDup (map k_id ks) ->
  adjust_frames s isOOB value solve ks = Ok l' -> became ks l' k k' ->
  is_point k n o -> is_point k' n o' ->
  (o_state o' = ACTIVE -> o_state o = ACTIVE) /\ (o_state o = OOB -> o_state o' = OOB).
Proof.
  intros s isOOB value solve ks l' k k' n o o' SO ND H B P P'.
  destruct (adjust_step _ _ _ _ _ _ ND H) as (l & f & sec & pr & sp & ST).
  destruct (Z.eq_dec (k_id k) (k_id sec)) as [E|E].
  - destruct (middle _ _ _ _ _ _ _ _ _ _ _ ST _ _ B) as (K & m & M & EM & _ & _ & X). subst k'.
    destruct (partner _ _ _ _ _ (rel1 _ SO l pr) (ids1 _ SO l pr) (ndl _ _ _ _ _ _ _ _ _ _ _ ND ST) K M EM) as [_ SS].
    destruct (mark_frame_point _ _ _ _ _ _ _ (eq_trans EM E) P') as (q & Q & ->).
    rewrite <- (SS _ _ _ P Q). unfold mark. destruct (o_state q) eqn:EQ.
    + split; [congruence|discriminate].
    + rewrite EQ. split; congruence.
    + match goal with |- context [match ?v with [] => _ | _ => _ end] => destruct v end; cbn; [split; intros X; [discriminate X|reflexivity]|]. destruct (Rlt_dec _ _); cbn; split; intros X; congruence.
  - rewrite (others _ _ _ _ SO _ _ _ _ _ _ _ ND ST _ _ _ _ _ B E P P'). tauto.
Qed.

Lemma ba_nonfinite : forall s isOOB value solve ks l' k k' n o o', solver solve -> state_blind value -> NoDup (map k_id ks) ->
  adjust_frames s isOOB value solve ks = Ok l' -> became ks l' k k' ->
  is_point k n o -> is_point k' n o' ->
  (o_lid o = None <-> o_lid o' = None) /\ (o_lid o = None -> second_of ks k -> o_state o' = OOB).
Proof.
  intros s isOOB value solve ks l' k k' n o o' SO SB ND H B P P'.
  destruct (adjust_step _ _ _ _ _ _ ND H) as (l & f & sec & pr & sp & ST). split.
  - eapply lid_after; eauto.
  - intros N S. assert (M : marked (b_outlierDiff s) (map (value l') []) o o').
    { eapply ba_marking; eauto; [constructor|]. intros r. split; [intros []|]. intros (C & EB & EP).
      destruct C as (base & q & ref & IB & IR & E1 & E2 & NE & PQ & LQ & _). exfalso. apply LQ.
      assert (base = k) by (eapply id_inj; eauto; [apply B|congruence]). subst base. unfold is_point in *. congruence. }
    cbn in M. destruct M as [[M _]|(_ & M & _)]; [exact M|congruence].
Qed.

Lemma ba_problem : forall s isOOB value solve ks l', solver solve -> NoDup (map k_id ks) ->
  adjust_frames s isOOB value solve ks = Ok l' ->
  exists pr l l1, Permutation l ks /\ l1 = solve pr l /\
    NoDup (p_residuals pr) /\ (forall r, In r (p_residuals pr) <-> contributes s isOOB ks r) /\
    (forall id n, In (Depth id n) (p_blocks pr) <-> exists k o, In k ks /\ k_id k = id /\ is_point k n o /\ o_lid o <> None) /\
    (forall id n, ~ In (Depth id n) (p_constant pr)) /\
    Forall2 same_params l1 l'.
Proof.
  intros s isOOB value solve ks l' SO ND H.
  destruct (adjust_step _ _ _ _ _ _ ND H) as (l & f & sec & pr & sp & ST).
  pose proof (st_perm _ _ _ _ _ _ _ _ _ _ _ ST) as PE. exists pr, l, (solve pr l).
  split; [exact PE|split; [reflexivity|split; [|split; [|split; [|split]]]]].
  - rewrite (st_pr _ _ _ _ _ _ _ _ _ _ _ ST). apply residuals_nodup. eapply ndl; eauto.
  - intros r. rewrite (st_pr _ _ _ _ _ _ _ _ _ _ _ ST), in_residuals. unfold contributes.
    split; intros (b & p & c & H1 & H2 & H3); exists b, p, c.
    + split; [now apply (Permutation_in _ PE)|split; [now apply (Permutation_in _ PE)|exact H3]].
    + split; [now apply (Permutation_in _ (Permutation_sym PE))|split; [now apply (Permutation_in _ (Permutation_sym PE))|exact H3]].
  - intros id n. rewrite (st_pr _ _ _ _ _ _ _ _ _ _ _ ST). cbn [p_blocks build]. rewrite in_app_iff, in_depth_blocks. split.
    + intros [I|(k & o & K & R)].
      * apply in_flat_map in I. destruct I as (k & _ & [X|[X|[X|[]]]]); discriminate.
      * exists k, o. split; [now apply (Permutation_in _ PE)|exact R].
    + intros (k & o & K & R). right. exists k, o. split; [now apply (Permutation_in _ (Permutation_sym PE))|exact R].
  - intros id n I. rewrite (const_eq _ _ _ _ _ _ _ _ _ _ _ ST) in I. apply in_app_or in I. destruct I as [I|I].
    + destruct (b_optimizeLight s); [contradiction|]. apply in_map_iff in I. destruct I as (k & X & _). discriminate.
    + apply in_app_or in I. destruct I as [[X|[X|[X|[]]]]|I]; try discriminate. apply in_app_or in I. destruct I as [I|I].
      * destruct (b_fixedRotation s); [destruct I as [X|[]]; discriminate|contradiction].
      * destruct (_ && _); [destruct I as [X|[X|[X|[]]]]; discriminate|contradiction].
  - eapply Forall2_impl'; [|eapply rel2; eauto]. intros x y [_ X]. exact X.
Qed.

Lemma ba_defined : forall s isOOB value solve f ks, NoDup (map k_id (f :: ks)) ->
  (ks = [] -> adjust_frames s isOOB value solve (f :: ks) = UB) /\
  (forall k, second_of (f :: ks) k -> tr (k_pose k) = tr (k_pose f) -> adjust_frames s isOOB value solve (f :: ks) = Abort) /\
  (forall k, second_of (f :: ks) k -> tr (k_pose k) <> tr (k_pose f) -> exists l', adjust_frames s isOOB value solve (f :: ks) = Ok l').
Proof.
  intros s isOOB value solve f ks ND. destruct (frames_spec (f :: ks) ND) as (O & P & F). unfold adjust_frames.
  set (a := fold_left addKeyFrame (f :: ks) new_adjuster) in *. unfold adjust. rewrite F, (find_frame_first f ks _ ND P).
  split; [|split].
  - intros ->. destruct (second_frame (k_id f) (a_frames a)) as [sec|] eqn:S; [|reflexivity].
    destruct (second_frame_spec f [] _ _ ND O P S) as [[] _].
  - intros k SK E. destruct (second_frame (k_id f) (a_frames a)) as [sec|] eqn:S.
    + destruct (second_frame_spec f ks _ _ ND O P S) as [S1 S2].
      assert (sec = k) by (eapply second_unique; [exact ND|exists f, ks; auto|exact SK]). subst sec. rewrite E.
      unfold sp_new. destruct (Req_EM_T _ 0) as [Z|Z]; [reflexivity|]. exfalso. apply Z. unfold vnorm.
      replace (dot _ _) with 0 by (unfold dot, vsub; cbn; ring). apply sqrt_0.
    + apply (second_frame_none f ks) in S; auto. subst ks. destruct SK as (x & y & E1 & I & _). injection E1 as <- <-. destruct I.
  - intros k SK E. destruct (second_frame (k_id f) (a_frames a)) as [sec|] eqn:S.
    + destruct (second_frame_spec f ks _ _ ND O P S) as [S1 S2].
      assert (sec = k) by (eapply second_unique; [exact ND|exists f, ks; auto|exact SK]). subst sec.
      assert (RP : 0 < vnorm (vsub (tr (k_pose k)) (tr (k_pose f)))).
      { unfold vnorm. apply sqrt_lt_R0. destruct (tr (k_pose k)) as [a1 a2 a3], (tr (k_pose f)) as [b1 b2 b3].
        unfold dot, vsub; cbn. 
        assert (a1 <> b1 \/ a2 <> b2 \/ a3 <> b3) as D.
        { destruct (Req_dec a1 b1), (Req_dec a2 b2), (Req_dec a3 b3); auto. subst. congruence. }
        assert (Q : forall x, 0 <= x * x) by (intros x; nra).
        pose proof (Q (a1 - b1)). pose proof (Q (a2 - b2)). pose proof (Q (a3 - b3)).
        assert (PQ : forall x y, x <> y -> 0 < (x - y) * (x - y)) by (intros x y N; apply Rsqr_pos_lt; lra).
        destruct D as [D|[D|D]]; apply PQ in D; lra. }
      destruct (sp_accepts (tr (k_pose f)) _ (tr (k_pose k)) RP eq_refl) as [sp ->]. cbn [bind]. eauto.
    + apply (second_frame_none f ks) in S; auto. subst ks. destruct SK as (x & y & E1 & I & _). injection E1 as <- <-. destruct I.
Qed.
