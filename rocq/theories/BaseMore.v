(** Proofs about the reference of the frame tracker. *)
From Coq Require Import ZArith QArith Reals List Bool Lia Lra.
From Verif Require Import Outcome Pose PoseProofs PyramidModel PyramidSpec PyramidProofs BorderModel BaseModel BaseSpec BaseProofs.
Import ListNotations.
Open Scope Z_scope.
Open Scope outcome_scope.

Lemma find_keyed kfs : well_keyed kfs -> forall n f, In (n, f) kfs ->
  find (fun nf : Z * bframe => fst nf =? n) kfs = Some (n, f).
Proof.
  induction kfs as [|[m e] kfs IH]; intros K n f I; [destruct I|]. cbn [find fst].
  apply keyed_cons in K. destruct K as [K L]. destruct I as [I|I].
  - injection I as -> ->. now rewrite Z.eqb_refl.
  - specialize (L n f I). replace (m =? n) with false by (symmetry; apply Z.eqb_neq; lia). now apply IH.
Qed.

Section Reference.
Variables (cmap : vec -> Q * Q) (unmap : Q * Q -> vec) (w h : Z).

Lemma appears_point k kfs bn bf r x d : appears cmap unmap w h k kfs bn bf r x d ->
  exists f p, In (fst r, f) kfs /\ nth_error (getPoints k f) (snd r) = Some p.
Proof. intros (f & p & I & J & _). eauto. Qed.

Lemma weights_ok k kfs : well_keyed kfs -> forall rs,
  (forall r, In r rs -> exists f p, In (fst r, f) kfs /\ nth_error (getPoints k f) (snd r) = Some p) ->
  exists ws, weights_of k kfs rs = Ok ws /\ length ws = length rs /\
    forall i r x, nth_error rs i = Some r -> nth_error ws i = Some x ->
      exists d, has_dev k kfs r d /\ x = weight d.
Proof.
  intros K. induction rs as [|r rs IH]; intros H.
  - exists []. split; [reflexivity|]. split; [reflexivity|]. intros i r x E. destruct i; discriminate.
  - destruct IH as (ws & W & L & N); [intros q Q; apply H; now right|].
    destruct (H r (or_introl eq_refl)) as (f & p & I & J).
    exists (weight (b_dev p) :: ws). split; [|split].
    + cbn [weights_of]. unfold deref. rewrite (find_keyed _ K _ _ I), J. cbn [bind]. rewrite W. reflexivity.
    + cbn. now rewrite L.
    + intros [|i] q x A B; [|eapply N; eauto]. injection A as <-. injection B as <-.
      exists (b_dev p). split; [|reflexivity]. exists f, p. auto.
Qed.

Lemma weight_spec d : match d with Dev s => s <> 0%R -> (weight d * s = 1)%R | DevInf => weight d = 0%R end.
Proof. destruct d as [s|]; [|reflexivity]. intros N. cbn. now apply Rinv_l. Qed.

Lemma reference_raw oc fromLast L kfs bn bf :
  let k := point_kind oc kfs in
  well_keyed kfs -> is_base fromLast kfs bn bf -> rigid (f_pose bf) -> directed unmap -> depths_known k kfs bn ->
  exists ls ws, listing cmap unmap w h k kfs bn bf ls /\ length ws = length ls /\
    (forall i l x, nth_error ls i = Some l -> nth_error ws i = Some x -> weighted oc k kfs (l_ref l) x) /\
    trackerReference cmap unmap w h oc fromLast L kfs =
      depthedImagePyramid (f_image bf) L (map l_pos ls) (map l_depth ls) ws.
Proof.
  intros k K B R D N.
  destruct (projected cmap unmap w h k fromLast kfs
              (match oc with Initialized => unfilled_init | _ => unfilled end) bn bf K B R D N) as (ls & LS & P).
  assert (PT : forall r, In r (map l_ref ls) -> exists f p, In (fst r, f) kfs /\ nth_error (getPoints k f) (snd r) = Some p).
  { intros r I. apply in_map_iff in I. destruct I as ([x d r'] & E & I). cbn in E. subst r'.
    apply LS in I. eapply appears_point; eauto. }
  unfold trackerReference. fold k. rewrite (base_of _ _ _ _ B). cbn [bind snd].
  destruct oc.
  - exists ls, (map (fun _ => 1%R) ls). split; [exact LS|]. split; [now rewrite map_length|]. split.
    + intros i l x E F. rewrite nth_error_map, E in F. injection F as <-. reflexivity.
    + rewrite P. cbn [bind restricted unfilled_init o_points o_depths only columns filled].
      f_equal. rewrite map_map. reflexivity.
  - destruct (weights_ok k kfs K _ PT) as (ws & W & LW & NW).
    exists ls, ws. split; [exact LS|]. split; [now rewrite LW, map_length|]. split.
    + intros i l x E F. destruct (NW i (l_ref l) x) as (d & HD & ->); [now rewrite nth_error_map, E|exact F|].
      exists d. split; [exact HD|apply weight_spec].
    + rewrite P. cbn [bind restricted unfilled o_points o_depths o_ptrs only columns filled].
      rewrite W. reflexivity.
  - destruct (weights_ok k kfs K _ PT) as (ws & W & LW & NW).
    exists ls, ws. split; [exact LS|]. split; [now rewrite LW, map_length|]. split.
    + intros i l x E F. destruct (NW i (l_ref l) x) as (d & HD & ->); [now rewrite nth_error_map, E|exact F|].
      exists d. split; [exact HD|apply weight_spec].
    + rewrite P. cbn [bind restricted unfilled o_points o_depths o_ptrs only columns filled].
      rewrite W. reflexivity.
Qed.

Lemma inside_all k kfs bn bf ls : listing cmap unmap w h k kfs bn bf ls -> all_inside cmap unmap w h k kfs bn bf ->
  Forall (inside (gcols (f_image bf)) (grows (f_image bf))) (map l_pos ls).
Proof.
  intros [_ L] A. apply Forall_forall. intros x X. apply in_map_iff in X. destruct X as ([y d r] & <- & I).
  apply L in I. eapply A; eauto.
Qed.

(** the whole statement *)
Lemma reference oc fromLast L kfs bn bf :
  let k := point_kind oc kfs in
  well_keyed kfs -> is_base fromLast kfs bn bf -> rigid (f_pose bf) -> directed unmap -> depths_known k kfs bn ->
  all_inside cmap unmap w h k kfs bn bf -> 1 <= L ->
  exists images depths ls ws D W,
    trackerReference cmap unmap w h oc fromLast L kfs = Ok (images, depths) /\
    imagePyramid (f_image bf) L = Ok images /\ length depths = Z.to_nat L /\
    listing cmap unmap w h k kfs bn bf ls /\ length ws = length ls /\
    (forall i l x, nth_error ls i = Some l -> nth_error ws i = Some x -> weighted oc k kfs (l_ref l) x) /\
    deposited (map l_pos ls) (map l_depth ls) ws D W /\
    (exists m, nth_error depths 0 = Some m /\ dcols m = gcols (f_image bf) /\ drows m = grows (f_image bf) /\
      forall x y, dat m x y = D x y /\ (none_in (map l_pos ls) x y -> D x y = (-1)%R)) /\
    (forall l m, (1 <= l)%nat -> nth_error depths l = Some m ->
      dcols m = gcols (f_image bf) / 2 ^ Z.of_nat l /\ drows m = grows (f_image bf) / 2 ^ Z.of_nat l /\
      forall x y, 0 <= x -> 0 <= y -> cell_value l x y D W (dat m x y)).
Proof.
  intros k; subst k; intros K B R D N A HL.
  destruct (reference_raw oc fromLast L kfs bn bf K B R D N) as (ls & ws & LS & LW & WW & E).
  destruct (depth_pyramid (f_image bf) L (map l_pos ls) (map l_depth ls) ws HL) as
    (images & depths & D' & W' & P & PI & PL & PD & P0 & PC).
  - now rewrite !map_length.
  - now rewrite map_length.
  - eapply inside_all; eauto.
  - exists images, depths, ls, ws, D', W'. rewrite E.
    split; [exact P|]. split; [exact PI|]. split; [exact PL|]. split; [exact LS|]. split; [exact LW|].
    split; [exact WW|]. split; [exact PD|]. split; [exact P0|exact PC].
Qed.

(** ** Level 0 *)

Lemma in_order_nth l : in_order l -> forall i j a b, (i < j)%nat -> nth_error l i = Some a -> nth_error l j = Some b ->
  ref_before a b.
Proof.
  induction l as [|x l IH]; intros O i j a b L A B; [destruct i; discriminate|]. destruct O as [F O].
  destruct j as [|j]; [lia|]. cbn in B. destruct i as [|i].
  - injection A as <-. rewrite Forall_forall in F. apply F. eapply nth_error_In; eauto.
  - cbn in A. eapply IH; [exact O| |exact A|exact B]. lia.
Qed.

(** the line that a pixel shows *)
Lemma shown k kfs bn bf ls x y : listing cmap unmap w h k kfs bn bf ls ->
  (exists r p d, appears cmap unmap w h k kfs bn bf r p d /\ falls p x y) ->
  exists i l, last_in (map l_pos ls) x y i /\ nth_error ls i = Some l /\ falls (l_pos l) x y.
Proof.
  intros [_ L] (r & p & d & A & F). apply L in A. apply In_nth_error in A. destruct A as [j J].
  destruct (last_or_none (map l_pos ls) x y) as [(i & I)|I].
  - destruct I as [(q & Q1 & Q2) Q3]. rewrite nth_error_map in Q1.
    destruct (nth_error ls i) as [l|] eqn:E; [|discriminate]. injection Q1 as Q1.
    exists i, l. split; [|split; [exact E|]].
    + split; [|exact Q3]. exists q. rewrite nth_error_map, E. cbn. now rewrite Q1.
    + rewrite Q1. exact Q2.
  - elim (I j p); [|exact F]. rewrite nth_error_map, J. reflexivity.
Qed.

Lemma level0 oc fromLast L kfs bn bf :
  let k := point_kind oc kfs in
  well_keyed kfs -> is_base fromLast kfs bn bf -> rigid (f_pose bf) -> directed unmap -> depths_known k kfs bn ->
  all_inside cmap unmap w h k kfs bn bf -> 1 <= L ->
  exists images depths m,
    trackerReference cmap unmap w h oc fromLast L kfs = Ok (images, depths) /\
    imagePyramid (f_image bf) L = Ok images /\ length depths = Z.to_nat L /\
    nth_error depths 0 = Some m /\ dcols m = gcols (f_image bf) /\ drows m = grows (f_image bf) /\
    forall x y,
      (dat m x y = (-1)%R /\ ~ exists r p d, appears cmap unmap w h k kfs bn bf r p d /\ falls p x y) \/
      (exists r p, appears cmap unmap w h k kfs bn bf r p (dat m x y) /\ falls p x y /\
         forall r' p' d', appears cmap unmap w h k kfs bn bf r' p' d' -> falls p' x y -> r' = r \/ ref_before r' r).
Proof.
  intros k; subst k; intros K B R D N A HL.
  destruct (reference oc fromLast L kfs bn bf K B R D N A HL) as
    (images & depths & ls & ws & D' & W' & P & PI & PL & LS & LW & WW & PD & (m & M0 & M1 & M2 & M3) & PC).
  exists images, depths, m. do 6 (split; [assumption|]). intros x y. destruct (M3 x y) as [-> M4].
  destruct (last_or_none (map l_pos ls) x y) as [(i & I)|I].
  - right. destruct (PD x y) as [_ PD']. destruct (PD' i I) as [DI _].
    rewrite nth_error_map in DI. destruct (nth_error ls i) as [[p d r]|] eqn:E; [|discriminate].
    injection DI as DI. cbn in DI. destruct I as [(q & Q1 & Q2) Q3].
    rewrite nth_error_map, E in Q1. injection Q1 as <-. cbn in Q2.
    exists r, p. destruct LS as [LO LM]. split; [|split].
    + rewrite <- DI. apply LM. eapply nth_error_In; eauto.
    + exact Q2.
    + intros r' p' d' AP F. apply LM in AP. apply In_nth_error in AP. destruct AP as [j J].
      destruct (Nat.lt_trichotomy j i) as [X|[X|X]].
      * right. eapply in_order_nth; [exact LO|exact X| |]; rewrite nth_error_map; [now rewrite J|now rewrite E].
      * subst j. left. congruence.
      * elim (Q3 j p' X); [|exact F]. rewrite nth_error_map, J. reflexivity.
  - left. split; [now apply M4|]. intros (r & p & d & AP & F). destruct LS as [LO LM].
    apply LM in AP. apply In_nth_error in AP. destruct AP as [j J].
    apply (I j p); [|exact F]. rewrite nth_error_map, J. reflexivity.
Qed.

Lemma ascending_last l n : ascending (l ++ [n]) -> Forall (fun m => m < n) l.
Proof.
  induction l as [|a l IH]; intros H; [constructor|]. cbn [app] in H. apply ascending_cons in H.
  destruct H as [H F]. constructor; [|now apply IH]. rewrite Forall_forall in F. apply F, in_or_app. right. now left.
Qed.

Lemma last_key kfs n f m g l : well_keyed kfs -> kfs = l ++ [(n, f)] -> In (m, g) kfs -> m <= n.
Proof.
  unfold well_keyed. intros K -> I. rewrite map_app in K. apply ascending_last in K.
  apply in_app_or in I. destruct I as [I|[I|[]]]; [|injection I as <- <-; lia].
  rewrite Forall_forall in K. apply (in_map fst) in I. apply K in I. cbn in I. lia.
Qed.

(** when the last keyframe is the base, its own points are on top *)
Lemma own_on_top oc L kfs bn bf images depths m i p x y :
  let k := point_kind oc kfs in
  well_keyed kfs -> is_base true kfs bn bf -> rigid (f_pose bf) -> directed unmap -> depths_known k kfs bn ->
  all_inside cmap unmap w h k kfs bn bf -> 1 <= L ->
  trackerReference cmap unmap w h oc true L kfs = Ok (images, depths) -> nth_error depths 0 = Some m ->
  nth_error (getPoints k bf) i = Some p -> b_state p = ACTIVE -> falls (b_pos p) x y ->
  exists j q, (i <= j)%nat /\ nth_error (getPoints k bf) j = Some q /\ b_state q = ACTIVE /\
    falls (b_pos q) x y /\ b_depth q = Some (dat m x y).
Proof.
  intros k; subst k; intros K B R D N A HL E M J S F.
  destruct (level0 oc true L kfs bn bf K B R D N A HL) as (im & de & m' & E' & _ & _ & M' & _ & _ & H).
  rewrite E' in E. injection E as -> ->. rewrite M in M'. injection M' as <-.
  assert (IB := base_in _ _ _ _ B).
  assert (X : b_depth p <> None) by (apply (N bn bf p IB); [eapply nth_error_In; eauto|auto]).
  destruct (b_depth p) as [d|] eqn:DP; [|contradiction].
  assert (AP : appears cmap unmap w h (point_kind oc kfs) kfs bn bf (bn, i) (b_pos p) d).
  { exists bf, p. cbn [fst snd]. split; [exact IB|]. split; [exact J|]. left. auto. }
  destruct (H x y) as [[_ NE]|([n' j] & q' & AQ & FQ & LAST)]; [elim NE; eauto|].
  destruct (LAST _ _ _ AP F) as [Y|Y].
  - injection Y as <- <-. destruct AQ as (g & q & IG & JQ & [(_ & SQ & -> & DQ)|(NQ & _)]); [|now elim NQ].
    cbn [fst snd] in *. rewrite (keyed_unique _ K _ _ _ IG IB) in JQ. exists i, q. auto.
  - destruct AQ as (g & q & IG & JQ & C). cbn [fst snd] in *.
    destruct B as (l & BE). pose proof (last_key _ _ _ _ _ _ K BE IG) as LE.
    destruct Y as [Y|[Y Z]]; cbn [fst snd] in *; [lia|]. subst n'.
    destruct C as [(_ & SQ & -> & DQ)|(NQ & _)]; [|now elim NQ].
    rewrite (keyed_unique _ K _ _ _ IG IB) in JQ. exists j, q. repeat split; auto; try lia; apply FQ.
Qed.

(** otherwise those of the last keyframe are *)
Lemma last_on_top oc L kfs l bn bf n f images depths m r p d x y :
  let k := point_kind oc kfs in
  well_keyed kfs -> kfs = l ++ [(bn, bf); (n, f)] -> rigid (f_pose bf) -> directed unmap -> depths_known k kfs bn ->
  all_inside cmap unmap w h k kfs bn bf -> 1 <= L ->
  trackerReference cmap unmap w h oc false L kfs = Ok (images, depths) -> nth_error depths 0 = Some m ->
  appears cmap unmap w h k kfs bn bf r p d -> fst r = n -> falls p x y ->
  exists j q, appears cmap unmap w h k kfs bn bf (n, j) q (dat m x y) /\ falls q x y.
Proof.
  intros k; subst k; intros K KE R D N A HL E M AP FR F.
  assert (B : is_base false kfs bn bf) by (exists l, (n, f); exact KE).
  destruct (level0 oc false L kfs bn bf K B R D N A HL) as (im & de & m' & E' & _ & _ & M' & _ & _ & H).
  rewrite E' in E. injection E as -> ->. rewrite M in M'. injection M' as <-.
  destruct (H x y) as [[_ NE]|([n' j] & q' & AQ & FQ & LAST)]; [elim NE; eauto 6|].
  assert (n' = n); [|subst n'; eauto].
  destruct (LAST _ _ _ AP F) as [Y|Y]; [rewrite Y in FR; exact FR|].
  destruct AQ as (g & q & IG & _). cbn [fst snd] in *.
  assert (KE' : kfs = (l ++ [(bn, bf)]) ++ [(n, f)]) by now rewrite <- app_assoc.
  pose proof (last_key _ _ _ _ _ _ K KE' IG) as LE. destruct Y as [Y|[Y _]]; cbn [fst] in Y; lia.
Qed.

(** ** Points on the right or lower border *)

Lemma dset_dims m p v m' : dset m p v = Ok m' -> drows m' = drows m /\ dcols m' = dcols m.
Proof. unfold dset. destruct p as [a b]. destruct (_ && _); [|discriminate]. intros H. injection H as <-. auto. Qed.

Lemma insert_out pts : forall de we, drows we = drows de -> dcols we = dcols de ->
  (exists t, In t pts /\ let (a, b) := toCvPoint (fst (fst t)) in dcols de <= a \/ drows de <= b) ->
  insert_points pts de we = UB.
Proof.
  induction pts as [|[[p d] v] pts IH]; intros de we RW CW (t & T & O); [destruct T|]. cbn [insert_points].
  destruct (dset de (toCvPoint p) d) as [de'| | | |] eqn:E;
    try (unfold dset in E; destruct (toCvPoint p); destruct (_ && _); discriminate); cbn [bind]; [|reflexivity].
  destruct (dset we (toCvPoint p) v) as [we'| | | |] eqn:E2;
    try (unfold dset in E2; destruct (toCvPoint p); destruct (_ && _); discriminate); cbn [bind]; [|reflexivity].
  pose proof (dset_dims _ _ _ _ E) as [R1 C1]. pose proof (dset_dims _ _ _ _ E2) as [R2 C2].
  apply IH; [congruence|congruence|]. exists t. split; [|rewrite R1, C1; exact O].
  destruct T as [<- |T]; [|exact T]. exfalso. cbn [fst] in O. unfold dset in E.
  destruct (toCvPoint p) as [a b]. destruct ((0 <=? a) && (a <? dcols de) && (0 <=? b) && (b <? drows de)) eqn:C; [|discriminate].
  lia.
Qed.

Lemma trunc_big q z : 0 <= z -> (inject_Z z <= q)%Q -> z <= qtrunc q.
Proof.
  intros Z0 H. unfold qtrunc. unfold Qle in H. cbn in H. rewrite Z.quot_div_nonneg; [|nia|lia].
  apply Z.div_le_lower_bound; lia.
Qed.

Lemma border_undefined oc fromLast L kfs bn bf r x d :
  let k := point_kind oc kfs in
  well_keyed kfs -> is_base fromLast kfs bn bf -> rigid (f_pose bf) -> directed unmap -> depths_known k kfs bn ->
  1 <= L -> gcols (f_image bf) = w -> grows (f_image bf) = h -> 0 <= w -> 0 <= h ->
  appears cmap unmap w h k kfs bn bf r x d -> (fst x == inject_Z w \/ snd x == inject_Z h)%Q ->
  trackerReference cmap unmap w h oc fromLast L kfs = UB.
Proof.
  intros k; subst k; intros K B R D N HL GW GH W0 H0 AP C.
  destruct (reference_raw oc fromLast L kfs bn bf K B R D N) as (ls & ws & LS & LW & WW & E).
  rewrite E. unfold depthedImagePyramid.
  destruct (pyramid_levels (f_image bf) L HL) as (images & PI & _). rewrite PI. cbn [bind].
  rewrite !map_length, LW, Nat.eqb_refl. cbn [andb].
  rewrite insert_out; [reflexivity|reflexivity|reflexivity|].
  destruct LS as [_ LM]. apply LM in AP. apply In_nth_error in AP. destruct AP as [i I].
  destruct (nth_error ws i) as [v|] eqn:V.
  - exists (x, d, v). split.
    + eapply nth_error_In with (n := i). apply combine_nth; [apply combine_nth|exact V];
        rewrite nth_error_map, I; reflexivity.
    + unfold toCvPoint. cbn [fst snd dcols drows]. rewrite GW, GH. destruct C as [C|C].
      * left. apply trunc_big; [exact W0|]. rewrite C. apply Qle_refl.
      * right. apply trunc_big; [exact H0|]. rewrite C. apply Qle_refl.
  - apply nth_error_None in V. assert (i < length ls)%nat by (apply nth_error_Some; congruence). lia.
Qed.

(** ** The coarser levels *)

Lemma coarse oc fromLast L kfs bn bf :
  let k := point_kind oc kfs in
  well_keyed kfs -> is_base fromLast kfs bn bf -> rigid (f_pose bf) -> directed unmap -> depths_known k kfs bn ->
  all_inside cmap unmap w h k kfs bn bf -> 1 <= L ->
  exists images depths ls ws D W,
    trackerReference cmap unmap w h oc fromLast L kfs = Ok (images, depths) /\
    listing cmap unmap w h k kfs bn bf ls /\ length ws = length ls /\
    (forall i l x, nth_error ls i = Some l -> nth_error ws i = Some x -> weighted oc k kfs (l_ref l) x) /\
    deposited (map l_pos ls) (map l_depth ls) ws D W /\
    (forall l m, (1 <= l)%nat -> nth_error depths l = Some m ->
      dcols m = gcols (f_image bf) / 2 ^ Z.of_nat l /\ drows m = grows (f_image bf) / 2 ^ Z.of_nat l /\
      forall x y, 0 <= x -> 0 <= y -> cell_value l x y D W (dat m x y)).
Proof.
  intros k; subst k; intros K B R D N A HL.
  destruct (reference oc fromLast L kfs bn bf K B R D N A HL) as
    (images & depths & ls & ws & D' & W' & P & PI & PL & LS & LW & WW & PD & P0 & PC).
  exists images, depths, ls, ws, D', W'. auto 10.
Qed.

Lemma rtotal_zero l x y : block_rtotal l x y (fun _ _ => 0%R) = 0%R.
Proof.
  rewrite (rtotal_ext l x y (fun _ _ => 0%R) (fun i j => (0 * (fun _ _ => 0%R) i j)%R)) by (intros; ring).
  rewrite rtotal_scale. ring.
Qed.

Lemma rtotal_ge l x y f bx by_ c : (forall i j, 0 <= f i j)%R -> in_block (Z.of_nat l) x y bx by_ -> (c <= f bx by_)%R ->
  (c <= block_rtotal l x y f)%R.
Proof.
  intros P (I1 & I2) C. unfold block_rtotal.
  assert (XP : forall n a g, (forall k, 0 <= g k)%R -> (0 <= xsum n a g)%R).
  { induction n as [|n IH]; intros a g G; cbn [xsum]; [lra|]. specialize (IH (a + 1) g G). specialize (G a). lra. }
  assert (XG : forall n a g k, (forall k, 0 <= g k)%R -> a <= k < a + Z.of_nat n -> (g k <= xsum n a g)%R).
  { induction n as [|n IH]; intros a g k G K; cbn [xsum]; [lia|].
    destruct (Z.eq_dec k a) as [-> |NE].
    - specialize (XP n (a + 1) g G). lra.
    - specialize (IH (a + 1) g k G ltac:(lia)). specialize (G a). lra. }
  eapply Rle_trans; [exact C|]. eapply Rle_trans; [|apply XG with (k := by_)].
  - apply (XG _ _ (fun i => f i by_)); [auto|]. rewrite pow2_nat. lia.
  - intros k. apply XP. auto.
  - rewrite pow2_nat. lia.
Qed.

(** no deviation is known: nothing on the coarser levels *)
Lemma restored_empty fromLast L kfs bn bf :
  length kfs = 2%nat -> no_deviation Immature kfs ->
  well_keyed kfs -> is_base fromLast kfs bn bf -> rigid (f_pose bf) -> directed unmap -> depths_known Immature kfs bn ->
  all_inside cmap unmap w h Immature kfs bn bf -> 1 <= L ->
  exists images depths, trackerReference cmap unmap w h Restored fromLast L kfs = Ok (images, depths) /\
    forall l m x y, (1 <= l)%nat -> nth_error depths l = Some m -> 0 <= x -> 0 <= y -> dat m x y = (-1)%R.
Proof.
  intros L2 ND K B R D N A HL.
  assert (KE : point_kind Restored kfs = Immature) by (cbn; now rewrite L2).
  destruct (coarse Restored fromLast L kfs bn bf) as
    (images & depths & ls & ws & D' & W' & P & LS & LW & WW & PD & PC); rewrite ?KE in *; auto.
  exists images, depths. split; [exact P|]. intros l m x y HL1 M X Y.
  destruct (PC l m HL1 M) as (_ & _ & CV). destruct (CV x y X Y) as [_ CV2]. apply CV2.
  assert (Z : forall a b, W' a b = 0%R).
  { intros a b. destruct (PD a b) as [P1 P2]. destruct (last_or_none (map l_pos ls) a b) as [(i & I)|I]; [|now apply P1].
    destruct (P2 i I) as [_ WI]. destruct (nth_error ls i) as [li|] eqn:E.
    - destruct (WW i li (W' a b) E WI) as (d & (f & p & I1 & I2 & I3) & V).
      rewrite (ND _ _ _ I1 (nth_error_In _ _ I2)) in I3. subst d. exact V.
    - apply nth_error_None in E. assert (i < length ws)%nat by (apply nth_error_Some; congruence). lia. }
  rewrite (rtotal_ext l x y W' (fun _ _ => 0%R)) by (intros; apply Z). rewrite rtotal_zero, Rabs_R0. lra.
Qed.

(** at initialisation the cells with a point are filled *)
Lemma initial_filled fromLast L kfs bn bf :
  well_keyed kfs -> is_base fromLast kfs bn bf -> rigid (f_pose bf) -> directed unmap -> depths_known Immature kfs bn ->
  all_inside cmap unmap w h Immature kfs bn bf -> 1 <= L ->
  (forall r x d, appears cmap unmap w h Immature kfs bn bf r x d -> (0 <= d)%R) ->
  exists images depths, trackerReference cmap unmap w h Initialized fromLast L kfs = Ok (images, depths) /\
    forall l m x y bx by_ r p d, (1 <= l)%nat -> nth_error depths l = Some m -> 0 <= x -> 0 <= y ->
      appears cmap unmap w h Immature kfs bn bf r p d -> falls p bx by_ -> in_block (Z.of_nat l) x y bx by_ ->
      (0 <= dat m x y)%R.
Proof.
  intros K B R D N A HL POS.
  destruct (coarse Initialized fromLast L kfs bn bf K B R D N A HL) as
    (images & depths & ls & ws & D' & W' & P & LS & LW & WW & PD & PC). cbn [point_kind] in *.
  exists images, depths. split; [exact P|]. intros l m x y bx by_ r p d HL1 M X Y AP F IB.
  destruct (PC l m HL1 M) as (_ & _ & CV). specialize (CV x y X Y).
  assert (WV : forall a b, W' a b = 0%R \/ W' a b = 1%R).
  { intros a b. destruct (PD a b) as [P1 P2]. destruct (last_or_none (map l_pos ls) a b) as [(i & I)|I]; [|left; now apply P1].
    right. destruct (P2 i I) as [_ WI]. destruct (nth_error ls i) as [li|] eqn:E.
    - exact (WW i li (W' a b) E WI).
    - apply nth_error_None in E. assert (i < length ws)%nat by (apply nth_error_Some; congruence). lia. }
  assert (W1 : W' bx by_ = 1%R).
  { destruct (shown Immature kfs bn bf ls bx by_ LS) as (i & li & LI & E & _); [eauto 6|].
    destruct (PD bx by_) as [_ P2]. destruct (P2 i LI) as [_ WI]. exact (WW i li _ E WI). }
  assert (T : (1 <= block_rtotal l x y W')%R).
  { apply rtotal_ge with (bx := bx) (by_ := by_); [|exact IB|rewrite W1; lra].
    intros a b. destruct (WV a b) as [-> | ->]; lra. }
  assert (UB : exists hi, forall i q e, nth_error (map l_pos ls) i = Some q -> nth_error (map l_depth ls) i = Some e ->
             (0 <= e <= hi)%R).
  { assert (G : Forall (fun li => (0 <= l_depth li)%R) ls).
    { apply Forall_forall. intros [q e r'] I. apply LS in I. eapply POS; eauto. }
    clear - G. induction ls as [|li ls IH].
    - exists 0%R. intros i q e E. destruct i; discriminate.
    - inversion G; subst. destruct (IH H2) as (hi & HI). exists (Rmax (l_depth li) hi). intros [|i] q e E1 E2.
      + injection E2 as <-. split; [assumption|apply Rmax_l].
      + specialize (HI i q e E1 E2). pose proof (Rmax_r (l_depth li) hi). lra. }
  destruct UB as (hi & HI).
  destruct (depth_between (map l_pos ls) (map l_depth ls) ws D' W' l x y (dat m x y) 0 hi PD CV) as [V _].
  - apply Forall_forall. intros v V. apply In_nth_error in V. destruct V as [i V].
    destruct (nth_error ls i) as [li|] eqn:E; [rewrite (WW i li v E V); lra|].
    apply nth_error_None in E. assert (i < length ws)%nat by (apply nth_error_Some; congruence). lia.
  - lra.
  - intros i q e E1 E2 _. eapply HI; eauto.
  - exact V.
Qed.

End Reference.
