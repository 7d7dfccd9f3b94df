(** Proofs for StereoModel. *)
From Coq Require Import List ZArith Bool QArith Lia ZifyBool Permutation Sorted.
From Verif Require Import Outcome Dbl StereoModel StereoSpec.
Import ListNotations.
Open Scope Z_scope.
Open Scope outcome_scope.

(** * Still matches *)
Lemma stable_partition_ok {A} (p : A -> outcome bool) l y n :
  stable_partition p l = Ok (y, n) ->
  interleaving y n l /\ (forall a, In a y -> p a = Ok true) /\ (forall a, In a n -> p a = Ok false).
Proof.
  revert y n; induction l as [|a l IH]; cbn [stable_partition]; intros y n H.
  - injection H as <- <-. split; [constructor|]. split; intros ? [].
  - apply bind_ok_inv in H as (b & Hb & H). apply bind_ok_inv in H as ([y' n'] & Hr & H).
    destruct (IH _ _ Hr) as (I & Y & N).
    destruct b; injection H as <- <-.
    + split; [constructor; exact I|]. split; [|exact N].
      intros x [<-|Hx]; auto.
    + split; [constructor; exact I|]. split; [exact Y|].
      intros x [<-|Hx]; auto.
Qed.

Lemma stable_partition_total {A} (p : A -> outcome bool) l :
  (forall a, In a l -> is_ok (p a)) -> is_ok (stable_partition p l).
Proof.
  induction l as [|a l IH]; cbn [stable_partition]; intros H.
  - eexists; reflexivity.
  - destruct (H a (or_introl eq_refl)) as [b Hb]. rewrite Hb. cbn [bind].
    destruct IH as [[y n] Hr]; [intros x Hx; apply H; right; exact Hx|].
    rewrite Hr. cbn [bind]. eexists; reflexivity.
Qed.

Lemma vget_ok {A} (v : list A) i a :
  vget v i = Ok a <-> 0 <= i /\ nth_error v (Z.to_nat i) = Some a.
Proof.
  unfold vget. destruct (i <? 0) eqn:L.
  - split; [discriminate|lia].
  - destruct (nth_error v (Z.to_nat i)) eqn:N; split.
    + intros [= <-]. split; [lia|reflexivity].
    + intros [_ [= <-]]. reflexivity.
    + discriminate.
    + intros [_ H]; discriminate.
Qed.

Lemma vget_total {A} (v : list A) i : 0 <= i < Z.of_nat (length v) -> is_ok (vget v i).
Proof.
  intros H. destruct (nth_error v (Z.to_nat i)) as [a|] eqn:N.
  - exists a. apply vget_ok. split; [lia|exact N].
  - apply nth_error_None in N. lia.
Qed.

Lemma moved_spec t kp0 kp1 m b :
  moved t kp0 kp1 m = Ok b ->
  exists p q, nth_error kp0 (Z.to_nat (trainIdx m)) = Some p /\
              nth_error kp1 (Z.to_nat (queryIdx m)) = Some q /\
              (b = true <-> farther_than t p q).
Proof.
  unfold moved. intros H. apply bind_ok_inv in H as (p & Hp & H).
  apply bind_ok_inv in H as (q & Hq & H).
  apply vget_ok in Hp as [_ Hp]. apply vget_ok in Hq as [_ Hq].
  exists p, q. split; [exact Hp|]. split; [exact Hq|].
  injection H as <-. unfold farther_than.
  rewrite orb_true_iff, !negb_true_iff.
  assert (X : forall x y : Q, Qle_bool x y = false <-> (y < x)%Q).
  { intros x y. rewrite <- not_true_iff_false, Qle_bool_iff. split; [apply Qnot_le_lt|].
    intros L C. apply (Qlt_not_le _ _ L C). }
  rewrite !X. tauto.
Qed.

Lemma filter_out_still_ok t kp0 kp1 ms mv st :
  filter_out_still t kp0 kp1 ms = Ok (mv, st) ->
  interleaving mv st ms /\
  (forall m, In m ms -> exists p q,
     nth_error kp0 (Z.to_nat (trainIdx m)) = Some p /\
     nth_error kp1 (Z.to_nat (queryIdx m)) = Some q /\
     (In m mv -> farther_than t p q) /\ (In m st -> ~ farther_than t p q)).
Proof.
  intros H. apply stable_partition_ok in H as (I & Y & N).
  split; [exact I|]. intros m Hm.
  assert (In m mv \/ In m st) as D.
  { clear -I Hm. induction I as [|x a b l I IH|x a b l I IH].
    - left; exact Hm.
    - destruct Hm as [<-|Hm]; [left; left; reflexivity|]. destruct (IH Hm); [left; right|right]; auto.
    - destruct Hm as [<-|Hm]; [right; left; reflexivity|]. destruct (IH Hm); [left|right; right]; auto. }
  assert (exists b, moved t kp0 kp1 m = Ok b) as [b Hb] by (destruct D; eauto).
  destruct (moved_spec _ _ _ _ _ Hb) as (p & q & P & Q & S).
  exists p, q. split; [exact P|]. split; [exact Q|]. split; intros HI.
  - apply S. specialize (Y m HI). congruence.
  - specialize (N m HI). intros F. apply S in F. congruence.
Qed.

Lemma filter_out_still_total t kp0 kp1 ms :
  (forall m, In m ms -> 0 <= trainIdx m < Z.of_nat (length kp0) /\
                        0 <= queryIdx m < Z.of_nat (length kp1)) ->
  is_ok (filter_out_still t kp0 kp1 ms).
Proof.
  intros H. apply stable_partition_total. intros m Hm. destruct (H m Hm) as [A B].
  unfold moved. destruct (vget_total _ _ A) as [p Hp]. destruct (vget_total _ _ B) as [q Hq].
  rewrite Hp, Hq. cbn [bind]. eexists; reflexivity.
Qed.

(** * Motion extraction *)
Section Est.
Variables E M : Type.
Variable mid : M.
Variable inlierE : E -> nat -> bool.
Variable front : M -> nat -> bool.
Variable solutions : E -> list M.
Variable toEssential : M -> E.

Definition xfold l := fun (acc : M * list nat * Z) sol =>
    let '(bestSol, bestInds, bestNum) := acc in
    let cur := find_inliers_motion front sol l in
    if Z.of_nat (length cur) >? bestNum then (sol, cur, Z.of_nat (length cur)) else acc.

Lemma xfold_spec l sols : forall m0 i0 k0,
  k0 = Z.of_nat (length i0) ->
  forall m i k, fold_left (xfold l) sols (m0, i0, k0) = (m, i, k) ->
  k = Z.of_nat (length i) /\ k0 <= k /\
  (forall s, In s sols -> Z.of_nat (length (filter (front s) l)) <= k) /\
  ((m = m0 /\ i = i0) \/ (In m sols /\ i = filter (front m) l /\ k0 < k)).
Proof.
  induction sols as [|s sols IH]; intros m0 i0 k0 Hk m i k H; cbn [fold_left] in H.
  - injection H as <- <- <-. split; [exact Hk|]. split; [lia|].
    split; [intros ? []|]. left; auto.
  - cbn [xfold] in H. unfold find_inliers_motion in H.
    destruct (Z.of_nat (length (filter (front s) l)) >? k0) eqn:G.
    + apply IH in H; [|reflexivity]. destruct H as (A & B & C & D).
      split; [exact A|]. split; [lia|]. split.
      * intros x [<-|Hx]; [lia|apply C; exact Hx].
      * right. destruct D as [[-> ->]|(D1 & D2 & D3)].
        -- split; [left; reflexivity|]. split; [reflexivity|lia].
        -- split; [right; exact D1|]. split; [exact D2|lia].
    + apply IH in H; [|exact Hk]. destruct H as (A & B & C & D).
      split; [exact A|]. split; [lia|]. split.
      * intros x [<-|Hx]; [lia|apply C; exact Hx].
      * destruct D as [D|(D1 & D2 & D3)]; [left; exact D|right].
        split; [right; exact D1|]. split; [exact D2|exact D3].
Qed.

Lemma extract_spec e l m i k :
  extract_motion mid front solutions e l = (m, i, k) ->
  k = Z.of_nat (length i) /\
  (forall s, In s (solutions e) -> Z.of_nat (length (filter (front s) l)) <= k) /\
  ((m = mid /\ i = []) \/ (In m (solutions e) /\ i = filter (front m) l /\ 0 < k)).
Proof.
  intros H. apply (xfold_spec l (solutions e) mid [] 0 eq_refl) in H.
  destruct H as (A & B & C & D). auto.
Qed.

Lemma filter_len_le {A} (p : A -> bool) l : (length (filter p l) <= length l)%nat.
Proof. induction l as [|a l IH]; cbn [filter]; [lia|]. destruct (p a); cbn [length]; lia. Qed.

Lemma extract_len e l m i k :
  extract_motion mid front solutions e l = (m, i, k) -> 0 <= k <= Z.of_nat (length l).
Proof.
  intros H. apply extract_spec in H as (A & _ & [[_ ->]|(_ & -> & _)]).
  - cbn [length] in A. lia.
  - pose proof (filter_len_le (front m) l). lia.
Qed.

Lemma filter_filter {A} (p q : A -> bool) l :
  filter p (filter q l) = filter (fun x => q x && p x) l.
Proof.
  induction l as [|a l IH]; cbn [filter]; [reflexivity|].
  destruct (q a) eqn:Q; cbn [filter andb]; [destruct (p a)|]; rewrite ?IH; reflexivity.
Qed.

(** * Best essential matrix of a sample *)
Definition efold n := fun (acc : Z * E * list nat) e =>
    let '(maxI, maxE, inds) := acc in
    let cur := find_inliers_essential inlierE n e in
    if Z.of_nat (length cur) >? maxI then (Z.of_nat (length cur), e, cur) else acc.

Lemma efold_spec n found : forall k0 e0 i0 k e i,
  0 <= k0 ->
  fold_left (efold n) found (k0, e0, i0) = (k, e, i) ->
  k0 <= k /\
  ((k = k0 /\ e = e0 /\ i = i0 /\ forall x, In x found -> Z.of_nat (support inlierE n x) <= k0) \/
   (k0 < k /\ k = Z.of_nat (support inlierE n e) /\ i = filter (inlierE e) (seq 0 n) /\
    first_best inlierE n found e)).
Proof.
  induction found as [|x found IH]; intros k0 e0 i0 k e i K H; cbn [fold_left] in H.
  - injection H as <- <- <-. split; [lia|]. left. repeat split; auto. intros ? [].
  - cbn [efold] in H. unfold find_inliers_essential in H.
    change (length (filter (inlierE x) (seq 0 n))) with (support inlierE n x) in H.
    destruct (Z.of_nat (support inlierE n x) >? k0) eqn:G.
    + apply IH in H; [|lia]. destruct H as (A & [(B1 & B2 & B3 & B4)|(B1 & B2 & B3 & B4)]).
      * split; [lia|]. right. subst e i. split; [lia|]. split; [lia|]. split; [reflexivity|].
        exists [], found. split; [reflexivity|]. split; [lia|]. split; [intros ? []|].
        intros y Hy. specialize (B4 y Hy). lia.
      * split; [lia|]. right. split; [lia|]. split; [exact B2|]. split; [exact B3|].
        destruct B4 as (a & b & -> & F1 & F2 & F3).
        exists (x :: a), b. split; [reflexivity|]. split; [exact F1|]. split; [|exact F3].
        intros y [<-|Hy]; [lia|apply F2; exact Hy].
    + apply IH in H; [|lia]. destruct H as (A & [(B1 & B2 & B3 & B4)|(B1 & B2 & B3 & B4)]).
      * split; [lia|]. left. repeat split; auto. intros y [<-|Hy]; [lia|auto].
      * split; [lia|]. right. split; [lia|]. split; [exact B2|]. split; [exact B3|].
        destruct B4 as (a & b & -> & F1 & F2 & F3).
        exists (x :: a), b. split; [reflexivity|]. split; [exact F1|]. split; [|exact F3].
        intros y [<-|Hy]; [lia|apply F2; exact Hy].
Qed.

Lemma best_essential_spec n res0 best found k e i :
  best_essential inlierE n res0 best found = (k, e, i) ->
  (i = best /\ forall x, In x found -> support inlierE n x = 0%nat) \/
  (i = filter (inlierE e) (seq 0 n) /\ first_best inlierE n found e).
Proof.
  intros H. apply (efold_spec n found 0 res0 best) in H; [|lia].
  destruct H as (_ & [(B1 & B2 & B3 & B4)|(B1 & B2 & B3 & B4)]).
  - left. split; [exact B3|]. intros x Hx. specialize (B4 x Hx). lia.
  - right. auto.
Qed.

Lemma first_best_unique n found e e' :
  first_best inlierE n found e -> first_best inlierE n found e' -> e = e'.
Proof.
  intros (a & b & -> & P & A & B) (a' & b' & H & P' & A' & B').
  revert a' H A'. induction a as [|x a IH]; intros a' H A'; destruct a' as [|x' a'];
    cbn [app] in H.
  - injection H as <- _. reflexivity.
  - injection H as -> ->. specialize (A' x' (or_introl eq_refl)).
    specialize (B e' (in_elt _ _ _)). lia.
  - injection H as <- <-. specialize (A x (or_introl eq_refl)).
    specialize (B' e (in_elt _ _ _)). lia.
  - injection H as <- H. apply (IH (fun y Hy => A y (or_intror Hy)) a' H).
    intros y Hy. apply A'. right. exact Hy.
Qed.

(** * The sample *)
Lemma zinsert_perm x l : Permutation (x :: l) (zinsert x l).
Proof.
  induction l as [|y l IH]; cbn [zinsert]; [reflexivity|].
  destruct (x <=? y); [reflexivity|].
  rewrite perm_swap. apply perm_skip. exact IH.
Qed.
Lemma zsort_perm l : Permutation l (zsort l).
Proof.
  induction l as [|x l IH]; cbn [zsort fold_right]; [constructor|].
  rewrite <- zinsert_perm. apply perm_skip. exact IH.
Qed.

Lemma zinsert_sorted x l : StronglySorted Z.le l -> StronglySorted Z.le (zinsert x l).
Proof.
  induction l as [|y l IH]; intros S; cbn [zinsert].
  - constructor; constructor.
  - inversion S as [|? ? S' F]; subst. destruct (x <=? y) eqn:L.
    + constructor; [exact S|]. constructor; [lia|].
      eapply Forall_impl; [|exact F]. cbn. lia.
    + constructor; [apply IH; exact S'|].
      apply Forall_forall. intros z Hz.
      apply (Permutation_in _ (Permutation_sym (zinsert_perm x l))) in Hz.
      destruct Hz as [<-|Hz]; [lia|]. rewrite Forall_forall in F. apply F. exact Hz.
Qed.
Lemma zsort_sorted l : StronglySorted Z.le (zsort l).
Proof.
  induction l as [|x l IH]; cbn [zsort fold_right]; [constructor|].
  apply zinsert_sorted. exact IH.
Qed.

Lemma is_repeated_false l : StronglySorted Z.le l -> is_repeated l = false -> increasing_Z l.
Proof.
  induction l as [|a [|b l] IH]; intros S H; cbn [increasing_Z]; auto.
  cbn [is_repeated] in H. apply orb_false_iff in H as [H1 H2].
  inversion S as [|? ? S' F]; subst. inversion F; subst. split; [lia|]. apply IH; auto.
Qed.

Lemma increasing_lt a l : increasing_Z (a :: l) -> forall x, In x l -> a < x.
Proof.
  revert a; induction l as [|b l IH]; intros a H x Hx; [destruct Hx|].
  destruct H as [H1 H2]. destruct Hx as [<-|Hx]; [exact H1|].
  specialize (IH b H2 x Hx). lia.
Qed.
Lemma increasing_tail a l : increasing_Z (a :: l) -> increasing_Z l.
Proof. destruct l as [|b l]; cbn; tauto. Qed.

Lemma increasing_not_repeated l : increasing_Z l -> is_repeated l = false.
Proof.
  induction l as [|a [|b l] IH]; intros S; cbn [is_repeated]; auto.
  destruct S as [S1 S2]. apply orb_false_iff. split; [lia|]. apply IH. exact S2.
Qed.

Lemma increasing_unique l l' :
  increasing_Z l -> increasing_Z l' -> Permutation l l' -> l = l'.
Proof.
  revert l'; induction l as [|a l IH]; intros l' I I' P.
  - apply Permutation_nil in P. auto.
  - destruct l' as [|b l']; [apply Permutation_sym, Permutation_nil in P; discriminate|].
    assert (a = b) as <-.
    { assert (In a (b :: l')) as [Ha|Ha] by (eapply Permutation_in; [exact P|left; reflexivity]);
        [auto|].
      assert (In b (a :: l)) as [Hb|Hb]
        by (eapply Permutation_in; [apply Permutation_sym; exact P|left; reflexivity]); [auto|].
      pose proof (increasing_lt _ _ I' _ Ha). pose proof (increasing_lt _ _ I _ Hb). lia. }
    f_equal. apply IH.
    + apply increasing_tail in I. exact I.
    + apply increasing_tail in I'. exact I'.
    + apply Permutation_cons_inv in P. exact P.
Qed.

Lemma increasing_sorted l : increasing_Z l -> StronglySorted Z.le l.
Proof.
  induction l as [|a l IH]; intros I; constructor.
  - apply IH. apply increasing_tail in I. exact I.
  - apply Forall_forall. intros x Hx. pose proof (increasing_lt _ _ I _ Hx). lia.
Qed.

Lemma sorted_unique l l' :
  StronglySorted Z.le l -> StronglySorted Z.le l' -> Permutation l l' -> l = l'.
Proof.
  revert l'; induction l as [|a l IH]; intros l' I I' P.
  - apply Permutation_nil in P. auto.
  - destruct l' as [|b l']; [apply Permutation_sym, Permutation_nil in P; discriminate|].
    inversion I as [|? ? I1 I2]; inversion I' as [|? ? I1' I2']; subst.
    rewrite Forall_forall in I2, I2'.
    assert (a = b) as <-.
    { assert (In a (b :: l')) as [Ha|Ha] by (eapply Permutation_in; [exact P|left; reflexivity]);
        [auto|].
      assert (In b (a :: l)) as [Hb|Hb]
        by (eapply Permutation_in; [apply Permutation_sym; exact P|left; reflexivity]); [auto|].
      specialize (I2 _ Hb). specialize (I2' _ Ha). lia. }
    f_equal. apply IH; auto. apply Permutation_cons_inv in P. exact P.
Qed.

Lemma sample_sorted draw h : Permutation draw h -> increasing_Z h -> zsort draw = h.
Proof.
  intros P I. apply sorted_unique.
  - apply zsort_sorted.
  - apply increasing_sorted. exact I.
  - rewrite <- (zsort_perm draw). exact P.
Qed.

(** * One iteration *)
Variable T : Type.
Variable q0 : T.
Variable ratio : Z -> T.
Variable gtb : T -> T -> bool.
Variable newIter : T -> outcome Z.
Variable runMax : bool.
Variable n : nat.
Variable draws : nat -> list Z.
Variable est : list Z -> list E.

Notation evaluates := (evaluates inlierE n draws est).

Definition inv (it : nat) (st : rstate E M T) : Prop :=
  -1 <= rs_bestInliers st /\
  Z.of_nat (length (rs_inl st)) = Z.max 0 (rs_bestInliers st) /\
  Z.of_nat (length (rs_best st)) <= Z.max 0 (rs_bestInliers st) /\
  rs_bestInliers st <= Z.of_nat n /\
  ((rs_inl st = [] /\ rs_bestMotion st = mid) \/
   (exists it' e, (it' < it)%nat /\ evaluates it' e /\ In (rs_bestMotion st) (solutions e) /\
      rs_inl st = consensus inlierE front n e (rs_bestMotion st) /\ rs_inl st <> [])) /\
  (forall it' e m, (it' < it)%nat -> evaluates it' e -> In m (solutions e) ->
     (length (consensus inlierE front n e m) <= length (rs_inl st))%nat).

Lemma consensus_filter e m :
  filter (front m) (filter (inlierE e) (seq 0 n)) = consensus inlierE front n e m.
Proof. unfold consensus. apply filter_filter. Qed.

Lemma step_inv it st st' :
  inv it st ->
  ransac_step mid inlierE front solutions ratio gtb newIter runMax n (draws it) est st = Ok st' ->
  inv (S it) st'.
Proof.
  intros (I1 & I2 & I3 & I4 & I5 & I6) H. unfold ransac_step in H.
  destruct (is_repeated (zsort (draws it))) eqn:R.
  - injection H as <-. split; [exact I1|]. split; [exact I2|]. split; [exact I3|].
    split; [exact I4|]. split.
    + destruct I5 as [D|(it' & e & L & D)]; [left; exact D|right].
      exists it', e. split; [lia|exact D].
    + intros it' e m L Ev Hm. assert (it' < it \/ it' = it)%nat as [L'| ->] by lia.
      * apply (I6 it' e m L' Ev Hm).
      * destruct Ev as (h & P & Inc & _). apply increasing_not_repeated in Inc as N.
        rewrite (sample_sorted _ _ P Inc) in R. congruence.
  - set (h := zsort (draws it)) in *. set (found := est h) in *.
    set (res0 := match found with e :: _ => e | [] => rs_res0 st end) in *.
    destruct (best_essential inlierE n res0 (rs_best st) found) as [[k0 maxE] inds0] eqn:BE.
    destruct (extract_motion mid front solutions maxE inds0) as [[cm inds] k] eqn:X.
    pose proof (extract_spec _ _ _ _ _ X) as (X1 & X2 & X3).
    pose proof (extract_len _ _ _ _ _ X) as X4.
    apply bind_ok_inv in H as (iterNum & _ & H). injection H as <-.
    assert (Hev : forall e, evaluates it e -> first_best inlierE n found e).
    { intros e (h' & P & Inc & F). rewrite <- (sample_sorted _ _ P Inc) in F. exact F. }
    apply best_essential_spec in BE as [[-> Z]|[-> F]].
    + (* nothing found: the stale list cannot win, except at first *)
      assert (Hno : forall e, ~ evaluates it e).
      { intros e Ev. apply Hev in Ev as (a & b & Hf & Hp & _).
        rewrite (Z e) in Hp by (rewrite Hf; apply in_elt). lia. }
      destruct (rs_bestInliers st <? k) eqn:B; unfold inv; cbn [rs_bestInliers rs_inl rs_best rs_bestMotion].
      * assert (k = 0) by lia. assert (inds = []) as -> by (destruct inds; [reflexivity|cbn in X1; lia]).
        split; [lia|]. split; [cbn [length]; lia|]. split; [lia|]. split; [lia|]. split.
        -- left. split; [reflexivity|]. destruct X3 as [[-> _]|(_ & _ & ?)]; [reflexivity|lia].
        -- intros it' e m L Ev Hm. assert (it' < it \/ it' = it)%nat as [L'| ->] by lia.
           ++ specialize (I6 it' e m L' Ev Hm). cbn [length]. lia.
           ++ destruct (Hno e Ev).
      * split; [exact I1|]. split; [exact I2|]. split; [lia|]. split; [exact I4|]. split.
        -- destruct I5 as [D|(it' & e & L & D)]; [left; exact D|right].
           exists it', e. split; [lia|exact D].
        -- intros it' e m L Ev Hm. assert (it' < it \/ it' = it)%nat as [L'| ->] by lia.
           ++ apply (I6 it' e m L' Ev Hm).
           ++ destruct (Hno e Ev).
    + (* a matrix with support *)
      assert (Ev0 : evaluates it maxE).
      { exists h. split; [apply zsort_perm|]. split; [|exact F].
        apply is_repeated_false; [apply zsort_sorted|exact R]. }
      assert (Hk : k <= Z.of_nat n).
      { pose proof (filter_len_le (inlierE maxE) (seq 0 n)). rewrite seq_length in H. lia. }
      assert (Hdom : forall e m, evaluates it e -> In m (solutions e) ->
                Z.of_nat (length (consensus inlierE front n e m)) <= k).
      { intros e m Ev Hm. rewrite (first_best_unique _ _ _ _ (Hev e Ev) F) in *.
        rewrite <- consensus_filter. apply X2. exact Hm. }
      destruct (rs_bestInliers st <? k) eqn:B; unfold inv; cbn [rs_bestInliers rs_inl rs_best rs_bestMotion].
      * split; [lia|]. split; [lia|]. split; [lia|]. split; [lia|]. split.
        -- destruct X3 as [[-> ->]|(Y1 & Y2 & Y3)]; [left; auto|right].
           exists it, maxE. split; [lia|]. split; [exact Ev0|]. split; [exact Y1|].
           split; [rewrite Y2; apply consensus_filter|]. intros ->. cbn in X1. lia.
        -- intros it' e m L Ev Hm. assert (it' < it \/ it' = it)%nat as [L'| ->] by lia.
           ++ specialize (I6 it' e m L' Ev Hm). lia.
           ++ specialize (Hdom e m Ev Hm). lia.
      * split; [exact I1|]. split; [exact I2|]. split; [lia|]. split; [exact I4|]. split.
        -- destruct I5 as [D|(it' & e & L & D)]; [left; exact D|right].
           exists it', e. split; [lia|exact D].
        -- intros it' e m L Ev Hm. assert (it' < it \/ it' = it)%nat as [L'| ->] by lia.
           ++ apply (I6 it' e m L' Ev Hm).
           ++ specialize (Hdom e m Ev Hm). lia.
Qed.

Lemma loop_inv fuel : forall it st st' it',
  inv it st ->
  ransac_loop mid inlierE front solutions ratio gtb newIter runMax fuel n draws est it st
    = Ok (st', it') ->
  inv it' st'.
Proof.
  induction fuel as [|f IH]; intros it st st' it' I H; cbn [ransac_loop] in H;
    destruct (Z.of_nat it <? rs_iterNum st); try discriminate;
    try (injection H as <- <-; exact I).
  apply bind_ok_inv in H as (st1 & H1 & H). apply (IH _ _ _ _ (step_inv _ _ _ I H1) H).
Qed.

Lemma init_inv maxIter junk : inv 0 (ransac_init mid q0 maxIter junk []).
Proof.
  unfold inv, ransac_init; cbn. split; [lia|]. split; [lia|]. split; [lia|]. split; [lia|].
  split; [left; auto|]. lia.
Qed.

(** Why the loop ends. *)
Definition rinv (maxIter : Z) (st : rstate E M T) : Prop :=
  rs_iterNum st = maxIter \/
  (runMax = false /\ exists k, 0 <= k <= Z.of_nat (length (rs_inl st)) /\
     newIter (ratio k) = Ok (rs_iterNum st)).

Lemma step_rinv maxIter it st st' :
  inv it st -> rinv maxIter st ->
  ransac_step mid inlierE front solutions ratio gtb newIter runMax n (draws it) est st = Ok st' ->
  rinv maxIter st'.
Proof.
  intros I R H. pose proof (step_inv _ _ _ I H) as I'.
  destruct I as (_ & I2 & _). destruct I' as (_ & I2' & _).
  unfold ransac_step in H.
  destruct (is_repeated _); [injection H as <-; exact R|].
  set (found := est (zsort (draws it))) in *.
  set (res0 := match found with e :: _ => e | [] => rs_res0 st end) in *.
  destruct (best_essential inlierE n res0 (rs_best st) found) as [[k0 maxE] inds0] eqn:BE.
  destruct (extract_motion mid front solutions maxE inds0) as [[cm inds] k] eqn:X.
  pose proof (extract_len _ _ _ _ _ X) as X4.
  apply bind_ok_inv in H as (iterNum & HI & H).
  assert (Hk : k <= Z.of_nat (length (rs_inl st'))).
  { rewrite I2'. injection H as <-. cbn [rs_bestInliers].
    destruct (rs_bestInliers st <? k) eqn:B; lia. }
  assert (Hg : Z.of_nat (length (rs_inl st)) <= Z.of_nat (length (rs_inl st'))).
  { rewrite I2, I2'. injection H as <-. cbn [rs_bestInliers].
    destruct (rs_bestInliers st <? k) eqn:B; lia. }
  assert (Hn : rs_iterNum st' = iterNum) by (injection H as <-; reflexivity).
  clear H. unfold rinv. rewrite Hn.
  assert (Old : iterNum = rs_iterNum st -> iterNum = maxIter \/
    (runMax = false /\ exists k, 0 <= k <= Z.of_nat (length (rs_inl st')) /\
     newIter (ratio k) = Ok iterNum)).
  { intros ->. destruct R as [R|(R1 & k1 & R2 & R3)]; [left; exact R|right].
    split; [exact R1|]. exists k1. split; [lia|exact R3]. }
  destruct (gtb (ratio k) (rs_q st)).
  - apply bind_ok_inv in HI as (z & Hz & HI). injection HI as <-.
    destruct runMax eqn:RM; [apply Old; reflexivity|].
    right. split; [reflexivity|]. exists k. split; [lia|exact Hz].
  - injection HI as <-. apply Old. reflexivity.
Qed.

Lemma loop_rinv maxIter fuel : forall it st st' it',
  inv it st -> rinv maxIter st ->
  ransac_loop mid inlierE front solutions ratio gtb newIter runMax fuel n draws est it st
    = Ok (st', it') ->
  rinv maxIter st' /\ rs_iterNum st' <= Z.of_nat it'.
Proof.
  induction fuel as [|f IH]; intros it st st' it' I R H; cbn [ransac_loop] in H;
    destruct (Z.of_nat it <? rs_iterNum st) eqn:C; try discriminate;
    try (injection H as <- <-; split; [exact R|lia]).
  apply bind_ok_inv in H as (st1 & H1 & H).
  apply (IH _ _ _ _ (step_inv _ _ _ I H1) (step_rinv _ _ _ _ I R H1) H).
Qed.

Lemma loop_count fuel : forall it st st' it',
  ransac_loop mid inlierE front solutions ratio gtb newIter runMax fuel n draws est it st
    = Ok (st', it') -> (it' <= it + fuel)%nat.
Proof.
  induction fuel as [|f IH]; intros it st st' it' H; cbn [ransac_loop] in H;
    destruct (Z.of_nat it <? rs_iterNum st) eqn:C; try discriminate;
    try (injection H as <- <-; lia).
  apply bind_ok_inv in H as (st1 & H1 & H). apply IH in H. lia.
Qed.

(** * The whole search *)
Notation coarse maxIter junk g :=
  (find_coarse mid inlierE front solutions toEssential q0 ratio gtb newIter runMax maxIter n junk
     draws est g).

Lemma coarse_ok maxIter junk r g :
  coarse maxIter junk (sge_new mid) = Ok (r, g) ->
  (0 < n)%nat /\ g_coarse g = true /\ g_precise g = false /\
  exists done st,
    ransac_loop mid inlierE front solutions ratio gtb newIter runMax (Z.to_nat maxIter) n draws est
      0 (ransac_init mid q0 maxIter junk []) = Ok (st, done) /\ inv done st /\
    g_motion g = rs_bestMotion st /\
    extract_motion mid front solutions (toEssential (rs_bestMotion st)) (rs_inl st)
      = (r, g_inl g, Z.of_nat (length (g_inl g))).
Proof.
  unfold find_coarse. cbn [sge_new g_coarse g_precise orb g_inl].
  destruct (n =? 0)%nat eqn:N; [discriminate|]. intros H.
  apply bind_ok_inv in H as ([st done] & HL & H).
  destruct (extract_motion mid front solutions (toEssential (rs_bestMotion st)) (rs_inl st))
    as [[r' i] k] eqn:X.
  injection H as <- <-. cbn [g_coarse g_precise g_motion g_inl].
  split; [lia|]. split; [reflexivity|]. split; [reflexivity|].
  exists done, st. split; [exact HL|]. split; [apply (loop_inv _ _ _ _ _ (init_inv _ _) HL)|].
  split; [reflexivity|]. pose proof (extract_spec _ _ _ _ _ X) as (-> & _). exact X.
Qed.

(** The consensus kept. *)
Lemma coarse_consensus maxIter junk r g :
  coarse maxIter junk (sge_new mid) = Ok (r, g) ->
  exists done kept,
    Z.of_nat done <= Z.max 0 maxIter /\
    (maxIter <= Z.of_nat done \/
     (runMax = false /\ exists k z, 0 <= k <= Z.of_nat (length kept) /\
        newIter (ratio k) = Ok z /\ z <= Z.of_nat done)) /\
    ((kept = [] /\ g_motion g = mid) \/
     (exists it e, (it < done)%nat /\ evaluates it e /\ In (g_motion g) (solutions e) /\
        kept = consensus inlierE front n e (g_motion g) /\ kept <> [])) /\
    (forall it e m, (it < done)%nat -> evaluates it e -> In m (solutions e) ->
        (length (consensus inlierE front n e m) <= length kept)%nat) /\
    ((r = mid /\ g_inl g = []) \/
     (In r (solutions (toEssential (g_motion g))) /\ g_inl g = filter (front r) kept /\
      g_inl g <> [])) /\
    (forall s, In s (solutions (toEssential (g_motion g))) ->
        (length (filter (front s) kept) <= length (g_inl g))%nat).
Proof.
  intros H. apply coarse_ok in H as (N & _ & _ & done & st & HL & I & Hm & X).
  exists done, (rs_inl st). rewrite Hm.
  destruct (loop_rinv maxIter _ _ _ _ _ (init_inv _ _) (or_introl eq_refl) HL) as [R LN].
  pose proof (loop_count _ _ _ _ _ HL) as LC.
  destruct I as (I1 & I2 & I3 & I4 & I5 & I6).
  split; [lia|]. split.
  { destruct R as [R|(R1 & k & R2 & R3)]; [left; lia|right].
    split; [exact R1|]. exists k, (rs_iterNum st). auto. }
  apply extract_spec in X as (_ & X2 & X3).
  split.
  { destruct I5 as [D|(it & e & L & Ev & D & Q & NE)]; [left; exact D|right].
    exists it, e. auto. }
  split; [exact I6|]. split.
  - destruct X3 as [D|(A & B & C)]; [left; exact D|right]. split; [exact A|].
    split; [exact B|]. intros N0. rewrite N0 in C. cbn in C. lia.
  - intros s Hs. specialize (X2 s Hs). lia.
Qed.

(** The number of iterations. *)
Definition numbers := fun k z => newIter (ratio k) = Ok z.

Definition linv (maxIter : Z) (st : rstate E M T) : Prop :=
  rs_iterNum st <= maxIter /\ (rs_q st = q0 \/ gtb (rs_q st) q0 = true) /\
  (length (rs_best st) <= n)%nat /\ (length (rs_inl st) <= n)%nat.

Lemma step_total maxIter it st :
  stop_ok n maxIter q0 ratio gtb numbers -> linv maxIter st ->
  exists st', ransac_step mid inlierE front solutions ratio gtb newIter runMax n (draws it) est st
    = Ok st' /\ linv maxIter st' /\ (runMax = true -> rs_iterNum st' = rs_iterNum st).
Proof.
  intros (Tr & St) (L1 & L2 & L3 & L4). unfold ransac_step.
  destruct (is_repeated _).
  { exists st. split; [reflexivity|]. split; [|reflexivity]. split; [exact L1|]. split; auto. }
  set (found := est (zsort (draws it))).
  set (res0 := match found with e :: _ => e | [] => rs_res0 st end).
  destruct (best_essential inlierE n res0 (rs_best st) found) as [[k0 maxE] inds0] eqn:BE.
  destruct (extract_motion mid front solutions maxE inds0) as [[cm inds] k] eqn:X.
  pose proof (extract_spec _ _ _ _ _ X) as (X1 & _).
  pose proof (extract_len _ _ _ _ _ X) as X4.
  assert (Hl : (length inds0 <= n)%nat).
  { apply best_essential_spec in BE as [[-> _]|[-> _]]; [exact L3|].
    pose proof (filter_len_le (inlierE maxE) (seq 0 n)) as F. rewrite seq_length in F. exact F. }
  assert (Hi : (length inds <= n)%nat) by lia.
  destruct (gtb (ratio k) (rs_q st)) eqn:G.
  - assert (gtb (ratio k) q0 = true) as G0.
    { destruct L2 as [L2|L2]; [rewrite <- L2; exact G|exact (Tr _ _ _ G L2)]. }
    destruct (St k) as (z & Hz & Lz); [lia|exact G0|].
    unfold numbers in Hz. rewrite Hz. cbn [bind].
    eexists. split; [reflexivity|]. unfold linv. cbn [rs_iterNum rs_q rs_best rs_inl].
    split; [|intros ->; reflexivity].
    split; [destruct runMax; lia|]. split; [right; exact G0|].
    split; destruct (rs_bestInliers st <? k); lia.
  - cbn [bind]. eexists. split; [reflexivity|]. unfold linv. cbn [rs_iterNum rs_q rs_best rs_inl].
    split; [|intros _; reflexivity].
    split; [exact L1|]. split; [exact L2|].
    split; destruct (rs_bestInliers st <? k); lia.
Qed.

Lemma loop_total maxIter :
  stop_ok n maxIter q0 ratio gtb numbers ->
  forall fuel it st,
  linv maxIter st -> maxIter <= Z.of_nat it + Z.of_nat fuel -> Z.of_nat it <= Z.max 0 maxIter ->
  exists st' done,
    ransac_loop mid inlierE front solutions ratio gtb newIter runMax fuel n draws est it st
      = Ok (st', done) /\ Z.of_nat done <= Z.max 0 maxIter /\
    (runMax = true -> rs_iterNum st = maxIter -> Z.of_nat done = Z.max 0 maxIter).
Proof.
  intros S; induction fuel as [|f IH]; intros it st L F B; cbn [ransac_loop];
    destruct (Z.of_nat it <? rs_iterNum st) eqn:C.
  - destruct L as [L _]. lia.
  - exists st, it. split; [reflexivity|]. split; [lia|]. intros. lia.
  - destruct (step_total maxIter it st S L) as (st1 & E1 & L1 & R1). rewrite E1. cbn [bind].
    pose proof (proj1 L) as L0.
    destruct (IH (Datatypes.S it) st1 L1 ltac:(lia) ltac:(lia)) as (st' & done & E2 & D1 & D2).
    exists st', done. split; [exact E2|]. split; [exact D1|].
    intros R Q. apply D2; [exact R|]. rewrite (R1 R). exact Q.
  - exists st, it. split; [reflexivity|]. split; [lia|]. intros. lia.
Qed.

Lemma coarse_total maxIter junk :
  (0 < n)%nat -> stop_ok n maxIter q0 ratio gtb numbers ->
  is_ok (coarse maxIter junk (sge_new mid)) /\
  exists st done,
    ransac_loop mid inlierE front solutions ratio gtb newIter runMax (Z.to_nat maxIter) n draws est
      0 (ransac_init mid q0 maxIter junk []) = Ok (st, done) /\ Z.of_nat done <= Z.max 0 maxIter /\
    (runMax = true -> Z.of_nat done = Z.max 0 maxIter).
Proof.
  intros N S.
  destruct (loop_total maxIter S (Z.to_nat maxIter) 0 (ransac_init mid q0 maxIter junk []))
    as (st & done & HL & D1 & D2).
  - unfold linv, ransac_init; cbn. split; [lia|]. split; [left; reflexivity|]. lia.
  - lia.
  - lia.
  - split.
    + unfold find_coarse. cbn [sge_new g_coarse g_precise orb g_inl].
      destruct (n =? 0)%nat eqn:N0; [lia|]. rewrite HL. cbn [bind].
      destruct (extract_motion _ _ _ _ _) as [[? ?] ?]. eexists; reflexivity.
    + exists st, done. split; [exact HL|]. split; [exact D1|]. intros R. apply D2; [exact R|reflexivity].
Qed.

(** Inlier lists. *)
Notation good_inliers := (good_inliers front n).

Lemma seq_sorted a k : StronglySorted lt (seq a k).
Proof.
  revert a; induction k as [|k IH]; intros a; cbn [seq]; constructor; [apply IH|].
  apply Forall_forall. intros x Hx. apply in_seq in Hx. lia.
Qed.
Lemma filter_sorted (p : nat -> bool) l : StronglySorted lt l -> StronglySorted lt (filter p l).
Proof.
  induction 1 as [|a l S IH F]; cbn [filter]; [constructor|].
  destruct (p a); [|exact IH]. constructor; [exact IH|].
  apply Forall_forall. intros x Hx. apply filter_In in Hx as [Hx _].
  rewrite Forall_forall in F. apply F. exact Hx.
Qed.

Lemma consensus_good e m : good_inliers m (consensus inlierE front n e m).
Proof.
  split; [apply filter_sorted, seq_sorted|]. intros i Hi. apply filter_In in Hi as [Hs Hb].
  apply in_seq in Hs. apply andb_true_iff in Hb as [_ Hb]. split; [lia|exact Hb].
Qed.

Lemma coarse_inliers maxIter junk r g :
  coarse maxIter junk (sge_new mid) = Ok (r, g) ->
  good_inliers (g_motion g) (g_inl g) /\ good_inliers r (g_inl g).
Proof.
  intros H. apply coarse_consensus in H as (done & kept & _ & _ & K & _ & D & _).
  assert (Hk : good_inliers (g_motion g) kept).
  { destruct K as [[-> _]|(it & e & _ & _ & _ & -> & _)].
    - split; [constructor|intros ? []].
    - apply consensus_good. }
  destruct D as [[_ ->]|(_ & -> & _)].
  - split; (split; [constructor|intros ? []]).
  - destruct Hk as [S F]. split; (split; [apply filter_sorted; exact S|]);
      intros i Hi; apply filter_In in Hi as [Hi Hf]; destruct (F i Hi); auto.
Qed.

Lemma increasing_le_last a l x : increasing_Z (a :: l) -> In x (a :: l) -> a <= x.
Proof.
  intros I [<-|H]; [lia|]. pose proof (increasing_lt _ _ I _ H). lia.
Qed.

Lemma increasing_room l lo hi :
  increasing_Z l -> (forall x, In x l -> lo <= x < hi) -> Z.of_nat (length l) <= Z.max 0 (hi - lo).
Proof.
  revert lo; induction l as [|a l IH]; intros lo I B; cbn [length]; [lia|].
  pose proof (B a (or_introl eq_refl)).
  assert (Z.of_nat (length l) <= Z.max 0 (hi - (a + 1))).
  { apply IH; [apply (increasing_tail _ _ I)|].
    intros x Hx. pose proof (increasing_lt _ _ I _ Hx). pose proof (B x (or_intror Hx)). lia. }
  lia.
Qed.

Lemma few_no_evaluation :
  (n < 5)%nat ->
  (forall it, length (draws it) = 5%nat /\ forall x, In x (draws it) -> 0 <= x < Z.of_nat n) ->
  forall it e, ~ evaluates it e.
Proof.
  intros N D it e (h & P & I & _). destruct (D it) as [L B].
  assert (Z.of_nat (length h) <= Z.max 0 (Z.of_nat n - 0)).
  { apply increasing_room; [exact I|]. intros x Hx. apply B.
    apply (Permutation_in _ (Permutation_sym P) Hx). }
  rewrite <- (Permutation_length P), L in H. lia.
Qed.

Lemma coarse_few maxIter junk r g :
  (n < 5)%nat ->
  (forall it, length (draws it) = 5%nat /\ forall x, In x (draws it) -> 0 <= x < Z.of_nat n) ->
  coarse maxIter junk (sge_new mid) = Ok (r, g) ->
  r = mid /\ g_motion g = mid /\ g_inl g = [].
Proof.
  intros N D H. apply coarse_ok in H as (_ & _ & _ & done & st & _ & I & Hm & X).
  destruct I as (_ & _ & _ & _ & [[Hi Hb]|(it & e & _ & Ev & _)] & _).
  - rewrite Hm, Hb. apply extract_spec in X as (_ & _ & [[-> ->]|(_ & -> & Hk)]); [auto|].
    rewrite Hi in Hk. cbn in Hk. lia.
  - destruct (few_no_evaluation N D it e Ev).
Qed.

Lemma coarse_again maxIter junk maxIter' junk' r g :
  coarse maxIter junk (sge_new mid) = Ok (r, g) ->
  coarse maxIter' junk' g = Ok (g_motion g, g).
Proof.
  intros H. apply coarse_ok in H as (_ & C & _). unfold find_coarse. rewrite C. reflexivity.
Qed.

(** With at most one solution in front of each correspondence the returned motion is the kept one. *)
Lemma coarse_consistent maxIter junk r g :
  (forall m, In m (solutions (toEssential m))) ->
  (forall e s s' i, In s (solutions e) -> In s' (solutions e) ->
     front s i = true -> front s' i = true -> s = s') ->
  coarse maxIter junk (sge_new mid) = Ok (r, g) -> r = g_motion g.
Proof.
  intros RT U H. pose proof (coarse_inliers _ _ _ _ H) as [[_ G1] [_ G2]].
  apply coarse_consensus in H as (done & kept & _ & _ & K & _ & D & B).
  destruct D as [[-> HI]|(Hr & HI & NE)].
  - destruct K as [[_ ->]|(it & e & _ & _ & _ & Hk & NE)]; [reflexivity|].
    specialize (B (g_motion g) (RT _)). rewrite HI in B. cbn [length] in B. exfalso.
    destruct kept as [|i kept]; [congruence|].
    assert (front (g_motion g) i = true) as F.
    { assert (In i (consensus inlierE front n e (g_motion g))) as I by (rewrite <- Hk; left; reflexivity).
      apply filter_In in I as [_ I]. apply andb_true_iff in I as [_ I]. exact I. }
    cbn [filter] in B. rewrite F in B. cbn [length] in B. lia.
  - destruct (g_inl g) as [|i l]; [congruence|].
    apply (U _ _ _ i Hr (RT _)); [apply G2|apply G1]; left; reflexivity.
Qed.

Notation precise maxIter junk refine g :=
  (find_precise mid inlierE front solutions toEssential q0 ratio gtb newIter runMax maxIter n junk
     draws est refine g).

Lemma precise_ok maxIter junk refine g0 r g :
  g_precise g0 = false ->
  precise maxIter junk refine g0 = Ok (r, g) ->
  r = g_motion g /\
  (forall i, In i (g_inl g) <->
     (i < n)%nat /\ inlierE (toEssential r) i = true /\ front r i = true) /\
  good_inliers r (g_inl g).
Proof.
  intros P H. unfold find_precise in H. rewrite P in H.
  apply bind_ok_inv in H as (g1 & _ & H). injection H as <- <-. cbn [g_motion g_inl].
  set (m := refine (g_motion g1) (g_inl g1)).
  assert (Q : find_inliers_motion front m (find_inliers_essential inlierE n (toEssential m))
              = consensus inlierE front n (toEssential m) m) by apply consensus_filter.
  rewrite Q. split; [reflexivity|]. split; [|apply consensus_good].
  intros i. unfold consensus. rewrite filter_In, in_seq, andb_true_iff. intuition lia.
Qed.

Lemma precise_again maxIter junk refine maxIter' junk' refine' g0 r g :
  g_precise g0 = false ->
  precise maxIter junk refine g0 = Ok (r, g) ->
  precise maxIter' junk' refine' g = Ok (r, g) /\ coarse maxIter' junk' g = Ok (r, g).
Proof.
  intros P H. pose proof (precise_ok _ _ _ _ _ _ P H) as (Hr & _). rewrite Hr.
  unfold find_precise in H. rewrite P in H.
  apply bind_ok_inv in H as (g1 & _ & H). injection H as _ <-.
  unfold find_precise, find_coarse. cbn [g_precise g_coarse].
  rewrite orb_true_r. split; reflexivity.
Qed.

Lemma precise_total maxIter junk refine :
  (0 < n)%nat -> stop_ok n maxIter q0 ratio gtb numbers ->
  is_ok (precise maxIter junk refine (sge_new mid)).
Proof.
  intros N S. destruct (coarse_total maxIter junk N S) as [[[r g] Hc] _].
  unfold find_precise. cbn [sge_new g_precise g_coarse].
  change {| g_motion := mid; g_inl := []; g_coarse := false; g_precise := false |} with (sge_new mid).
  rewrite Hc. cbn [bind]. eexists; reflexivity.
Qed.

Lemma coarse_none maxIter junk : n = 0%nat -> coarse maxIter junk (sge_new mid) = UB.
Proof. intros ->. reflexivity. Qed.
End Est.

(** * StereoMatcher::match *)
Section MatchProofs.
Variables E M T P2 D : Type.
Variable mid : M.
Variable solutions : E -> list M.
Variable toEssential : M -> E.
Variable agrees : E -> P2 * P2 -> bool.
Variable triang : M -> P2 * P2 -> D * D.
Variable positive : D -> bool.
Variable q0 : T.
Variable ratio : nat -> Z -> T.
Variable gtb : T -> T -> bool.
Variable newIter : T -> outcome Z.
Variable runMax : bool.
Variable toVec2 : Q * Q -> P2.

Lemma corresps_ok kp0 kp1 l cs :
  corresps toVec2 kp0 kp1 l = Ok cs ->
  Forall2 (fun m c => exists p q, nth_error kp0 (Z.to_nat (trainIdx m)) = Some p /\
                                 nth_error kp1 (Z.to_nat (queryIdx m)) = Some q /\
                                 c = (toVec2 p, toVec2 q)) l cs.
Proof.
  revert cs; induction l as [|m l IH]; intros cs H; cbn [corresps] in H.
  - injection H as <-. constructor.
  - apply bind_ok_inv in H as (a & Ha & H). apply bind_ok_inv in H as (b & Hb & H).
    apply bind_ok_inv in H as (r & Hr & H). injection H as <-.
    apply vget_ok in Ha as [_ Ha]. apply vget_ok in Hb as [_ Hb].
    constructor; [exists a, b; auto|]. apply IH. exact Hr.
Qed.

Lemma corresps_total kp0 kp1 l :
  (forall m, In m l -> 0 <= trainIdx m < Z.of_nat (length kp0) /\
                       0 <= queryIdx m < Z.of_nat (length kp1)) ->
  is_ok (corresps toVec2 kp0 kp1 l).
Proof.
  induction l as [|m l IH]; intros H; cbn [corresps]; [eexists; reflexivity|].
  destruct (H m (or_introl eq_refl)) as [A B].
  destruct (vget_total _ _ A) as [p Hp]. destruct (vget_total _ _ B) as [q Hq].
  rewrite Hp, Hq. cbn [bind].
  destruct IH as [r Hr]; [intros x Hx; apply H; right; exact Hx|].
  rewrite Hr. cbn [bind]. eexists; reflexivity.
Qed.

Lemma corresps_length kp0 kp1 l cs : corresps toVec2 kp0 kp1 l = Ok cs -> length cs = length l.
Proof.
  intros H. apply corresps_ok in H. induction H; cbn [length]; congruence.
Qed.

Lemma collect_ok m cs inls res :
  collect triang m cs inls = Ok res ->
  Forall2 (fun i r => nth_error cs i = Some (fst r) /\ snd r = triang m (fst r)) inls res.
Proof.
  revert res; induction inls as [|i l IH]; intros res H; cbn [collect] in H.
  - injection H as <-. constructor.
  - destruct (nth_error cs i) as [c|] eqn:N; [|discriminate].
    apply bind_ok_inv in H as (r & Hr & H). injection H as <-.
    constructor; [cbn; auto|]. apply IH. exact Hr.
Qed.

Lemma collect_total m cs inls :
  (forall i, In i inls -> (i < length cs)%nat) -> is_ok (collect triang m cs inls).
Proof.
  induction inls as [|i l IH]; intros H; cbn [collect]; [eexists; reflexivity|].
  destruct (nth_error cs i) as [c|] eqn:N.
  - destruct IH as [r Hr]; [intros x Hx; apply H; right; exact Hx|].
    rewrite Hr. cbn [bind]. eexists; reflexivity.
  - apply nth_error_None in N. specialize (H i (or_introl eq_refl)). lia.
Qed.

Notation smatch := (stereo_match mid solutions toEssential agrees triang positive q0 ratio gtb
                      newIter runMax toVec2).

Lemma match_ok nonMove avg maxIter junk draws est refine kp0 kp1 ms motion res :
  smatch nonMove avg maxIter junk draws est refine kp0 kp1 ms = Ok (motion, res) ->
  exists mv still used inls,
    filter_out_still nonMove kp0 kp1 ms = Ok (mv, still) /\
    StronglySorted lt inls /\
    Forall2 (fun i r => exists m p q, nth_error mv i = Some m /\
       nth_error kp0 (Z.to_nat (trainIdx m)) = Some p /\
       nth_error kp1 (Z.to_nat (queryIdx m)) = Some q /\
       fst r = (toVec2 p, toVec2 q) /\ snd r = triang used (fst r) /\
       positive (fst (snd r)) = true /\ positive (snd (snd r)) = true) inls res /\
    (avg = true -> used = motion).
Proof.
  unfold stereo_match. destruct ms as [|m0 ms0]; [discriminate|].
  set (ms := m0 :: ms0). intros H.
  apply bind_ok_inv in H as ([mv still] & HF & H).
  apply bind_ok_inv in H as (cs & HC & H).
  apply bind_ok_inv in H as ([mo g] & HG & H).
  apply bind_ok_inv in H as (res' & HR & H). injection H as <- <-.
  exists mv, still, (g_motion g), (g_inl g). split; [exact HF|].
  assert (G : good_inliers (front_of triang positive cs) (length cs) (g_motion g) (g_inl g) /\
              (avg = true -> g_motion g = mo)).
  { destruct avg.
    - apply precise_ok in HG as (-> & _ & HG); [|reflexivity]. auto.
    - apply coarse_inliers in HG as [HG _]. split; [exact HG|discriminate]. }
  destruct G as [[S F] A]. split; [exact S|]. split; [|exact A].
  apply collect_ok in HR. apply corresps_ok in HC.
  clear -HR HC F. induction HR as [|i r l res [R1 R2] HR IH]; constructor.
  - destruct (F i (or_introl eq_refl)) as [_ Fi]. unfold front_of in Fi. rewrite R1 in Fi.
    rewrite <- R2 in Fi. destruct r as [c [d0 d1]]. cbn [fst snd] in *.
    apply andb_true_iff in Fi as [F0 F1].
    assert (exists m, nth_error mv i = Some m /\ exists p q,
        nth_error kp0 (Z.to_nat (trainIdx m)) = Some p /\
        nth_error kp1 (Z.to_nat (queryIdx m)) = Some q /\ c = (toVec2 p, toVec2 q))
      as (m & Hm & p & q & Hp & Hq & Hc).
    { clear -HC R1. revert i R1. induction HC as [|m c' mv cs X HC IH]; intros [|i] R1;
        try discriminate.
      - injection R1 as ->. exists m. split; [reflexivity|exact X].
      - apply (IH i R1). }
    exists m, p, q. split; [exact Hm|]. split; [exact Hp|]. split; [exact Hq|]. auto.
  - apply IH. intros j Hj. apply F. right. exact Hj.
Qed.

Lemma match_coarse_motion nonMove maxIter junk draws est refine kp0 kp1 ms motion res :
  (forall m, In m (solutions (toEssential m))) ->
  (forall e s s' c, In s (solutions e) -> In s' (solutions e) ->
     positive (fst (triang s c)) = true -> positive (snd (triang s c)) = true ->
     positive (fst (triang s' c)) = true -> positive (snd (triang s' c)) = true -> s = s') ->
  smatch nonMove false maxIter junk draws est refine kp0 kp1 ms = Ok (motion, res) ->
  Forall (fun r => snd r = triang motion (fst r)) res.
Proof.
  intros RT U H. unfold stereo_match in H. destruct ms as [|m0 ms0]; [discriminate|].
  apply bind_ok_inv in H as ([mv still] & HF & H).
  apply bind_ok_inv in H as (cs & HC & H).
  apply bind_ok_inv in H as ([mo g] & HG & H).
  apply bind_ok_inv in H as (res' & HR & H). injection H as <- <-.
  apply coarse_consistent in HG; [|exact RT|].
  - subst mo. apply collect_ok in HR. clear -HR.
    induction HR as [|i r l res [_ R] HR IH]; constructor; [exact R|exact IH].
  - intros e s s' i Hs Hs' F F'. unfold front_of in F, F'.
    destruct (nth_error cs i) as [c|]; [|discriminate].
    destruct (triang s c) as [a b] eqn:T1. destruct (triang s' c) as [a' b'] eqn:T2.
    apply andb_true_iff in F as [F1 F2]. apply andb_true_iff in F' as [F1' F2'].
    apply (U e s s' c Hs Hs'); rewrite ?T1, ?T2; assumption.
Qed.

Lemma match_total nonMove avg maxIter junk draws est refine kp0 kp1 ms mv still :
  (forall m, In m ms -> 0 <= trainIdx m < Z.of_nat (length kp0) /\
                        0 <= queryIdx m < Z.of_nat (length kp1)) ->
  filter_out_still nonMove kp0 kp1 ms = Ok (mv, still) ->
  mv <> [] ->
  stop_ok (length mv) maxIter q0 (ratio (length mv)) gtb
    (fun k z => newIter (ratio (length mv) k) = Ok z) ->
  is_ok (smatch nonMove avg maxIter junk draws est refine kp0 kp1 ms).
Proof.
  intros B HF NE S. unfold stereo_match.
  pose proof (filter_out_still_ok _ _ _ _ _ _ HF) as [I _].
  destruct ms as [|m0 ms0]; [inversion I; subst; congruence|]. set (ms := m0 :: ms0) in *.
  rewrite HF. cbn [bind].
  destruct (corresps_total kp0 kp1 mv) as [cs HC].
  { intros m Hm. apply B. clear -I Hm. induction I; [exact Hm| |].
    - destruct Hm as [<-|Hm]; [left; reflexivity|right; auto].
    - right; auto. }
  rewrite HC. cbn [bind]. pose proof (corresps_length _ _ _ _ HC) as HL. rewrite HL.
  assert (N : (0 < length mv)%nat) by (destruct mv; [congruence|cbn; lia]).
  destruct avg.
  - match goal with |- is_ok (bind ?x _) => assert (X : is_ok x) end.
    { apply precise_total; [exact N|exact S]. }
    destruct X as [[mo g] HG]. rewrite HG. cbn [bind].
    apply precise_ok in HG as (_ & _ & [_ F]); [|reflexivity].
    destruct (collect_total (g_motion g) cs (g_inl g)) as [r Hr].
    { intros i Hi. rewrite HL. apply F. exact Hi. }
    rewrite Hr. cbn [bind]. eexists; reflexivity.
  - match goal with |- is_ok (bind ?x _) => assert (X : is_ok x) end.
    { apply coarse_total; [exact N|exact S]. }
    destruct X as [[mo g] HG]. rewrite HG. cbn [bind].
    apply coarse_inliers in HG as [[_ F] _].
    destruct (collect_total (g_motion g) cs (g_inl g)) as [r Hr].
    { intros i Hi. rewrite HL. apply F. exact Hi. }
    rewrite Hr. cbn [bind]. eexists; reflexivity.
Qed.

Lemma match_all_still nonMove avg maxIter junk draws est refine kp0 kp1 ms still :
  ms <> [] -> filter_out_still nonMove kp0 kp1 ms = Ok ([], still) ->
  smatch nonMove avg maxIter junk draws est refine kp0 kp1 ms = UB.
Proof.
  intros NE HF. unfold stereo_match. destruct ms as [|m0 ms0]; [congruence|].
  rewrite HF. cbn [bind corresps length]. destruct avg; reflexivity.
Qed.

Lemma match_none nonMove avg maxIter junk draws est refine kp0 kp1 :
  smatch nonMove avg maxIter junk draws est refine kp0 kp1 [] = Throw.
Proof. reflexivity. Qed.
End MatchProofs.
