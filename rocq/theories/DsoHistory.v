(** Facts about the specification-level histories of DsoSpec.v. *)
From Coq Require Import List ZArith Bool Lia Permutation Sorting.Sorted ZifyBool.
From Verif Require Import Outcome DsoModel DsoSpec.
Import ListNotations.
Open Scope Z_scope.

Section H.
Variables skip shift : Z.
Variables last cont : bool.
Notation sk := (skip_count skip).
Notation hist := (history skip shift last cont).
Notation step := (history_step shift last cont).

Lemma skipn_snoc {A} n (l : list A) x : (n <= length l)%nat -> skipn n (l ++ [x]) = skipn n l ++ [x].
Proof. intros H. rewrite skipn_app. replace (n - length l)%nat with 0%nat by lia. reflexivity. Qed.

Lemma history_early nums : (length nums <= S sk)%nat -> hist nums = [].
Proof.
  destruct nums as [|f r]; simpl; auto. intros H. rewrite skipn_all2 by lia. reflexivity.
Qed.

Lemma history_first f r n : length r = sk -> hist ((f :: r) ++ [n]) = [(n, []); (f, [])].
Proof.
  intros H. simpl. rewrite skipn_snoc by lia. rewrite skipn_all2 by lia. reflexivity.
Qed.

Lemma history_snoc nums n : (S (S sk) <= length nums)%nat -> hist (nums ++ [n]) = step (hist nums) n.
Proof.
  destruct nums as [|f r]; simpl; [lia|]. intros H. rewrite skipn_snoc by lia.
  destruct (skipn sk r) as [|m rest] eqn:E.
  - pose proof (skipn_length sk r). rewrite E in H0. simpl in H0. lia.
  - simpl. rewrite fold_left_app. reflexivity.
Qed.

Lemma step_nonempty h n : h <> [] -> step h n <> [].
Proof.
  destruct h as [|[k t] h]; [congruence|]. intros _. simpl.
  destruct (due shift k n); [destruct cont; discriminate|]. destruct last; [discriminate|].
  destruct h as [|[k2 t2] h]; discriminate.
Qed.

Lemma history_nonempty nums : (S (S sk) <= length nums)%nat -> hist nums <> [].
Proof.
  induction nums as [|n nums IH] using rev_ind; [simpl; lia|]. rewrite app_length; simpl. intros H.
  destruct (Nat.eq_dec (length nums) (S sk)) as [E|E].
  - destruct nums as [|f r]; [simpl in E; discriminate|]. simpl in E. rewrite history_first by lia. discriminate.
  - rewrite history_snoc by lia. apply step_nonempty, IH. lia.
Qed.

(** All numbers of a history. *)
Definition hall (h : list (Z * list Z)) : list Z := flat_map (fun e => fst e :: snd e) h.

(** What one step does to the numbers: adds the new one, or drops it when keyframes are no longer
    chosen. *)
Lemma step_hall h n : (2 <= length h)%nat ->
  Permutation (hall (step h n)) (n :: hall h) \/ (cont = false /\ step h n = h).
Proof.
  destruct h as [|[k t] [|[k2 t2] h]]; simpl; try lia. intros _.
  destruct (due shift k n) eqn:E.
  - destruct cont; [left; reflexivity|right; auto].
  - left. destruct last; simpl.
    + rewrite <- app_assoc. symmetry. apply (Permutation_middle (k :: t)).
    + change (Permutation (k :: t ++ k2 :: (t2 ++ [n]) ++ hall h) (n :: k :: t ++ k2 :: t2 ++ hall h)).
      replace (k :: t ++ k2 :: (t2 ++ [n]) ++ hall h) with ((k :: t ++ k2 :: t2) ++ n :: hall h)
        by (simpl; repeat (rewrite <- app_assoc; simpl); reflexivity).
      symmetry. replace (n :: k :: t ++ k2 :: t2 ++ hall h) with (n :: (k :: t ++ k2 :: t2) ++ hall h)
        by (simpl; repeat (rewrite <- app_assoc; simpl); reflexivity).
      apply Permutation_middle.
Qed.

Lemma step_length h n : (2 <= length h)%nat -> (length h <= length (step h n))%nat.
Proof.
  destruct h as [|[k t] [|[k2 t2] h]]; simpl; try lia. intros _.
  destruct (due shift k n); [destruct cont; simpl; lia|]. destruct last; simpl; lia.
Qed.

Lemma history_length nums : (S (S sk) <= length nums)%nat -> (2 <= length (hist nums))%nat.
Proof.
  induction nums as [|n nums IH] using rev_ind; [simpl; lia|]. rewrite app_length; simpl. intros H.
  destruct (Nat.eq_dec (length nums) (S sk)) as [E|E].
  - destruct nums as [|f r]; [simpl in E; discriminate|]. simpl in E. rewrite history_first by lia. simpl; lia.
  - rewrite history_snoc by lia. specialize (IH ltac:(lia)). pose proof (step_length (hist nums) n IH). lia.
Qed.

Lemma sorted_snoc l n : StronglySorted Z.lt (l ++ [n]) -> StronglySorted Z.lt l /\ Forall (fun x => x < n) l.
Proof.
  induction l as [|a l IH]; simpl; intros H; [split; constructor|].
  inversion H as [|? ? H1 H2]; subst. destruct (IH H1) as [A B]. split.
  - constructor; [exact A|]. apply Forall_app in H2 as [H2 _]. exact H2.
  - constructor; [|exact B]. apply Forall_app in H2 as [_ H2]. inversion H2; auto.
Qed.

Lemma sorted_snoc_intro l n : StronglySorted Z.lt l -> Forall (fun x => x < n) l -> StronglySorted Z.lt (l ++ [n]).
Proof.
  induction 1 as [|a l H1 IH H2]; simpl; intros Hf; [repeat constructor|].
  inversion Hf; subst. constructor; [auto|]. apply Forall_app. split; [auto|repeat constructor; auto].
Qed.

Lemma sorted_head f r : StronglySorted Z.lt (f :: r) -> Forall (fun x => f < x) r.
Proof. intros H. inversion H; auto. Qed.

(** Numbers of a history come from the frames, without repetition. *)
Lemma history_hall nums : StronglySorted Z.lt nums ->
  NoDup (hall (hist nums)) /\ (forall x, In x (hall (hist nums)) -> In x nums).
Proof.
  induction nums as [|n nums IH] using rev_ind; [simpl; split; [constructor|tauto]|].
  intros Hs. destruct (sorted_snoc _ _ Hs) as [Hs' Hl]. destruct (IH Hs') as [A B].
  destruct (Nat.le_gt_cases (S (S sk)) (length nums)) as [H|H].
  - rewrite history_snoc by lia. destruct (step_hall (hist nums) n (history_length nums H)) as [Pm|[_ E]].
    + split.
      * apply (Permutation_NoDup (Permutation_sym Pm)). constructor; [|exact A].
        intros Hin. apply B in Hin. rewrite Forall_forall in Hl. specialize (Hl n Hin). lia.
      * intros x Hx. apply (Permutation_in _ Pm) in Hx. apply in_app_iff. destruct Hx as [<-|Hx]; simpl; auto.
    + rewrite E. split; [exact A|]. intros x Hx. apply in_app_iff. left; auto.
  - destruct (Nat.eq_dec (length nums) (S sk)) as [E|E].
    + destruct nums as [|f r]; [simpl in E; discriminate|]. rewrite history_first by (simpl in E; lia).
      simpl. inversion Hl; subst. split.
      * repeat constructor; simpl; intuition lia.
      * intros x [<-|[<-|[]]]; [right; apply in_app_iff; right; simpl; auto|left; reflexivity].
    + rewrite history_early by (rewrite app_length; simpl; lia). simpl. split; [constructor|tauto].
Qed.

(** Keyframe numbers newest first are the numbers of the cadence rule. *)
Lemma cadence_snoc k l n :
  cadence shift k (l ++ [n]) =
  cadence shift k l ++ (if due shift (List.last (k :: cadence shift k l) 0) n then [n] else []).
Proof.
  revert k. induction l as [|m l IH]; intros k; [simpl; destruct (due shift k n); reflexivity|].
  change (cadence shift k ((m :: l) ++ [n])) with
    (if due shift k m then m :: cadence shift m (l ++ [n]) else cadence shift k (l ++ [n])).
  cbn [cadence]. destruct (due shift k m).
  - rewrite IH. reflexivity.
  - apply IH.
Qed.

Lemma history_kfs nums : map fst (rev (hist nums)) = expected_kfs skip shift cont nums.
Proof.
  induction nums as [|n nums IH] using rev_ind; [reflexivity|].
  destruct (Nat.le_gt_cases (S (S sk)) (length nums)) as [H|H].
  - rewrite history_snoc by lia. pose proof (history_length nums H) as HL.
    destruct nums as [|f r]; [simpl in H; lia|].
    unfold expected_kfs in *. cbn [app]. cbv iota in IH |- *. rewrite skipn_snoc by (simpl in H; lia).
    destruct (skipn sk r) as [|m rest] eqn:E.
    { pose proof (skipn_length sk r) as SL. rewrite E in SL. simpl in SL, H. lia. }
    cbn [app].
    destruct (hist (f :: r)) as [|[k t] [|[k2 t2] h]] eqn:Eh; simpl in HL; try lia.
    assert (Hlast : forall d, List.last (map fst (rev ((k, t) :: (k2, t2) :: h))) d = k).
    { intros d. simpl. rewrite map_app. simpl. apply last_last. }
    destruct cont eqn:Ec.
    + rewrite cadence_snoc.
      assert (List.last (m :: cadence shift m rest) 0 = k) as ->.
      { rewrite <- (Hlast 0), IH.
        change (f :: m :: cadence shift m rest) with ([f] ++ (m :: cadence shift m rest)).
        reflexivity. }
      cbn [history_step]. destruct (due shift k n).
      * change (rev ((n, []) :: (k, t) :: (k2, t2) :: h)) with (rev ((k, t) :: (k2, t2) :: h) ++ [(n, [])]).
        rewrite map_app, IH. simpl. reflexivity.
      * rewrite app_nil_r, <- IH. destruct last; simpl; rewrite !map_app; reflexivity.
    + cbn [history_step]. destruct (due shift k n); [exact IH|]. rewrite <- IH.
      destruct last; simpl; rewrite !map_app; reflexivity.
  - destruct (Nat.eq_dec (length nums) (S sk)) as [E|E].
    + destruct nums as [|f r]; [simpl in E; discriminate|]. simpl in E. rewrite history_first by lia.
      unfold expected_kfs. cbn [app]. cbv iota. rewrite skipn_snoc by lia. rewrite skipn_all2 by lia.
      cbn [app]. destruct cont; reflexivity.
    + rewrite history_early by (rewrite app_length; simpl; lia). unfold expected_kfs.
      destruct nums as [|f r]; cbn [app].
      * simpl in E. rewrite skipn_nil. reflexivity.
      * rewrite skipn_all2 by (rewrite app_length; simpl in H, E |- *; lia). reflexivity.
Qed.

Lemma cadence_bound k l x : In x (cadence shift k l) -> In x l /\ k < x.
Proof.
  revert k. induction l as [|n l IH]; intros k; simpl; [tauto|].
  destruct (due shift k n) eqn:E; simpl.
  - unfold due in E. intros [<-|Hx]; [split; [auto|lia]|]. destruct (IH n Hx). split; [auto|lia].
  - intros Hx. destruct (IH k Hx). auto.
Qed.

Lemma cadence_sorted l : forall k, StronglySorted Z.lt (cadence shift k l).
Proof.
  induction l as [|n l IH]; intros k; simpl; [constructor|]. destruct (due shift k n); [|apply IH].
  constructor; [apply IH|]. apply Forall_forall. intros x Hx. apply cadence_bound in Hx. lia.
Qed.

Lemma expected_sorted nums : StronglySorted Z.lt nums -> StronglySorted Z.lt (expected_kfs skip shift cont nums).
Proof.
  intros Hs. destruct nums as [|f r]; [constructor|]. unfold expected_kfs.
  destruct (skipn sk r) as [|n rest] eqn:E; [constructor|].
  assert (Hn : f < n).
  { apply sorted_head in Hs. rewrite Forall_forall in Hs. apply Hs.
    rewrite <- (firstn_skipn sk r), E. apply in_app_iff. right; left; reflexivity. }
  assert (Hc : forall x, In x (if cont then cadence shift n rest else []) -> n < x).
  { destruct cont; [|intros x []]. intros x Hx. apply cadence_bound in Hx. lia. }
  constructor; [constructor|].
  - destruct cont; [apply cadence_sorted|constructor].
  - apply Forall_forall. intros x Hx. auto.
  - constructor; [auto|]. apply Forall_forall. intros x Hx. specialize (Hc x Hx). lia.
Qed.

(** With keyframe selection enabled every frame in use is in the history exactly once. *)
Lemma history_complete nums : cont = true -> Permutation (hall (hist nums)) (used_frames skip nums).
Proof.
  intros Hc. induction nums as [|n nums IH] using rev_ind; [constructor|].
  destruct (Nat.le_gt_cases (S (S sk)) (length nums)) as [H|H].
  - rewrite history_snoc by lia. destruct (step_hall (hist nums) n (history_length nums H)) as [Pm|[E _]]; [|congruence].
    eapply Permutation_trans; [exact Pm|]. destruct nums as [|f r]; [simpl in H; lia|].
    unfold used_frames in *. cbn [app]. cbv iota in IH |- *. rewrite skipn_snoc by (simpl in H; lia).
    destruct (skipn sk r) as [|m rest] eqn:E.
    { pose proof (skipn_length sk r) as SL. rewrite E in SL. simpl in SL, H. lia. }
    cbn [app]. eapply Permutation_trans; [constructor; exact IH|].
    change (f :: m :: rest ++ [n]) with ((f :: m :: rest) ++ [n]). apply Permutation_cons_append.
  - destruct (Nat.eq_dec (length nums) (S sk)) as [E|E].
    + destruct nums as [|f r]; [simpl in E; discriminate|]. simpl in E. rewrite history_first by lia.
      unfold used_frames. cbn [app]. cbv iota. rewrite skipn_snoc by lia. rewrite skipn_all2 by lia.
      cbn [app]. simpl. apply perm_swap.
    + rewrite history_early by (rewrite app_length; simpl; lia). unfold used_frames.
      destruct nums as [|f r]; cbn [app].
      * simpl in E. rewrite skipn_nil. constructor.
      * rewrite skipn_all2 by (rewrite app_length; simpl in H, E |- *; lia). constructor.
Qed.

(** With keyframe selection disabled exactly the frames that would be due are missing. *)
Lemma history_disabled f r n rest : cont = false -> skipn sk r = n :: rest ->
  Permutation (hall (hist (f :: r))) (f :: n :: filter (fun x => negb (due shift n x)) rest).
Proof.
  intros Hc E. unfold history. rewrite E.
  assert (G : forall l t0 t1,
    Permutation (hall (fold_left step l [(n, t1); (f, t0)]))
      (f :: n :: t0 ++ t1 ++ filter (fun x => negb (due shift n x)) l)).
  { induction l as [|x l IH]; intros t0 t1.
    - simpl. rewrite !app_nil_r.
      apply perm_trans with (f :: n :: t1 ++ t0); [|do 2 constructor; apply Permutation_app_comm].
      change (Permutation ((n :: t1) ++ f :: t0) (f :: (n :: t1) ++ t0)).
      apply Permutation_sym, Permutation_middle.
    - cbn [fold_left]. cbn [history_step filter]. destruct (due shift n x); cbn [negb].
      + replace (if cont then [(x, []); (n, t1); (f, t0)] else [(n, t1); (f, t0)]) with [(n, t1); (f, t0)]
          by (rewrite Hc; reflexivity). apply IH.
      + destruct last.
        * eapply Permutation_trans; [apply IH|]. do 2 constructor.
          rewrite <- !app_assoc. reflexivity.
        * eapply Permutation_trans; [apply IH|]. do 2 constructor.
          rewrite <- !app_assoc. apply Permutation_app_head. simpl.
          change (x :: t1 ++ filter (fun x0 => negb (due shift n x0)) l) with ((x :: t1) ++ filter (fun x0 => negb (due shift n x0)) l).
          symmetry. apply Permutation_sym. apply (Permutation_middle t1 _ x). }
  specialize (G rest [] []). simpl in G. exact G.
Qed.

Lemma used_snoc nums n : (S (S sk) <= length nums)%nat ->
  used_frames skip (nums ++ [n]) = used_frames skip nums ++ [n].
Proof.
  destruct nums as [|f r]; simpl; [lia|]. intros H. rewrite skipn_snoc by lia.
  destruct (skipn sk r) as [|m rest] eqn:E; [|reflexivity].
  pose proof (skipn_length sk r) as SL. rewrite E in SL. simpl in SL. lia.
Qed.

Lemma used_first f r n : length r = sk -> used_frames skip ((f :: r) ++ [n]) = [f; n].
Proof. intros H. simpl. rewrite skipn_snoc by lia. rewrite skipn_all2 by lia. reflexivity. Qed.

Lemma used_early nums : (length nums <= S sk)%nat -> used_frames skip nums = [].
Proof. destruct nums as [|f r]; simpl; auto. intros H. rewrite skipn_all2 by lia. reflexivity. Qed.

Lemma history_used nums x : In x (hall (hist nums)) -> In x (used_frames skip nums).
Proof.
  induction nums as [|n nums IH] using rev_ind; [simpl; tauto|].
  destruct (Nat.le_gt_cases (S (S sk)) (length nums)) as [H|H].
  - rewrite history_snoc, used_snoc by lia. rewrite in_app_iff.
    destruct (step_hall (hist nums) n (history_length nums H)) as [Pm|[_ E]].
    + intros Hx. apply (Permutation_in _ Pm) in Hx. destruct Hx as [<-|Hx]; simpl; auto.
    + rewrite E. auto.
  - destruct (Nat.eq_dec (length nums) (S sk)) as [E|E].
    + destruct nums as [|f r]; [simpl in E; discriminate|]. simpl in E.
      rewrite history_first, used_first by lia. simpl. tauto.
    + rewrite history_early by (rewrite app_length; simpl; lia). simpl. tauto.
Qed.

Lemma used_in pre x post : NoDup (pre ++ x :: post) ->
  In x (used_frames skip (pre ++ x :: post)) <->
  (S (S sk) <= length (pre ++ x :: post))%nat /\ (pre = [] \/ (S sk <= length pre)%nat).
Proof.
  intros ND. destruct (Nat.le_gt_cases (S (S sk)) (length (pre ++ x :: post))) as [H|H].
  2:{ rewrite used_early by lia. simpl. split; [tauto|]. intros [H1 _]; lia. }
  destruct pre as [|f r]; cbn [app used_frames].
  - cbn [app length] in H. destruct (skipn sk post) as [|m rest] eqn:E.
    { pose proof (skipn_length sk post) as SL. rewrite E in SL. simpl in SL. lia. }
    split; [auto|]. intros _. left; reflexivity.
  - cbn [app length] in *. rewrite app_length in H. simpl in H.
    assert (Hne : skipn sk (r ++ x :: post) <> []).
    { intros E. pose proof (skipn_length sk (r ++ x :: post)) as SL. rewrite E, app_length in SL. simpl in SL. lia. }
    destruct (skipn sk (r ++ x :: post)) as [|m rest] eqn:E; [congruence|]. rewrite <- E. clear Hne E m rest.
    inversion ND as [|? ? Hf ND']; subst.
    assert (Hfx : f <> x) by (intros ->; apply Hf, in_app_iff; right; left; reflexivity).
    rewrite app_length. simpl. split.
    + intros [->|Hx]; [congruence|]. split; [lia|]. right.
      destruct (Nat.le_gt_cases sk (length r)); [lia|]. exfalso.
      rewrite skipn_app in Hx. rewrite skipn_all2 in Hx by lia. simpl in Hx.
      destruct (sk - length r)%nat eqn:Es; [lia|]. simpl in Hx.
      apply NoDup_remove_2 in ND'. apply ND', in_app_iff. right.
      rewrite <- (firstn_skipn n post). apply in_app_iff. auto.
    + intros [_ [Hd|Hd]]; [discriminate|]. right. rewrite skipn_app.
      replace (sk - length r)%nat with 0%nat by lia. apply in_app_iff. right. left. reflexivity.
Qed.

End H.

(** Consecutive frame numbers: one keyframe every [shift] frames. *)
Definition consecutive (k : Z) (m : nat) : list Z := map (fun i => k + 1 + Z.of_nat i) (seq 0 m).

Lemma seq_snoc n : seq 0 (S n) = seq 0 n ++ [n].
Proof. rewrite seq_S. reflexivity. Qed.

Lemma cadence_consecutive shift k m : 1 <= shift ->
  cadence shift k (consecutive k m) = map (fun j => k + shift * Z.of_nat (S j)) (seq 0 (m / Z.to_nat shift)).
Proof.
  intros Hs. set (d := Z.to_nat shift). assert (Hd : (1 <= d)%nat) by (unfold d; lia). assert (Ed : shift = Z.of_nat d) by (unfold d; lia).
  clearbody d. subst shift.
  induction m as [|m IH]; [rewrite Nat.div_0_l by lia; reflexivity|].
  unfold consecutive. rewrite seq_snoc, map_app. cbn [map]. rewrite cadence_snoc.
  change (map (fun i => k + 1 + Z.of_nat i) (seq 0 m)) with (consecutive k m). rewrite IH.
  set (q := (m / d)%nat). assert (Hq : (d * q <= m < d * q + d)%nat).
  { unfold q. pose proof (Nat.div_mod m d ltac:(lia)). pose proof (Nat.mod_upper_bound m d ltac:(lia)). lia. }
  assert (Hlast : last (k :: map (fun j => k + Z.of_nat d * Z.of_nat (S j)) (seq 0 q)) 0 = k + Z.of_nat d * Z.of_nat q).
  { clearbody q. destruct q as [|q]; [simpl; lia|]. rewrite seq_snoc, map_app.
    cbn [map]. apply (last_last (k :: map (fun j => k + Z.of_nat d * Z.of_nat (S j)) (seq 0 q))). }
  rewrite Hlast. unfold due.
  destruct (Nat.eq_dec (S m) (d * q + d)) as [E|E].
  - assert ((S m / d)%nat = S q) as ->.
    { symmetry. apply (Nat.div_unique (S m) d (S q) 0); lia. }
    rewrite seq_snoc, map_app. f_equal. cbn [map].
    assert (k + 1 + Z.of_nat m = k + Z.of_nat d * Z.of_nat (S q)) as -> by nia.
    replace (k + Z.of_nat d * Z.of_nat q <? k + Z.of_nat d * Z.of_nat (S q)) with true by nia.
    replace (k + Z.of_nat d * Z.of_nat (S q) - (k + Z.of_nat d * Z.of_nat q)) with (1 * Z.of_nat d) by nia.
    rewrite Z.mod_mul by lia. reflexivity.
  - assert ((S m / d)%nat = q) as ->.
    { symmetry. apply (Nat.div_unique (S m) d q (S m - d * q)); lia. }
    replace (k + Z.of_nat d * Z.of_nat q <? k + 1 + Z.of_nat m) with true by nia.
    replace ((k + 1 + Z.of_nat m - (k + Z.of_nat d * Z.of_nat q)) mod Z.of_nat d) with (1 + Z.of_nat m - Z.of_nat d * Z.of_nat q).
    2:{ replace (k + 1 + Z.of_nat m - (k + Z.of_nat d * Z.of_nat q)) with (1 + Z.of_nat m - Z.of_nat d * Z.of_nat q) by lia.
        symmetry. apply Z.mod_small. nia. }
    replace (1 + Z.of_nat m - Z.of_nat d * Z.of_nat q =? 0) with false by nia. simpl. rewrite app_nil_r. reflexivity.
Qed.
