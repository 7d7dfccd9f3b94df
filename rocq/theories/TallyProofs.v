From Coq Require Import List ZArith QArith Bool Lia ZifyBool.
From Verif Require Import Outcome Dbl TraceModel TraceSpec TraceProofs TallyModel TallySpec.
Import ListNotations.
Open Scope Z_scope.
Open Scope outcome_scope.

Lemma pyr_range s raw l : 1 <= t_levels s -> pyr_level s raw = Ok l -> 0 <= l < t_levels s.
Proof.
  intros L H. unfold pyr_level in H. apply bind_ok_inv in H. destruct H as [z [_ H]]. inversion H.
  destruct (z <? 0) eqn:A; destruct (t_levels s <=? _) eqn:B; lia.
Qed.
Lemma visit_level s e maxd : 1 <= t_levels s -> forall l i r r',
  (forall b, r_best r = Some b -> 0 <= b_level b < t_levels s) -> visit_all s e maxd r i l = Ok r' ->
  forall b, r_best r' = Some b -> 0 <= b_level b < t_levels s.
Proof.
  intros L. induction l as [|[pt a] l IH]; intros i r r' A H; cbn [visit_all] in H; [inversion H; subst; auto|].
  apply bind_ok_inv in H. destruct H as [r1 [H1 H2]]. refine (IH _ _ _ _ H2). clear IH H2.
  unfold visit in H1. apply bind_ok_inv in H1. destruct H1 as [lv [P H1]]. inversion H1; subst; clear H1. cbn [r_best].
  intros b B. destruct (dlt _ _); auto. inversion B. cbn. eapply pyr_range; eauto.
Qed.

Lemma traced_level fuel s e p q : 1 <= t_levels s -> traceOn fuel s e p = Ok (OK, q) -> 0 <= i_level q < t_levels s - 1.
Proof.
  intros L H. destruct (traceOn_inv _ _ _ _ _ _ H) as [(A & _)|[(_ & [A|A] & _)|[(_ & (A & _) & _)|(_ & SU)]]]; try discriminate; [now elim A|].
  destruct SU as [_ _ (pts & r & b & second & de & mm & D)].
  destruct D as (HP & HV & HB & HL & HD & HS & S1 & S2 & T1 & T2 & T3 & HR & HM & HQ). subst q. cbn [i_level].
  pose proof (visit_level s e (i_max p) L pts 0 search0 r ltac:(discriminate) HV b HB). lia.
Qed.

Lemma traced_same fuel s e p st q : traceOn fuel s e p = Ok (st, q) -> st <> OK -> i_num q = i_num p /\ i_level q = i_level p.
Proof.
  intros H N. destruct (traceOn_inv _ _ _ _ _ _ H) as [(A & _ & ->)|[(_ & _ & ->)|[(_ & _ & r & ->)|(-> & SU)]]]; auto. now elim N.
Qed.
Lemma traced_num fuel s e p q : traceOn fuel s e p = Ok (OK, q) -> i_num q = i_num p + 1.
Proof.
  intros H. destruct (traceOn_inv _ _ _ _ _ _ H) as [(A & _)|[(_ & [A|A] & _)|[(_ & (A & _) & _)|(_ & SU)]]]; try discriminate; [now elim A|].
  destruct SU as [_ _ (pts & r & b & second & de & mm & D)].
  destruct D as (HP & HV & HB & HL & HD & HS & S1 & S2 & T1 & T2 & T3 & HR & HM & HQ). subst q. reflexivity.
Qed.

Theorem alive_range s p : 1 <= t_levels s -> alive s p ->
  0 <= i_num p /\ 0 <= i_level p < t_levels s /\ (i_level p = 0 \/ i_level p < t_levels s - 1).
Proof.
  intros L A. induction A as [on|p A IH|fuel e p st q A IH H].
  - cbn. lia.
  - cbn. destruct (is_pinf (i_max p)); cbn; lia.
  - assert (D : st = OK \/ st <> OK) by (destruct st; auto; right; discriminate). destruct D as [->|D].
    + pose proof (traced_level _ _ _ _ _ L H). pose proof (traced_num _ _ _ _ _ H). lia.
    + destruct (traced_same _ _ _ _ _ _ H D) as [E1 E2]. rewrite E1, E2. exact IH.
Qed.

(** With one level only nothing is ever traced. *)
Theorem one_level fuel s e p st q : t_levels s = 1 -> traceOn fuel s e p = Ok (st, q) -> st <> OK.
Proof. intros L H ->. pose proof (traced_level fuel s e p q ltac:(lia) H). lia. Qed.

(** ** Counting *)
Lemma bump_ok v i : 0 <= i < Z.of_nat (length v) -> exists w, bump v i = Ok w /\ length w = length v /\
  forall k, nth k w 0 = nth k v 0 + (if i =? Z.of_nat k then 1 else 0).
Proof.
  intros H. unfold bump. replace ((i <? 0) || (Z.of_nat (length v) <=? i)) with false by lia. eexists. split; [reflexivity|].
  remember (Z.to_nat i) as n. assert (i = Z.of_nat n) by lia. subst i. assert (Hn : (n < length v)%nat) by lia. clear - Hn.
  assert (Q : forall (v : list Z) n, (n < length v)%nat -> length (firstn n v ++ (nth n v 0 + 1) :: skipn (S n) v) = length v /\
    forall k, nth k (firstn n v ++ (nth n v 0 + 1) :: skipn (S n) v) 0 = nth k v 0 + (if Z.of_nat n =? Z.of_nat k then 1 else 0)).
  { clear. induction v as [|x v IH]; intros n H; cbn in H; [lia|]. destruct n as [|n].
    - cbn. split; auto. intros [|k]; cbn; lia.
    - destruct (IH n ltac:(lia)) as [A B]. split; [cbn in *; lia|]. intros [|k].
      + cbn. lia.
      + change (nth k (firstn n v ++ (nth n v 0 + 1) :: skipn (S n) v) 0 = nth k v 0 + (if Z.of_nat (S n) =? Z.of_nat (S k) then 1 else 0)).
        rewrite B. destruct (Z.of_nat n =? Z.of_nat k) eqn:E, (Z.of_nat (S n) =? Z.of_nat (S k)) eqn:E2; lia. }
  apply Q. assumption.
Qed.

Lemma many_snoc {A} (f : A -> bool) l x : how_many f (l ++ [x]) = how_many f l + (if f x then 1 else 0).
Proof. unfold how_many. rewrite filter_app, app_length. cbn. destruct (f x); cbn; lia. Qed.

Lemma count_step fuel s t e p st q res : counts s res t -> traceOn fuel s e p = Ok (st, q) -> 0 <= i_num q -> 0 <= i_level q < t_levels s ->
  exists t', count_one fuel s t e p = Ok (t', q) /\ counts s (res ++ [(st, q)]) t'.
Proof.
  intros (C1 & C2 & C3 & C4 & C5 & C6) H N L. unfold count_one. rewrite H. cbn [bind].
  assert (T : exists w, (if i_num q <? maxTraced then bump (y_times t) (i_num q) else Ok (y_times t)) = Ok w /\ length w = 8%nat /\
            forall k, (k < 8)%nat -> nth k w 0 = nth k (y_times t) 0 + (if i_num q =? Z.of_nat k then 1 else 0)).
  { unfold maxTraced. destruct (i_num q <? 8) eqn:E.
    - destruct (bump_ok (y_times t) (i_num q)) as [w [A [B D]]]; [lia|]. exists w. split; auto. split; [congruence|]. auto.
    - exists (y_times t). split; auto. split; auto. intros k K. replace (i_num q =? Z.of_nat k) with false by lia. lia. }
  destruct T as [w [T1 [T2 T3]]]. rewrite T1. cbn [bind]. replace (0 <=? i_level q) with true by lia.
  destruct (bump_ok (y_levels t) (i_level q)) as [v [B1 [B2 B3]]]; [lia|]. rewrite B1. cbn [bind]. eexists. split; [reflexivity|].
  unfold counts. cbn [y_traced y_good y_times y_levels]. rewrite !many_snoc. cbn [fst snd].
  split; [rewrite <- C1; destruct st; cbn; lia|]. split; [rewrite <- C2; destruct (isReady s q); lia|]. split; [auto|]. split; [|split].
  - intros k K. rewrite many_snoc, T3, C4 by auto. reflexivity.
  - congruence.
  - intros k K. rewrite many_snoc, B3, C6 by auto. reflexivity.
Qed.

Lemma count_ok fuel s : 1 <= t_levels s -> forall l t res, counts s res t -> Forall (fun ep => alive s (snd ep)) l ->
  forall rs, Forall2 (fun ep r => traceOn fuel s (fst ep) (snd ep) = Ok r) l rs ->
  exists t', count_all fuel s t l = Ok (t', map snd rs) /\ counts s (res ++ rs) t'.
Proof.
  intros L. induction l as [|[e p] l IH]; intros t res C A rs F; inversion F as [|x y l0 l1 T F']; subst.
  - exists t. rewrite app_nil_r. auto.
  - destruct y as [st q]. inversion A; subst. cbn [fst snd] in *.
    assert (Q : alive s q) by (eapply alive_traced; eauto). destruct (alive_range s q L Q) as [N [Lv _]].
    destruct (count_step fuel s t e p st q res C T N Lv) as [t' [E C']]. destruct (IH t' _ C' H2 _ F') as [t'' [E2 C2]].
    exists t''. cbn [count_all]. rewrite E. cbn [bind]. rewrite E2. cbn [bind map snd]. split; auto. now rewrite <- app_assoc in C2.
Qed.
Lemma count_back fuel s : forall l t t' qs, count_all fuel s t l = Ok (t', qs) ->
  exists rs, Forall2 (fun ep r => traceOn fuel s (fst ep) (snd ep) = Ok r) l rs.
Proof.
  induction l as [|[e p] l IH]; intros t t' qs H; cbn [count_all] in H; [exists []; constructor|].
  apply bind_ok_inv in H. destruct H as [[t1 q] [H1 H]]. apply bind_ok_inv in H. destruct H as [[t2 qs'] [H2 _]].
  destruct (IH _ _ _ H2) as [rs F]. unfold count_one in H1. apply bind_ok_inv in H1. destruct H1 as [r [T _]].
  exists (r :: rs). constructor; auto.
Qed.

Lemma counts0 s t : tally0 (t_levels s) = Ok t -> counts s [] t.
Proof.
  unfold tally0. destruct (t_levels s <? 0); [discriminate|]. intros H. inversion H. unfold counts. cbn [y_traced y_good y_times y_levels].
  rewrite !repeat_length. unfold how_many. cbn [filter length].
  split; [reflexivity|]. split; [reflexivity|]. split; [reflexivity|]. split; [intros k K; do 8 (destruct k; [reflexivity|]); lia|].
  split; [reflexivity|]. intros k K. rewrite nth_repeat. reflexivity.
Qed.

(** A frame *)
Theorem frame_counts fuel s l : 1 <= t_levels s -> Forall (fun ep => alive s (snd ep)) l ->
  forall rs, Forall2 (fun ep r => traceOn fuel s (fst ep) (snd ep) = Ok r) l rs ->
  exists t, trace_frame fuel s l = Ok (t, map snd rs) /\ counts s rs t.
Proof.
  intros L A rs F. unfold trace_frame. destruct (tally0 (t_levels s)) as [t| | | |] eqn:E; try (unfold tally0 in E; destruct (t_levels s <? 0) eqn:X; [lia|discriminate]).
  cbn [bind]. destruct (count_ok fuel s L l t [] (counts0 s t E) A rs F) as [t' H]. exists t'. exact H.
Qed.
Theorem frame_defined fuel s l : 1 <= t_levels s -> Forall (fun ep => alive s (snd ep)) l ->
  (is_ok (trace_frame fuel s l) <-> Forall (fun ep => is_ok (traceOn fuel s (fst ep) (snd ep))) l).
Proof.
  intros L A. split.
  - intros [[t qs] H]. unfold trace_frame in H. apply bind_ok_inv in H. destruct H as [t0 [_ H]]. apply count_back in H. destruct H as [rs F].
    clear A. induction F; constructor; auto. eexists. eauto.
  - intros H. assert (Q : exists rs, Forall2 (fun ep r => traceOn fuel s (fst ep) (snd ep) = Ok r) l rs).
    { clear A. induction H as [|x l [r R] H [rs F]]; [exists []; constructor|]. exists (r :: rs). constructor; auto. }
    destruct Q as [rs F]. destruct (frame_counts fuel s l L A rs F) as [t [E _]]. eexists. eauto.
Qed.

(** The counts add up *)
Lemma sum_app a b : sum (a ++ b) = sum a + sum b.
Proof. induction a; cbn; [reflexivity|]. unfold sum in *. cbn. lia. Qed.
Lemma list_seq (v : list Z) : v = map (fun k => nth k v 0) (seq 0 (length v)).
Proof.
  induction v as [|x v IH]; [reflexivity|]. cbn [length seq map]. f_equal. rewrite <- seq_shift, map_map. exact IH.
Qed.
Lemma many_cons {A} (f : A -> bool) x l : how_many f (x :: l) = (if f x then 1 else 0) + how_many f l.
Proof. unfold how_many. cbn. destruct (f x); cbn [length]; lia. Qed.
Lemma one_hot (z : Z) n : sum (map (fun k => if z =? Z.of_nat k then 1 else 0) (seq 0 n)) = if (0 <=? z) && (z <? Z.of_nat n) then 1 else 0.
Proof.
  induction n as [|n IH]; [change (0 = if (0 <=? z) && (z <? 0) then 1 else 0); destruct ((0 <=? z) && (z <? 0)) eqn:E; lia|].
  rewrite seq_S, map_app, sum_app, IH. cbn [map sum fold_right Nat.add]. rewrite Z.add_0_r.
  destruct (z =? Z.of_nat n) eqn:E; destruct ((0 <=? z) && (z <? Z.of_nat n)) eqn:E1, ((0 <=? z) && (z <? Z.of_nat (S n))) eqn:E2; lia.
Qed.
Lemma sum_map_add (f g : nat -> Z) l : sum (map (fun k => f k + g k) l) = sum (map f l) + sum (map g l).
Proof. induction l as [|x l IH]; cbn; [reflexivity|]. unfold sum in *. lia. Qed.
Lemma many_split {A} (g : A -> Z) n l : sum (map (fun k => how_many (fun r => g r =? Z.of_nat k) l) (seq 0 n)) = how_many (fun r => (0 <=? g r) && (g r <? Z.of_nat n)) l.
Proof.
  induction l as [|x l IH].
  - unfold how_many. cbn. induction (seq 0 n); cbn; auto.
  - rewrite many_cons, <- IH, <- one_hot, <- sum_map_add. f_equal. apply map_ext. intros k. now rewrite many_cons.
Qed.
Lemma many_all {A} (f : A -> bool) l : Forall (fun x => f x = true) l -> how_many f l = Z.of_nat (length l).
Proof. intros H. unfold how_many. f_equal. f_equal. induction H; cbn; auto. rewrite H. now f_equal. Qed.

Lemma filter_len {A} (f : A -> bool) l : (length (filter f l) <= length l)%nat.
Proof. induction l as [|x l IH]; cbn; [lia|]. destruct (f x); cbn; lia. Qed.

Theorem frame_sums fuel s l t qs : 1 <= t_levels s -> Forall (fun ep => alive s (snd ep)) l -> trace_frame fuel s l = Ok (t, qs) ->
  sum (y_levels t) = Z.of_nat (length l) /\
  sum (y_times t) = how_many (fun q => i_num q <? 8) qs /\
  0 <= y_traced t <= Z.of_nat (length l) /\
  (2 <= t_levels s -> nth (Z.to_nat (t_levels s - 1)) (y_levels t) 0 = 0).
Proof.
  intros L A H. pose proof H as H0. unfold trace_frame in H0. apply bind_ok_inv in H0. destruct H0 as [t0 [_ H0]]. apply count_back in H0. destruct H0 as [rs F].
  destruct (frame_counts fuel s l L A rs F) as [t' [E (C1 & C2 & C3 & C4 & C5 & C6)]]. rewrite H in E. inversion E; subst t' qs; clear E.
  assert (R : Forall (fun r => alive s (snd r)) rs).
  { clear - A F. induction F as [|x [st q] l rs T F IH]; [constructor|]. inversion A; subst. constructor; auto. eapply alive_traced; eauto. }
  assert (Len : length rs = length l) by (clear - F; induction F; cbn; auto).
  split; [|split; [|split]].
  - rewrite (list_seq (y_levels t)), C5. rewrite (map_ext_in _ (fun k => how_many (fun r => i_level (snd r) =? Z.of_nat k) rs)).
    + rewrite many_split, many_all; [now rewrite Len|]. apply Forall_forall. intros r I. rewrite Forall_forall in R. destruct (alive_range s _ L (R r I)) as [_ [X _]]. lia.
    + intros k K. apply in_seq in K. apply C6. lia.
  - rewrite (list_seq (y_times t)), C3. rewrite (map_ext_in _ (fun k => how_many (fun r => i_num (snd r) =? Z.of_nat k) rs)).
    + rewrite many_split. clear - R L. induction R as [|r rs A R IH]; [reflexivity|]. cbn [map]. rewrite !many_cons, IH. destruct (alive_range s _ L A) as [N _].
      f_equal. replace (0 <=? i_num (snd r)) with true by lia. reflexivity.
    + intros k K. apply in_seq in K. apply C4. lia.
  - rewrite C1. unfold how_many. rewrite <- Len. split; [lia|]. apply inj_le. apply filter_len.
  - intros L2. rewrite C6 by lia. unfold how_many. replace (filter _ rs) with (@nil (tstatus * ipoint)); [reflexivity|]. symmetry.
    clear - R L L2. induction R as [|r rs A R IH]; cbn; auto. destruct (alive_range s _ L A) as [_ [X Y]].
    replace (i_level (snd r) =? Z.of_nat (Z.to_nat (t_levels s - 1))) with false by lia. exact IH.
Qed.

(** All frames of a run *)
Theorem run_alive fuel s : forall fs l ts r, Forall (alive s) l -> Forall (fun f => Forall (alive s) (f_news f)) fs ->
  trace_frames fuel s l fs = Ok (ts, r) -> Forall (alive s) r.
Proof.
  induction fs as [|f fs IH]; intros l ts r A N H; cbn [trace_frames] in H; [inversion H; subst; auto|].
  apply bind_ok_inv in H. destruct H as [[t qs] [H1 H]]. apply bind_ok_inv in H. destruct H as [[ts' r'] [H2 E]]. inversion E; subst. inversion N; subst.
  refine (IH _ _ _ _ _ H2); auto. unfold trace_frame in H1. apply bind_ok_inv in H1. destruct H1 as [t0 [_ H1]].
  assert (Q : Forall (alive s) qs).
  { assert (B : Forall (alive s) (l ++ f_news f)) by (apply Forall_app; auto). clear - B H1. revert t0 t qs H1.
    generalize (f_see f). generalize (l ++ f_news f) B. intros pl Bp. induction Bp as [|p pl A Bp IH]; intros [|e es] t0 t qs H1; cbn [combine count_all] in H1;
      try (inversion H1; subst; constructor).
    apply bind_ok_inv in H1. destruct H1 as [[t1 q] [H1 H]]. apply bind_ok_inv in H. destruct H as [[t2 qs'] [H2 E]]. inversion E; subst.
    constructor; [|eapply IH; eauto]. unfold count_one in H1. apply bind_ok_inv in H1. destruct H1 as [[st q'] [T H1]].
    apply bind_ok_inv in H1. destruct H1 as [w [_ H1]]. apply bind_ok_inv in H1. destruct H1 as [v [_ H1]]. inversion H1; subst. eapply alive_traced; eauto. }
  clear - Q. revert Q. generalize (f_stay f). induction qs as [|q qs IH]; intros [|[|] b] Q; cbn; try constructor; inversion Q; subst; auto.
Qed.

Theorem run_defined fuel s (sees : env -> Prop) : 1 <= t_levels s -> (forall e p, sees e -> alive s p -> is_ok (traceOn fuel s e p)) ->
  forall fs l, Forall (alive s) l -> Forall (fun f => Forall (alive s) (f_news f) /\ Forall sees (f_see f)) fs -> is_ok (trace_frames fuel s l fs).
Proof.
  intros L D. induction fs as [|f fs IH]; intros l A N; cbn [trace_frames]; [eexists; eauto|]. inversion N as [|f0 fs0 [N1 N2] N3]; subst.
  assert (B : Forall (fun ep => alive s (snd ep)) (combine (f_see f) (l ++ f_news f))).
  { assert (B : Forall (alive s) (l ++ f_news f)) by (apply Forall_app; auto). apply Forall_forall. intros [e p] I. apply in_combine_r in I. rewrite Forall_forall in B. cbn. auto. }
  destruct (proj2 (frame_defined fuel s _ L B)) as [[t qs] E].
  { apply Forall_forall. intros [e p] I. rewrite Forall_forall in B. pose proof (B _ I). apply in_combine_l in I. rewrite Forall_forall in N2. cbn. auto. }
  rewrite E. cbn [bind].
  assert (Q : trace_frames fuel s l [ {| f_news := f_news f; f_see := f_see f; f_stay := f_stay f |} ] = Ok ([t], keep (f_stay f) qs)).
  { cbn [trace_frames f_news f_see f_stay]. rewrite E. reflexivity. }
  apply run_alive in Q; auto. destruct (IH _ Q N3) as [[ts r] R]. rewrite R. cbn. eexists. eauto.
Qed.

(** No level at all *)
Theorem no_level fuel s e p l : t_levels s = 0 -> i_state p = OOB -> i_level p = 0 -> trace_frame fuel s ((e, p) :: l) = UB.
Proof.
  intros L S Z0. unfold trace_frame. rewrite L. cbn [tally0 Z.ltb Z.compare bind count_all count_one]. unfold count_one, traceOn. rewrite S. cbn [pstate_eqb bind].
  destruct (i_num p <? maxTraced); [|cbn [bind]; rewrite Z0; reflexivity].
  unfold bump. cbn [y_times length repeat Z.to_nat]. destruct (_ || _); [reflexivity|]. cbn [bind]. rewrite Z0. reflexivity.
Qed.
