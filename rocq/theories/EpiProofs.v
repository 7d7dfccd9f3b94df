From Coq Require Import List ZArith QArith Qround Bool Lia Lqa.
From Verif Require Import Outcome Dbl DblArith UtilModel TraceModel TraceSpec TraceProofs TraceMore DrawProofs EpiModel EpiSpec.
Import ListNotations.
Open Scope Z_scope.

(** ** The extreme energies *)

Lemma dlt_irrefl_e x : dlt x x = false.
Proof. destruct x; cbn; try reflexivity. apply Z.ltb_irrefl. Qed.

Lemma dlt_dle_trans a b c : dle a b = true -> dlt b c = true -> dlt a c = true.
Proof.
  destruct a, b, c; try (cbn; congruence).
  rewrite !dlt_fin, dle_fin. intros. eapply Qle_lt_trans; eauto.
Qed.

Lemma min_from_range l : forall k b i, 0 <= k < i -> 0 <= min_from k b i l < i + Z.of_nat (length l).
Proof.
  induction l as [|[p x] l IH]; intros k b i H; cbn [min_from length snd]; [lia|].
  destruct (dlt x b); [specialize (IH i x (i + 1))|specialize (IH k b (i + 1))]; lia.
Qed.
Lemma max_from_range l : forall k b i, 0 <= k < i -> 0 <= max_from k b i l < i + Z.of_nat (length l).
Proof.
  induction l as [|[p x] l IH]; intros k b i H; cbn [max_from length snd]; [lia|].
  destruct (dlt b x); [specialize (IH i x (i + 1))|specialize (IH k b (i + 1))]; lia.
Qed.
Lemma min_element_range l : l <> [] -> 0 <= min_element l < Z.of_nat (length l).
Proof.
  destruct l as [|[p x] l]; [congruence|]. intros _. cbn [min_element length snd].
  pose proof (min_from_range l 0 x 1). lia.
Qed.
Lemma max_element_range l : l <> [] -> 0 <= max_element l < Z.of_nat (length l).
Proof.
  destruct l as [|[p x] l]; [congruence|]. intros _. cbn [max_element length snd].
  pose proof (max_from_range l 0 x 1). lia.
Qed.

Lemma snoc_at {A} (pre : list A) x : nth_error (pre ++ [x]) (length pre) = Some x.
Proof. rewrite nth_error_app2, Nat.sub_diag by lia. reflexivity. Qed.

Lemma min_from_lowest l : forall pre k b, real (pre ++ l) -> lowest pre k b ->
  exists k' b', min_from (Z.of_nat k) b (Z.of_nat (length pre)) l = Z.of_nat k' /\ lowest (pre ++ l) k' b'.
Proof.
  induction l as [|[q x] l IH]; intros pre k b NN L; cbn [min_from snd].
  - rewrite app_nil_r. eauto.
  - assert (NX : x <> NaN) by (apply (NN (length pre) q); rewrite nth_error_app2, Nat.sub_diag by lia; reflexivity).
    assert (R : pre ++ (q, x) :: l = (pre ++ [(q, x)]) ++ l) by (rewrite <- app_assoc; reflexivity).
    destruct L as ((p & L1) & L2 & L3).
    assert (NB : b <> NaN) by (apply (NN k p); rewrite nth_error_app1; [exact L1|apply nth_error_Some; congruence]).
    assert (LP : Z.of_nat (length pre) + 1 = Z.of_nat (length (pre ++ [(q, x)]))) by (rewrite app_length; cbn; lia).
    rewrite LP, R in *. destruct (dlt x b) eqn:D; apply IH; try exact NN.
    + split; [|split].
      * exists q. apply snoc_at.
      * intros j p' y H. apply nth_error_snoc in H. destruct H as [[H _]|[_ H]].
        -- eapply dle_trans; [apply dlt_dle, D|]. eapply L2; eauto.
        -- injection H as _ ->. apply dle_refl, NX.
      * intros j p' y J H. apply nth_error_snoc in H. destruct H as [[H _]|[-> _]]; [|lia].
        eapply dlt_trans_le; [exact D|]. eapply L2; eauto.
    + split; [|split].
      * exists p. rewrite nth_error_app1; [exact L1|apply nth_error_Some; congruence].
      * intros j p' y H. apply nth_error_snoc in H. destruct H as [[H _]|[_ H]]; [eapply L2; eauto|].
        injection H as _ ->. apply dlt_false; auto.
      * intros j p' y J H. apply nth_error_snoc in H. destruct H as [[H _]|[-> _]]; [eapply L3; eauto|].
        assert (k < length pre)%nat by (apply nth_error_Some; congruence). lia.
Qed.

Lemma max_from_highest l : forall pre k b, real (pre ++ l) -> (exists p, nth_error pre k = Some (p, b)) ->
  (forall j p y, nth_error pre j = Some (p, y) -> dle y b = true) ->
  exists k' b' p', max_from (Z.of_nat k) b (Z.of_nat (length pre)) l = Z.of_nat k' /\
    nth_error (pre ++ l) k' = Some (p', b') /\
    (forall j p y, nth_error (pre ++ l) j = Some (p, y) -> dle y b' = true).
Proof.
  induction l as [|[q x] l IH]; intros pre k b NN L1 L2; cbn [max_from snd].
  - rewrite app_nil_r. destruct L1 as [p L1]. exists k, b, p. auto.
  - assert (NX : x <> NaN) by (apply (NN (length pre) q); rewrite nth_error_app2, Nat.sub_diag by lia; reflexivity).
    assert (R : pre ++ (q, x) :: l = (pre ++ [(q, x)]) ++ l) by (rewrite <- app_assoc; reflexivity).
    destruct L1 as (p & L1).
    assert (NB : b <> NaN) by (apply (NN k p); rewrite nth_error_app1; [exact L1|apply nth_error_Some; congruence]).
    assert (LP : Z.of_nat (length pre) + 1 = Z.of_nat (length (pre ++ [(q, x)]))) by (rewrite app_length; cbn; lia).
    rewrite LP, R in *. destruct (dlt b x) eqn:D; apply IH; try exact NN.
    + exists q. apply snoc_at.
    + intros j p' y H. apply nth_error_snoc in H. destruct H as [[H _]|[_ H]].
      * eapply dle_trans; [eapply L2; eauto|]. apply dlt_dle, D.
      * injection H as _ ->. apply dle_refl, NX.
    + exists p. rewrite nth_error_app1; [exact L1|apply nth_error_Some; congruence].
    + intros j p' y H. apply nth_error_snoc in H. destruct H as [[H _]|[_ H]]; [eapply L2; eauto|].
      injection H as _ ->. apply dlt_false; auto.
Qed.

Lemma min_element_lowest l : l <> [] -> real l -> exists k x, min_element l = Z.of_nat k /\ lowest l k x.
Proof.
  destruct l as [|[p x] l]; [congruence|]. intros _ NN.
  destruct (min_from_lowest l [(p, x)] 0 x NN) as (k & b & E & L).
  - split; [exists p; reflexivity|]. split.
    + intros [|j] q y H; cbn in H; [injection H as <- ->; apply dle_refl, (NN 0%nat p); exact eq_refl|destruct j; discriminate].
    + intros j q y J. lia.
  - exists k, b. split; [exact E|exact L].
Qed.

Lemma max_element_highest l : l <> [] -> real l ->
  exists k x p, max_element l = Z.of_nat k /\ nth_error l k = Some (p, x) /\ highest l x.
Proof.
  destruct l as [|[p x] l]; [congruence|]. intros _ NN.
  destruct (max_from_highest l [(p, x)] 0 x NN) as (k & b & q & E & L1 & L2).
  - exists p. reflexivity.
  - intros [|j] q y H; cbn in H; [injection H as <- ->; apply dle_refl, (NN 0%nat p); exact eq_refl|destruct j; discriminate].
  - exists k, b, q. split; [exact E|]. split; [exact L1|]. split; [eauto|exact L2].
Qed.

Lemma lowest_unique l i j x y : lowest l i x -> lowest l j y -> i = j.
Proof.
  intros ((p & A1) & A2 & A3) ((q & B1) & B2 & B3).
  destruct (Nat.lt_trichotomy i j) as [H|[H|H]]; [|exact H|].
  - specialize (B3 _ _ _ H A1). specialize (A2 _ _ _ B1).
    pose proof (dlt_dle_trans _ _ _ A2 B3) as C. rewrite dlt_irrefl_e in C. discriminate.
  - specialize (A3 _ _ _ H B1). specialize (B2 _ _ _ A1).
    pose proof (dlt_dle_trans _ _ _ B2 A3) as C. rewrite dlt_irrefl_e in C. discriminate.
Qed.

(** ** The loop *)
Lemma entry_nat l k : entry l (Z.of_nat k) = match nth_error l k with Some x => Ok x | None => UB end.
Proof. unfold entry. destruct (Z.ltb_spec (Z.of_nat k) 0); [lia|]. rewrite Nat2Z.id. reflexivity. Qed.

Lemma entry_ok l i : 0 <= i < Z.of_nat (length l) ->
  exists x, entry l i = Ok x /\ nth_error l (Z.to_nat i) = Some x.
Proof.
  intros H. rewrite <- (Z2Nat.id i) by lia. rewrite entry_nat, Nat2Z.id.
  destruct (nth_error l (Z.to_nat i)) as [x|] eqn:E; [eauto|]. apply nth_error_None in E. lia.
Qed.

Lemma draw_from_ok n f : forall i, (forall k, i <= k < i + Z.of_nat n -> exists m, f k = Ok m) ->
  exists ms, draw_from n i f = Ok ms.
Proof.
  induction n as [|n IH]; intros i H; [eexists; reflexivity|].
  destruct (H i) as [m E]; [lia|]. destruct (IH (i + 1)) as [ms E2]; [intros k K; apply H; lia|].
  cbn [draw_from]. rewrite E. cbn [bind]. rewrite E2. eexists. reflexivity.
Qed.

Lemma draw_from_inv n f : forall i ms, draw_from n i f = Ok ms ->
  length ms = n /\ forall k m, nth_error ms k = Some m -> f (i + Z.of_nat k) = Ok m.
Proof.
  induction n as [|n IH]; intros i ms H; cbn [draw_from] in H.
  - injection H as <-. split; [reflexivity|]. intros [|k] m E; discriminate.
  - apply bind_ok_inv in H. destruct H as (m & E1 & H). apply bind_ok_inv in H. destruct H as (ms' & E2 & H).
    injection H as <-. destruct (IH _ _ E2) as [L A]. split; [cbn; congruence|].
    intros [|k] m' E; cbn in E.
    + injection E as <-. rewrite Z.add_0_r. exact E1.
    + apply A in E. rewrite <- E. f_equal. lia.
Qed.

Lemma to_int_near x : (-2000000000 <= x <= 2000000000)%Q -> to_int (Fin x) = Ok (qtrunc x).
Proof.
  intros [A B]. unfold to_int.
  assert (C : (-2000000000 <= qtrunc x <= 2000000000)%Z).
  { destruct (Qlt_le_dec x 0) as [N|N].
    - assert (F : qtrunc x = - qtrunc (- x)%Q).
      { unfold qtrunc, Qopp. cbn [Qnum Qden]. rewrite Z.quot_opp_l by lia. lia. }
      rewrite F, qtrunc_floor by lra. pose proof (Qfloor_resp_le (-x) 2000000000 ltac:(lra)) as U.
      pose proof (Qfloor_resp_le 0 (-x) ltac:(lra)) as V. change (Qfloor 2000000000) with 2000000000 in U.
      change (Qfloor 0) with 0 in V. lia.
    - rewrite qtrunc_floor by lra. pose proof (Qfloor_resp_le x 2000000000 ltac:(lra)) as U.
      pose proof (Qfloor_resp_le 0 x N) as V. change (Qfloor 2000000000) with 2000000000 in U.
      change (Qfloor 0) with 0 in V. lia. }
  rewrite (proj2 (in_int_iff _)); [reflexivity|]. unfold INT_MIN, INT_MAX. lia.
Qed.

Section Marks.
Variables (unit : pos -> pos) (w : Z) (l : list (pos * dbl)).

Lemma direction_ok i p : (2 <= length l)%nat -> 0 <= i < Z.of_nat (length l) -> exists d, direction l i p = Ok d.
Proof.
  intros L H. unfold direction. destruct (Z.eqb_spec i (Z.of_nat (length l) - 1)).
  - destruct (entry_ok l (i - 1)) as (x & E & _); [lia|]. rewrite E. eexists. reflexivity.
  - destruct (entry_ok l (i + 1)) as (x & E & _); [lia|]. rewrite E. eexists. reflexivity.
Qed.

Lemma direction_leads i p x d : nth_error l i = Some (p, x) -> direction l (Z.of_nat i) p = Ok d -> leads l i d.
Proof.
  intros N H. unfold direction in H.
  assert (LI : (i < length l)%nat) by (apply nth_error_Some; congruence).
  destruct (Z.eqb_spec (Z.of_nat i) (Z.of_nat (length l) - 1)) as [E|E];
    apply bind_ok_inv in H; destruct H as ((u & v) & E1 & H); injection H as <-.
  - destruct i as [|i]; [cbn in E1; discriminate|].
    replace (Z.of_nat (S i) - 1) with (Z.of_nat i) in E1 by lia. rewrite entry_nat in E1.
    destruct (nth_error l i) as [y|] eqn:NI; [|discriminate]. injection E1 as ->.
    exists i, (S i), p, x, u, v. cbn [fst]. repeat split; try assumption. right. lia.
  - replace (Z.of_nat i + 1) with (Z.of_nat (S i)) in E1 by lia. rewrite entry_nat in E1.
    destruct (nth_error l (S i)) as [y|] eqn:NI; [|discriminate]. injection E1 as ->.
    exists i, (S i), u, v, p, x. cbn [fst]. repeat split; try assumption. left. lia.
Qed.

Hypothesis (LU : bounded unit) (LW : 0 <= w <= 1000) (LP : within l).

Lemma half_bound : (0 <= inject_Z w / 2 <= 500)%Q.
Proof using LW.
  assert (A : (inject_Z 0 <= inject_Z w)%Q) by (rewrite <- Zle_Qle; lia).
  assert (B : (inject_Z w <= inject_Z 1000)%Q) by (rewrite <- Zle_Qle; lia).
  change (inject_Z 0) with 0%Q in A. change (inject_Z 1000) with 1000%Q in B.
  unfold Qdiv. change (/ 2)%Q with (1 # 2)%Q. lra.
Qed.

Lemma mark_ok mi lo hi i : (2 <= length l)%nat -> 0 <= i < Z.of_nat (length l) ->
  exists m, draw_mark unit w l mi lo hi i = Ok m.
Proof using LU LW LP.
  intros L H. unfold draw_mark. destruct (entry_ok l i H) as ((p & x) & E & N). rewrite E. cbn [bind].
  destruct (direction_ok i p L H) as (d & D). rewrite D. cbn [bind].
  pose proof (proj1 (Forall_forall _ _) LP _ (nth_error_In _ _ N)) as [P1 P2]. cbn [fst snd] in P1, P2.
  destruct (LU (snd d, - fst d)%Q) as [U1 U2]. pose proof half_bound as HB.
  set (n := unit (snd d, - fst d)%Q) in *. set (h := (inject_Z w / 2)%Q) in *.
  unfold to_cv_point, pos_add, pos_sub, pos_scale.
  destruct (i =? mi); cbn [fst snd];
    rewrite !to_int_near by nra; cbn [bind]; eexists; reflexivity.
Qed.

End Marks.

Lemma draw_defined unit w l : (2 <= length l)%nat -> bounded unit -> 0 <= w <= 1000 -> within l ->
  exists ms, draw_tracing unit w l = Ok ms /\ length ms = length l.
Proof.
  intros L LU LW LP. unfold draw_tracing.
  assert (NE : l <> []) by (intros ->; cbn in L; lia).
  destruct (entry_ok l _ (min_element_range l NE)) as (lo & E1 & _). rewrite E1. cbn [bind].
  destruct (entry_ok l _ (max_element_range l NE)) as (hi & E2 & _). rewrite E2. cbn [bind].
  destruct (draw_from_ok (length l) (draw_mark unit w l (min_element l) (snd lo) (snd hi)) 0) as [ms E].
  - intros k K. apply mark_ok; auto; lia.
  - exists ms. split; [exact E|]. apply draw_from_inv in E. apply E.
Qed.

Lemma draw_short unit w l : (length l < 2)%nat -> draw_tracing unit w l = UB.
Proof.
  destruct l as [|[p x] [|y l]]; cbn [length]; intros H; [reflexivity|reflexivity|lia].
Qed.

Lemma draw_shows unit w l ms : real l -> draw_tracing unit w l = Ok ms ->
  length ms = length l /\ exists mi lo hi, lowest l mi lo /\ highest l hi /\
  forall i p x m, nth_error l i = Some (p, x) -> nth_error ms i = Some m ->
  exists d n, leads l i d /\ n = unit (snd d, - fst d)%Q /\
    (normalises unit (snd d, - fst d)%Q -> normal_to d n) /\
    ((i = mi /\ across p n (inject_Z w) m /\ m_col m = CV_BLACK /\ m_thick m = 3) \/
     (i <> mi /\ across p n (inject_Z w / 2) m /\ m_col m = depth_col x lo hi /\ m_thick m = 1)).
Proof.
  intros NN H. unfold draw_tracing in H.
  destruct l as [|a l0]; [discriminate|]. set (l := a :: l0) in *.
  assert (NE : l <> []) by discriminate.
  destruct (min_element_lowest l NE NN) as (mi & lo & E1 & L1).
  destruct (max_element_highest l NE NN) as (ma & hi & pm & E2 & L2 & L3).
  rewrite E1, E2, !entry_nat in H. destruct (proj1 L1) as [pl NL]. rewrite NL, L2 in H. cbn [bind snd] in H.
  apply draw_from_inv in H. destruct H as [HL HM]. split; [exact HL|].
  exists mi, lo, hi. split; [exact L1|]. split; [exact L3|].
  intros i p x m N M. specialize (HM _ _ M). cbn [Z.add] in HM. unfold draw_mark in HM.
  rewrite entry_nat, N in HM. cbn [bind] in HM.
  apply bind_ok_inv in HM. destruct HM as (d & D & HM).
  exists d, (unit (snd d, - fst d)%Q). split; [eapply direction_leads; eauto|]. split; [reflexivity|]. split.
  { intros [A B]. split; [|exact B]. cbn [fst snd] in A. lra. }
  apply bind_ok_inv in HM. destruct HM as (bg & B1 & HM). apply bind_ok_inv in HM. destruct HM as (en & B2 & HM).
  injection HM as <-.
  assert (CV : forall q r, to_cv_point q = Ok r -> r = (qtrunc (fst q), qtrunc (snd q))).
  { intros q r Q. unfold to_cv_point in Q. apply bind_ok_inv in Q. destruct Q as (u & Q1 & Q).
    apply bind_ok_inv in Q. destruct Q as (v & Q2 & Q). injection Q as <-. unfold to_int in *.
    destruct (in_int (qtrunc (fst q))); [|discriminate]. destruct (in_int (qtrunc (snd q))); [|discriminate]. congruence. }
  apply CV in B1. apply CV in B2. subst bg en.
  destruct (Nat.eq_dec i mi) as [->|NI].
  - left. rewrite Z.eqb_refl. split; [reflexivity|]. cbn [m_col m_thick]. split; [|auto].
    unfold across, pos_add, pos_sub, pos_scale. cbn [m_beg m_end fst snd].
    split; f_equal; apply qtrunc_comp; field.
  - right. destruct (Z.eqb_spec (Z.of_nat i) (Z.of_nat mi)); [lia|]. split; [exact NI|]. cbn [m_col m_thick].
    split; [|auto]. unfold across, pos_add, pos_sub, pos_scale. cbn [m_beg m_end fst snd]. auto.
Qed.
