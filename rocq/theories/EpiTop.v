From Coq Require Import List ZArith QArith Bool Lia Lqa.
From Verif Require Import Outcome Dbl DblArith UtilModel TraceModel TraceSpec TraceProofs TraceMore EpiModel EpiSpec EpiProofs.
Import ListNotations.
Open Scope Z_scope.

Lemma run_points pt dl a r : run pt dl a r -> forall k x, nth_error r k = Some x -> fst x = pt (snd x).
Proof.
  induction 1 as [a|a r H IH]; intros [|k] x E; cbn in E.
  - injection E as <-. reflexivity.
  - destruct k; discriminate.
  - injection E as <-. reflexivity.
  - eapply IH; eauto.
Qed.

Lemma doubled_points pt dl l : doubled pt dl l -> forall x, In x l -> fst x = pt (snd x).
Proof.
  induction 1 as [|l a r _ IH R]; intros x I; [destruct I|].
  assert (K : In x r -> fst x = pt (snd x)).
  { intros J. apply In_nth_error in J. destruct J as [k J]. eapply run_points; eauto. }
  apply in_app_or in I. destruct I as [I|I]; [apply IH, I|]. apply in_app_or in I. destruct I; apply K; assumption.
Qed.

Lemma samples_two fuel s e pts : points_to_trace fuel s e = Ok (Some pts) -> (2 <= length pts)%nat.
Proof.
  unfold points_to_trace. destruct (e_opposite e); [discriminate|]. destruct (_ && _); [discriminate|].
  intros H. apply bind_ok_inv in H. destruct H as (m & _ & H). apply bind_ok_inv in H. destruct H as (l & _ & H).
  destruct (Nat.leb_spec 2 (length l)); congruence.
Qed.

(** everything about a successful tracing and its drawing *)
Lemma traced_drawn unit fuel s e p q : traceOn fuel s e p = Ok (OK, q) -> i_state p = ACTIVE ->
  bounded unit -> on_sheet e ->
  exists pts r ms, points_to_trace fuel s e = Ok (Some pts) /\
    visit_all s e (i_max p) search0 0 pts = Ok r /\
    draw_tracing unit 5 (r_found r) = Ok ms /\ length ms = length pts /\
    known s e (i_max p) pts (length pts) r /\
    (exists b, r_best r = Some b /\ i_energy q = b_energy b) /\
    trace_drawn unit fuel s e p = Ok (OK, q, Some ms).
Proof.
  intros H A LU OS. pose proof (traceOn_inv _ _ _ _ _ _ H) as I.
  destruct I as [(I & _)|[(_ & [I|I] & _)|[(_ & (I & _) & _)|[_ S]]]]; try discriminate; [exfalso; now apply I|].
  destruct (su_data _ _ _ _ _ S) as (pts & r & b & sec & de & mm & P & V & RB & _ & _ & _ & _ & _ & _ & _ & _ & _ & _ & EQ).
  pose proof (known_final _ _ _ _ _ V) as K. pose proof (k_len _ _ _ _ _ _ K) as KL.
  destruct (draw_defined unit 5 (r_found r)) as (ms & D & L).
  - rewrite KL. eapply samples_two; eauto.
  - exact LU.
  - lia.
  - apply Forall_forall. intros (pp & x) I. apply In_nth_error in I. destruct I as [j I].
    destruct (k_found _ _ _ _ _ _ K _ _ _ I) as (_ & a & N).
    pose proof (doubled_points _ _ _ (samples_doubled _ _ _ _ P) _ (nth_error_In _ _ N)) as E.
    cbn [fst snd] in E. subst pp. cbn [fst]. apply OS.
  - exists pts, r, ms. split; [exact P|]. split; [exact V|]. split; [exact D|]. split; [congruence|].
    split; [exact K|]. split; [exists b; split; [exact RB|subst q; reflexivity]|].
    unfold trace_drawn. rewrite H. cbn [bind fst snd]. rewrite (state_kept _ _ _ _ _ _ H), A. cbn [pstate_eqb].
    rewrite P. cbn [bind]. rewrite V. cbn [bind]. rewrite D. reflexivity.
Qed.

Lemma found_real s e maxd pts n r : known s e maxd pts n r -> (forall far a l, e_energy e far a l <> NaN) -> real (r_found r).
Proof.
  intros K NE j pp x N. destruct (k_found _ _ _ _ _ _ K _ _ _ N) as ((p1 & a1 & z & _ & _ & ->) & _). apply NE.
Qed.

Lemma found_lowest s e maxd pts n r b : known s e maxd pts n r -> (forall far a l, e_energy e far a l <> NaN) ->
  r_best r = Some b -> lowest (r_found r) (b_ind b) (b_energy b).
Proof.
  intros K NE RB. pose proof (found_real _ _ _ _ _ _ K NE) as RL.
  destruct (k_some _ _ _ _ _ _ K b RB) as (F1 & F2 & F3 & F4).
  split; [eauto|]. split.
  - intros j pp y N. destruct (F3 _ _ _ N) as [E|E]; [|exact E]. exfalso. eapply RL; eauto.
  - intros j pp y J N. destruct (F4 _ _ _ N J) as [E|E]; [|exact E]. exfalso. eapply RL; eauto.
Qed.

Lemma nth_some {A} (l : list A) i : (i < length l)%nat -> exists x, nth_error l i = Some x.
Proof. intros H. destruct (nth_error l i) eqn:E; [eauto|]. apply nth_error_None in E. lia. Qed.

Lemma lowest_value l i j x y : lowest l i x -> lowest l j y -> i = j /\ x = y.
Proof.
  intros A B. pose proof (lowest_unique _ _ _ _ _ A B). subst j. split; [reflexivity|].
  destruct A as ((p1 & A) & _), B as ((p2 & B) & _). congruence.
Qed.

Lemma best_marked unit fuel s e p q : traceOn fuel s e p = Ok (OK, q) -> i_state p = ACTIVE ->
  bounded unit -> on_sheet e -> (forall far a l, e_energy e far a l <> NaN) ->
  exists pts ms i pt a m n,
    trace_drawn unit fuel s e p = Ok (OK, q, Some ms) /\
    points_to_trace fuel s e = Ok (Some pts) /\ length ms = length pts /\
    nth_error pts i = Some (pt, a) /\ measured s e (i_max p) pts i (i_energy q) /\
    nth_error ms i = Some m /\ across pt n 5 m /\ m_col m = CV_BLACK /\ m_thick m = 3 /\
    (forall j m', nth_error ms j = Some m' -> j <> i -> m_thick m' = 1).
Proof.
  intros H A LU OS NE. destruct (traced_drawn unit _ _ _ _ _ H A LU OS) as (pts & r & ms & P & V & D & L & K & (b & RB & EQ) & T).
  pose proof (found_real _ _ _ _ _ _ K NE) as RL. pose proof (k_len _ _ _ _ _ _ K) as KL.
  pose proof (found_lowest _ _ _ _ _ _ _ K NE RB) as LB.
  destruct (draw_shows _ _ _ _ RL D) as (_ & mi & lo & hi & LM & _ & SH).
  destruct (lowest_value _ _ _ _ _ LB LM) as [<- <-].
  destruct (k_some _ _ _ _ _ _ K b RB) as (F1 & _).
  assert (LI : (b_ind b < length pts)%nat) by (rewrite <- KL; apply nth_error_Some; congruence).
  destruct (nth_some ms (b_ind b)) as [m M]; [lia|].
  destruct (k_found _ _ _ _ _ _ K _ _ _ F1) as (ME & a & NP).
  destruct (SH _ _ _ _ F1 M) as (d & n & _ & _ & _ & [(_ & AC & C & TH)|(X & _)]); [|congruence].
  exists pts, ms, (b_ind b), (b_point b), a, m, n. rewrite EQ.
  repeat split; try assumption; try apply AC.
  intros j m' N' X. assert (LJ : (j < length (r_found r))%nat) by (rewrite KL, <- L; apply nth_error_Some; congruence).
  destruct (nth_some _ _ LJ) as [(pj & xj) NJ].
  destruct (SH _ _ _ _ NJ N') as (d' & n' & _ & _ & _ & [(X' & _)|(_ & _ & _ & TH')]); [congruence|exact TH'].
Qed.

Lemma best_overdrawn unit fuel s e p q : traceOn fuel s e p = Ok (OK, q) -> i_state p = ACTIVE ->
  bounded unit -> on_sheet e -> (forall far a l, e_energy e far a l <> NaN) ->
  t_full s = false -> i_max p <> PInf ->
  exists r ms i pt a m m' n n' hi,
    trace_drawn unit fuel s e p = Ok (OK, q, Some ms) /\
    points_to_trace fuel s e = Ok (Some (r ++ r)) /\
    nth_error r i = Some (pt, a) /\
    nth_error ms i = Some m /\ across pt n 5 m /\ m_col m = CV_BLACK /\ m_thick m = 3 /\
    nth_error ms (length r + i) = Some m' /\ across pt n' (5 # 2) m' /\ m_thick m' = 1 /\
    m_col m' = depth_col (i_energy q) (i_energy q) hi /\
    (exists j, measured s e (i_max p) (r ++ r) j hi) /\
    (forall j x, measured s e (i_max p) (r ++ r) j x -> dle x hi = true).
Proof.
  intros H A LU OS NE TF NM. destruct (traced_drawn unit _ _ _ _ _ H A LU OS) as (pts & r0 & ms & P & V & D & L & K & (b & RB & EQ) & T).
  destruct (samples_limited _ _ _ _ TF P) as (r & maxc & -> & _).
  pose proof (best_first_half _ _ _ _ _ _ NM V RB) as BF.
  pose proof (found_real _ _ _ _ _ _ K NE) as RL. pose proof (k_len _ _ _ _ _ _ K) as KL.
  pose proof (found_lowest _ _ _ _ _ _ _ K NE RB) as LB.
  destruct (draw_shows _ _ _ _ RL D) as (_ & mi & lo & hi & LM & HI & SH).
  destruct (lowest_value _ _ _ _ _ LB LM) as [<- <-].
  destruct (k_some _ _ _ _ _ _ K b RB) as (F1 & _).
  destruct (k_found _ _ _ _ _ _ K _ _ _ F1) as (ME & a & NP).
  rewrite app_length in L, KL.
  destruct (nth_some ms (b_ind b)) as [m M]; [lia|].
  destruct (nth_some ms (length r + b_ind b)) as [m' M']; [lia|].
  destruct (nth_some (r_found r0) (length r + b_ind b)) as [(p2 & x2) F2]; [lia|].
  destruct (k_found _ _ _ _ _ _ K _ _ _ F2) as (ME2 & a2 & NP2).
  assert (NR : nth_error r (b_ind b) = Some (b_point b, a)) by (rewrite nth_error_app1 in NP by exact BF; exact NP).
  assert (NP3 : nth_error (r ++ r) (length r + b_ind b) = Some (b_point b, a)).
  { rewrite nth_error_app2 by lia. replace (length r + b_ind b - length r)%nat with (b_ind b) by lia. exact NR. }
  rewrite NP3 in NP2. injection NP2 as <- <-.
  assert (x2 = b_energy b).
  { destruct ME as (p1 & a1 & z1 & N1 & Z1 & E1). destruct ME2 as (p2 & a2 & z2 & N2 & Z2 & E2).
    rewrite NP in N1. injection N1 as <- <-. rewrite NP3 in N2. injection N2 as <- <-.
    assert (X : forall i, match i_max p, i with PInf, O => true | _, _ => false end = false)
      by (intros i; destruct (i_max p); try reflexivity; congruence).
    rewrite X in Z1, Z2, E1, E2. rewrite Z1 in Z2. injection Z2 as <-. congruence. }
  subst x2.
  destruct (SH _ _ _ _ F1 M) as (d & n & _ & _ & _ & [(_ & AC & C & TH)|(X & _)]); [|congruence].
  destruct (SH _ _ _ _ F2 M') as (d' & n' & _ & _ & _ & [(X & _)|(_ & AC' & C' & TH')]); [lia|].
  exists r, ms, (b_ind b), (b_point b), a, m, m', n, n', hi. rewrite EQ.
  split; [exact T|]. split; [exact P|]. split; [exact NR|]. split; [exact M|]. split; [exact AC|]. split; [exact C|].
  split; [exact TH|]. split; [exact M'|]. split; [exact AC'|]. split; [exact TH'|]. split; [exact C'|].
  destruct HI as ((jh & ph & NH) & HA). split.
  - exists jh. apply (k_found _ _ _ _ _ _ K _ _ _ NH).
  - intros j x MX. assert (LJ : (j < length (r_found r0))%nat).
    { rewrite KL, <- app_length. destruct MX as (p3 & a3 & z3 & N3 & _). apply nth_error_Some. congruence. }
    destruct (nth_some _ _ LJ) as [(pj & xj) NJ].
    destruct (k_found _ _ _ _ _ _ K _ _ _ NJ) as ((p3 & a3 & z3 & N3 & Z3 & E3) & _).
    destruct MX as (p4 & a4 & z4 & N4 & Z4 & E4). rewrite N3 in N4. injection N4 as <- <-. cbn zeta in *.
    rewrite Z3 in Z4. injection Z4 as <-. rewrite E4, <- E3. eapply HA; eauto.
Qed.

Lemma drawing_harmless unit fuel s e p st q : traceOn fuel s e p = Ok (st, q) -> bounded unit -> on_sheet e ->
  exists d, trace_drawn unit fuel s e p = Ok (st, q, d) /\ (d <> None <-> st = OK /\ i_state p = ACTIVE).
Proof.
  intros H LU OS. destruct (i_state p) eqn:A.
  1:{ destruct st; try (exists None; split; [unfold trace_drawn; rewrite H; reflexivity|]; split; [congruence|intros [? ?]; congruence]).
      destruct (traced_drawn unit _ _ _ _ _ H A LU OS) as (pts & r & ms & _ & _ & _ & _ & _ & _ & T).
      exists (Some ms). split; [exact T|]. split; [auto|discriminate]. }
  all: exists None; split; [|split; [congruence|intros [? ?]; congruence]];
    unfold trace_drawn; rewrite H; cbn [bind fst snd]; rewrite (state_kept _ _ _ _ _ _ H), A; destruct st; reflexivity.
Qed.
