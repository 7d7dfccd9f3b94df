(** The statements of Prop_Dso.v assembled from the lemmas. *)
From Coq Require Import List ZArith Bool Lia Permutation Sorting.Sorted ZifyBool.
From Verif Require Import Outcome Dbl DsoModel DsoSpec DsoHistory DsoProofs DsoActivate DsoBudget DsoRestore DsoExamples.
Import ListNotations.
Open Scope Z_scope.

Section Final.
Variables P : Type.
Variable pid : P.
Variable pmul : P -> P -> P.
Variable pinv : P -> P.
Variables IP OP : Type.
Variable promote : IP -> OP.
Variable ready : IP -> bool.
Variable s : dso_settings.
Variables obsA obsB : list nat.
Notation run := (run pid pmul pinv promote ready s).
Notation st0 := (init s obsA obsB : state P IP OP).
Notation expected := (expected_kfs (firstFramesSkip s) (shiftBetweenKeyFrames s) (continueChoosing s)).
Notation hist := (history (firstFramesSkip s) (shiftBetweenKeyFrames s) (trackFromLastKf s) (continueChoosing s)).
Notation used := (used_frames (firstFramesSkip s)).

Lemma frames_hall (l : list (kf P IP OP)) : frames_of l = hall (map shape l).
Proof. unfold frames_of, hall. induction l as [|k l IH]; [reflexivity|]. cbn [flat_map map]. rewrite IH. reflexivity. Qed.

Lemma hall_rev h : Permutation (hall (rev h)) (hall h).
Proof. unfold hall. apply Permutation_flat_map, Permutation_sym, Permutation_rev. Qed.

Lemma final_window cs st : 1 <= maxKeyFrames s -> run cs st0 = Ok st ->
  Z.of_nat (length (st_kfs st)) <= Z.max 2 (maxKeyFrames s) /\
  (exists old, expected (numbers cs) = old ++ map kf_num (st_kfs st) /\ old = map kf_num (reported (st_log st))) /\
  StronglySorted Z.lt (expected (numbers cs)).
Proof.
  intros Hm H. split; [eapply window_bound; eauto|]. split.
  - eexists. split; [|reflexivity]. rewrite <- (all_reported_nums _ _ _ _ _ _ _ _ _ _ _ _ _ H), reported_destroy, map_app. reflexivity.
  - apply expected_sorted. eapply accepted_sorted; eauto.
Qed.

Lemma final_reported cs st : run cs st0 = Ok st ->
  map shape (reported (destroy st)) = rev (hist (numbers cs)) /\
  StronglySorted Z.lt (map kf_num (reported (destroy st))).
Proof.
  intros H. split; [eapply all_reported; eauto|]. rewrite (all_reported_nums _ _ _ _ _ _ _ _ _ _ _ _ _ H).
  apply expected_sorted. eapply accepted_sorted; eauto.
Qed.

Lemma final_complete cs st : continueChoosing s = true -> run cs st0 = Ok st ->
  Permutation (frames_of (reported (destroy st))) (used (numbers cs)) /\ NoDup (used (numbers cs)).
Proof.
  intros Hc H.
  assert (Pm : Permutation (frames_of (reported (destroy st))) (used (numbers cs))).
  { rewrite frames_hall, (all_reported _ _ _ _ _ _ _ _ _ _ _ _ _ H), hall_rev. apply history_complete; auto. }
  split; [exact Pm|]. eapply Permutation_NoDup; [exact Pm|]. rewrite frames_hall, (all_reported _ _ _ _ _ _ _ _ _ _ _ _ _ H).
  eapply Permutation_NoDup; [apply Permutation_sym, hall_rev|].
  apply history_hall. eapply accepted_sorted; eauto.
Qed.

Lemma final_disabled cs st f r n rest : continueChoosing s = false -> run cs st0 = Ok st ->
  numbers cs = f :: r -> skipn (skip_count (firstFramesSkip s)) r = n :: rest ->
  Permutation (frames_of (reported (destroy st)))
              (f :: n :: filter (fun x => negb (due (shiftBetweenKeyFrames s) n x)) rest).
Proof.
  intros Hc H En Es. rewrite frames_hall, (all_reported _ _ _ _ _ _ _ _ _ _ _ _ _ H), hall_rev, En.
  apply history_disabled; auto.
Qed.

Lemma final_restored cs st a b st' : trackFromLastKf s = true -> run cs st0 = Ok st ->
  restore pmul pinv s 1 a b (st_kfs st) = Ok st' ->
  st_nums st' = frames_of (st_kfs st) /\ StronglySorted Z.lt (st_nums st') /\
  (continueChoosing s = true -> exists old, used (numbers cs) = old ++ st_nums st').
Proof.
  intros Hl H Hr. destruct (restore_spec _ _ _ _ _ _ _ _ _ _ _ Hr) as (R0 & R1 & R2 & R3 & _).
  rewrite restored_one in R3. rewrite R3, frames_hall. split; [reflexivity|].
  pose proof (all_reported _ _ _ _ _ _ _ _ _ _ _ _ _ H) as Hall. rewrite Hl, reported_destroy, map_app in Hall.
  destruct (flat_history (firstFramesSkip s) (shiftBetweenKeyFrames s) (continueChoosing s) (numbers cs)) as (A & B & C).
  { eapply accepted_sorted; eauto. }
  rewrite <- Hall, hall_app in A, C. split.
  - clear - A. remember (hall (map shape (reported (st_log st)))) as l1. clear Heql1. induction l1; [exact A|]. inversion A; auto.
  - intros Hc. specialize (C Hc). eauto.
Qed.

Lemma final_restored_continue ctorObs createdObs (kfs : list (kf P IP OP)) st1 cs st :
  StronglySorted Z.lt (frames_of kfs) ->
  restore pmul pinv s 1 ctorObs createdObs kfs = Ok st1 -> run cs st1 = Ok st ->
  map shape (reported (destroy st)) =
    rev (fold_left (history_step (shiftBetweenKeyFrames s) (trackFromLastKf s) (continueChoosing s))
                   (numbers cs) (rev (map shape kfs))) /\
  st_nums st = frames_of kfs ++ numbers cs /\ StronglySorted Z.lt (st_nums st).
Proof. rewrite frames_hall. apply restored_history. Qed.

Lemma final_restored_poses nobs a b (kfs : list (kf P IP OP)) st : NoDup (frames_of kfs) ->
  restore pmul pinv s nobs a b kfs = Ok st -> forall k, In k kfs ->
     st_tbl st (kf_num k) = Some (pinv (kf_pose k)) /\
     forall n p, In (n, p) (kf_tracked k) ->
       st_tbl st n = match nobs with O => None | S _ => Some (pmul p (pinv (kf_pose k))) end.
Proof. rewrite frames_hall. intros ND Hr. apply (restore_spec _ _ _ _ _ _ _ _ _ _ _ Hr). exact ND. Qed.

Lemma final_restored_none a b (kfs : list (kf P IP OP)) st :
  restore pmul pinv s 0 a b kfs = Ok st -> st_nums st = map kf_num kfs.
Proof. intros Hr. destruct (restore_spec _ _ _ _ _ _ _ _ _ _ _ Hr) as (_ & _ & _ & -> & _). apply restored_none. Qed.

Lemma final_restored_many nobs a b (kfs : list (kf P IP OP)) st k x p : NoDup (frames_of kfs) ->
  restore pmul pinv s nobs a b kfs = Ok st -> In k kfs -> In (x, p) (kf_tracked k) ->
  count_occ Z.eq_dec (st_nums st) x = nobs.
Proof.
  rewrite frames_hall. intros ND Hr Hk Hp. destruct (restore_spec _ _ _ _ _ _ _ _ _ _ _ Hr) as (_ & _ & _ & -> & _).
  apply restored_many; eauto.
Qed.

Lemma final_gap_positive cs st : run cs st0 = Ok st ->
  forall lbo last plbo plast g1 g2, In (EvPredict lbo last plbo plast g1 g2) (st_log st) ->
  exists pre cur post, numbers cs = pre ++ lbo :: last :: cur :: post /\
    (skip_count (firstFramesSkip s) <= length pre)%nat /\
    g1 = last - cur /\ g2 = lbo - last /\ g1 < 0 /\ g2 < 0 /\ plast <> None /\
    (plbo = None <-> (length pre = skip_count (firstFramesSkip s) /\ 1 <= firstFramesSkip s)).
Proof.
  intros H lbo last plbo plast g1 g2 Hin.
  destruct (predictions _ _ _ _ _ _ _ _ _ _ _ _ _ H _ _ _ _ _ _ Hin) as (pre & cur & post & A & B & C & D & E & F & G & I).
  exists pre, cur, post. repeat (split; [assumption|]). rewrite I. unfold skip_count. split; intros [X Y]; split; auto; lia.
Qed.

End Final.
