(** Property theorems about DsoSystem: C01-C07, C09, C10, C26, C27, C55, C56, C65, C66.
    Quantified over poses, points, settings, observers, call sequences and all results of the
    components outside the model ([frame_in]). *)
From Coq Require Import List ZArith Bool Permutation Sorting.Sorted.
From Verif Require Import Outcome Dbl DsoModel DsoSpec DsoHistory DsoProofs DsoActivate DsoBudget DsoRestore
  DsoExamples DsoFinal.
Import ListNotations.
Open Scope Z_scope.

Section Dso.
Variables P : Type.
Variable pid : P.
Variable pmul : P -> P -> P.
Variable pinv : P -> P.
Variables IP OP : Type.
Variable promote : IP -> OP.
Variable ready : IP -> bool.
Variable s : dso_settings.
Variables obsA obsB : list nat.
Notation run := (run pid pmul pinv promote ready s).
Notation add_frame := (add_frame pid pmul pinv promote ready s).
Notation fresh := (init s obsA obsB : state P IP OP).
Notation restore := (restore pmul pinv s).
Notation skipped := (skip_count (firstFramesSkip s)).
Notation shift := (shiftBetweenKeyFrames s).
Notation expected := (expected_kfs (firstFramesSkip s) shift (continueChoosing s)).
Notation hist := (history (firstFramesSkip s) shift (trackFromLastKf s) (continueChoosing s)).
Notation used := (used_frames (firstFramesSkip s)).

(** C01: the window is bounded and holds the newest keyframes. *)
Theorem C01_window cs st : 1 <= maxKeyFrames s -> run cs fresh = Ok st ->
  Z.of_nat (length (st_kfs st)) <= Z.max 2 (maxKeyFrames s) /\
  (exists old, expected (numbers cs) = old ++ map kf_num (st_kfs st) /\ old = map kf_num (reported (st_log st))) /\
  StronglySorted Z.lt (expected (numbers cs)).
Proof. exact (final_window _ _ _ _ _ _ _ _ _ _ _ cs st). Qed.

(** C02: every keyframe reaches the observers exactly once, in order, with its final list. *)
Theorem C02_reported_once cs st : run cs fresh = Ok st ->
  map shape (reported (destroy st)) = rev (hist (numbers cs)) /\
  StronglySorted Z.lt (map kf_num (reported (destroy st))).
Proof. exact (final_reported _ _ _ _ _ _ _ _ _ _ _ cs st). Qed.

(** C03: the keyframes ever created are those of the cadence rule. *)
Theorem C03_cadence cs st : run cs fresh = Ok st ->
  map kf_num (reported (destroy st)) = expected (numbers cs).
Proof. exact (all_reported_nums _ _ _ _ _ _ _ _ _ _ _ cs st). Qed.

(** C04: no frame is lost while keyframes are chosen. *)
Theorem C04_no_frame_lost cs st : continueChoosing s = true -> run cs fresh = Ok st ->
  Permutation (frames_of (reported (destroy st))) (used (numbers cs)) /\ NoDup (used (numbers cs)).
Proof. exact (final_complete _ _ _ _ _ _ _ _ _ _ _ cs st). Qed.

(** C04: otherwise exactly the frames meeting the promotion rule are lost. *)
Theorem C04_lost_when_disabled cs st f r n rest : continueChoosing s = false -> run cs fresh = Ok st ->
  numbers cs = f :: r -> skipn skipped r = n :: rest ->
  Permutation (frames_of (reported (destroy st))) (f :: n :: filter (fun x => negb (due shift n x)) rest).
Proof. exact (final_disabled _ _ _ _ _ _ _ _ _ _ _ cs st f r n rest). Qed.

(** C05: accepted numbers. *)
Theorem C05_accepted cs st : run cs fresh = Ok st ->
  StronglySorted Z.lt (numbers cs) /\ Forall (fun n => 0 < n < st_size st) (numbers cs).
Proof. exact (accepted_sorted _ _ _ _ _ _ _ _ _ _ _ cs st). Qed.

(** C05: other numbers abort. *)
Theorem C05_rejected cs st fi : run cs fresh = Ok st -> fi_num fi < INT_MAX ->
  (fi_num fi <= 0 \/ exists m, In m (numbers cs) /\ fi_num fi <= m) -> add_frame st fi = Abort.
Proof. exact (rejects _ _ _ _ _ _ _ _ _ _ _ cs st fi). Qed.

(** C06: the pose table agrees with the keyframes. *)
Theorem C06_pose_table cs st : pose_laws pid pmul pinv -> run cs fresh = Ok st ->
  forall k, In k (st_kfs st) ->
    st_tbl st (kf_num k) = Some (pinv (kf_pose k)) /\
    forall n p, In (n, p) (kf_tracked k) -> st_tbl st n = Some (pmul p (pinv (kf_pose k))).
Proof. exact (fun PL => table_agrees _ _ _ _ _ _ _ _ _ _ _ PL cs st). Qed.

(** C06: the table holds a pose exactly for the frames in use. *)
Theorem C06_pose_table_domain cs st : run cs fresh = Ok st ->
  forall n, st_tbl st n <> None <-> In n (used (numbers cs)).
Proof. exact (table_domain _ _ _ _ _ _ _ _ _ _ _ cs st). Qed.

(** C07: what each prediction reads. *)
Theorem C07_prediction cs st : run cs fresh = Ok st ->
  forall lbo last plbo plast gLast gPrev, In (EvPredict lbo last plbo plast gLast gPrev) (st_log st) ->
  exists pre cur post, numbers cs = pre ++ lbo :: last :: cur :: post /\ (skipped <= length pre)%nat /\
    gLast = last - cur /\ gPrev = lbo - last /\ gLast < 0 /\ gPrev < 0 /\ plast <> None /\
    (plbo = None <-> (length pre = skipped /\ 1 <= firstFramesSkip s)).
Proof. exact (final_gap_positive _ _ _ _ _ _ _ _ _ _ _ cs st). Qed.

(** C07, C27: every frame after initialisation is announced, predicted and tracked, and reaches the
    observers registered before it. *)
Theorem C27_tracked_frames_reach_observers cs1 fi cs2 st : run (cs1 ++ AddFrame fi :: cs2) fresh = Ok st ->
  (S (S skipped) <= length (numbers cs1))%nat ->
  In (EvTracked (fi_num fi) (obsA ++ obsB ++ observers_added cs1)) (st_log st) /\
  In (EvNewFrame (fi_num fi)) (st_log st) /\
  exists pre lbo last plbo plast, numbers cs1 = pre ++ [lbo; last] /\
    In (EvPredict lbo last plbo plast (last - fi_num fi) (lbo - last)) (st_log st).
Proof. exact (tracked_events _ _ _ _ _ _ _ _ _ _ _ cs1 fi cs2 st). Qed.

(** C27: and no other set of observers. *)
Theorem C27_only_registered cs st n obs : run cs fresh = Ok st -> In (EvTracked n obs) (st_log st) ->
  exists cs1 fi cs2, cs = cs1 ++ AddFrame fi :: cs2 /\ n = fi_num fi /\
    (S (S skipped) <= length (numbers cs1))%nat /\ obs = obsA ++ obsB ++ observers_added cs1.
Proof. exact (tracked_only _ _ _ _ _ _ _ _ _ _ _ cs st n obs). Qed.

(** C27: in a restored system the observers added during [created] miss the next frame; they are
    attached only if that frame became a keyframe (more than three events were logged). *)
Theorem C27_restored_missing nobs ctorObs createdObs (kfs : list (kf P IP OP)) st fi st' r :
  restore nobs ctorObs createdObs kfs = Ok st -> add_frame st fi = Ok (st', r) ->
  In (EvTracked (fi_num fi) ctorObs) (st_log st') /\
  (forall obs, In (EvTracked (fi_num fi) obs) (st_log st') -> obs = ctorObs) /\
  st_tracker st' = Some (if continueChoosing s && (length (st_log st) + 3 <? length (st_log st'))%nat
                         then ctorObs ++ createdObs else ctorObs).
Proof. exact (restored_tracker _ _ _ _ _ _ _ _ _ nobs ctorObs createdObs kfs st fi st' r). Qed.

(** C09: the budget of optimised points. *)
Theorem C09_budget cs st : 0 <= maxOptimizedPoints s ->
  calls_ok (fun fi => choice_ok fi /\ sort_ok fi /\ ba_ok fi) cs ->
  run cs fresh = Ok st -> opt_count (st_kfs st) <= maxOptimizedPoints s.
Proof. exact (budget _ _ _ _ _ _ _ _ _ _ _ cs st). Qed.

(** C10: activation moves exactly the chosen points. *)
Theorem C10_activation (fi : frame_in P IP OP) l chosen : NoDup (map kf_num l) -> sort_ok fi ->
  fi_choose fi (length (ready_positions ready l)) (maxOptimizedPoints s - opt_count l) = Ok chosen ->
  NoDup chosen -> (forall i, In i chosen -> (i < length (ready_positions ready l))%nat) ->
  exists l', activate promote ready s fi l = Ok l' /\
    Forall2 (fun k k' => exists inds, Permutation inds (places (ready_positions ready l) (kf_num k) chosen) /\
                                      activated promote inds k k') l l'.
Proof. exact (activation_exact _ _ _ _ _ s fi l chosen). Qed.

(** C10: the positions offered for activation are those of the ready points, each once. *)
Theorem C10_positions (l : list (kf P IP OP)) : NoDup (map kf_num l) ->
  NoDup (ready_positions ready l) /\
  forall n ind, In (n, ind) (ready_positions ready l) <->
    exists k x, In k l /\ kf_num k = n /\ nth_error (kf_imm k) ind = Some x /\ ready x = true.
Proof. exact (fun H => conj (ready_positions_nodup _ _ _ promote ready l H) (in_ready_positions _ _ _ promote ready l)). Qed.

(** C26: one observer. *)
Theorem C26_one_observer cs st a b st' : trackFromLastKf s = true -> run cs fresh = Ok st ->
  restore 1 a b (st_kfs st) = Ok st' ->
  st_nums st' = frames_of (st_kfs st) /\ StronglySorted Z.lt (st_nums st') /\
  (continueChoosing s = true -> exists old, used (numbers cs) = old ++ st_nums st').
Proof. exact (final_restored _ _ _ _ _ _ _ _ _ _ _ cs st a b st'). Qed.

(** C26: no observer. *)
Theorem C26_no_observer a b (kfs : list (kf P IP OP)) st :
  restore 0 a b kfs = Ok st -> st_nums st = map kf_num kfs.
Proof. exact (final_restored_none _ pmul pinv _ _ s a b kfs st). Qed.

(** C26: each tracked frame occurs once per observer. *)
Theorem C26_once_per_observer nobs a b (kfs : list (kf P IP OP)) st k x p : NoDup (frames_of kfs) ->
  restore nobs a b kfs = Ok st -> In k kfs -> In (x, p) (kf_tracked k) ->
  count_occ Z.eq_dec (st_nums st) x = nobs.
Proof. exact (final_restored_many _ pmul pinv _ _ s nobs a b kfs st k x p). Qed.

(** C26: a zero gap in the next prediction. *)
Theorem C26_zero_gap_refuted nobs a b l (k : kf P IP OP) t p st fi st' r :
  (2 <= nobs)%nat -> kf_tracked k = [(t, p)] -> restore nobs a b (l ++ [k]) = Ok st ->
  add_frame st fi = Ok (st', r) ->
  exists x y, In (EvPredict t t x y (t - fi_num fi) 0) (st_log st').
Proof. exact (restored_zero_gap _ _ _ _ _ _ _ _ _ nobs a b l k t p st fi st' r). Qed.

(** C26: poses of a restored system. *)
Theorem C26_poses nobs a b (kfs : list (kf P IP OP)) st : NoDup (frames_of kfs) ->
  restore nobs a b kfs = Ok st -> forall k, In k kfs ->
    st_tbl st (kf_num k) = Some (pinv (kf_pose k)) /\
    forall n p, In (n, p) (kf_tracked k) ->
      st_tbl st n = match nobs with O => None | S _ => Some (pmul p (pinv (kf_pose k))) end.
Proof. exact (final_restored_poses _ pmul pinv _ _ s nobs a b kfs st). Qed.

(** C66: a snapshot whose two newest keyframes have no tracked frames cannot be restored. *)
Theorem C66_fresh_snapshot_refuted nobs a b (l : list (kf P IP OP)) k1 k2 :
  kf_tracked k1 = [] -> kf_tracked k2 = [] -> ~ is_ok (restore nobs a b (l ++ [k1; k2])).
Proof. exact (restore_no_tracked _ pmul pinv _ _ s nobs a b l k1 k2). Qed.

(** C66: a restored system with one observer continues the schedule of the snapshot. *)
Theorem C66_restored_continues a b (kfs : list (kf P IP OP)) st1 cs st :
  StronglySorted Z.lt (frames_of kfs) -> restore 1 a b kfs = Ok st1 -> run cs st1 = Ok st ->
  map shape (reported (destroy st)) =
    rev (fold_left (history_step shift (trackFromLastKf s) (continueChoosing s)) (numbers cs) (rev (map shape kfs))) /\
  st_nums st = frames_of kfs ++ numbers cs /\ StronglySorted Z.lt (st_nums st).
Proof. exact (final_restored_continue _ _ _ _ _ _ _ _ _ a b kfs st1 cs st). Qed.

(** C55: when initialisation happens and which keyframes it creates. *)
Theorem C55_initialisation cs st fi st' r : run cs fresh = Ok st -> add_frame st fi = Ok (st', r) ->
  (r = None <-> (S (length (numbers cs)) < S (S skipped))%nat) /\
  (forall m, r = Some m -> m = fi_num fi) /\
  (S (length (numbers cs)) = S (S skipped) ->
     exists f, hd_error (numbers cs) = Some f /\ map kf_num (st_kfs st') = [f; fi_num fi] /\
       map kf_tracked (st_kfs st') = [[]; []] /\
       (exists m, map kf_pose (st_kfs st') = [pid; pinv m] /\ exists i0 i1, fi_init fi = Ok (m, i0, i1)) /\
       st_log st = [] /\ In (EvInitialized (st_kfs st')) (st_log st')) /\
  (forall l, In (EvInitialized l) (st_log st') ->
     map kf_num l = firstn 2 (used (numbers (cs ++ [AddFrame fi]))) \/ In (EvInitialized l) (st_log st)).
Proof. exact (init_timing _ _ _ _ _ _ _ _ _ _ _ cs st fi st' r). Qed.

(** C56: after an exception in the initialiser the object is what [begin_frame] left, and the next
    frame is undefined behaviour. *)
Theorem C56_failed_init cs st fi st1 : run cs fresh = Ok st -> length (numbers cs) = S skipped ->
  begin_frame s st (fi_num fi) = Ok st1 -> fi_init fi = Throw ->
  add_frame st fi = Throw /\ st_inited st1 = true /\ st_kfs st1 = [] /\
  forall fi2, fi_num fi < fi_num fi2 < INT_MAX -> add_frame st1 fi2 = UB.
Proof. exact (failed_init _ _ _ _ _ _ _ _ _ _ _ cs st fi st1). Qed.

(** C65: with sane settings and inputs no call leaves defined behaviour. *)
Theorem C65_no_abnormal_outcome cs : settings_ok s -> calls_ok inputs_ok cs ->
  StronglySorted Z.lt (numbers cs) -> Forall (fun n => 0 < n < INT_MAX) (numbers cs) ->
  is_ok (run cs fresh).
Proof. exact (no_abnormal _ _ _ _ _ _ _ _ _ _ _ cs). Qed.

End Dso.

(** C03: consecutive numbers after the newest keyframe give one keyframe every [shift] frames. *)
Theorem C03_consecutive shift k m : 1 <= shift ->
  cadence shift k (consecutive k m) = map (fun j => k + shift * Z.of_nat (S j)) (seq 0 (m / Z.to_nat shift)).
Proof. exact (cadence_consecutive shift k m). Qed.

(** ** Concrete cases *)
Example demo_meets_hypotheses : settings_ok (demo true true true) /\ calls_ok inputs_ok (demo_calls demo_numbers) /\
  numbers (demo_calls demo_numbers) = demo_numbers /\ pose_laws iso_id iso_mul iso_inv.
Proof. exact (conj (demo_settings_ok true true true) (conj (demo_calls_ok demo_numbers) (conj eq_refl iso_laws))). Qed.
Example demo_last_case : summary (demo_run (demo true true true) demo_numbers) =
  Some ([(19, []); (22, [23]); (25, [26])],
        [(1, []); (4, [5; 6]); (7, [8; 9]); (10, [12]); (13, [15]); (16, [17])], 6, 63%nat).
Proof. exact demo_last. Qed.
Example demo_lbo_case : summary (demo_run (demo false true true) demo_numbers) =
  Some ([(19, [23]); (22, [26]); (25, [])],
        [(1, [5; 6]); (4, [8; 9]); (7, [12]); (10, [15]); (13, [17]); (16, [])], 6, 63%nat).
Proof. exact demo_lbo. Qed.
Example demo_disabled_case : summary (demo_run (demo true false true) demo_numbers) =
  Some ([(1, []); (4, [5; 6; 8; 9; 12; 15; 17; 23; 26])], [], 0, 50%nat).
Proof. exact demo_disabled. Qed.
Example demo_restore_case : forall nobs, In nobs [0; 1; 2]%nat ->
  is_ok (restore iso_mul iso_inv (demo true true true) nobs [1%nat] [2%nat] snap).
Proof. exact snap_restores. Qed.
Example demo_failed_init_case : begin_frame (demo true true true) (failed_prefix) 3 = Ok failed_state.
Proof. exact failed_example. Qed.

Print Assumptions C01_window.
Print Assumptions C02_reported_once.
Print Assumptions C03_cadence.
Print Assumptions C04_no_frame_lost.
Print Assumptions C04_lost_when_disabled.
Print Assumptions C05_accepted.
Print Assumptions C05_rejected.
Print Assumptions C06_pose_table.
Print Assumptions C06_pose_table_domain.
Print Assumptions C07_prediction.
Print Assumptions C27_tracked_frames_reach_observers.
Print Assumptions C27_only_registered.
Print Assumptions C27_restored_missing.
Print Assumptions C09_budget.
Print Assumptions C10_activation.
Print Assumptions C10_positions.
Print Assumptions C26_one_observer.
Print Assumptions C26_no_observer.
Print Assumptions C26_once_per_observer.
Print Assumptions C26_zero_gap_refuted.
Print Assumptions C26_poses.
Print Assumptions C66_fresh_snapshot_refuted.
Print Assumptions C66_restored_continues.
Print Assumptions C55_initialisation.
Print Assumptions C56_failed_init.
Print Assumptions C65_no_abnormal_outcome.
Print Assumptions C03_consecutive.
