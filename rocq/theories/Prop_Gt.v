(** C79-C81: the ground-truth writers. *)
From Coq Require Import Ascii String ZArith List Bool Reals Permutation Sorting.Sorted.
From Verif Require Import Outcome Dbl Pose MotionModel MotionSpec DsoModel DsoSpec PlyModel PlySpec
  OutputModel OutputSpec OutputExamples GtModel GtSpec GtProofs GtCloud GtExamples.
Import ListNotations.
Open Scope Z_scope.

Section Run.
Variables IP OP : Type.
Variable promote : IP -> OP.
Variable ready : IP -> bool.
Variable s : dso_settings.
Variables obsA obsB : list nat.
Notation run := (run sid smul sinv promote ready s).
Notation fresh := (init s obsA obsB : state se3 IP OP).
Notation est k := (sinv (kf_pose k)).

(** ** C79 *)

(** After an initialisation with some motion, at any moment the files hold one line for each
    reported frame in order of the reports; the poses are the true ones under one similarity of
    the world, which puts the first keyframe where the system put it and makes the distance of the
    two initial cameras the estimated one; the matrices are the unaligned frame-to-world motions. *)
Theorem C79_lines cs st k0 k1 gt g0 g1 : run cs fresh = Ok st -> In (EvInitialized [k0; k1]) (st_log st) ->
  Forall rigid gt -> rigid (kf_pose k1) -> gt_covers gt (numbers cs) ->
  gt_at gt (kf_num k0) g0 -> gt_at gt (kf_num k1) g1 -> apart g0 g1 -> apart (est k0) (est k1) ->
  exists sc W, similarity sc W /\ baseline sc (est k0) (est k1) g0 g1 /\
  forall log, log = st_log st \/ log = destroy st ->
  exists w, tg_run gt log = Ok w /\
    map fst (tg_poses w) = frames_of (reported log) /\
    List.length (tg_matrices w) = List.length (tg_poses w) /\
    (forall n g', In (n, g') (tg_poses w) -> exists g, gt_at gt n g /\ sees_scaled sc W g g') /\
    (forall g', In (kf_num k0, g') (tg_poses w) -> undoes g' (kf_pose k0)) /\
    (forall i n g' m, nth_error (tg_poses w) i = Some (n, g') -> nth_error (tg_matrices w) i = Some m ->
       exists g, gt_at gt n g /\ undoes g m /\ undoes m g).
Proof. exact (gt_rows IP OP promote ready s obsA obsB cs st k0 k1 gt g0 g1). Qed.

(** Less than a millimetre of motion, true or estimated: undefined behaviour at initialisation. *)
Theorem C79_static_refuted cs st k0 k1 gt g0 g1 log : run cs fresh = Ok st -> In (EvInitialized [k0; k1]) (st_log st) ->
  log = st_log st \/ log = destroy st ->
  rigid g0 -> rigid g1 -> rigid (kf_pose k1) -> gt_at gt (kf_num k0) g0 -> gt_at gt (kf_num k1) g1 ->
  close g0 g1 \/ close (est k0) (est k1) ->
  tg_run gt log = UB /\ forall fmt dbl_of points colors, cg_run fmt dbl_of gt points colors log = UB.
Proof. exact (gt_static IP OP promote ready s obsA obsB cs st k0 k1 gt g0 g1 log). Qed.

(** A sequence too short for an initial keyframe or for a reported frame: undefined behaviour. *)
Theorem C79_short_refuted cs st k0 k1 gt log : run cs fresh = Ok st -> In (EvInitialized [k0; k1]) (st_log st) ->
  log = st_log st \/ log = destroy st ->
  (Z.of_nat (List.length gt) <= Z.max (kf_num k0) (kf_num k1) ->
     tg_run gt log = UB /\ forall fmt dbl_of points colors, cg_run fmt dbl_of gt points colors log = UB) /\
  (forall n, In n (frames_of (reported log)) -> Z.of_nat (List.length gt) <= n -> tg_run gt log = UB).
Proof.
  exact (fun H I L => conj (gt_short IP OP promote ready s obsA obsB cs st k0 k1 gt log H I L)
    (fun n => gt_missing_frame IP OP promote ready s obsA obsB cs st k0 k1 gt log n H I L)).
Qed.

(** A restored system never announces its initialisation: the poses are written unaligned. *)
Theorem C79_restored_refuted nobs ctorObs createdObs kfs st cs st' gt :
  restore smul sinv s nobs ctorObs createdObs kfs = Ok st -> run cs st = Ok st' ->
  (forall n, In n (frames_of (reported (destroy st'))) -> 0 <= n < Z.of_nat (List.length gt)) ->
  exists w, tg_run gt (destroy st') = Ok w /\ map fst (tg_poses w) = frames_of (reported (destroy st')) /\
     forall n g', In (n, g') (tg_poses w) -> gt_at gt n g'.
Proof. exact (fun A B C => proj1 (gt_restored IP OP promote ready s nobs ctorObs createdObs kfs st cs st' gt A B C)). Qed.

(** ** C80 *)

(** Tracking against the newest keyframe: line i of the true trajectory and line i of the estimated
    one (complete at shutdown) are of the same frame. *)
Theorem C80_same_lines v cs st : trackFromLastKf s = true -> run cs fresh = Ok st ->
  (forall n, In n (numbers cs) -> n < v) ->
  forall gt w, tg_run gt (destroy st) = Ok w ->
  exists t, tw_run smul sinv (Ok v) (destroy st) = Ok t /\ map fst (tw_written t) = map fst (tg_poses w).
Proof. exact (same_lines IP OP promote ready s obsA obsB v cs st). Qed.

(** Tracking against the keyframe before: three frames suffice for the lines to differ. *)
Theorem C80_crossed_refuted v cs st a b c : trackFromLastKf s = false -> continueChoosing s = true -> maxKeyFrames s <> 2 ->
  skip_count (firstFramesSkip s) = O -> numbers cs = [a; b; c] -> due (shiftBetweenKeyFrames s) b c = false ->
  run cs fresh = Ok st -> c < v ->
  forall gt w, tg_run gt (destroy st) = Ok w ->
  map fst (tg_poses w) = [a; c; b] /\
  exists t, tw_run smul sinv (Ok v) (destroy st) = Ok t /\ map fst (tw_written t) = [a; b; c].
Proof. exact (crossed_lines IP OP promote ready s obsA obsB v cs st a b c). Qed.

(** ** C81 *)

(** At shutdown the cloud file parses, declares its number of vertices and holds, for every reported
    frame in order and once, its measured points scaled and moved by the frame's estimated pose. *)
Theorem C81_cloud fmt dbl_of cs st k0 k1 gt points colors g0 g1 : fmt_ok fmt ->
  run cs fresh = Ok st -> In (EvInitialized [k0; k1]) (st_log st) ->
  Forall rigid gt -> rigid (kf_pose k1) ->
  gt_covers points (numbers cs) -> gt_covers colors (numbers cs) ->
  gt_at gt (kf_num k0) g0 -> gt_at gt (kf_num k1) g1 -> apart g0 g1 -> apart (est k0) (est k1) ->
  exists sc, (0 < sc)%R /\ baseline sc (est k0) (est k1) g0 g1 /\
  let content := gt_cloud dbl_of sc points colors (out_frames smul sinv (reported (destroy st))) in
  (Z.of_nat (List.length content) <= INT_MAX -> Forall (fun pc => color_ok (snd pc)) content ->
   exists w vs, cg_run fmt dbl_of gt points colors (destroy st) = Ok w /\
     parse_ply (h_file (cg_holder w)) = Some (Z.of_nat (List.length vs), vs) /\
     Forall2 (vertex_words fmt 6) content vs).
Proof. exact (gt_cloud_run IP OP promote ready s obsA obsB fmt dbl_of cs st k0 k1 gt points colors g0 g1). Qed.

(** A program that ends before the initialisation is aborted by the cloud writer at shutdown, and so
    is every restored system; the trajectory writer writes nothing in the first case. *)
Theorem C81_early_end_refuted cs st gt : run cs fresh = Ok st ->
  (List.length (numbers cs) <= S (skip_count (firstFramesSkip s)))%nat ->
  (exists w, tg_run gt (destroy st) = Ok w /\ tg_poses w = [] /\ tg_matrices w = []) /\
  forall fmt dbl_of points colors, cg_run fmt dbl_of gt points colors (destroy st) = Abort.
Proof. exact (gt_uninitialized IP OP promote ready s obsA obsB cs st gt). Qed.
Theorem C81_restored_refuted nobs ctorObs createdObs kfs st cs st' gt :
  restore smul sinv s nobs ctorObs createdObs kfs = Ok st -> run cs st = Ok st' ->
  (forall n, In n (frames_of (reported (destroy st'))) -> 0 <= n < Z.of_nat (List.length gt)) ->
  forall fmt dbl_of points colors, cg_run fmt dbl_of gt points colors (destroy st') = Abort.
Proof. exact (fun A B C => proj2 (gt_restored IP OP promote ready s nobs ctorObs createdObs kfs st cs st' gt A B C)). Qed.
End Run.
Print Assumptions C79_lines.
Print Assumptions C79_static_refuted.
Print Assumptions C79_short_refuted.
Print Assumptions C79_restored_refuted.
Print Assumptions C80_same_lines.
Print Assumptions C80_crossed_refuted.
Print Assumptions C81_cloud.
Print Assumptions C81_early_end_refuted.
Print Assumptions C81_restored_refuted.

(** Where the estimate agrees with the aligned truth, the frame's points lie where the similarity
    puts the true world points. *)
Theorem C81_exact_estimate sc W g pose x : rigid pose -> sees_scaled sc W g (sinv pose) ->
  cloud_point sc pose (act g x) = W x.
Proof. exact (exact_estimate sc W g pose x). Qed.
Print Assumptions C81_exact_estimate.

Example C79_case last : exists st,
  run sid smul sinv (fun x : Z => x) (fun x => 0 <? x) (gt_settings last) gt_calls (init (gt_settings last) [] []) = Ok st /\
  In (EvInitialized [gt_k0; gt_k1]) (st_log st) /\
  frames_of (reported (destroy st)) = (if last then [1; 2; 3] else [1; 3; 2]).
Proof. exact (gt_demo_run last). Qed.
Example C79_inputs_case : Forall rigid gt_poses /\ rigid (kf_pose gt_k1) /\ gt_covers gt_poses [1; 2; 3] /\
  gt_at gt_poses (kf_num gt_k0) (forward 1) /\ gt_at gt_poses (kf_num gt_k1) (forward 3) /\
  apart (forward 1) (forward 3) /\ apart (sinv (kf_pose gt_k0)) (sinv (kf_pose gt_k1)).
Proof. exact gt_demo_inputs. Qed.
Example C79_static_case : close (forward 1) (forward 1).
Proof. exact (forward_close 1). Qed.
Example C79_restored_case : exists st, restore smul sinv (gt_settings true) 1 [] [] gt_snap = Ok st /\
  frames_of (reported (destroy st)) = [1; 2; 2; 3].
Proof. exact gt_snap_restored. Qed.
Example C80_case : numbers gt_calls = [1; 2; 3] /\ due (shiftBetweenKeyFrames (gt_settings false)) 2 3 = false /\
  skip_count (firstFramesSkip (gt_settings false)) = O.
Proof. repeat split. Qed.
Example C81_case : fmt_ok demo_fmt /\ gt_covers [[]; [V3 1 2 3]; []; [V3 0 0 1; V3 0 1 0]] (numbers gt_calls).
Proof.
  split; [exact demo_fmt_ok|]. intros n H. repeat (destruct H as [<-|H]; [reflexivity|]). destruct H.
Qed.
