(** C97: what the sample program writes and shows over a run. *)
From Coq Require Import List ZArith Bool.
From Verif Require Import Outcome Dbl DsoModel DsoSpec DsoExamples MainModel MainSpec MainTop MainExamples.
Import ListNotations.
Open Scope Z_scope.

(** However the run ends, the output of the loop is a beginning of the output that is due for the
    frames asked for; if it ends normally, it is all of it, and the snapshot comes last. *)
Theorem C97_output : forall P pid pmul pinv IP OP promote ready s plain levels width fl dir reader gt image,
  fl_gt_only fl = false ->
  let r := main P pid pmul pinv IP OP promote ready s plain levels width fl dir reader gt image in
  let all := flat_map (frame_output (fl_start fl) (firstFramesSkip s) (shiftBetweenKeyFrames s)
                         (trackFromLastKf s) (continueChoosing s) fl plain levels) (frames_asked fl) in
  beginning (filter of_frame (fst r)) all /\
  (snd r = Ok tt -> exists l, fst r = header fl ++ all ++ [WSnapshot l]).
Proof. exact main_images. Qed.
Print Assumptions C97_output.

(** With sane settings, an even number of levels, readable frames and an output directory the run
    ends normally, unless it stops before the initialisation while the ground truth is asked for. *)
Theorem C97_ends : forall P pid pmul pinv IP OP promote ready s plain levels width fl image dir gt,
  settings_ok s -> (0 < levels)%nat -> Nat.even levels = true ->
  (forall n, In n (frames_asked fl) -> exists g : frame_in P IP OP, image n = Ok g /\ inputs_ok g) ->
  1 <= fl_start fl -> fl_start fl + fl_count fl <= INT_MAX -> 0 <= fl_count fl ->
  fl_gt_only fl = false -> continueChoosing s = true \/ debug_registered fl = false ->
  fl_write fl || dir = true -> (fl_gt fl = true -> gt = Ok tt) ->
  snd (main P pid pmul pinv IP OP promote ready s plain levels width fl dir (Ok tt) gt image) =
    if fl_gt fl && (fl_count fl <? Z.of_nat (S (S (skip_count (firstFramesSkip s))))) then Abort else Ok tt.
Proof.
  intros P pid pmul pinv IP OP promote ready s plain levels width fl image dir gt H1 H2 H3 H4 H5 H6 H7 H8 H9.
  exact (main_ends P pid pmul pinv IP OP promote ready s plain levels width fl image H1 H2 H3 H4 H5 H6 dir gt H8 H9 H7).
Qed.
Print Assumptions C97_ends.

(** If no new keyframes are chosen, drawing the debug image of the first frame that is due uses a
    frame that is gone. *)
Theorem C97_gone_refuted : forall P pid pmul pinv IP OP promote ready s plain levels width fl image dir gt,
  settings_ok s -> (0 < levels)%nat -> Nat.even levels = true ->
  (forall n, In n (frames_asked fl) -> exists g : frame_in P IP OP, image n = Ok g /\ inputs_ok g) ->
  1 <= fl_start fl -> fl_start fl + fl_count fl <= INT_MAX ->
  fl_gt_only fl = false -> continueChoosing s = false -> debug_registered fl = true ->
  init_frame (fl_start fl) (firstFramesSkip s) + period (shiftBetweenKeyFrames s) < fl_start fl + fl_count fl ->
  fl_write fl || dir = true -> (fl_gt fl = true -> gt = Ok tt) ->
  snd (main P pid pmul pinv IP OP promote ready s plain levels width fl dir (Ok tt) gt image) = UB.
Proof.
  intros P pid pmul pinv IP OP promote ready s plain levels width fl image dir gt H1 H2 H3 H4 H5 H6.
  exact (main_gone P pid pmul pinv IP OP promote ready s plain levels width fl image H1 H2 H3 H4 H5 H6 dir gt).
Qed.
Print Assumptions C97_gone_refuted.

(** Without write_files and without an output directory the program cannot run at all: nothing is
    written or shown and an exception ends it. *)
Theorem C97_no_directory_refuted : forall P pid pmul pinv IP OP promote ready s plain levels width fl dir gt image,
  fl_gt_only fl = false -> fl_write fl || dir = false ->
  main P pid pmul pinv IP OP promote ready s plain levels width fl dir (Ok tt) gt image = ([], Throw).
Proof. exact main_no_dir. Qed.
Print Assumptions C97_no_directory_refuted.

(** gen_gt_only writes the cloud into the working directory and nothing else but args.txt. *)
Theorem C97_gt_only : forall P pid pmul pinv IP OP promote ready s plain levels width fl dir image,
  fl_gt_only fl = true ->
  main P pid pmul pinv IP OP promote ready s plain levels width fl dir (Ok tt) (Ok tt) image =
    (optional (fl_write fl || dir) WArgs ++ [WCloudHere], Ok tt).
Proof. exact main_gt_only. Qed.
Print Assumptions C97_gt_only.

(** No numbered image is written twice. *)
Theorem C97_once : forall P pid pmul pinv IP OP promote ready s plain levels width fl dir reader gt image,
  fl_gt_only fl = false ->
  NoDup (names (fst (main P pid pmul pinv IP OP promote ready s plain levels width fl dir reader gt image))).
Proof. exact main_once. Qed.
Print Assumptions C97_once.

(** But interpolation.jpg is written again for every frame from the initialisation on. *)
Theorem C97_interpolation_refuted : forall P pid pmul pinv IP OP promote ready s plain levels width fl dir reader gt image out,
  fl_gt_only fl = false -> fl_write fl = true -> plain = false -> 0 <= fl_count fl ->
  main P pid pmul pinv IP OP promote ready s plain levels width fl dir reader gt image = (out, Ok tt) ->
  Z.of_nat (length (filter is_interp out)) = Z.max 0 (fl_count fl - Z.of_nat (S (skip_count (firstFramesSkip s)))).
Proof. exact main_interp. Qed.
Print Assumptions C97_interpolation_refuted.

(** ** Concrete runs: frames 3 to 9, one frame skipped, a keyframe every third frame. *)
Example C97_case : demo_main true (demo_flags true true false true 7) false =
  ([WArgs; WCloud; WCloudGT;
    WDebug 3 PBlack; WTrack 3 [CBlack; CBlack];
    WDebug 4 PBlack; WTrack 4 [CBlack; CBlack];
    WInterp; SInterp; WDebug 5 PBlack; WTrack 5 [CBlack; CBlack]; WPyr 5 5;
    WInterp; SInterp; WDebug 6 (PFull 5 6 (CRes 6 0)); WTrack 6 [CRes 6 0; CRes 6 1];
    WInterp; SInterp; WDebug 7 (PFull 5 7 (CRes 7 0)); WTrack 7 [CRes 7 0; CRes 7 1];
    WInterp; SInterp; WDebug 8 (PFull 8 8 (CRes 8 0)); WTrack 8 [CRes 8 0; CRes 8 1]; WPyr 8 8;
    WInterp; SInterp; WDebug 9 (PFull 8 9 (CRes 9 0)); WTrack 9 [CRes 9 0; CRes 9 1];
    WSnapshot [3; 5; 8]], Ok tt).
Proof. exact demo_output. Qed.

Example C97_hypotheses : settings_ok (demo true true true) /\ settings_ok (demo true false true) /\
  Nat.even 2 = true /\
  (forall n, In n (frames_asked (demo_flags true true false true 7)) ->
     exists g, (fun n => Ok (frame n)) n = Ok g /\ inputs_ok g) /\
  init_frame 3 (firstFramesSkip (demo true false true)) + period (shiftBetweenKeyFrames (demo true false true)) < 3 + 7 /\
  snd (demo_main false (demo_flags true true false true 7) false) = UB /\
  snd (demo_main true (demo_flags true true false true 2) false) = Abort /\
  snd (demo_main true (demo_flags true true false false 2) false) = Ok tt.
Proof.
  split; [apply demo_settings_ok|]. split; [apply demo_settings_ok|]. split; [reflexivity|].
  split; [exact (demo_readable _)|]. split; [reflexivity|]. split; [exact demo_gone|exact demo_short].
Qed.
