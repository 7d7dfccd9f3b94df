(** What each documented flag is meant to set (help texts of flags.cpp 5-73). *)
From Coq Require Import ZArith QArith List.
From Verif Require Import FlagsModel.
Import ListNotations.

Inductive flag :=
| f_num_threads | f_points_per_frame | f_first_frames_skip | f_run_max_RANSAC_iterations
| f_average_ORB_motion | f_optimize_affine_light | f_perform_full_tracing | f_use_alt_H_weighting
| f_tracing_GN_iter | f_pos_variance | f_tracing_impr_factor | f_track_from_last_kf
| f_predict_using_screw | f_use_grad_weights_on_tracking | f_track_fail_factor | f_run_ba
| f_fixed_motion_on_first_ba | f_optimized_stddev | f_shift_between_keyframes.

(** The value given on the command line. *)
Definition flag_value (fl : flags) (f : flag) : value :=
  match f with
  | f_num_threads => VInt (FLAGS_num_threads fl)
  | f_points_per_frame => VInt (FLAGS_points_per_frame fl)
  | f_first_frames_skip => VInt (FLAGS_first_frames_skip fl)
  | f_run_max_RANSAC_iterations => VBool (FLAGS_run_max_RANSAC_iterations fl)
  | f_average_ORB_motion => VBool (FLAGS_average_ORB_motion fl)
  | f_optimize_affine_light => VBool (FLAGS_optimize_affine_light fl)
  | f_perform_full_tracing => VBool (FLAGS_perform_full_tracing fl)
  | f_use_alt_H_weighting => VBool (FLAGS_use_alt_H_weighting fl)
  | f_tracing_GN_iter => VInt (FLAGS_tracing_GN_iter fl)
  | f_pos_variance => VDbl (FLAGS_pos_variance fl)
  | f_tracing_impr_factor => VDbl (FLAGS_tracing_impr_factor fl)
  | f_track_from_last_kf => VBool (FLAGS_track_from_last_kf fl)
  | f_predict_using_screw => VBool (FLAGS_predict_using_screw fl)
  | f_use_grad_weights_on_tracking => VBool (FLAGS_use_grad_weights_on_tracking fl)
  | f_track_fail_factor => VDbl (FLAGS_track_fail_factor fl)
  | f_run_ba => VBool (FLAGS_run_ba fl)
  | f_fixed_motion_on_first_ba => VBool (FLAGS_fixed_motion_on_first_ba fl)
  | f_optimized_stddev => VDbl (FLAGS_optimized_stddev fl)
  | f_shift_between_keyframes => VInt (FLAGS_shift_between_keyframes fl)
  end.

(** The setting whose default the flag is declared with (flags.cpp 5-71). *)
Definition meant_for (f : flag) : field :=
  match f with
  | f_num_threads => numThreads
  | f_points_per_frame => pointsNum
  | f_first_frames_skip => firstFramesSkip
  | f_run_max_RANSAC_iterations => runMaxRansacIter
  | f_average_ORB_motion => runAveraging
  | f_optimize_affine_light => optimizeAffineLight
  | f_perform_full_tracing => performFullTracing
  | f_use_alt_H_weighting => useAltHWeighting
  | f_tracing_GN_iter => gnIter
  | f_pos_variance => positionVariance
  | f_tracing_impr_factor => imprFactor
  | f_track_from_last_kf => trackFromLastKf
  | f_predict_using_screw => predictUsingScrew
  | f_use_grad_weights_on_tracking => useGradWeighting
  | f_track_fail_factor => trackFailFactor
  | f_run_ba => runBA
  | f_fixed_motion_on_first_ba => fixedMotionOnFirstAdjustent
  | f_optimized_stddev => optimizedStddev
  | f_shift_between_keyframes => shiftBetweenKeyFrames
  end.

(** Two command lines that differ in at most the flag [f] (and the flag for random numbers, which
    is no setting). *)
Definition differ_only_in (f : flag) (a b : flags) : Prop :=
  forall g, g <> f -> flag_value a g = flag_value b g.
