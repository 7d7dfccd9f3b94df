(** Command-line flags and settings: source/util/flags.cpp, include/util/settings.h.

    Settings are a function from fields to values, so that "nothing else changes" can be stated;
    each field of settings.h with a C++ default has a constructor.  Vectors (gradThresholds,
    pointColors, residual pattern) are not flags and are represented by one opaque value each. *)
From Coq Require Import ZArith QArith String List Bool.
Import ListNotations.
Open Scope Z_scope.

Inductive value := VInt (z : Z) | VBool (b : bool) | VDbl (q : Q) | VOther (name : string).

(** settings.h 19-255, in order. *)
Inductive field :=
| mapPolyDegree | mapPolyPoints
| initialAdaptiveBlockSize | initialPointsFound | adaptToFactor | gradThresholds | pointColors
| distMaxWidth | distMaxHeight
| outlierReprojError | successProb | sgeMaxRansacIter | initialInliersCapacity | runAveraging
| runMaxRansacIter
| matchNonMoveDist | keyPointNum | smMaxRansacIter
| epsPointIsOnSegment | epsSamePoints | drawPadding
| firstFramesSkip | usePlainTriangulation
| pointsNum
| onImageTestCount | maxSearchRel | positionVariance | minSecondBestDistance | imprFactor
| outlierEnergyFactor | secondBestEnergyThresFactor | outlierQuality | optimizedStddev | gnIter
| performFullTracing | useAltHWeighting
| trackFailFactor | useGradWeighting
| maxIterations | fixedMotionOnFirstAdjustent | fixedRotationOnSecondKF | runBA
| levelNum
| minAffineLightA | maxAffineLightA | minAffineLightB | maxAffineLightB | optimizeAffineLight
| depthMin | depthMax
| gradWeightingC
| residualPattern
| outlierDiff
| numThreads
| maxOptimizedPoints | maxKeyFrames | trackFromLastKf | predictUsingScrew
| continueChoosingKeyFrames | initialMaxFrame | shiftBetweenKeyFrames.

Definition field_eq_dec : forall a b : field, {a = b} + {a <> b}.
Proof. decide equality. Defined.

(** settings.h: the defaults; settings.cpp 8-14 for the vectors. *)
Definition default (f : field) : value :=
  match f with
  | mapPolyDegree => VInt 10 | mapPolyPoints => VInt 2000
  | initialAdaptiveBlockSize => VInt 25 | initialPointsFound => VInt 1000
  | adaptToFactor => VDbl (11 # 10) | gradThresholds => VOther "20 8 5"
  | pointColors => VOther "green blue red"
  | distMaxWidth => VDbl 480 | distMaxHeight => VDbl 302
  | outlierReprojError => VDbl (125 # 100) | successProb => VDbl (999 # 1000)
  | sgeMaxRansacIter => VInt 100000 | initialInliersCapacity => VInt 2000
  | runAveraging => VBool true | runMaxRansacIter => VBool false
  | matchNonMoveDist => VDbl 8 | keyPointNum => VInt 2000 | smMaxRansacIter => VInt 100000
  | epsPointIsOnSegment => VDbl (1 # 1000000000) | epsSamePoints => VDbl (1 # 1000000000)
  | drawPadding => VDbl (1 # 10)
  | firstFramesSkip => VInt 15 | usePlainTriangulation => VBool false
  | pointsNum => VInt 2000
  | onImageTestCount => VInt 100 | maxSearchRel => VDbl (27 # 1000)
  | positionVariance => VDbl (32 # 10) | minSecondBestDistance => VDbl 3 | imprFactor => VDbl 1
  | outlierEnergyFactor => VDbl (444 # 1000) | secondBestEnergyThresFactor => VDbl (4 # 1000)
  | outlierQuality => VDbl 3 | optimizedStddev => VDbl (24 # 10) | gnIter => VInt 3
  | performFullTracing => VBool false | useAltHWeighting => VBool true
  | trackFailFactor => VDbl (15 # 10) | useGradWeighting => VBool false
  | maxIterations => VInt 10 | fixedMotionOnFirstAdjustent => VBool false
  | fixedRotationOnSecondKF => VBool false | runBA => VBool true
  | levelNum => VInt 6
  | minAffineLightA => VDbl (-953101798 # 10000000000)
  | maxAffineLightA => VDbl (953101798 # 10000000000)
  | minAffineLightB => VDbl (-256 # 10) | maxAffineLightB => VDbl (256 # 10)
  | optimizeAffineLight => VBool false
  | depthMin => VDbl (1 # 1000) | depthMax => VDbl 10000
  | gradWeightingC => VDbl 50
  | residualPattern => VOther "default pattern"
  | outlierDiff => VDbl 12
  | numThreads => VInt 4
  | maxOptimizedPoints => VInt 2000 | maxKeyFrames => VInt 7 | trackFromLastKf => VBool true
  | predictUsingScrew => VBool false | continueChoosingKeyFrames => VBool true
  | initialMaxFrame => VInt 2500 | shiftBetweenKeyFrames => VInt 10
  end.

(** flags.cpp 5-73: the values of the flags. *)
Record flags := {
  FLAGS_num_threads : Z;
  FLAGS_points_per_frame : Z;
  FLAGS_first_frames_skip : Z;
  FLAGS_run_max_RANSAC_iterations : bool;
  FLAGS_average_ORB_motion : bool;
  FLAGS_optimize_affine_light : bool;
  FLAGS_perform_full_tracing : bool;
  FLAGS_use_alt_H_weighting : bool;
  FLAGS_tracing_GN_iter : Z;
  FLAGS_pos_variance : Q;
  FLAGS_tracing_impr_factor : Q;
  FLAGS_track_from_last_kf : bool;
  FLAGS_predict_using_screw : bool;
  FLAGS_use_grad_weights_on_tracking : bool;
  FLAGS_track_fail_factor : Q;
  FLAGS_run_ba : bool;
  FLAGS_fixed_motion_on_first_ba : bool;
  FLAGS_optimized_stddev : Q;
  FLAGS_shift_between_keyframes : Z;
  FLAGS_deterministic : bool
}.

(** flags.cpp 5-73: the defaults of the flags. *)
Definition flags_default : flags := {|
  FLAGS_num_threads := 4;
  FLAGS_points_per_frame := 2000;
  FLAGS_first_frames_skip := 15;
  FLAGS_run_max_RANSAC_iterations := false;
  FLAGS_average_ORB_motion := true;
  FLAGS_optimize_affine_light := false;
  FLAGS_perform_full_tracing := false;
  FLAGS_use_alt_H_weighting := true;
  FLAGS_tracing_GN_iter := 3;
  FLAGS_pos_variance := 32 # 10;
  FLAGS_tracing_impr_factor := 1;
  FLAGS_track_from_last_kf := true;
  FLAGS_predict_using_screw := false;
  FLAGS_use_grad_weights_on_tracking := false;
  FLAGS_track_fail_factor := 15 # 10;
  FLAGS_run_ba := true;
  FLAGS_fixed_motion_on_first_ba := false;
  FLAGS_optimized_stddev := 24 # 10;
  FLAGS_shift_between_keyframes := 10;
  FLAGS_deterministic := true
|}.

(** An assignment to one field of the settings. *)
Definition assign (s : field -> value) (f : field) (v : value) : field -> value :=
  fun g => if field_eq_dec g f then v else s g.

(** flags.cpp 77-104: the assignments of getFlaggedSettings in order. *)
Definition assignments (fl : flags) : list (field * value) :=
  [ (numThreads, VInt (FLAGS_num_threads fl));
    (pointsNum, VInt (FLAGS_points_per_frame fl));
    (firstFramesSkip, VInt (FLAGS_first_frames_skip fl));
    (runMaxRansacIter, VBool (FLAGS_run_max_RANSAC_iterations fl));
    (runAveraging, VBool (FLAGS_average_ORB_motion fl));
    (runBA, VBool (FLAGS_run_ba fl));
    (optimizeAffineLight, VBool (FLAGS_optimize_affine_light fl));
    (performFullTracing, VBool (FLAGS_perform_full_tracing fl));
    (useAltHWeighting, VBool (FLAGS_use_alt_H_weighting fl));
    (gnIter, VInt (FLAGS_tracing_GN_iter fl));
    (positionVariance, VDbl (FLAGS_pos_variance fl));
    (trackFromLastKf, VBool (FLAGS_track_from_last_kf fl));
    (predictUsingScrew, VBool (FLAGS_predict_using_screw fl));
    (useGradWeighting, VBool (FLAGS_use_grad_weights_on_tracking fl));
    (trackFailFactor, VDbl (FLAGS_track_fail_factor fl));
    (runBA, VBool (FLAGS_run_ba fl));
    (fixedMotionOnFirstAdjustent, VBool (FLAGS_fixed_motion_on_first_ba fl));
    (optimizedStddev, VDbl (FLAGS_optimized_stddev fl));
    (shiftBetweenKeyFrames, VInt (FLAGS_shift_between_keyframes fl)) ].

Definition getFlaggedSettings (fl : flags) : field -> value :=
  fold_left (fun s a => assign s (fst a) (snd a)) (assignments fl) default.
