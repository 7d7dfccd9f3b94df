(** Brightness transforms (include/system/AffineLightTransform.h) and the three places that use
    them: frame tracking, point tracing and bundle adjustment.  Doubles are exact reals. *)
From Coq Require Import Reals.
Open Scope R_scope.

(** AffineLightTransform.h 10-14, 51: [data[0]] and [data[1]]. *)
Record light := mk_light { la : R; lb : R }.

(** AffineLightTransform.h 11-12: the default constructor. *)
Definition light_default : light := mk_light 0 0.

(** AffineLightTransform.h 21-23: operator(). *)
Definition light_apply (l : light) (x : R) : R := exp (la l) * (x + lb l).

(** AffineLightTransform.h 25-30: operator*. *)
Definition light_mul (first second : light) : light :=
  mk_light (la first + la second) (exp (la second) * lb second + lb first).

(** AffineLightTransform.h 32-34: inverse. *)
Definition light_inverse (l : light) : light := mk_light (- la l) (- lb l * exp (- la l)).

(** AffineLightTransform.h 36-41: normalizeMultiplier returns the new (toNormalize, relative). *)
Definition normalize_multiplier (toNormalize relative : light) : light * light :=
  (mk_light 0 (lb toNormalize), mk_light (la relative - la toNormalize) (lb relative)).

(** FrameTracker.cpp 37-44: the residual of one tracked point before weighting. *)
Definition tracking_residual (affLight : light) (trackedIntensity baseIntensity : R) : R :=
  light_apply affLight trackedIntensity - baseIntensity.

(** BundleAdjuster.cpp 71-77, 85: the residual of one point of the bundle adjustment. *)
Definition ba_residual (baseAff refAff : light) (trackedIntensity baseIntensity : R) : R :=
  let '(refAff', baseAff') := normalize_multiplier refAff baseAff in
  light_apply refAff' trackedIntensity - light_apply baseAff' baseIntensity.

(** KeyFrame.cpp 30-33: lightWorldToThis of a new keyframe; [None] is the null baseKeyFrame. *)
Definition keyframe_light (lightBaseToThis : light) (base : option light) : light :=
  match base with
  | Some baseWorldToThis => light_mul lightBaseToThis baseWorldToThis
  | None => lightBaseToThis
  end.

(** ImmaturePoint.cpp 217-219 and 245-247: the intensity searched for in the reference frame. *)
Definition traced_intensity (refLight refBaseWorld baseWorld : light) (baseIntensity : R) : R :=
  light_apply (light_mul (light_mul refLight refBaseWorld) (light_inverse baseWorld))
              baseIntensity.
