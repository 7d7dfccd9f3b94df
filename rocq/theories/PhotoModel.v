(** Model of the photometric residuals of source/system/BundleAdjuster.cpp and FrameTracker.cpp in
    real arithmetic, and of the cost the solver is given.  Images are functions of a position (the
    bicubic interpolation of Ceres); the gradient norm at a pixel is an input. *)
From Coq Require Import Reals ZArith List Bool.
From Verif Require Import Outcome Pose GeomModel SphereModel CamModel LightModel BundleModel.
Import ListNotations.
Open Scope R_scope.

Section Photo.
Variable cam : camera.
Variable image : Z -> pt -> R.      (** intensities of a keyframe *)
Variable grad : Z -> pt -> R.       (** gradient norm of a keyframe *)
Variable pattern : list pt.         (** residualPattern.pattern() *)
Variable border : R.                (** residualPattern.height *)
Variable c : R.                     (** gradWeighting.c *)

(** OptimizedPoint::p; only two of the three members of [o_pos] are used. *)
Definition pixel (o : opoint) : pt := P2 (vx (o_pos o)) (vy (o_pos o)).
Definition padd (a b : pt) : pt := P2 (px a + px b) (py a + py b).

(** BundleAdjuster.cpp 40: baseDirection *)
Definition direction (pos : pt) : vec := normalized (unmap cam pos).

(** BundleAdjuster.cpp 79-82: depth and refPosMapped; Sophus::SE3 of the two parameter blocks (59-69)
    is the pose itself, quaternions being of length one. *)
Definition reprojected (lid : R) (base ref : se3) (pos : pt) : pt :=
  map_ray cam (act (smul (sinv ref) base) (vscale (exp (- lid)) (direction pos))).

(** BundleAdjuster.cpp 45, 71-77, 83-85: the residual.  [baseId] and [refId] tell the images. *)
Definition direct_residual (baseId refId : Z) (pos : pt) (lid : R) (base ref : se3) (baseAff refAff : light) : R :=
  ba_residual baseAff refAff (image refId (reprojected lid base ref pos)) (image baseId pos).

(** FrameTracker.cpp 34-44: the residual of tracking; [motion] leads from the base to the new frame. *)
Definition point_residual (newId : Z) (motion : se3) (aff : light) (pos : vec) (baseIntensity : R) : R :=
  tracking_residual aff (image newId (map_ray cam (act motion pos))) baseIntensity.

(** CameraModel.cpp 101-105: isOnImage; a closed box. *)
Definition is_on_image (p : pt) : bool :=
  (if Rle_dec border (px p) then true else false) && (if Rle_dec (px p) (IZR (width cam) - border) then true else false) &&
  (if Rle_dec border (py p) then true else false) && (if Rle_dec (py p) (IZR (height cam) - border) then true else false).

(** BundleAdjuster.cpp 20-25: isOOB; called for finite depths only. *)
Definition is_oob : oob_test := fun base ref o =>
  match o_lid o with
  | Some lid => negb (is_on_image (reprojected lid (k_pose base) (k_pose ref) (pixel o)))
  | None => true
  end.

Definition light_of (l : R * R) : light := mk_light (fst l) (snd l).

(** The residual [r] at the parameters of the frames [l] (BundleAdjuster.cpp 202-206, 283-291). *)
Definition photo_value (l : list bframe) (r : residual) : R :=
  match find_frame l (r_base r), find_frame l (r_ref r) with
  | Some base, Some ref =>
      match nth_error (k_pts base) (r_point r), nth_error pattern (r_pattern r) with
      | Some o, Some d =>
          match o_lid o with
          | Some lid => direct_residual (k_id base) (k_id ref) (padd (pixel o) d) lid (k_pose base) (k_pose ref)
                          (light_of (k_light base)) (light_of (k_light ref))
          | None => 0
          end
      | _, _ => 0
      end
  | _, _ => 0
  end.

(** BundleAdjuster.cpp 208-211: the weight. *)
Definition photo_weight (l : list bframe) (r : residual) : R :=
  match find_frame l (r_base r) with
  | Some base =>
      match nth_error (k_pts base) (r_point r), nth_error pattern (r_pattern r) with
      | Some o, Some d => let g := grad (k_id base) (padd (pixel o) d) in c / sqrt (c * c + g * g)
      | _, _ => 0
      end
  | None => 0
  end.

(** ceres::HuberLoss of the squared residual. *)
Definition huber (a s : R) : R := if Rle_dec s (a * a) then s else 2 * a * sqrt s - a * a.

(** The objective of ceres::Solve: half the sum of the scaled losses (BundleAdjuster.cpp 212-226). *)
Definition cost (s : bsettings) (pr : problem) (l : list bframe) : R :=
  fold_right Rplus 0 (map (fun r => / 2 * (photo_weight l r * huber (b_outlierDiff s) (photo_value l r * photo_value l r)))
                          (p_residuals pr)).
End Photo.
