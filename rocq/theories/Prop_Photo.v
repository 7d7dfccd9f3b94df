(** C98: the photometric residuals of bundle adjustment and tracking. *)
From Coq Require Import Reals ZArith List Bool.
From Verif Require Import Outcome Pose GeomModel SphereModel CamModel LightModel BundleModel BundleSpec BundleExamples
  PhotoModel PhotoSpec PhotoTop PhotoProofs PhotoExamples.
Import ListNotations.
Open Scope R_scope.

(** Moving, turning and scaling the whole world changes neither what is visible, nor the residuals
    put into the problem, nor their values, nor the cost. *)
Theorem C98_gauge : forall cam image grad pattern border c s g k l first sec sec' sp sp',
  rigid g -> all_rigid l -> 0 < k ->
  let l' := map (sim_frame g k) l in
  (forall base ref o, In ref l ->
     is_oob cam border (sim_frame g k base) (sim_frame g k ref) (sim_point k o) = is_oob cam border base ref o) /\
  p_residuals (build s (is_oob cam border) l' first sec' sp') = p_residuals (build s (is_oob cam border) l first sec sp) /\
  (forall r, photo_value cam image pattern l' r = photo_value cam image pattern l r) /\
  forall pr, cost cam image grad pattern c s pr l' = cost cam image grad pattern c s pr l.
Proof. exact photo_gauge. Qed.
Print Assumptions C98_gauge.

(** Visible: the point of the world is seen in the other keyframe, with a border around the image. *)
Theorem C98_visible : forall cam border base ref o, is_oob cam border base ref o = false <->
  exists lid, o_lid o = Some lid /\
    let p := map_ray cam (act (sinv (k_pose ref)) (world_point (k_pose base) (direction cam (P2 (vx (o_pos o)) (vy (o_pos o)))) (exp (- lid)))) in
    border <= px p <= IZR (width cam) - border /\ border <= py p <= IZR (height cam) - border.
Proof. exact photo_visible. Qed.
Print Assumptions C98_visible.

(** A gain common to all keyframes changes nothing either. *)
Theorem C98_gain : forall cam image grad pattern c s d l,
  (forall r, photo_value cam image pattern (map (gain_frame d) l) r = photo_value cam image pattern l r) /\
  forall pr, cost cam image grad pattern c s pr (map (gain_frame d) l) = cost cam image grad pattern c s pr l.
Proof. exact photo_gain. Qed.
Print Assumptions C98_gain.

(** The parameters held fixed leave nothing of this freedom: if an adjustment has moved all keyframes
    by one similarity, it has not moved them at all; the same for a common gain. *)
Theorem C98_pinned : forall s isOOB value solve ks l' g k, solver solve -> NoDup (map k_id ks) -> all_rigid ks ->
  adjust_frames s isOOB value solve ks = Ok l' -> rigid g -> 0 < k ->
  (forall f f', became ks l' f f' -> k_pose f' = sim_pose g k (k_pose f)) -> g = sid /\ k = 1.
Proof. exact photo_pinned. Qed.
Print Assumptions C98_pinned.

Theorem C98_gain_pinned : forall s isOOB value solve f ks l' d, solver solve -> NoDup (map k_id (f :: ks)) ->
  adjust_frames s isOOB value solve (f :: ks) = Ok l' ->
  (forall x x', became (f :: ks) l' x x' -> fst (k_light x') = fst (k_light x) + d) -> d = 0.
Proof. exact photo_gain_pinned. Qed.
Print Assumptions C98_gain_pinned.

(** The cost is never negative, and zero exactly when every pixel of a pattern and the pixel of the
    other keyframe that shows the same place have the same corrected intensity. *)
Theorem C98_zero : forall cam image grad pattern c s pr l, 0 < c -> 0 < b_outlierDiff s -> NoDup (map k_id l) ->
  0 <= cost cam image grad pattern c s pr l /\
  (cost cam image grad pattern c s pr l = 0 <-> consistent (map_ray cam) (direction cam) image pattern pr l).
Proof. exact photo_zero. Qed.
Print Assumptions C98_zero.

(** The loss of one residual: quadratic up to the outlier threshold, linear beyond. *)
Theorem C98_loss : forall a x, 0 < a ->
  huber a (x * x) = if Rle_dec (Rabs x) a then x * x else a * (2 * Rabs x - a).
Proof. exact huber_residual. Qed.
Print Assumptions C98_loss.

(** Tracking minimises the same residual for the relative motion, scaled by the gain. *)
Theorem C98_tracking : forall cam image baseId refId pos lid base ref aff,
  exp (la aff) * direct_residual cam image baseId refId pos lid base ref light_default aff =
  point_residual cam image refId (smul (sinv ref) base) aff (vscale (exp (- lid)) (direction cam pos)) (image baseId pos).
Proof. exact photo_tracking. Qed.
Print Assumptions C98_tracking.

(** All pixels of the pattern of a point are taken to be at the distance of the point: on a sphere
    around the base camera, not on a plane. *)
Theorem C98_sphere : forall cam base pos depth, rigid base -> unmap cam pos <> vzero -> 0 < depth ->
  vnorm (vsub (world_point base (direction cam pos) depth) (tr base)) = depth.
Proof. exact photo_sphere. Qed.
Print Assumptions C98_sphere.

(** The residuals meet the condition of C57 and C75: they ignore the states of the points. *)
Theorem C98_blind : forall cam image pattern, state_blind (photo_value cam image pattern).
Proof. exact photo_blind. Qed.
Print Assumptions C98_blind.

(** Two keyframes, one residual that is not zero, a similarity that is not the identity. *)
Example C98_case : forall sp,
  p_residuals (build settings0 (is_oob axis_cam 2) axis_frames 1 axis_second sp) = [axis_residual] /\
  photo_value axis_cam (axis_image 3 5) [P2 0 0] axis_frames axis_residual = 5 - 3 /\
  cost axis_cam (axis_image 3 5) flat [P2 0 0] 1 settings0
    (build settings0 (is_oob axis_cam 2) axis_frames 1 axis_second sp) axis_frames = (5 - 3) * (5 - 3) / 2 /\
  all_rigid axis_frames /\ NoDup (map k_id axis_frames) /\ rigid turn /\
  k_pose (sim_frame turn 2 axis_second) <> k_pose axis_second /\ 0 < b_outlierDiff settings0 /\
  unmap axis_cam (P2 5 5) <> vzero.
Proof. exact axis_case. Qed.
