(** Notions for the statements about the tracking of frames. *)
From Coq Require Import ZArith QArith Reals List.
From Verif Require Import Outcome Pose CamModel CamSpec PyramidModel PyramidSpec TrackerModel.
Import ListNotations.
Open Scope Z_scope.

(** The levels follow one another: each starts from the estimate of the one before. *)
Fixpoint chained (start : estimate) (es : list event) (final : estimate) : Prop :=
  match es with
  | [] => final = start
  | e :: es' => e_before e = start /\ chained (e_after e) es' final
  end.

(** Contract of ceres::Solve for one level: a constant light stays, the bounds hold afterwards
    unless nothing changed. *)
Definition level_solver (solve : level_problem -> estimate -> estimate) : Prop :=
  forall pr e, (l_constLight pr = true -> snd (solve pr e) = snd e) /\
    (solve pr e = e \/
     ((fst (l_boundsA pr) <= fst (snd (solve pr e)) <= snd (l_boundsA pr))%R /\
      (fst (l_boundsB pr) <= snd (snd (solve pr e)) <= snd (l_boundsB pr))%R)).

(** Gradient of the image by central differences. *)
Definition central (img : gray) (x y : Z) : R * R :=
  (IZR (gat img (x + 1) y - gat img (x - 1) y) / 2, IZR (gat img x (y + 1) - gat img x (y - 1)) / 2)%R.

(** The factor c / |(c, gradient)|, or 1 without weighting. *)
Definition weight_of (weighted : bool) (c : R) (img : gray) (x y : Z) (w : R) : Prop :=
  if weighted then (w * sqrt (c * c + (fst (central img x y) * fst (central img x y) + snd (central img x y) * snd (central img x y))) = c)%R
  else w = 1%R.

(** A pixel that lies on the border of an image. *)
Definition on_border (img : gray) (x y : Z) : Prop :=
  x = 0 \/ y = 0 \/ x = gcols img - 1 \/ y = grows img - 1.

(** The pixels a level should use: those with a positive depth that are projected into the tracked
    image by the estimate so far. *)
Definition used_pixel (trackable : trackable_test) (cam : camera) (img : gray) (depths : dmat) (motion : se3) (x y : Z) : Prop :=
  0 <= x < gcols img /\ 0 <= y < grows img /\ (0 < dat depths x y)%R /\ trackable cam x y (dat depths x y) motion = true.

(** The residuals a level should have. *)
Definition tracked_pixel (trackable : trackable_test) (weighted : bool) (c : R) (cam : camera) (img : gray) (depths : dmat) (motion : se3) (r : tresidual) : Prop :=
  used_pixel trackable cam img depths motion (r_x r) (r_y r) /\ r_depth r = dat depths (r_x r) (r_y r) /\
  r_int r = gat img (r_x r) (r_y r) /\ weight_of weighted c img (r_x r) (r_y r) (r_weight r).

(** A base frame with points inside its image. *)
Definition valid_base (base : gray) (points : list (Q * Q)) (ds ws : list R) : Prop :=
  0 <= grows base /\ 0 <= gcols base /\ length points = length ds /\ length ds = length ws /\
  Forall (inside (gcols base) (grows base)) points.

(** No depth on the border of a level when gradients are used. *)
Definition borders_free (s : tracker_settings) (images : list gray) (depths : list dmat) : Prop :=
  s_useGrad s = true -> (0 < s_gradC s)%R /\
    forall i img dep x y, nth_error images i = Some img -> nth_error depths i = Some dep ->
      0 <= x < gcols img -> 0 <= y < grows img -> on_border img x y -> (dat dep x y <= 0)%R.

(** The problem of a level is the one of the images, depths and camera of that level. *)
Definition well_posed (solve : level_problem -> estimate -> estimate) (trackable : trackable_test) (s : tracker_settings)
           (cam : camera) (images : list gray) (depths : list dmat) (fimages : list gray) (e : event) : Prop :=
  exists img dep fimg, let l := Z.to_nat (e_level e) in
    nth_error images l = Some img /\ nth_error depths l = Some dep /\ nth_error fimages l = Some fimg /\
    e_after e = solve (e_problem e) (e_before e) /\
    l_cam (e_problem e) = pyr_camera cam l /\ l_grid (e_problem e) = fimg /\
    l_constLight (e_problem e) = negb (s_optimizeLight s) /\
    l_boundsA (e_problem e) = (s_minA s, s_maxA s) /\ l_boundsB (e_problem e) = (s_minB s, s_maxB s) /\
    NoDup (l_res (e_problem e)) /\
    forall r, In r (l_res (e_problem e)) <->
      tracked_pixel trackable (s_useGrad s) (s_gradC s) (pyr_camera cam l) img dep (fst (e_before e)) r.
