(** C36, C37, C72, C73: the camera. *)
From Coq Require Import Reals ZArith List Lra Lia Sorting.Sorted.
From Verif Require Import Outcome Pose GeomModel GeomSpec SphereSpec CamModel CamSpec CamProofs CamTop PyramidModel PyramidProofs.
Import ListNotations.
Open Scope R_scope.

(** ** C36 *)
(** The constructed camera lifts every pixel to the ray of the calibration that was given, up to
    one positive factor common to all pixels. *)
Theorem C36_lift : forall samples fit w h sc cx cy coeffs c, coeffs <> [] -> 0 < sc -> (0 < w)%Z ->
  new_camera samples fit (raw w h sc (P2 cx cy) coeffs) = Ok c ->
  exists k, 0 < k /\ forall u, unmap c u = vscale k (lifted coeffs sc cx cy u).
Proof. exact lift_raw. Qed.
Print Assumptions C36_lift.

Theorem C36_pinhole : forall samples fit w h f cx cy c, (0 < w)%Z ->
  new_camera samples fit (pinhole_raw w h f cx cy) = Ok c ->
  exists k, 0 < k /\ forall u, unmap c u = vscale k (V3 (px u - cx) (py u - cy) f).
Proof. exact lift_pinhole. Qed.
Print Assumptions C36_pinhole.

(** The third component is the polynomial stored in the camera, of whatever degree. *)
Theorem C36_polynomial : forall samples fit w h sc cx cy coeffs c u, coeffs <> [] ->
  new_camera samples fit (raw w h sc (P2 cx cy) coeffs) = Ok c ->
  unmap c u = lifted (unmapPolyCoeffs c) (scale c) (px (center c)) (py (center c)) u.
Proof. exact lift_own. Qed.
Print Assumptions C36_polynomial.

Theorem C36_radius : forall samples fit w h sc cx cy coeffs c u, coeffs <> [] -> 0 < sc -> (0 < w)%Z ->
  new_camera samples fit (raw w h sc (P2 cx cy) coeffs) = Ok c -> in_image w h u ->
  sqrt (vx (unmap c u) * vx (unmap c u) + vy (unmap c u) * vy (unmap c u)) <= 1.
Proof. exact radius_raw. Qed.
Print Assumptions C36_radius.

Theorem C36_radius_tight : forall samples fit w h sc cx cy coeffs c, coeffs <> [] -> 0 < sc -> (0 < w)%Z -> (0 < h)%Z ->
  new_camera samples fit (raw w h sc (P2 cx cy) coeffs) = Ok c ->
  exists u, in_image w h u /\ sqrt (vx (unmap c u) * vx (unmap c u) + vy (unmap c u) * vy (unmap c u)) = 1.
Proof. exact radius_raw_tight. Qed.
Print Assumptions C36_radius_tight.

(** The stored field of view contains the ray of every pixel when the rays widen steadily. *)
Theorem C36_field_of_view : forall samples fit w h sc cx cy coeffs c R0 u,
  coeffs <> [] -> 0 < sc -> (0 < w)%Z -> (0 < h)%Z ->
  new_camera samples fit (raw w h sc (P2 cx cy) coeffs) = Ok c ->
  corner_radius w h sc cx cy R0 -> calibration coeffs 0 <> 0 -> widening (calibration coeffs) R0 ->
  in_image w h u -> in_sector (maxAngle c) (unmap c u).
Proof. exact max_angle_raw. Qed.
Print Assumptions C36_field_of_view.

(** A camera meeting the hypotheses. *)
Lemma flat_corner : corner_radius 3 4 5 0 0 1.
Proof.
  split.
  - exists (P2 3 4). cbn [px py]. split; [right; reflexivity|]. split; [right; reflexivity|].
    unfold off_axis. cbn [px py]. replace (_ + _) with (1 * 1) by field. apply sqrt_square. lra.
  - intros [x y] [X Y]. cbn [px py] in X, Y. unfold off_axis. cbn [px py]. rewrite <- sqrt_1. apply sqrt_le_1_alt. nra.
Qed.
Lemma flat_widening R0 : widening (calibration [1]) R0.
Proof.
  intros r r' A B C. unfold no_wider. cbn [calibration power_sum]. rewrite Rplus_0_r.
  unfold Rdiv. rewrite !Rmult_1_l. apply Rinv_le_contravar; [apply sqrt_lt_R0; nra|]. apply sqrt_le_1_alt. nra.
Qed.
Example C36_case : exists c, new_camera [0; 1 / 2; 1] (fun _ => []) (raw 3 4 5 (P2 0 0) [1]) = Ok c.
Proof.
  apply (widening_accepted _ _ 3 4 5 0 0 [1] 1); try lra; try lia; try discriminate.
  - exact flat_corner.
  - cbn. lra.
  - apply flat_widening.
  - repeat constructor; lra.
  - repeat constructor; lra.
Qed.
Example C36_lifted_case : lifted [1; 2; 3] 2 1 1 (P2 8 10) = V3 3 4 (1 + 2 * (5 * 5) + 3 * (5 * 5 * 5)).
Proof.
  unfold lifted, calibration. cbn [px py power_sum pow].
  replace (8 / 2 - 1) with 3 by field. replace (10 / 2 - 1) with 4 by field.
  replace (3 * 3 + 4 * 4) with (5 * 5) by ring. rewrite sqrt_square by lra. f_equal; ring.
Qed.

(** ** C37 *)
Theorem C37_sizes : forall c n l cl base L points ds ws images depths img m,
  width c = gcols base -> height c = grows base -> (0 <= gcols base)%Z -> (0 <= grows base)%Z ->
  nth_error (camPyr c n) l = Some cl ->
  depthedImagePyramid base L points ds ws = Ok (images, depths) ->
  nth_error images l = Some img -> nth_error depths l = Some m ->
  (width cl = gcols img /\ height cl = grows img) /\ (width cl = dcols m /\ height cl = drows m).
Proof.
  exact pyramids_agree.
Qed.
Print Assumptions C37_sizes.

Theorem C37_projection : forall c n l cl ray, nth_error (camPyr c n) l = Some cl ->
  map_ray cl ray = pscale (/ 2 ^ l) (map_ray c ray).
Proof. exact camPyr_projects. Qed.
Print Assumptions C37_projection.

Theorem C37_lifting : forall c n l cl u, nth_error (camPyr c n) l = Some cl -> 0 < scale c ->
  unmap cl (pscale (/ 2 ^ l) u) = unmap c u.
Proof. exact camPyr_lifts. Qed.
Print Assumptions C37_lifting.

(** The images do not follow the cameras: a level-1 pixel shows the level-0 image half a pixel
    further.  On the ramp, whose value grows by 2 per pixel, it is brighter by 1 than the pixel the
    cameras relate it to. *)
Theorem C37_half_pixel_refuted : forall images img x y,
  imagePyramid ramp 2 = Ok images -> nth_error images 1 = Some img -> (0 <= x < 64)%Z -> (0 <= y < 64)%Z ->
  (gat img x y = gat ramp (2 * x) (2 * y) + 1)%Z.
Proof. exact ramp_shift. Qed.
Print Assumptions C37_half_pixel_refuted.

Example C37_case : nth_error (camPyr (raw 1921 1209 604 (P2 1 1) [1; 2]) 6) 5
  = Some (pyr_camera (raw 1921 1209 604 (P2 1 1) [1; 2]) 5) /\
  width (pyr_camera (raw 1921 1209 604 (P2 1 1) [1; 2]) 5) = 60%Z.
Proof. split; reflexivity. Qed.

(** ** C72 *)
(** The error of projecting a lifted pixel back is the error of the fitted polynomial at the angle
    of the ray, whatever the length of the ray. *)
Theorem C72_error : forall samples fit w h sc cx cy coeffs c u k t, coeffs <> [] -> 0 < sc -> (0 < w)%Z ->
  new_camera samples fit (raw w h sc (P2 cx cy) coeffs) = Ok c ->
  let v := unmap c u in let r := sqrt (vx v * vx v + vy v * vy v) in
  0 < k -> 0 < r -> 0 <= t <= PI -> cos t * vnorm v = vz v ->
  distance_pt (map_ray c (vscale k v)) u = scale c * Rabs (polynomial (mapPolyCoeffs c) t - r).
Proof. exact back_raw. Qed.
Print Assumptions C72_error.

(** The factor is the distance in pixels of the farthest corner. *)
Theorem C72_factor : forall samples fit w h sc cx cy coeffs c R0, 0 < sc -> (0 < w)%Z -> (0 <= h)%Z ->
  new_camera samples fit (raw w h sc (P2 cx cy) coeffs) = Ok c -> corner_radius w h sc cx cy R0 -> scale c = sc * R0.
Proof. exact new_scale_value. Qed.
Print Assumptions C72_factor.

(** The principal point is always recovered. *)
Theorem C72_axis : forall samples fit w h sc cx cy coeffs c k, coeffs <> [] -> 0 < sc -> (0 < w)%Z ->
  new_camera samples fit (raw w h sc (P2 cx cy) coeffs) = Ok c ->
  let u := P2 (cx * sc) (cy * sc) in map_ray c (vscale k (unmap c u)) = u.
Proof. exact back_axis. Qed.
Print Assumptions C72_axis.

(** ** C73 *)
Theorem C73_accepted : forall samples fit w h sc cx cy coeffs R0, coeffs <> [] -> 0 < sc -> (0 < w)%Z -> (0 <= h)%Z ->
  corner_radius w h sc cx cy R0 -> calibration coeffs 0 <> 0 -> widening (calibration coeffs) R0 ->
  Sorted Rle samples -> Forall (fun r => 0 <= r <= 1) samples ->
  exists c, new_camera samples fit (raw w h sc (P2 cx cy) coeffs) = Ok c.
Proof. exact widening_accepted. Qed.
Print Assumptions C73_accepted.

Theorem C73_exact : forall samples fit w h sc cx cy coeffs R0, coeffs <> [] -> 0 < sc -> (0 < w)%Z -> (0 <= h)%Z ->
  corner_radius w h sc cx cy R0 -> calibration coeffs 0 <> 0 ->
  Sorted Rle samples -> Forall (fun r => 0 <= r <= 1) samples ->
  ((exists c, new_camera samples fit (raw w h sc (P2 cx cy) coeffs) = Ok c) <->
   forall i j r r', (i < j)%nat -> nth_error samples i = Some r -> nth_error samples j = Some r' ->
     no_wider (calibration coeffs) (R0 * r) (R0 * r')).
Proof. exact check_raw. Qed.
Print Assumptions C73_exact.

(** The check only sees the drawn radii. *)
Theorem C73_missed_refuted : forall fit, exists w h sc cx cy R0, 0 < sc /\ (0 < w)%Z /\ (0 < h)%Z /\
  corner_radius w h sc cx cy R0 /\ calibration bent 0 <> 0 /\ ~ widening (calibration bent) R0 /\
  Sorted Rle [0; 1] /\ exists c, new_camera [0; 1] fit (raw w h sc (P2 cx cy) bent) = Ok c.
Proof. exact bent_missed. Qed.
Print Assumptions C73_missed_refuted.

Example C73_case : corner_radius 3 4 5 0 0 1 /\ widening (calibration [1]) 1 /\ calibration [1] 0 <> 0.
Proof. split; [exact flat_corner|]. split; [apply flat_widening|]. cbn. lra. Qed.
