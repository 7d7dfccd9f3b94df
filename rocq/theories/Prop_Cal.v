(** C90, C91: calibration files, undistort() and the radius of an angle. *)
From Coq Require Import Reals ZArith QArith Qreals String List.
From Verif Require Import Outcome Dbl Pose GeomModel CamModel ReaderModel ReaderSpec CalModel CalSpec CalProofs.
Import ListNotations.
Open Scope nat_scope.

(** ** C90 *)
(** A complete file gives the camera of the other constructor; what follows is ignored. *)
Theorem C90_file : forall split samples fit w h ws rest b sc cx cy coeffs, calibration_words ws sc cx cy coeffs -> coeffs <> [] ->
  camera_from_file split samples fit w h (Some (tagged (ws ++ rest) b)) =
  new_camera samples fit (raw w h (Q2R sc) (P2 (Q2R cx) (Q2R cy)) (map Q2R coeffs)).
Proof. exact file_camera. Qed.
Print Assumptions C90_file.

Theorem C90_tag : forall split f, cf_tag f <> Some "omnidirectional"%string -> read_calib split f = Throw.
Proof. exact calib_tag. Qed.
Print Assumptions C90_tag.

(** Of a file cut short, or with something else in place of a number other than the last
    coefficient, members never written are read. *)
Theorem C90_short : forall split ws b sc cx cy coeffs k, calibration_words ws sc cx cy coeffs -> k < length ws ->
  read_calib split (tagged (firstn k ws) b) = UB.
Proof. exact calib_short. Qed.
Print Assumptions C90_short.

Theorem C90_garbage : forall split ws rest b sc cx cy coeffs k u, calibration_words ws sc cx cy coeffs -> k + 1 < length ws ->
  read_calib split (tagged (spoil k u ws ++ rest) b) = UB.
Proof. exact calib_bad. Qed.
Print Assumptions C90_garbage.

(** In place of the last coefficient it is read as 0 without notice. *)
Theorem C90_last_refuted : forall split ws rest b sc cx cy coeffs c u, calibration_words ws sc cx cy (coeffs ++ [c]) ->
  read_calib split (tagged (spoil (length ws - 1) u ws ++ rest) b) = Ok {| k_scale := sc; k_cx := cx; k_cy := cy; k_coeffs := coeffs ++ [0%Q] |}.
Proof. exact calib_last. Qed.
Print Assumptions C90_last_refuted.

Example C90_case : calibration_words [WReal (1 # 2); WInt 3; WInt 4; WInt 2; WInt 1; WReal (1 # 4)] (1 # 2) 3 4 [1%Q; (1 # 4)%Q].
Proof. exact calib_words_case. Qed.

(** ** C91 *)
Open Scope R_scope.
Theorem C91_defined : forall (A : Type) c kinv (zero : A) i y x,
  (int_range (px (map_ray c (kinv (IZR x) (IZR y)))) /\ int_range (py (map_ray c (kinv (IZR x) (IZR y)))) -> exists v, undistort_at c kinv zero i y x = Ok v) /\
  (~ (int_range (px (map_ray c (kinv (IZR x) (IZR y)))) /\ int_range (py (map_ray c (kinv (IZR x) (IZR y))))) -> undistort_at c kinv zero i y x = UB).
Proof. exact @undistort_defined. Qed.
Print Assumptions C91_defined.

Theorem C91_shown : forall (A : Type) c kinv (zero : A) i, (0 < rows i <= 2147483647)%Z -> (0 < cols i <= 2147483647)%Z -> forall y x,
  -1 < px (map_ray c (kinv (IZR x) (IZR y))) < IZR (cols i) -> -1 < py (map_ray c (kinv (IZR x) (IZR y))) < IZR (rows i) ->
  undistort_at c kinv zero i y x =
  Ok (pix i (trunc (py (map_ray c (kinv (IZR x) (IZR y))))) (trunc (px (map_ray c (kinv (IZR x) (IZR y)))))).
Proof. exact @undistort_shown. Qed.
Print Assumptions C91_shown.

Theorem C91_pixel : forall u, 0 <= u -> IZR (trunc u) <= u < IZR (trunc u) + 1.
Proof. exact trunc_floor. Qed.
Print Assumptions C91_pixel.

Theorem C91_black : forall (A : Type) c kinv (zero : A) i, (0 < rows i <= 2147483647)%Z -> (0 < cols i <= 2147483647)%Z -> forall y x,
  int_range (px (map_ray c (kinv (IZR x) (IZR y)))) -> int_range (py (map_ray c (kinv (IZR x) (IZR y)))) ->
  ~ (-1 < px (map_ray c (kinv (IZR x) (IZR y))) < IZR (cols i) /\ -1 < py (map_ray c (kinv (IZR x) (IZR y))) < IZR (rows i)) ->
  undistort_at c kinv zero i y x = Ok zero.
Proof. exact @undistort_black. Qed.
Print Assumptions C91_black.

(** Not only rays that meet the image are shown. *)
Theorem C91_outside_refuted : forall (A : Type) (zero : A) (p : Z -> Z -> A), exists (c : CamModel.camera) (kinv : R -> R -> vec) (y x : Z),
  px (map_ray c (kinv (IZR x) (IZR y))) < 0 /\ undistort_at c kinv zero {| rows := 4; cols := 4; pix := p |} y x = Ok (p 0%Z 0%Z).
Proof. exact undistort_outside. Qed.
Print Assumptions C91_outside_refuted.

(** The radius of an angle is the distance from the image centre of every ray at that angle. *)
Theorem C91_radius : forall c ray a, 0 <= scale c -> 0 < sqrt (vx ray * vx ray + vy ray * vy ray) ->
  atan2 (sqrt (vx ray * vx ray + vy ray * vy ray)) (vz ray) = a ->
  sqrt ((px (map_ray c ray) - scale c * px (center c)) * (px (map_ray c ray) - scale c * px (center c)) +
        (py (map_ray c ray) - scale c * py (center c)) * (py (map_ray c ray) - scale c * py (center c))) = Rabs (getImgRadiusByAngle c a).
Proof. exact radius_by_angle. Qed.
Print Assumptions C91_radius.

(** The rectangle of the angle of the farthest corner is the image. *)
Theorem C91_rect : forall c a, calcMapPoly (mapPolyCoeffs c) a = maxRadius c -> maxRadius c <> 0 ->
  (0 <= width c <= 2147483647)%Z -> (0 <= height c <= 2147483647)%Z -> getRectByAngle c a = Ok (width c, height c).
Proof. exact rect_by_angle. Qed.
Print Assumptions C91_rect.

Example C91_case : forall x, 0 < x -> map_ray edge_camera (V3 (- x) 0 1) = P2 (- (1 / 2)) 0.
Proof. exact edge_maps. Qed.
