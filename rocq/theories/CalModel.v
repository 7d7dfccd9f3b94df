(** Model of the remaining parts of source/system/CameraModel.cpp and include/system/CameraModel.h:
    the calibration file, undistort() and the sizes by angle. *)
From Coq Require Import Reals ZArith QArith Qreals String List Bool.
From Verif Require Import Outcome Dbl Pose GeomModel CamModel ReaderModel.
Import ListNotations.
Open Scope outcome_scope.

(** A calibration file: its first word if there is one, and what follows. *)
Record calfile := { cf_tag : option string; cf_rest : file }.

(** The stream after the first word was read: at its end if nothing follows, not even a blank. *)
Definition after_tag (f : file) : stream :=
  {| s_words := f_words f; s_blank := f_blank_end f;
     s_eof := match f_words f with [] => negb (f_blank_end f) | _ => false end; s_fail := false |}.

(** A double member that must have been written before it is read. *)
Definition written (c : cell) : outcome Q := match c with Det q => Ok q | Indet => UB end.
Fixpoint all_written (l : list cell) : outcome (list Q) :=
  match l with
  | [] => Ok []
  | c :: l' => let* q := written c in let* qs := all_written l' in Ok (q :: qs)
  end.

(** What the operator leaves in the members scale, center and unmapPolyCoeffs. *)
Record calib := { k_scale : Q; k_cx : Q; k_cy : Q; k_coeffs : list Q }.

(** CameraModel.cpp 117-135: operator>>.  scale, center and unmapPolyDeg are not initialised by the
    constructor (38-41); resize() leaves the coefficients unwritten and asserts that the number is not
    negative; calcUnmapPoly (132) reads coefficient 0 and all those read; the three doubles are
    read by normalize() (62-66).  The products of 131-133 are overwritten by normalize(). *)
Definition read_calib (split : Q -> option Z * list word) (f : calfile) : outcome calib :=
  match cf_tag f with
  | None => Throw
  | Some tag =>
      if negb (String.eqb tag "omnidirectional") then Throw else
      let (sc, s) := get_double Indet (after_tag (cf_rest f)) in
      let (cx, s) := get_double Indet s in
      let (cy, s) := get_double Indet s in
      let (deg, s) := get_int split s in
      match deg with
      | None => UB
      | Some d =>
          if (d <? 0)%Z then UB else
          let (cells, _) := get_doubles (Z.to_nat d) s in
          match cells with
          | [] => UB
          | _ =>
              let* coeffs := all_written cells in
              let* sc := written sc in let* cx := written cx in let* cy := written cy in
              Ok {| k_scale := sc; k_cx := cx; k_cy := cy; k_coeffs := coeffs |}
          end
      end
  end.

(** CameraModel.cpp 30-44: the constructor from a file; [opened]: the file if it could be opened *)
Definition camera_from_file (split : Q -> option Z * list word) (samples : list R) (fit : list (R * R) -> list R)
           (w h : Z) (opened : option calfile) : outcome CamModel.camera :=
  match opened with
  | None => Throw
  | Some f =>
      let* k := read_calib split f in
      new_camera samples fit (raw w h (Q2R (k_scale k)) (P2 (Q2R (k_cx k)) (Q2R (k_cy k))) (map Q2R (k_coeffs k)))
  end.

Open Scope R_scope.
(** Conversion of a double to int: truncation; undefined out of range. *)
Definition trunc (x : R) : Z := if Rlt_dec x 0 then (- Int_part (- x))%Z else Int_part x.
Definition to_int (x : R) : outcome Z :=
  if Rlt_dec (-2147483649) x then (if Rlt_dec x 2147483648 then Ok (trunc x) else UB) else UB.

(** An image: its size and pixels; at<T>() outside is undefined. *)
Record picture (A : Type) := { rows : Z; cols : Z; pix : Z -> Z -> A }.
Arguments rows {A}. Arguments cols {A}. Arguments pix {A}.
Definition at_pix {A} (i : picture A) (y x : Z) : outcome A :=
  if ((0 <=? y) && (y <? rows i) && (0 <=? x) && (x <? cols i))%Z then Ok (pix i y x) else UB.

(** CameraModel.h 86-102: undistort(), the pixel (y, x) of the result; [kinv] is the inverse of the
    camera matrix applied to (x, y, 1), [zero] the pixel of Mat::zeros *)
Definition undistort_at {A} (c : CamModel.camera) (kinv : R -> R -> vec) (zero : A) (i : picture A) (y x : Z) : outcome A :=
  let origPix := map_ray c (kinv (IZR x) (IZR y)) in
  let* origX := to_int (px origPix) in
  let* origY := to_int (py origPix) in
  if ((0 <=? origX) && (origX <? cols i) && (0 <=? origY) && (origY <? rows i))%Z
  then at_pix i origY origX else Ok zero.

(** CameraModel.cpp 104-106 *)
Definition getImgRadiusByAngle (c : CamModel.camera) (a : R) : R := scale c * calcMapPoly (mapPolyCoeffs c) a.
(** CameraModel.cpp 108-113 *)
Definition getRectByAngle (c : CamModel.camera) (a : R) : outcome (Z * Z) :=
  let r := calcMapPoly (mapPolyCoeffs c) a in
  let* w := to_int (r * IZR (width c) / maxRadius c) in
  let* h := to_int (r * IZR (height c) / maxRadius c) in
  Ok (w, h).
