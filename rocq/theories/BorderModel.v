(** Model of the border test (source/system/CameraModel.cpp 99-103), of the height of a residual
    pattern (include/util/settings.h 207-217) and of the accesses to the frame made by the
    constructor of ImmaturePoint (source/system/ImmaturePoint.cpp 18-51).  Coordinates are rationals
    (finite doubles). *)
From Coq Require Import ZArith QArith Qround Qabs Qminmax List Bool.
From Verif Require Import Outcome PyramidModel.
Import ListNotations.
Open Scope Z_scope.
Open Scope outcome_scope.

(** CameraModel.cpp 99-103; Eigen's AlignedBox contains its border. *)
Definition isOnImage (w h : Z) (p : Q * Q) (border : Z) : bool :=
  Qle_bool (inject_Z border) (fst p) && Qle_bool (fst p) (inject_Z (w - border)) &&
  Qle_bool (inject_Z border) (snd p) && Qle_bool (snd p) (inject_Z (h - border)).

(** settings.h 213: lpNorm<Infinity> *)
Definition inf_norm (o : Q * Q) : Q := Qmax (Qabs (fst o)) (Qabs (snd o)).

(** std::max_element with the comparison of settings.h 211-214: the first of the largest. *)
Fixpoint max_element (best : Q * Q) (l : list (Q * Q)) : Q * Q :=
  match l with
  | [] => best
  | o :: l' => max_element (if Qle_bool (inf_norm o) (inf_norm best) then best else o) l'
  end.

(** settings.h 209-215; for the empty pattern the end iterator is dereferenced. *)
Definition pattern_height (pattern : list (Q * Q)) : outcome Z :=
  match pattern with
  | [] => UB
  | o :: l => Ok (Qceiling (inf_norm (max_element o l)))
  end.

(** source/util/settings.cpp 12-14 *)
Definition default_pattern : list (Q * Q) :=
  map (fun o => (inject_Z (fst o), inject_Z (snd o)))
    [(0, 0); (0, -2); (-1, -1); (1, -1); (-2, 0); (2, 0); (-1, 1); (1, 1); (0, 2)].

(** Element of a cv::Mat1b; outside the matrix undefined behaviour. *)
Definition read (img : gray) (p : Z * Z) : outcome Z :=
  let (x, y) := p in
  if (0 <=? x) && (x <? gcols img) && (0 <=? y) && (y <? grows img) then Ok (gat img x y) else UB.

(** ImmaturePoint.cpp 41-51: the loop; only the reads of the frame (the gradient images have the
    same size and are read at the same place). *)
Fixpoint read_pattern (img : gray) (p : Q * Q) (pattern : list (Q * Q)) : outcome (list Z) :=
  match pattern with
  | [] => Ok []
  | o :: l =>
      let* v := read img (toCvPoint (fst p + fst o, snd p + snd o)%Q) in
      let* vs := read_pattern img p l in
      Ok (v :: vs)
  end.

(** ImmaturePoint.cpp 18-51: state and intensities; [None] is a point marked OOB. *)
Definition new_point (img : gray) (pattern : list (Q * Q)) (p : Q * Q) : outcome (option (list Z)) :=
  let* ph := pattern_height pattern in
  if isOnImage (gcols img) (grows img) p ph then
    let* vs := read_pattern img p pattern in Ok (Some vs)
  else Ok None.

(** KeyFrame.cpp 56-61: addImmatures; toVec2 of a pixel. *)
Definition toVec2 (p : Z * Z) : Q * Q := (inject_Z (fst p), inject_Z (snd p)).
Fixpoint addImmatures (img : gray) (pattern : list (Q * Q)) (points : list (Z * Z)) : outcome (list (option (list Z))) :=
  match points with
  | [] => Ok []
  | p :: l =>
      let* i := new_point img pattern (toVec2 p) in
      let* is := addImmatures img pattern l in
      Ok (i :: is)
  end.
