(** SphericalTerrain::drawDenseTriangle of source/util/SphericalTerrain.cpp 49-64. *)
From Coq Require Import Reals ZArith List Bool.
From Verif Require Import Outcome Pose GeomModel SectorModel ArcModel.
Import ListNotations.
Open Scope R_scope.

(** SphericalTerrain.cpp 53-54: the pixels visited, row by row, as (x, y); [grid] are the multiples of ten below the size. *)
Definition pixels (rows cols : Z) : list (Z * Z) := flat_map (fun y => map (fun x => (x, y)) (grid cols)) (grid rows).

(** SphericalTerrain.cpp 57-59: the pointers compared; a sector stands for its key, None is nullptr. *)
Definition same_sector (found : option (Z * sector)) (sec : option Z) : bool :=
  match found, sec with
  | None, None => true
  | Some ks, Some k => (fst ks =? k)%Z
  | _, _ => false
  end.

(** SphericalTerrain.cpp 53-64: the dots as pixel and depth (putDot and depthCol are in PlotModel.v and UtilModel.v), and
    the sectors left, since both queries may erase some. [unmap x y] is cam->unmap of the pixel. *)
Fixpoint dots (solve : vec -> vec -> vec -> vec -> R * R * R) (last_column : vec -> vec -> vec -> plane)
  (unmap : Z -> Z -> vec) (sec : option Z) (m : sectors) (l : list (Z * Z)) : list (Z * Z * R) * sectors :=
  match l with
  | [] => ([], m)
  | (x, y) :: l' =>
      let ray := unmap x y in
      let '(encl, m1) := enclosingSector solve m ray in
      if same_sector encl sec then
        let '(depth, m2) := spherical_terrain solve last_column m1 ray in
        let '(r, m3) := dots solve last_column unmap sec m2 l' in
        (match depth with Some d => (x, y, d) :: r | None => r end, m3)
      else dots solve last_column unmap sec m1 l'
  end.
Definition drawDenseTriangle solve last_column unmap (sec : option Z) (rows cols : Z) (m : sectors) : list (Z * Z * R) * sectors :=
  dots solve last_column unmap sec m (pixels rows cols).
