(** Drawing a spherical triangulation (source/util/SphericalTriangulation.cpp 70-190) and the curved
    edges of a planar one (source/util/Triangulation.cpp 634-655), in real arithmetic. *)
From Coq Require Import Reals ZArith List Bool.
From Verif Require Import Pose GeomModel SectorModel.
Import ListNotations.
Open Scope R_scope.

(** Eigen: normalize(), normalized(); a zero vector is left as it is. *)
Definition normalized (v : vec) : vec := if Rltb 0 (dot v v) then vscale (/ vnorm v) v else v.

(** SphericalTriangulation.cpp 72-73, Triangulation.cpp 636-637 *)
Definition curveSectors : nat := 50.

(** SphericalTriangulation.cpp 75-88, Triangulation.cpp 639-647: the ray of point [it] of the curve.
    Triangulation.cpp starts from the rays of two pixels. *)
Definition rayCur (rayFrom rayTo : vec) (it : nat) : vec :=
  let f := normalized rayFrom in
  let t := normalized rayTo in
  let fullAngle := acos (dot f t) in
  let axis := normalized (cross f t) in
  let curAngle := fullAngle * INR it / INR curveSectors in
  rot (so3_exp (vscale curAngle axis)) f.

(** 84-91: the points; [px] stands for toCvPoint (cam->map (ray)). *)
Definition curve {X} (px : vec -> X) (rayFrom rayTo : vec) : list X :=
  map (fun it => px (rayCur rayFrom rayTo it)) (seq 0 (S curveSectors)).

(** 94-95: the lines drawn *)
Fixpoint segments {X} (l : list X) : list (X * X) :=
  match l with
  | a :: ((b :: _) as l') => (a, b) :: segments l'
  | _ => []
  end.
Definition drawCurvedInternal {X} (px : vec -> X) (rayFrom rayTo : vec) : list (X * X) :=
  segments (curve px rayFrom rayTo).

(** 177-190; a sector is given by the positions of its rays in _rays, since the pointers compare as
    the positions; [drawn] is edgesDrawn. *)
Definition tri_index : Type := Z * Z * Z.
Definition sides (s : tri_index) : list (Z * Z) := let '(a, b, c) := s in [(a, b); (b, c); (c, a)].
Definition ordered (e : Z * Z) : Z * Z := if (snd e <? fst e)%Z then (snd e, fst e) else e.
Definition pair_eqb (a b : Z * Z) : bool := (fst a =? fst b)%Z && (snd a =? snd b)%Z.
Fixpoint draw_sides (l drawn : list (Z * Z)) : list (Z * Z) :=
  match l with
  | [] => []
  | e :: l' =>
      let o := ordered e in
      if existsb (pair_eqb o) drawn then draw_sides l' drawn else o :: draw_sides l' (o :: drawn)
  end.
Definition arcs_drawn (secs : list tri_index) : list (Z * Z) := draw_sides (flat_map sides secs) [].

Definition ray_at (rays : list vec) (i : Z) : vec := nth (Z.to_nat i) rays vzero.
Definition draw {X} (px : vec -> X) (rays : list vec) (secs : list tri_index) : list (X * X) :=
  flat_map (fun e => drawCurvedInternal px (ray_at rays (fst e)) (ray_at rays (snd e))) (arcs_drawn secs).

(** 150-161: the first triple for which the test succeeds ends the loops. *)
Definition isInConvexDummy (solve : vec -> vec -> vec -> vec -> R * R * R) (rays : list vec) (ray : vec) : bool :=
  existsb (fun r0 => existsb (fun r1 => existsb (fun r2 => isInSector solve ray (Sec r0 r1 r2)) rays) rays) rays.

(** 131-146: the loop variables 0, 10, 20, ... below [n] *)
Definition step : Z := 10.
Definition grid (n : Z) : list Z := map (fun k => (step * Z.of_nat k)%Z) (seq 0 (Z.to_nat ((n + 9) / 10))).

(** 131-146: the corners of the rectangles filled *)
Definition filled (solve : vec -> vec -> vec -> vec -> R * R * R) (unmap : Z -> Z -> vec) (rays : list vec) (rows cols : Z)
  : list (Z * Z) :=
  filter (fun c => isInConvexDummy solve rays (unmap (fst c) (snd c)))
    (flat_map (fun y => map (fun x => (x, y)) (grid cols)) (grid rows)).

(** cv::rectangle, FILLED: both corners belong to it; clipped to the image. *)
Definition covers (rows cols : Z) (c : Z * Z) (p : Z * Z) : bool :=
  ((fst c <=? fst p) && (fst p <=? fst c + step) && (snd c <=? snd p) && (snd p <=? snd c + step) &&
   (0 <=? fst p) && (fst p <? cols) && (0 <=? snd p) && (snd p <? rows))%Z.
Definition fillUncovered {C} (solve : vec -> vec -> vec -> vec -> R * R * R) (unmap : Z -> Z -> vec) (rays : list vec)
  (rows cols : Z) (fillCol : C) (img : Z * Z -> C) : Z * Z -> C :=
  fold_left (fun im c p => if covers rows cols c p then fillCol else im p) (filled solve unmap rays rows cols) img.
