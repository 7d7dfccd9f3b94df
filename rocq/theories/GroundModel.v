(** Model of Terrain over a constructed Triangulation (Terrain.cpp 5-45). *)
From Coq Require Import Reals ZArith QArith Qreals List Bool Arith.
From Verif Require Import Outcome Pose GeomModel SectorModel DelModel.
Import ListNotations.
Open Scope nat_scope.

(** A point with rational coordinates as a point of the real plane (every double is rational) *)
Definition real_point (x : point) : GeomModel.pt := P2 (Q2R (fst x)) (Q2R (snd x)).

(** Triangulation.cpp 367-370 *)
Definition isIncidentToBoundary (m : mesh point) (t : nat) : bool :=
  isFromBoundingTri (DelModel.TV m t 0) || isFromBoundingTri (DelModel.TV m t 1) || isFromBoundingTri (DelModel.TV m t 2).

(** Terrain.h: the triangulation and the norms of refRays *)
Record ground := { g_triang : @triangulation point; g_refs : list R }.

(** Terrain.cpp 5-21: the points are triangulated before the sizes are compared; [units] are the
    normalised rays of unmap, one for each point.  debugOut is not modelled *)
Definition make_ground (es em : Q) (p : point) (l : list point) (units : list vec) (depths : list R)
           (order : list Z) (ch : choices) (fuel : nat) : outcome ground :=
  let* T := triangulate es em p l order ch fuel in
  if length (p :: l) =? length depths then Ok {| g_triang := T; g_refs := ref_depths units depths |} else Throw.

(** Terrain.cpp 34-42: position and index of a corner *)
Definition corner_of (m : mesh point) (v : nat) : tvert := SectorModel.TV (real_point (POS m v)) (IDX m v).
Definition corners_of (m : mesh point) (tri : option nat) : option (tvert * tvert * tvert) :=
  match tri with
  | None => None
  | Some t => Some (corner_of m (DelModel.TV m t 0), corner_of m (DelModel.TV m t 1), corner_of m (DelModel.TV m t 2))
  end.
Definition at_boundary (m : mesh point) (tri : option nat) : bool :=
  match tri with None => false | Some t => isIncidentToBoundary m t end.

(** Terrain.cpp 27-45: the query; [first] and [coin] are the choices of enclosingTriangle, [solve]
    the solution of the 3x3 system, the tolerances are those of the construction *)
Definition depth_at (solve : GeomModel.pt -> GeomModel.pt -> GeomModel.pt -> R * R * R -> R * R * R) (es em : Q) (p : point) (l : list point)
           (W : ground) (x : point) (first : list nat -> nat) (coin : nat -> bool) (fuel : nat) : outcome (option R) :=
  let m := t_mesh (g_triang W) in
  let* tri := enclosingTriangle (exact (es * maxDim p l) (em * maxDim p l)) m x first coin fuel in
  terrain solve (g_refs W) (corners_of m tri) (at_boundary m tri) (real_point x).

(** Terrain.cpp 23-25 *)
Definition has_depth_at (es em : Q) (p : point) (l : list point) (W : ground) (x : point)
           (first : list nat -> nat) (coin : nat -> bool) (fuel : nat) : outcome bool :=
  let m := t_mesh (g_triang W) in
  let* tri := enclosingTriangle (exact (es * maxDim p l) (em * maxDim p l)) m x first coin fuel in
  hasInterpolatedDepth (corners_of m tri) (at_boundary m tri).
