(** Sector queries of source/util/SphericalTriangulation.cpp and the depth interpolation of
    source/util/SphericalTerrain.cpp and source/util/Terrain.cpp, in real arithmetic. *)
From Coq Require Import Reals ZArith List Bool.
From Verif Require Import Outcome Pose GeomModel SphereModel.
Import ListNotations.
Open Scope R_scope.
Open Scope outcome_scope.

(** SphericalTriangulation.h: TrihedralSector; the rays by value instead of by pointer *)
Record sector := Sec { s0 : vec; s1 : vec; s2 : vec }.

(** geometry.cpp 107-115; [solve a b c r] is fullPivHouseholderQr().solve(r) of the matrix with
    columns a, b, c. *)
Definition isInSector (solve : vec -> vec -> vec -> vec -> R * R * R) (ray : vec) (s : sector) : bool :=
  let '(c0, c1, c2) := solve (s0 s) (s1 s) (s2 s) ray in
  Rleb 0 c0 && Rleb 0 c1 && Rleb 0 c2.

(** SphericalTriangulation.cpp 17-23 *)
Definition sectorBadness (s : sector) : R :=
  Rmax (Rmax (angle (s0 s) (s1 s)) (angle (s1 s) (s2 s))) (angle (s2 s) (s0 s)).

(** std::map<const Triangle *, TrihedralSector>: the entries in the order of their keys *)
Definition sectors := list (Z * sector).

(** std::min_element over the hits: the first one that no later one is strictly below *)
Fixpoint min_element (best : Z * sector) (l : sectors) : Z * sector :=
  match l with
  | [] => best
  | x :: l' => min_element (if Rltb (sectorBadness (snd x)) (sectorBadness (snd best)) then x else best) l'
  end.

(** SphericalTriangulation.cpp 42-68: the entry found, if any, and the map afterwards *)
Definition enclosingSector (solve : vec -> vec -> vec -> vec -> R * R * R) (m : sectors) (ray : vec)
  : option (Z * sector) * sectors :=
  match filter (fun ks => isInSector solve ray (snd ks)) m with
  | [] => (None, m)
  | [x] => (Some x, m)
  | x :: hits =>
      let b := min_element x hits in
      (Some b, filter (fun ks => negb (isInSector solve ray (snd ks)) || (fst ks =? fst b)%Z) m)
  end.

(** Several queries one after another. *)
Fixpoint queries (solve : vec -> vec -> vec -> vec -> R * R * R) (m : sectors) (rays : list vec)
  : list (option (Z * sector)) * sectors :=
  match rays with
  | [] => ([], m)
  | r :: rays' =>
      let '(a, m1) := enclosingSector solve m r in
      let '(l, m2) := queries solve m1 rays' in (a :: l, m2)
  end.

(** A plane n . x + d = 0 *)
Record plane := Pl { pn : vec; pd : R }.

(** SphericalTerrain.cpp 11-27 (numbered from the start of the file); [last_column] is the fourth
    column of the orthogonal factor of the 4x3 matrix with the rays on top of a row of ones. *)
Definition plane_depth (last_column : vec -> vec -> vec -> plane) (s : sector) (direction : vec) : R :=
  let pl := last_column (s0 s) (s1 s) (s2 s) in
  let alpha := - pd pl / dot (pn pl) direction in
  alpha * vnorm direction.

Definition spherical_terrain (solve : vec -> vec -> vec -> vec -> R * R * R)
           (last_column : vec -> vec -> vec -> plane) (m : sectors) (direction : vec) : option R * sectors :=
  let '(found, m') := enclosingSector solve m direction in
  (match found with None => None | Some ks => Some (plane_depth last_column (snd ks) direction) end, m').

(** Terrain.cpp 12-18: |unmap(p).normalized() * depth|; [unit] is the normalised lifted ray. *)
Definition ref_depth (unit : vec) (depth : R) : R := vnorm (vscale depth unit).

(** A vertex of the planar triangulation: position and index of the input point *)
Record tvert := TV { tv_pos : pt; tv_index : Z }.

(** Terrain.cpp 27-45; [tri] is the result of enclosingTriangle (None: nullptr), [boundary] of
    isIncidentToBoundary, [refs] the norms of refRays, [solve] the solution of the 3x3 system with
    rows (x, y, 1). *)
Definition terrain (solve : pt -> pt -> pt -> R * R * R -> R * R * R) (refs : list R)
           (tri : option (tvert * tvert * tvert)) (boundary : bool) (p : pt) : outcome (option R) :=
  match tri with
  | None => Ok None
  | Some (a, b, c) =>
      if boundary then Ok None
      else
        let at_ref := fun i => if (i <? 0)%Z then UB else match nth_error refs (Z.to_nat i) with Some d => Ok d | None => UB end in
        let* da := at_ref (tv_index a) in
        let* db := at_ref (tv_index b) in
        let* dc := at_ref (tv_index c) in
        let '(k0, k1, k2) := solve (tv_pos a) (tv_pos b) (tv_pos c) (da, db, dc) in
        Ok (Some (k0 * px p + k1 * py p + k2))
  end.

(** Terrain.cpp 23-25: isIncidentToBoundary dereferences its argument. *)
Definition hasInterpolatedDepth (tri : option (tvert * tvert * tvert)) (boundary : bool) : outcome bool :=
  match tri with None => UB | Some _ => Ok (negb boundary) end.

(** Terrain.cpp 12-18: the norms of all refRays *)
Definition ref_depths (units : list vec) (depths : list R) : list R :=
  map (fun ud => ref_depth (fst ud) (snd ud)) (combine units depths).
