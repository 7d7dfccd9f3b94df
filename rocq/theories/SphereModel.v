(** Models of include/system/SphericalPlus.h, of stereographicProject
    (source/util/SphericalTriangulation.cpp) and of intersectOnSphere (source/util/geometry.cpp) in
    real arithmetic. *)
From Coq Require Import Reals Bool.
From Verif Require Import Outcome Pose GeomModel.
Open Scope R_scope.
Open Scope outcome_scope.

(** Eigen's normalized(): a zero vector is returned unchanged. *)
Definition normalized (v : vec) : vec :=
  if Rlt_dec 0 (dot v v) then vscale (/ vnorm v) v else v.

(** ** SphericalPlus *)
(** SphericalPlus.h 68-71: the members; kDeltaOrts by columns. *)
Record spherical_plus := { sp_v1 : vec; sp_v2 : vec; sp_center : vec; sp_radius : R; sp_k : vec }.

(** SphericalPlus.h 19-23: std::min_element by absolute value (the first minimum). *)
Definition min_abs_index (k : vec) : nat :=
  let m := if Rlt_dec (Rabs (vy k)) (Rabs (vx k)) then 1%nat else 0%nat in
  let mv := if Rlt_dec (Rabs (vy k)) (Rabs (vx k)) then Rabs (vy k) else Rabs (vx k) in
  if Rlt_dec (Rabs (vz k)) mv then 2%nat else m.

(** SphericalPlus.h 14-34; a zero radius makes the quotient of the CHECK infinite or not a number *)
Definition sp_new (center : vec) (radius : R) (initialValue : vec) : outcome spherical_plus :=
  let k := normalized (vsub initialValue center) in
  if Req_EM_T radius 0 then Abort
  else if Rlt_dec ((vnorm (vsub initialValue center) - radius) / radius) (1 / 10000) then
    let v1 := match min_abs_index k with
              | 0%nat => normalized (V3 0 (- vz k) (vy k))
              | 1%nat => normalized (V3 (- vz k) 0 (vx k))
              | _ => normalized (V3 (- vy k) (vx k) 0)
              end in
    let v2 := normalized (cross k v1) in
    Ok {| sp_v1 := v1; sp_v2 := v2; sp_center := center; sp_radius := radius; sp_k := k |}
  else Abort.

(** SphericalPlus.cpp 6-9 *)
Definition degenerateR (p : vec) : vec := V3 (vx p) (- vy p) (- vz p).

(** SphericalPlus.h 48-58: the matrix R applied to a vector *)
Definition sp_rot (s : spherical_plus) (v p : vec) : vec :=
  let rotAxis := vadd v (sp_k s) in
  let rotAxisSqN := dot rotAxis rotAxis in
  if Rlt_dec rotAxisSqN (1 / 10000) then degenerateR p
  else vadd (vneg p) (vscale (2 / rotAxisSqN * dot rotAxis p) rotAxis).

(** SphericalPlus.h 36-65 for T = double *)
Definition sp_plus (s : spherical_plus) (v : vec) (d1 d2 : R) : vec :=
  let w := vsub v (sp_center s) in
  let step := sp_rot s v (vadd (vscale d1 (sp_v1 s)) (vscale d2 (sp_v2 s))) in
  vadd (vscale (sp_radius s) (normalized (vadd w step))) (sp_center s).

(** ** Stereographic projection *)
(** SphericalTriangulation.cpp 8-15; [None]: division by zero, the coordinates are not numbers. *)
Definition stereographicProject (ray : vec) : option pt :=
  let r := normalized ray in
  let d := 1 + vz r in
  if Req_EM_T d 0 then None
  else let s := 2 / d in Some (P2 (s * vx r) (s * vy r)).

(** ** Clipping *)
(** geometry.cpp 8-15 *)
Definition angle (a b : vec) : R :=
  let c := dot (normalized a) (normalized b) in
  let c' := if Rlt_dec c (-1) then -1 else if Rlt_dec 1 c then 1 else c in
  acos c'.

(** geometry.cpp 117-154: the result and the two directions afterwards.  [solve] as in
    GeomModel.triangulate.  A division by zero or the root of a negative number makes the norms of
    the CHECKs not a number. *)
Definition intersectOnSphere (solve : vec -> vec -> vec -> R * R) (sectorAngle : R) (dir1 dir2 : vec) :
  outcome (bool * vec * vec) :=
  let angle1 := angle dir1 (V3 0 0 1) in
  let angle2 := angle dir2 (V3 0 0 1) in
  let epsAngle := 1 / 10000 in
  if Rltb (sectorAngle + epsAngle) angle1 && Rltb (sectorAngle + epsAngle) angle2
  then Ok (false, dir1, dir2)
  else if Rleb angle1 (sectorAngle + epsAngle) && Rleb angle2 (sectorAngle + epsAngle)
  then Ok (true, dir1, dir2)
  else
    let z0 := cos sectorAngle in
    let R := sin sectorAngle in
    let norm := cross dir1 dir2 in
    let a := vx norm in
    let b := vy norm in
    let c := vz norm in
    let a2b2 := a * a + b * b in
    if Req_EM_T a2b2 0 then Abort
    else
      let x0 := - (a * c * z0) / a2b2 in
      let y0 := - (b * c * z0) / a2b2 in
      let u := a * y0 - b * x0 in
      let v := x0 * x0 + y0 * y0 - R * R in
      if Rlt_dec (u * u - a2b2 * v) 0 then Abort
      else
        let sD4 := sqrt (u * u - a2b2 * v) in
        let t1 := (u - sD4) / a2b2 in
        let t2 := (u + sD4) / a2b2 in
        let sol1 := V3 (x0 - t1 * b) (y0 + t1 * a) z0 in
        let sol2 := V3 (x0 - t2 * b) (y0 + t2 * a) z0 in
        if negb (Rltb (Rabs (dot sol1 sol1 - 1)) (1 / 10000)) then Abort
        else if negb (Rltb (Rabs (dot sol2 sol2 - 1)) (1 / 10000)) then Abort
        else
          let (c0, c1) := solve dir1 dir2 sol1 in
          let sol := if Rleb 0 c0 && Rleb 0 c1 then sol1 else sol2 in
          if Rlt_dec sectorAngle angle1 then Ok (true, sol, dir2)
          else if Rlt_dec sectorAngle angle2 then Ok (true, dir1, sol)
          else Ok (true, dir1, dir2).
