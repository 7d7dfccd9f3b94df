(** Model of the two-view geometry of source/system/StereoGeometryEstimator.cpp in real arithmetic:
    reprojectionError (62-78), extractMotion (110-168) with the decomposition that StereoModel leaves
    as an oracle, findInliersMotion (95-108), ReprojectionResidual (251-308); toEssential of
    source/util/geometry.cpp 17-19.

    Oracles: the singular value decomposition, the conversion of a rotation matrix to a quaternion,
    the least-squares solver of triangulate and the projection of the camera. *)
From Coq Require Import Reals List Bool ZArith.
From Verif Require Import Outcome Pose GeomModel StereoModel.
Import ListNotations.
Open Scope R_scope.
Open Scope outcome_scope.

(** Mat33, by rows. *)
Record mat := M33 { mr0 : vec; mr1 : vec; mr2 : vec }.
Definition mT (A : mat) : mat :=
  M33 (V3 (vx (mr0 A)) (vx (mr1 A)) (vx (mr2 A)))
      (V3 (vy (mr0 A)) (vy (mr1 A)) (vy (mr2 A)))
      (V3 (vz (mr0 A)) (vz (mr1 A)) (vz (mr2 A))).
Definition mapply (A : mat) (p : vec) : vec := V3 (dot (mr0 A) p) (dot (mr1 A) p) (dot (mr2 A) p).
Definition mmul (A B : mat) : mat :=
  M33 (mapply (mT B) (mr0 A)) (mapply (mT B) (mr1 A)) (mapply (mT B) (mr2 A)).
Definition mscale (k : R) (A : mat) : mat := M33 (vscale k (mr0 A)) (vscale k (mr1 A)) (vscale k (mr2 A)).
Definition mdet (A : mat) : R := dot (mr0 A) (cross (mr1 A) (mr2 A)).
Definition mI : mat := M33 (V3 1 0 0) (V3 0 1 0) (V3 0 0 1).
(** block<3, 1>(0, 2) *)
Definition mcol2 (A : mat) : vec := V3 (vz (mr0 A)) (vz (mr1 A)) (vz (mr2 A)).

(** SO3::hat and SO3::matrix of Sophus *)
Definition hat (t : vec) : mat :=
  M33 (V3 0 (- vz t) (vy t)) (V3 (vz t) 0 (- vx t)) (V3 (- vy t) (vx t) 0).
Definition rotm (q : quat) : mat := mT (M33 (rot q (V3 1 0 0)) (rot q (V3 0 1 0)) (rot q (V3 0 0 1))).

(** geometry.cpp 17-19 *)
Definition toEssential (motion : se3) : mat := mmul (hat (tr motion)) (rotm (so3 motion)).

(** Equality of vectors and matrices of reals. *)
Definition veqb (a b : vec) : bool :=
  if Req_EM_T (vx a) (vx b) then if Req_EM_T (vy a) (vy b) then if Req_EM_T (vz a) (vz b) then true
  else false else false else false.
Definition meqb (A B : mat) : bool :=
  veqb (mr0 A) (mr0 B) && veqb (mr1 A) (mr1 B) && veqb (mr2 A) (mr2 B).

(** Constructor of Sophus::SE3 from a matrix and a vector: the matrix must be orthogonal with a
    positive determinant, or the process is stopped (the tolerance of the test is left out). *)
Definition make_se3 (toQuat : mat -> quat) (A : mat) (t : vec) : outcome se3 :=
  if meqb (mmul A (mT A)) mI && Rltb 0 (mdet A) then Ok (SE (toQuat A) t) else Abort.

(** StereoGeometryEstimator.cpp 122-127 *)
Definition Wmat : mat := M33 (V3 0 (-1) 0) (V3 1 0 0) (V3 0 0 1).

(** 114-132: the four motions of a matrix. *)
Definition four_motions (svd : mat -> mat * mat) (toQuat : mat -> quat) (E : mat)
  : outcome (list se3) :=
  let (U, V) := svd E in
  let U := mscale (mdet U) U in
  let V := mscale (mdet V) V in
  let t := mcol2 U in
  let R1 := mmul (mmul U Wmat) (mT V) in
  let R2 := mmul (mmul U (mT Wmat)) (mT V) in
  let* s0 := make_se3 toQuat R1 t in
  let* s1 := make_se3 toQuat R1 (vneg t) in
  let* s2 := make_se3 toQuat R2 t in
  let* s3 := make_se3 toQuat R2 (vneg t) in
  Ok [s0; s1; s2; s3].

(** 101-102: both depths of correspondence [i] positive. *)
Definition front_rays (solve : vec -> vec -> vec -> R * R) (rays : list (vec * vec)) (motion : se3)
           (i : nat) : bool :=
  match nth_error rays i with
  | Some (a, b) => let (d0, d1) := triangulate solve motion a b in Rltb 0 d0 && Rltb 0 d1
  | None => false
  end.

(** 110-168: the motion, the remaining inliers and their number; the selection among the four
    motions is extract_motion of StereoModel. *)
Definition extractMotion (svd : mat -> mat * mat) (toQuat : mat -> quat)
           (solve : vec -> vec -> vec -> R * R) (rays : list (vec * vec)) (E : mat) (inls : list nat)
  : outcome (se3 * list nat * Z) :=
  let* sols := four_motions svd toQuat E in
  Ok (extract_motion sid (front_rays solve rays) (fun _ : mat => sols) E inls).

(** 67-72: the part of the ray along the normal removed. *)
Definition flatten (p n : vec) : vec := vsub p (vscale (dot p n / dot n n) n).

(** Distance of two image points. *)
Definition pnorm (p : pt) : R := sqrt (pdot p p).

(** 62-78; 1e-4 *)
Definition reprojectionError (map : vec -> pt) (E Et : mat) (img : pt * pt) (ray : vec * vec) : R :=
  let norm1 := mapply Et (snd ray) in
  let norm2 := mapply E (fst ray) in
  let first := if Rltb (1 / 10000) (dot norm1 norm1) then flatten (fst ray) norm1 else fst ray in
  let second := if Rltb (1 / 10000) (dot norm2 norm2) then flatten (snd ray) norm2 else snd ray in
  let err1 := pnorm (psub (map first) (fst img)) in
  let err2 := pnorm (psub (map second) (snd img)) in
  Rmin err1 err2.

(** 80-93: the indices of the correspondences whose error is below the threshold. *)
Definition findInliersEssential (map : vec -> pt) (outlierReprojError : R)
           (cs : list ((pt * pt) * (vec * vec))) (E : mat) : list nat :=
  find_inliers_essential
    (fun E i => match nth_error cs i with
                | Some (img, ray) =>
                    Rltb (reprojectionError map E (mT E) img ray) outlierReprojError
                | None => false
                end) (length cs) E.

(** 251-308: the residual of a correspondence for a rotation and a translation. *)
Definition reproj_residual (map : vec -> pt) (img : pt * pt) (ray : vec * vec) (motion : se3)
  : R * R * R * R :=
  let E := mmul (hat (tr motion)) (rotm (so3 motion)) in
  let Ep := mapply E (fst ray) in
  let Etq := mapply (mT E) (snd ray) in
  if Rltb (dot Ep Ep) (1 / 10000) || Rltb (dot Etq Etq) (1 / 10000) then (0, 0, 0, 0)
  else
    let pProj := flatten (fst ray) Etq in
    let qProj := flatten (snd ray) Ep in
    let e1 := psub (map pProj) (fst img) in
    let e2 := psub (map qProj) (snd img) in
    (px e1, py e1, px e2, py e2).
