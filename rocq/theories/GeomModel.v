(** Model of the plane predicates and the curve interpolation of source/util/geometry.cpp in real
    arithmetic. *)
From Coq Require Import Reals ZArith List Bool.
From Verif Require Import Outcome Pose.
Import ListNotations.
Open Scope R_scope.
Open Scope outcome_scope.

(** Vec2 *)
Record pt := P2 { px : R; py : R }.
Definition psub (a b : pt) : pt := P2 (px a - px b) (py a - py b).
Definition padd (a b : pt) : pt := P2 (px a + px b) (py a + py b).
Definition pscale (k : R) (a : pt) : pt := P2 (k * px a) (k * py a).
Definition pdot (a b : pt) : R := px a * px b + py a * py b.

(** Comparisons of doubles; no value is not-a-number unless said otherwise. *)
Definition Rleb (x y : R) : bool := if Rle_dec x y then true else false.
Definition Rltb (x y : R) : bool := if Rlt_dec x y then true else false.

(** geometry.cpp 30-32 *)
Definition cross2 (a b : pt) : R := px a * py b - py a * px b.

(** geometry.cpp 34-36 *)
Definition isSameSide (a b p1 p2 : pt) : bool :=
  Rleb 0 (cross2 (psub b a) (psub p1 a) * cross2 (psub b a) (psub p2 a)).

(** geometry.cpp 38-42 *)
Definition isInsideTriangle (a b c p : pt) : bool :=
  isSameSide a b p c && isSameSide a c p b && isSameSide b c p a.

(** geometry.cpp 44-47 *)
Definition isABCDConvex (a b c d : pt) : bool :=
  isSameSide a b c d && isSameSide b c a d && isSameSide c d a b && isSameSide d a b c.

(** geometry.cpp 49-51 *)
Definition areEqual (a b : pt) (eps : R) : bool :=
  Rltb (pdot (psub a b) (psub a b)) (eps * eps).

(** geometry.cpp 53-60; for a = b the direction is 0/0, not a number, and every comparison with it
    is false. *)
Definition doesABcontain (a b p : pt) (eps : R) : bool :=
  let ap := psub p a in
  let abNorm := sqrt (pdot (psub b a) (psub b a)) in
  if Req_EM_T abNorm 0 then false
  else
    let abN := pscale (/ abNorm) (psub b a) in
    let abNp := pdot abN ap in
    Rltb (Rabs (pdot ap (P2 (py abN) (- px abN)))) eps && Rleb (- eps) abNp &&
    Rleb abNp (abNorm + eps).

(** geometry.cpp 62-76: the determinant expanded along the third column *)
Definition isABDelaunay (a b c d : pt) : bool :=
  let da := psub a d in
  let db := psub b d in
  let dc := psub c d in
  let ab := psub b a in
  let bc := psub c b in
  let det := pdot da da * (px db * py dc - py db * px dc)
             - pdot db db * (px da * py dc - py da * px dc)
             + pdot dc dc * (px da * py db - py da * px db) in
  Rleb (det * cross2 ab bc) 0.

(** geometry.cpp 78-87 *)
Definition doesABIntersectCD (a b c d : pt) (eps : R) : bool :=
  if negb (((Rltb (px a + eps) (px c) && Rltb (px c) (px b - eps)) ||
            (Rltb (px a + eps) (px d) && Rltb (px d) (px b - eps))) &&
           ((Rltb (py a + eps) (py c) && Rltb (py c) (py b - eps)) ||
            (Rltb (py a + eps) (py d) && Rltb (py d) (py b - eps))))
  then false
  else negb (isSameSide a b c d) && negb (isSameSide c d a b).

(** std::vector::operator[]: outside the vector undefined behaviour *)
Definition at_pt (points : list pt) (i : Z) : outcome pt :=
  if (i <? 0)%Z then UB
  else match nth_error points (Z.to_nat i) with Some p => Ok p | None => UB end.

(** geometry.cpp 91-105; the conversion of a positive double to int truncates, the size of the
    vector is below the largest int, [displ] is finite. *)
Definition approxOnCurve (points : list pt) (displ : R) : outcome pt :=
  let n := Z.of_nat (length points) in
  if (n <? 2)%Z then Abort
  else if Rle_dec displ 0 then
    let* p0 := at_pt points 0 in
    let* p1 := at_pt points 1 in
    Ok (psub p0 (pscale displ (psub p0 p1)))
  else if Rle_dec (IZR n) (displ + 1) then
    let* last := at_pt points (n - 1) in
    let* lbo := at_pt points (n - 2) in
    let res := displ - IZR n + 1 in
    Ok (padd last (pscale res (psub last lbo)))
  else
    let intDispl := Int_part displ in
    let fracDispl := displ - IZR intDispl in
    let* p := at_pt points intDispl in
    let* q := at_pt points (intDispl + 1) in
    Ok (padd p (pscale fracDispl (psub q p))).

(** geometry.cpp 21-28: [solve] is fullPivHouseholderQr().solve for the matrix of two columns. *)
Definition triangulate (solve : vec -> vec -> vec -> R * R) (firstToSecond : se3)
           (firstRay secondRay : vec) : R * R :=
  solve (rot (so3 firstToSecond) firstRay) (vneg secondRay) (vneg (tr firstToSecond)).
