(** The stopping rule of StereoGeometryEstimator::findCoarseMotion
    (source/system/StereoGeometryEstimator.cpp 192-193, 228-234) in real arithmetic; minimalSolveN
    is 5 (include/util/settings.h). *)
From Coq Require Import Reals ZArith.
From Verif Require Import Outcome.
Open Scope R_scope.

(** 193 *)
Definition stop_q0 (p : R) (maxIter : Z) : R :=
  Rpower (1 - Rpower (1 - p) (1 / IZR maxIter)) (1 / 5).

(** 228 *)
Definition stop_ratio (n : nat) (k : Z) : R := IZR k / INR n.

(** 229 *)
Definition stop_gtb (a b : R) : bool := if Rlt_dec b a then true else false.

(** Conversion of a double to long long: truncation, undefined outside the range. *)
Definition to_llong (x : R) : outcome Z :=
  if Rlt_dec (Rabs x) (2 ^ 63)
  then Ok (if Rle_dec 0 x then (up x - 1)%Z else (1 - up (- x))%Z)
  else UB.

(** 231-233; log(0) is minus infinity and the quotient then zero, the logarithm of a negative
    number is NaN and not convertible, a quotient by log(1) is infinite. *)
Definition stop_iter (p q : R) : outcome Z :=
  if Req_EM_T q 1 then Ok 0%Z else
  if Rlt_dec 1 q then UB else
  if Rle_dec q 0 then UB else
  to_llong (ln (1 - p) / ln (1 - q ^ 5)).
