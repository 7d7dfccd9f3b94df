(** Model of CameraModel::diffMap: the camera map evaluated on dual numbers with three
    derivatives (ceres::Jet<double, 3>), in real arithmetic. *)
From Coq Require Import Reals List.
From Verif Require Import Pose GeomModel CamModel.
Import ListNotations.
Open Scope R_scope.

(** ceres::Jet: the value and the derivatives.  [None]: derivatives that are not finite, a
    quotient by zero having been formed. *)
Record jet := J { ja : R; jv : option vec }.

Definition scaled (k : R) (v : vec) : vec := V3 (k * vx v) (k * vy v) (k * vz v).
Definition summed (u v : vec) : vec := V3 (vx u + vx v) (vy u + vy v) (vz u + vz v).
(** k * u + m * v, not finite if a part is not *)
Definition comb (k : R) (u : option vec) (m : R) (v : option vec) : option vec :=
  match u, v with
  | Some u, Some v => Some (summed (scaled k u) (scaled m v))
  | _, _ => None
  end.

(** ceres/jet.h: Jet(value), +, *, /, sqrt, atan2 *)
Definition jconst (a : R) : jet := J a (Some (V3 0 0 0)).
Definition jadd (f g : jet) : jet := J (ja f + ja g) (comb 1 (jv f) 1 (jv g)).
Definition jmul (f g : jet) : jet := J (ja f * ja g) (comb (ja f) (jv g) (ja g) (jv f)).
Definition jdiv (f g : jet) : jet :=
  J (ja f / ja g)
    (if Req_EM_T (ja g) 0 then None else comb (1 / ja g) (jv f) (- (ja f / ja g / ja g)) (jv g)).
Definition jsqrt (f : jet) : jet :=
  let tmp := sqrt (ja f) in
  J tmp (if Req_EM_T tmp 0 then None else comb (1 / (2 * tmp)) (jv f) 0 (jv f)).
Definition jatan2 (g f : jet) : jet :=
  let n := ja f * ja f + ja g * ja g in
  J (atan2 (ja g) (ja f))
    (if Req_EM_T n 0 then None else comb (- (ja g) / n) (jv f) (ja f / n) (jv g)).

(** CameraModel.h 65-68 on dual numbers *)
Fixpoint jloop (n : nat) (p : list R) (angle : jet) (i : nat) (r angleN : jet) : jet :=
  match n with
  | O => r
  | S m => jloop m p angle (i + 1) (jadd r (jmul (jconst (coeff p i)) angleN)) (jmul angleN angle)
  end.

(** CameraModel.h 54-75 on dual numbers; normalized() leaves a vector with norm zero as it is *)
Definition map_jet (c : camera) (x y z : jet) : jet * jet :=
  let p := mapPolyCoeffs c in
  let n2 := jadd (jmul x x) (jmul y y) in
  let angle := jatan2 (jsqrt n2) z in
  let r := jloop (length p - 1) p angle 1 (jconst (coeff p 0)) angle in
  let unit t := if Rlt_dec 0 (ja n2) then jdiv t (jsqrt n2) else t in
  let out t o := jmul (jadd (jmul (unit t) r) (jconst o)) (jconst (scale c)) in
  (out x (px (center c)), out y (py (center c))).

(** CameraModel.cpp 86-97: the point and the two rows of the Jacobian *)
Definition diffMap (c : camera) (ray : vec) : pt * (option vec * option vec) :=
  let (u, v) := map_jet c (J (vx ray) (Some (V3 1 0 0))) (J (vy ray) (Some (V3 0 1 0))) (J (vz ray) (Some (V3 0 0 1))) in
  (P2 (ja u) (ja v), (jv u, jv v)).

(** ImmaturePoint.cpp 125-133: the direction at [alpha] and the length of
    mapJacobian * (dirMaxDepth - dirMinDepth), whose inverse is added to alpha *)
Definition along (dirMax dirMin : vec) (alpha : R) : vec :=
  V3 ((1 - alpha) * vx dirMax + alpha * vx dirMin) ((1 - alpha) * vy dirMax + alpha * vy dirMin)
     ((1 - alpha) * vz dirMax + alpha * vz dirMin).
Definition dot3 (u v : vec) : R := vx u * vx v + vy u * vy v + vz u * vz v.
Definition step_speed (c : camera) (dirMax dirMin : vec) (alpha : R) : option R :=
  let d := V3 (vx dirMax - vx dirMin) (vy dirMax - vy dirMin) (vz dirMax - vz dirMin) in
  match snd (diffMap c (along dirMax dirMin alpha)) with
  | (Some u, Some v) => Some (sqrt (dot3 u d * dot3 u d + dot3 v d * dot3 v d))
  | _ => None
  end.
