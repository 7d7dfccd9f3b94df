(** Rigid motions in real arithmetic: three-dimensional vectors, unit quaternions and the exponential
    and logarithm maps of Sophus::SO3 and Sophus::SE3 (an external library; the branches for small
    angles are replaced by their limits). *)
From Coq Require Import Reals.
Open Scope R_scope.

Record vec := V3 { vx : R; vy : R; vz : R }.
Definition vzero : vec := V3 0 0 0.
Definition vadd (a b : vec) : vec := V3 (vx a + vx b) (vy a + vy b) (vz a + vz b).
Definition vsub (a b : vec) : vec := V3 (vx a - vx b) (vy a - vy b) (vz a - vz b).
Definition vscale (k : R) (a : vec) : vec := V3 (k * vx a) (k * vy a) (k * vz a).
Definition vneg (a : vec) : vec := V3 (- vx a) (- vy a) (- vz a).
Definition dot (a b : vec) : R := vx a * vx b + vy a * vy b + vz a * vz b.
Definition cross (a b : vec) : vec :=
  V3 (vy a * vz b - vz a * vy b) (vz a * vx b - vx a * vz b) (vx a * vy b - vy a * vx b).
Definition vnorm (a : vec) : R := sqrt (dot a a).

Record quat := Q4 { qw : R; qv : vec }.
Definition qone : quat := Q4 1 vzero.
Definition qmul (a b : quat) : quat :=
  Q4 (qw a * qw b - dot (qv a) (qv b))
     (vadd (vadd (vscale (qw a) (qv b)) (vscale (qw b) (qv a))) (cross (qv a) (qv b))).
Definition qconj (a : quat) : quat := Q4 (qw a) (vneg (qv a)).
Definition qnorm2 (a : quat) : R := qw a * qw a + dot (qv a) (qv a).
Definition unit_quat (a : quat) : Prop := qnorm2 a = 1.

(** The rotation of a quaternion. *)
Definition rot (q : quat) (p : vec) : vec :=
  vadd (vadd (vscale (qw q * qw q - dot (qv q) (qv q)) p) (vscale (2 * dot (qv q) p) (qv q)))
       (vscale (2 * qw q) (cross (qv q) p)).

Record se3 := SE { so3 : quat; tr : vec }.
Definition sid : se3 := SE qone vzero.
Definition smul (g h : se3) : se3 := SE (qmul (so3 g) (so3 h)) (vadd (rot (so3 g) (tr h)) (tr g)).
Definition sinv (g : se3) : se3 := SE (qconj (so3 g)) (rot (qconj (so3 g)) (vneg (tr g))).
Definition act (g : se3) (p : vec) : vec := vadd (rot (so3 g) p) (tr g).
Definition rigid (g : se3) : Prop := unit_quat (so3 g).

(** SO3::exp *)
Definition so3_exp (w : vec) : quat :=
  let th := vnorm w in
  if Req_EM_T th 0 then qone
  else Q4 (cos (th / 2)) (vscale (sin (th / 2) / th) w).

(** SO3::log *)
Definition so3_log (q : quat) : vec :=
  let n := vnorm (qv q) in
  if Req_EM_T n 0 then vzero
  else if Req_EM_T (qw q) 0 then vscale (PI / n) (qv q)
  else vscale (2 * atan (n / qw q) / n) (qv q).

(** The matrix V of SE3::exp and its inverse of SE3::log, applied to a vector; the cotangent is
    written as a quotient of cosine and sine. *)
Definition Vmat (w p : vec) : vec :=
  let th := vnorm w in
  if Req_EM_T th 0 then p
  else vadd (vadd p (vscale ((1 - cos th) / (th * th)) (cross w p)))
            (vscale ((th - sin th) / (th * th * th)) (cross w (cross w p))).
Definition Vinv (w p : vec) : vec :=
  let th := vnorm w in
  if Req_EM_T th 0 then p
  else vadd (vsub p (vscale (1 / 2) (cross w p)))
            (vscale ((1 - th * (cos (th / 2) / sin (th / 2)) / 2) / (th * th)) (cross w (cross w p))).

(** A tangent vector: translational part and rotation. *)
Definition tangent : Type := vec * vec.
Definition tscale (k : R) (x : tangent) : tangent := (vscale k (fst x), vscale k (snd x)).

Definition se3_exp (x : tangent) : se3 := SE (so3_exp (snd x)) (Vmat (snd x) (fst x)).
Definition se3_log (g : se3) : tangent :=
  let w := so3_log (so3 g) in (Vinv w (tr g), w).
