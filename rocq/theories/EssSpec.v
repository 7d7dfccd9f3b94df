(** Specifications for the geometry of two views. *)
From Coq Require Import Reals List.
From Verif Require Import Outcome Pose GeomSpec GeomModel EssModel.
Import ListNotations.
Open Scope R_scope.

(** Every point p of the first camera's space is sent by [E] to a normal of the plane through the
    translation and the rotated point: E = k [t]x R. *)
Definition essential_of (g : se3) (E : mat) (k : R) : Prop :=
  forall p, mapply E p = vscale k (cross (tr g) (rot (so3 g) p)).

(** Two motions that move every point alike. *)
Definition same_motion (g h : se3) : Prop := forall p, act g p = act h p.

(** The motion with its translation brought to length one. *)
Definition unit_tr (g : se3) : se3 := SE (so3 g) (vscale (/ vnorm (tr g)) (tr g)).

(** Contract of the singular value decomposition: two orthonormal systems of columns and three
    singular values in decreasing order. *)
Definition orthonormal (A : mat) : Prop := mmul (mT A) A = mI.
Definition diag (a b c : R) : mat := M33 (V3 a 0 0) (V3 0 b 0) (V3 0 0 c).
Definition svd_of (E U V : mat) : Prop :=
  orthonormal U /\ orthonormal V /\
  exists a b c, a >= b /\ b >= c /\ c >= 0 /\ E = mmul (mmul U (diag a b c)) (mT V).
Definition is_svd (svd : mat -> mat * mat) (E : mat) : Prop :=
  let (U, V) := svd E in svd_of E U V.

(** Contract of the conversion of rotation matrices to unit quaternions. *)
Definition converts (toQuat : mat -> quat) : Prop :=
  forall A, orthonormal A -> mdet A = 1 -> unit_quat (toQuat A) /\ forall p, rot (toQuat A) p = mapply A p.

(** Contract of the solver of triangulate: a least-squares solution, and one of the unknowns is 0
    when the two columns are dependent. *)
Definition basic_solver (solve : vec -> vec -> vec -> R * R) : Prop :=
  least_squares_solver solve /\
  forall u v b, parallel u v -> fst (solve u v b) = 0 \/ snd (solve u v b) = 0.

(** The rays of a point in front of both cameras, not on the line through the two centres. *)
Definition seen_in_front (g : se3) (c : vec * vec) : Prop :=
  exists d1 d2, 0 < d1 /\ 0 < d2 /\ act g (vscale d1 (fst c)) = vscale d2 (snd c) /\
    ~ parallel (tr g) (rot (so3 g) (fst c)).

(** [q] is the point of the plane orthogonal to [n] closest to [p]. *)
Definition nearest_in_plane (n p q : vec) : Prop :=
  dot q n = 0 /\ forall x, dot x n = 0 -> vnorm (vsub p q) <= vnorm (vsub p x).
