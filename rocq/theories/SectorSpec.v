(** Notions for the statements about sectors and terrain. *)
From Coq Require Import Reals ZArith List.
From Verif Require Import Outcome Pose GeomModel SectorModel.
Import ListNotations.
Open Scope R_scope.

(** The ray is in the cone spanned by the three rays of the sector. *)
Definition in_cone (r : vec) (s : sector) : Prop :=
  exists a b c, 0 <= a /\ 0 <= b /\ 0 <= c /\
    r = vadd (vadd (vscale a (s0 s)) (vscale b (s1 s))) (vscale c (s2 s)).

Definition det3 (a b c : vec) : R := dot a (cross b c).
Definition proper (s : sector) : Prop := det3 (s0 s) (s1 s) (s2 s) <> 0.

(** Contract of the 3x3 solver: exact for independent columns. *)
Definition cone_solver (solve : vec -> vec -> vec -> vec -> R * R * R) : Prop :=
  forall a b c r, det3 a b c <> 0 ->
    let '(x, y, z) := solve a b c r in r = vadd (vadd (vscale x a) (vscale y b)) (vscale z c).

(** Contract of the QR factor: for independent rays a non-zero vector orthogonal to the three
    columns. *)
Definition orthogonal_column (last : vec -> vec -> vec -> plane) : Prop :=
  forall a b c, det3 a b c <> 0 -> let pl := last a b c in
    (pn pl <> vzero \/ pd pl <> 0) /\
    dot (pn pl) a + pd pl = 0 /\ dot (pn pl) b + pd pl = 0 /\ dot (pn pl) c + pd pl = 0.

(** [p] is in the triangle with corners a, b, c. *)
Definition in_triangle3 (p a b c : vec) : Prop :=
  exists u v w, 0 <= u /\ 0 <= v /\ 0 <= w /\ u + v + w = 1 /\
    p = vadd (vadd (vscale u a) (vscale v b)) (vscale w c).

(** barycentric coordinates of [p] in the planar triangle *)
Definition barycentric (p a b c : pt) (u v w : R) : Prop :=
  u + v + w = 1 /\ px p = u * px a + v * px b + w * px c /\ py p = u * py a + v * py b + w * py c.

Definition area2 (a b c : pt) : R :=
  (px b - px a) * (py c - py a) - (py b - py a) * (px c - px a).

(** Contract of the solver of the interpolation: exact for triangles that are not flat. *)
Definition affine_solver (solve : pt -> pt -> pt -> R * R * R -> R * R * R) : Prop :=
  forall a b c d0 d1 d2, area2 a b c <> 0 ->
    let '(k0, k1, k2) := solve a b c (d0, d1, d2) in
    k0 * px a + k1 * py a + k2 = d0 /\ k0 * px b + k1 * py b + k2 = d1 /\ k0 * px c + k1 * py c + k2 = d2.

(** subsequence *)
Inductive sub {A} : list A -> list A -> Prop :=
| sub_nil l : sub [] l
| sub_keep x l l' : sub l l' -> sub (x :: l) (x :: l')
| sub_skip x l l' : sub l l' -> sub l (x :: l').

Definition known (depths : list R) (i : Z) (d : R) : Prop :=
  (0 <= i)%Z /\ nth_error depths (Z.to_nat i) = Some d.

(** the widest angle between two rays of a sector *)
Definition angle_between (a b : vec) : R := acos (dot a b / (vnorm a * vnorm b)).
Definition widest_angle (s : sector) : R :=
  Rmax (angle_between (s0 s) (s1 s)) (Rmax (angle_between (s1 s) (s2 s)) (angle_between (s0 s) (s2 s))).
