(** Notions for the statements about drawing a spherical triangulation. *)
From Coq Require Import Reals ZArith List.
From Verif Require Import Pose.
Import ListNotations.
Open Scope R_scope.

Definition comb (x y z : R) (a b c : vec) : vec := vadd (vadd (vscale x a) (vscale y b)) (vscale z c).

(** Contract of fullPivHouseholderQr().solve: a least-squares solution, with at most one coefficient
    for a matrix with three equal columns, which has rank one. *)
Definition least_squares (solve : vec -> vec -> vec -> vec -> R * R * R) (rays : list vec) : Prop :=
  forall a b c r, In a rays -> In b rays -> In c rays ->
    let '(x, y, z) := solve a b c r in
    dot a (comb x y z a b c) = dot a r /\ dot b (comb x y z a b c) = dot b r /\ dot c (comb x y z a b c) = dot c r.
Definition basic (solve : vec -> vec -> vec -> vec -> R * R * R) (rays : list vec) : Prop :=
  forall a r, In a rays -> let '(x, y, z) := solve a a a r in
    (x = 0 /\ y = 0) \/ (x = 0 /\ z = 0) \/ (y = 0 /\ z = 0).

(** A combination of the rays without negative coefficients. *)
Inductive in_hull (rays : list vec) : vec -> Prop :=
| hull_zero : in_hull rays vzero
| hull_add a r v : 0 <= a -> In r rays -> in_hull rays v -> in_hull rays (vadd (vscale a r) v).

(** The pixels of the 11 x 11 square at a grid corner. *)
Definition square_of (c p : Z * Z) : Prop :=
  (fst c <= fst p <= fst c + 10)%Z /\ (snd c <= snd p <= snd c + 10)%Z.
Definition inside (rows cols : Z) (p : Z * Z) : Prop := (0 <= fst p < cols)%Z /\ (0 <= snd p < rows)%Z.
Definition grid_corner (rows cols : Z) (c : Z * Z) : Prop :=
  inside rows cols c /\ (fst c mod 10 = 0)%Z /\ (snd c mod 10 = 0)%Z.

(** Two rays are neighbours in one of the sectors. *)
Definition neighbours (secs : list (Z * Z * Z)) (i j : Z) : Prop :=
  exists a b c, In (a, b, c) secs /\
    ((i = a /\ j = b) \/ (i = b /\ j = a) \/ (i = b /\ j = c) \/ (i = c /\ j = b) \/ (i = c /\ j = a) \/ (i = a /\ j = c)).

Definition along (v : vec) : vec := vscale (/ vnorm v) v.
