(** Specification vocabulary for the distance map properties (C11-C14).  Nothing here uses the
    functions of the model; only the types of points (pairs of doubles). *)
From Coq Require Import List ZArith QArith Permutation.
From Verif Require Import Dbl.
Import ListNotations.
Open Scope Z_scope.

(** City-block distance. *)
Definition city_block (x1 y1 x2 y2 : Z) : Z := Z.abs (x1 - x2) + Z.abs (y1 - y2).

(** [p] is a point with finite coordinates inside [0,W) x [0,H). *)
Definition inside_image (W H : Z) (p : dbl * dbl) : Prop :=
  exists px py : Q, p = (Fin px, Fin py) /\
    (0 <= px)%Q /\ (px < inject_Z W)%Q /\ (0 <= py)%Q /\ (py < inject_Z H)%Q.

(** [p] lies in the square cell [(cx, cy)] of side [k]. *)
Definition in_cell (k : Z) (p : dbl * dbl) (cx cy : Z) : Prop :=
  exists px py : Q, p = (Fin px, Fin py) /\
    (inject_Z (cx * k) <= px)%Q /\ (px < inject_Z ((cx + 1) * k))%Q /\
    (inject_Z (cy * k) <= py)%Q /\ (py < inject_Z ((cy + 1) * k))%Q.

(** The cells occupied by the given points that lie in the image. *)
Definition occupied (W H k : Z) (pts : list (dbl * dbl)) (cx cy : Z) : Prop :=
  exists p, In p pts /\ inside_image W H p /\ in_cell k p cx cy.

(** [d] is the distance from [(x, y)] to the nearest cell satisfying [S]. *)
Definition nearest (S : Z -> Z -> Prop) (x y d : Z) : Prop :=
  (exists sx sy, S sx sy /\ d = city_block x y sx sy) /\
  (forall sx sy, S sx sy -> d <= city_block x y sx sy).

(** Powers of two. *)
Definition pow2 (k : Z) : Prop := exists e, 0 <= e /\ k = 2 ^ e.

(** Postcondition of std::nth_element for the comparison "larger second component first":
    a rearrangement with nothing in the tail larger than anything in the head. *)
Definition nth_element_ok (nth : nat -> list (nat * Z) -> list (nat * Z)) : Prop :=
  forall n l, (n <= length l)%nat ->
    Permutation l (nth n l) /\
    forall a b, In a (firstn n (nth n l)) -> In b (skipn n (nth n l)) -> snd b <= snd a.

(** [p] has finite coordinates in (-k, W) x (-k, H): the points whose reduced coordinates,
    truncated towards zero, name a cell of the reduced grid. *)
Definition reaches_grid (W H k : Z) (p : dbl * dbl) : Prop :=
  exists px py : Q, p = (Fin px, Fin py) /\
    (inject_Z (- k) < px)%Q /\ (px < inject_Z W)%Q /\ (inject_Z (- k) < py)%Q /\ (py < inject_Z H)%Q.
