(** Specification of a planar mesh: triangles in the real plane. *)
From Coq Require Import Reals List ZArith.
From Verif Require Import DelModel DelSpec.
Import ListNotations.
Open Scope R_scope.

Definition pt := (R * R)%type.
Definition orient (a b c : pt) : R := (fst b - fst a) * (snd c - snd a) - (snd b - snd a) * (fst c - fst a).
Definition mix (x : R) (a : pt) (y : R) (b : pt) (z : R) (c : pt) : pt :=
  (x * fst a + y * fst b + z * fst c, x * snd a + y * snd b + z * snd c).
Definition inside (a b c q : pt) : Prop :=
  exists x y z, 0 < x /\ 0 < y /\ 0 < z /\ x + y + z = 1 /\ q = mix x a y b z c.
Definition within (a b c q : pt) : Prop :=
  exists x y z, 0 <= x /\ 0 <= y /\ 0 <= z /\ x + y + z = 1 /\ q = mix x a y b z c.

Section Planar.
Context {P : Type}.
Variable pos : P -> pt.
Implicit Types m : mesh P.

(** A point of the interior, of the closed triangle. *)
Definition at_vertex m (v : nat) : pt := pos (POS m v).
Definition in_open m (t : nat) (q : pt) : Prop := inside (at_vertex m (TV m t 0)) (at_vertex m (TV m t 1)) (at_vertex m (TV m t 2)) q.
Definition in_closed m (t : nat) (q : pt) : Prop := within (at_vertex m (TV m t 0)) (at_vertex m (TV m t 1)) (at_vertex m (TV m t 2)) q.

(** No two triangles overlap; together they fill the bounding triangle. *)
Definition planar m : Prop := forall t t' q, tri_of m t -> tri_of m t' -> in_open m t q -> in_open m t' q -> t = t'.
Definition fills m : Prop := forall q, within (at_vertex m 0) (at_vertex m 1) (at_vertex m 2) q -> exists t, tri_of m t /\ in_closed m t q.

(** The side test is exact (the other tests may decide as they like). *)
Definition exact_sides (g : geometry P) : Prop :=
  forall a b p q, g_sameSide g a b p q = true <-> 0 <= orient (pos a) (pos b) (pos p) * orient (pos a) (pos b) (pos q).

(** General position: no three on a line, no two taken for equal, none taken for lying on a segment between two others. *)
Definition general_position (g : geometry P) (l : list P) : Prop :=
  forall i j a b, nth_error l i = Some a -> nth_error l j = Some b -> i <> j -> g_equal g a b = false /\
  forall k c, nth_error l k = Some c -> k <> i -> k <> j -> orient (pos a) (pos b) (pos c) <> 0 /\ g_onSegment g a b c = false.
End Planar.
