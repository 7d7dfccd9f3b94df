(** Specification of a Delaunay triangulation of points of the real plane. *)
From Coq Require Import Reals List ZArith.
From Verif Require Import DelModel DelSpec DelPlaneSpec.
Open Scope R_scope.

(** Squared distance; the point d lies strictly inside the circle through a, b, c. *)
Definition dist2 (p q : pt) : R := (fst p - fst q) * (fst p - fst q) + (snd p - snd q) * (snd p - snd q).
Definition in_circle (a b c d : pt) : Prop :=
  exists o, dist2 o a = dist2 o b /\ dist2 o b = dist2 o c /\ dist2 o d < dist2 o a.

(** ... or on it *)
Definition in_disc (a b c d : pt) : Prop :=
  exists o, dist2 o a = dist2 o b /\ dist2 o b = dist2 o c /\ dist2 o d <= dist2 o a.

Section Delaunay.
Context {P : Type}.
Variable pos : P -> pt.
Implicit Types m : mesh P.

(** A vertex made from a point of the user: the first three are those of the bounding triangle. *)
Definition user m (v : nat) : Prop := (3 <= v < nv m)%nat.

(** No point of the user lies inside the circle around a triangle between points of the user. *)
Definition empty_circles m : Prop := forall t u, tri_of m t -> (forall v, corner m t v -> user m v) -> user m u ->
  ~ in_circle (at_vertex pos m (TV m t 0)) (at_vertex pos m (TV m t 1)) (at_vertex pos m (TV m t 2)) (at_vertex pos m u).

(** These triangles cover the convex hull of the points. *)
Definition covers_hull m : Prop := forall x y z q, user m x -> user m y -> user m z ->
  inside (at_vertex pos m x) (at_vertex pos m y) (at_vertex pos m z) q ->
  orient (at_vertex pos m x) (at_vertex pos m y) (at_vertex pos m z) <> 0 ->
  exists t, tri_of m t /\ (forall v, corner m t v -> user m v) /\ in_closed pos m t q.

(** Three points with no other point in or on their circle are the corners of a triangle. *)
Definition has_empty m : Prop := forall x y z, user m x -> user m y -> user m z ->
  orient (at_vertex pos m x) (at_vertex pos m y) (at_vertex pos m z) <> 0 ->
  (forall u, user m u -> u <> x -> u <> y -> u <> z -> ~ in_disc (at_vertex pos m x) (at_vertex pos m y) (at_vertex pos m z) (at_vertex pos m u)) ->
  exists t, tri_of m t /\ corner m t x /\ corner m t y /\ corner m t z.

(** The side tests and the circle test are exact. *)
Definition exact_circles (g : geometry P) : Prop := forall a b c d, orient (pos a) (pos b) (pos c) <> 0 ->
  (g_delaunay g a b c d = true <-> ~ in_circle (pos a) (pos b) (pos c) (pos d)).
End Delaunay.

(** The point of this index is a corner of the triangle. *)
Definition named {P} (m : mesh P) (t i : nat) : Prop := exists v, corner m t v /\ IDX m v = Z.of_nat i.
