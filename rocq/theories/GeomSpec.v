(** Specifications of plane geometry. *)
From Coq Require Import Reals ZArith List.
From Verif Require Import Pose GeomModel.
Import ListNotations.
Open Scope R_scope.

(** Squared distance of two points. *)
Definition dist2 (a b : pt) : R := (px a - px b) ^ 2 + (py a - py b) ^ 2.

(** Distance of two points. *)
Definition distance_pt (a b : pt) : R := sqrt (dist2 a b).

(** Twice the signed area of a triangle: positive iff a, b, c turn left. *)
Definition turn (a b c : pt) : R :=
  (px b - px a) * (py c - py a) - (py b - py a) * (px c - px a).

(** The three points are not on one line. *)
Definition triangle (a b c : pt) : Prop := turn a b c <> 0.

(** [o] is the centre of the circle through the three points. *)
Definition circumcenter (o a b c : pt) : Prop := dist2 o a = dist2 o b /\ dist2 o a = dist2 o c.

(** The points on opposite sides of the line ab. *)
Definition opposite (a b c d : pt) : Prop := turn a b c * turn a b d < 0.

(** The point at the fraction [t] of the way from a to b. *)
Definition between (a b : pt) (t : R) : pt :=
  P2 (px a + t * (px b - px a)) (py a + t * (py b - py a)).

(** [p] lies on the segment ab. *)
Definition on_segment (a b p : pt) : Prop := exists t, 0 <= t <= 1 /\ p = between a b t.

(** [p] lies on the segment ab and is none of its ends. *)
Definition inside_segment (a b p : pt) : Prop := exists t, 0 < t < 1 /\ p = between a b t.

(** The segments ab and cd cross in a point inside both, at one point only. *)
Definition cross_properly (a b c d : pt) : Prop :=
  exists p, inside_segment a b p /\ inside_segment c d p /\
    forall q, on_segment a b q -> on_segment c d q -> q = p.

(** [p] is a convex combination of the corners. *)
Definition in_triangle (a b c p : pt) : Prop :=
  exists u v w, 0 <= u /\ 0 <= v /\ 0 <= w /\ u + v + w = 1 /\
    px p = u * px a + v * px b + w * px c /\ py p = u * py a + v * py b + w * py c.

(** [p] is a point of the line through consecutive points number [i] and [i+1], and the position
    [x] belongs to this pair: inside [i, i+1], or before the first or after the last pair. *)
Definition on_polyline (points : list pt) (x : R) (p : pt) : Prop :=
  exists i a b, nth_error points i = Some a /\ nth_error points (S i) = Some b /\
    (INR i <= x \/ i = 0%nat) /\ (x <= INR i + 1 \/ S (S i) = length points) /\
    p = between a b (x - INR i).

(** Every step between neighbours is at most [L] long. *)
Definition steps_at_most (L : R) (points : list pt) : Prop :=
  forall i a b, nth_error points i = Some a -> nth_error points (S i) = Some b ->
    distance_pt a b <= L.

(** Contract of a least-squares solver for u x + v y = b: the residual is orthogonal to u and v. *)
Definition least_squares_solver (solve : vec -> vec -> vec -> R * R) : Prop :=
  forall u v b, let (x, y) := solve u v b in
    let res := vsub (vadd (vscale x u) (vscale y v)) b in
    dot res u = 0 /\ dot res v = 0.

(** Two directions on one line. *)
Definition parallel (u v : vec) : Prop := cross u v = vzero.
