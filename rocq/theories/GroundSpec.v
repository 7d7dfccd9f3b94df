(** Notions for the statements about the planar terrain, in terms of the points and depths given. *)
From Coq Require Import Reals ZArith QArith Qreals List.
From Verif Require Import DelModel DelSpec DelPlaneSpec DelThm.
Import ListNotations.
Open Scope R_scope.

(** [d] is the value at [x] of the affine function with the absolute depths as values at the points
    i, j, k *)
Definition linear (pts : list point) (depths : list R) (i j k : nat) (x : pt) (d : R) : Prop :=
  exists a b c da db dc u v w,
    nth_error pts i = Some a /\ nth_error pts j = Some b /\ nth_error pts k = Some c /\
    nth_error depths i = Some da /\ nth_error depths j = Some db /\ nth_error depths k = Some dc /\
    orient (place a) (place b) (place c) <> 0 /\ u + v + w = 1 /\ x = mix u (place a) v (place b) w (place c) /\
    d = u * Rabs da + v * Rabs db + w * Rabs dc.

(** [x] is in the triangle of the points i, j, k *)
Definition in_points (pts : list point) (i j k : nat) (x : pt) : Prop :=
  exists a b c, nth_error pts i = Some a /\ nth_error pts j = Some b /\ nth_error pts k = Some c /\
    within (place a) (place b) (place c) x.

(** [x] is strictly inside the convex hull, in the hull *)
Definition inside_hull (pts : list point) (x : pt) : Prop :=
  exists a b c, In a pts /\ In b pts /\ In c pts /\ orient (place a) (place b) (place c) <> 0 /\
    inside (place a) (place b) (place c) x.
Definition in_hull (pts : list point) (x : pt) : Prop :=
  exists a b c, In a pts /\ In b pts /\ In c pts /\ within (place a) (place b) (place c) x.

(** [x] is taken for lying on an edge (within the tolerance) *)
Definition on_edge (g : geometry point) (m : mesh point) (x : point) : Prop :=
  exists e, edge_of m e /\ g_onSegment g (POS m (EV m e 0)) (POS m (EV m e 1)) x = true.
