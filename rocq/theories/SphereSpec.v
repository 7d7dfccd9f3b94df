(** Specifications for the sphere. *)
From Coq Require Import Reals.
From Verif Require Import Pose GeomModel GeomSpec.
Open Scope R_scope.

(** The direction makes an angle of at most [s] with the z axis (for 0 <= s <= PI). *)
Definition in_sector (s : R) (d : vec) : Prop := cos s * vnorm d <= vz d.

(** A unit direction on the border of the sector. *)
Definition on_border (s : R) (d : vec) : Prop := vnorm d = 1 /\ vz d = cos s.

(** The direction lies on the arc between two directions. *)
Definition on_arc (d1 d2 p : vec) : Prop :=
  p <> vzero /\ exists a b, 0 <= a /\ 0 <= b /\ p = vadd (vscale a d1) (vscale b d2).

(** Same direction. *)
Definition same_direction (a b : vec) : Prop := exists k, 0 < k /\ b = vscale k a.

(** Circles and lines of the plane. *)
Definition is_circle (S : pt -> Prop) : Prop :=
  exists o r, 0 < r /\ forall p, S p <-> dist2 p o = r * r.
Definition is_line (S : pt -> Prop) : Prop :=
  exists a b c, (a <> 0 \/ b <> 0) /\ forall p, S p <-> a * px p + b * py p = c.
