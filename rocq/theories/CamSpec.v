(** Specifications for the camera. *)
From Coq Require Import Reals ZArith List.
From Verif Require Import Pose GeomModel GeomSpec.
Import ListNotations.
Open Scope R_scope.

(** a0 r^k + a1 r^(k+1) + ... *)
Fixpoint power_sum (p : list R) (r : R) (k : nat) : R :=
  match p with [] => 0 | a :: p' => a * r ^ k + power_sum p' r (S k) end.

(** The calibration polynomial: a0 + a1 r^2 + a2 r^3 + ... *)
Definition calibration (p : list R) (r : R) : R :=
  match p with [] => 0 | a :: p' => a + power_sum p' r 2 end.

(** The ray of a pixel for scale, centre and polynomial. *)
Definition lifted (p : list R) (sc cx cy : R) (u : pt) : vec :=
  let x := px u / sc - cx in
  let y := py u / sc - cy in
  V3 x y (calibration p (sqrt (x * x + y * y))).

(** The pixel is in the image rectangle. *)
Definition in_image (w h : Z) (u : pt) : Prop := 0 <= px u <= IZR w /\ 0 <= py u <= IZR h.

(** The ray at radius [r] is not wider than the ray at radius [r']. *)
Definition no_wider (P : R -> R) (r r' : R) : Prop :=
  P r' / sqrt (r' * r' + P r' * P r') <= P r / sqrt (r * r + P r * P r).

(** The rays widen steadily up to the radius [R0]. *)
Definition widening (P : R -> R) (R0 : R) : Prop :=
  forall r r', 0 <= r -> r <= r' -> r' <= R0 -> no_wider P r r'.

(** Distance of a pixel from the principal point, in the units of the calibration. *)
Definition off_axis (sc cx cy : R) (u : pt) : R :=
  sqrt ((px u / sc - cx) * (px u / sc - cx) + (py u / sc - cy) * (py u / sc - cy)).

(** [R0] is the radius of the corner farthest from the principal point. *)
Definition corner_radius (w h : Z) (sc cx cy R0 : R) : Prop :=
  (exists u, (px u = 0 \/ px u = IZR w) /\ (py u = 0 \/ py u = IZR h) /\ off_axis sc cx cy u = R0) /\
  forall u, in_image w h u -> off_axis sc cx cy u <= R0.

(** The polynomial a0 + a1 v + ... *)
Definition polynomial (p : list R) (v : R) : R := power_sum p v 0.
