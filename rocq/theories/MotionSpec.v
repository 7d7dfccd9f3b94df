(** Specifications for motion prediction and alignment. *)
From Coq Require Import Reals.
From Verif Require Import Pose.
Open Scope R_scope.

(** Two motions move every point alike. *)
Definition same_motion (g h : se3) : Prop := forall p, act g p = act h p.

(** Where the camera with the pose [g] (world to frame) is in the world. *)
Definition camera_center (g : se3) (c : vec) : Prop := act g c = vzero.

(** Distance of two points. *)
Definition distance (a b : vec) : R := vnorm (vsub a b).

(** The motion does not rotate. *)
Definition no_rotation (g : se3) : Prop := forall a b, vsub (act g a) (act g b) = vsub a b.
