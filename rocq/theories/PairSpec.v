(** Specifications for the estimation of a motion from two views. *)
From Coq Require Import Reals List ZArith Sorted.
From Verif Require Import Outcome Pose GeomSpec GeomModel EssModel EssSpec StereoSpec.
Import ListNotations.
Open Scope R_scope.

(** The two pixels show the point [P], given in the space of the first camera, after the motion [g];
    the point is not on the line through the two centres. *)
Definition shows (map : vec -> pt) (unmap : pt -> vec) (g : se3) (img : pt * pt) (P : vec) : Prop :=
  (exists a, 0 < a /\ unmap (fst img) = vscale a P) /\
  (exists b, 0 < b /\ unmap (snd img) = vscale b (act g P)) /\
  (forall k, 0 < k -> map (vscale k P) = fst img /\ map (vscale k (act g P)) = snd img) /\
  ~ parallel (tr g) (rot (so3 g) P).

(** A multiple of the essential matrix of the motion. *)
Definition true_matrix (g : se3) (E : mat) : Prop := exists k, k <> 0 /\ essential_of g E k.

(** A sample of five different correspondences among [n]. *)
Definition five (n : nat) (h : list Z) : Prop :=
  length h = 5%nat /\ increasing_Z h /\ forall i, In i h -> (0 <= i < Z.of_nat n)%Z.

(** Random draws: five indices each time. *)
Definition draws_five (n : nat) (draws : nat -> list Z) : Prop :=
  forall it, length (draws it) = 5%nat /\ forall i, In i (draws it) -> (0 <= i < Z.of_nat n)%Z.

(** The singular value decomposition does its work on the matrices that can occur: multiples of the
    essential matrix, the matrices found for a sample, and the initial content of the array. *)
Definition decomposes (svd : mat -> mat * mat) (found : list Z -> list mat) (n : nat) (g : se3) (junk : mat) : Prop :=
  forall E, true_matrix g E \/ E = junk \/ (exists h, five n h /\ In E (found h)) -> is_svd svd E.
