(** Specification vocabulary for the ground-truth writers. *)
From Coq Require Import Reals ZArith List.
From Verif Require Import Pose MotionSpec Dbl PlyModel.
Import ListNotations.
Open Scope R_scope.

(** A ground-truth sequence gives a value for a frame. *)
Definition gt_at {A} (l : list A) (n : Z) (x : A) : Prop :=
  (0 <= n)%Z /\ nth_error l (Z.to_nat n) = Some x.

(** The sequence is long enough for the frames. *)
Definition gt_covers {A} (l : list A) (nums : list Z) : Prop :=
  forall n, In n nums -> (n < Z.of_nat (length l))%Z.

(** Two cameras are at least a millimetre (in their own units) apart. *)
Definition apart (g h : se3) : Prop :=
  forall cg ch, camera_center g cg -> camera_center h ch -> 1 / 1000 <= distance cg ch.
Definition close (g h : se3) : Prop :=
  forall cg ch, camera_center g cg -> camera_center h ch -> distance cg ch < 1 / 1000.

(** A map of the world that scales all distances by [s]. *)
Definition similarity (s : R) (W : vec -> vec) : Prop :=
  0 < s /\ forall p q, distance (W p) (W q) = s * distance p q.

(** The camera [g'] sees the mapped world exactly as [g] sees the original, [s] times larger. *)
Definition sees_scaled (s : R) (W : vec -> vec) (g g' : se3) : Prop :=
  forall p, act g' (W p) = vscale s (act g p).

(** Motions undoing each other. *)
Definition undoes (g h : se3) : Prop := forall p, act g (act h p) = p.

(** The point a frame contributes: the measured point, scaled and moved by the frame's estimated
    pose. *)
Definition cloud_point (s : R) (pose : se3) (p : vec) : vec := act pose (vscale s p).

(** The scale: distance of the estimated cameras over distance of the true ones. *)
Definition baseline (s : R) (e0 e1 g0 g1 : se3) : Prop :=
  forall a0 a1 b0 b1, camera_center e0 a0 -> camera_center e1 a1 -> camera_center g0 b0 -> camera_center g1 b1 ->
    distance a0 a1 = s * distance b0 b1.


(** The coloured points of the frames with their poses. *)
Definition gt_cloud (dbl_of : vec -> point) (sc : R) (points : list (list vec)) (colors : list (list color))
  (fs : list (Z * se3)) : list (point * color) :=
  flat_map (fun f => combine (map (fun p => dbl_of (cloud_point sc (snd f) p)) (nth (Z.to_nat (fst f)) points []))
                             (nth (Z.to_nat (fst f)) colors [])) fs.

