(** C92: the Jacobian of the camera map. *)
From Coq Require Import Reals List.
From Verif Require Import Pose GeomModel CamModel JetModel JetProofs.
Import ListNotations.
Open Scope R_scope.

Theorem C92_point : forall c ray, fst (diffMap c ray) = map_ray c ray.
Proof. exact diff_point. Qed.
Print Assumptions C92_point.

(** The derivative of map() along every line through a ray off the axis. *)
Theorem C92_jacobian : forall c ray (g : R -> vec) x0 d,
  (forall t, g t = V3 (vx ray + (t - x0) * vx d) (vy ray + (t - x0) * vy d) (vz ray + (t - x0) * vz d)) -> vx ray <> 0 \/ vy ray <> 0 ->
  exists u v, diffMap c ray = (map_ray c ray, (Some u, Some v)) /\
    derivable_pt_lim (fun t => px (map_ray c (g t))) x0 (vx u * vx d + vy u * vy d + vz u * vz d) /\
    derivable_pt_lim (fun t => py (map_ray c (g t))) x0 (vx v * vx d + vy v * vy d + vz v * vz d).
Proof. exact diff_line. Qed.
Print Assumptions C92_jacobian.

(** The epipolar search advances by the inverse of the speed of the projection. *)
Theorem C92_speed : forall c dirMax dirMin a, vx (along dirMax dirMin a) <> 0 \/ vy (along dirMax dirMin a) <> 0 ->
  exists u v, derivable_pt_lim (fun t => px (map_ray c (along dirMax dirMin t))) a u /\
    derivable_pt_lim (fun t => py (map_ray c (along dirMax dirMin t))) a v /\
    step_speed c dirMax dirMin a = Some (sqrt (u * u + v * v)).
Proof. exact speed. Qed.
Print Assumptions C92_speed.

(** On the axis no derivative is finite, although that of the map may exist. *)
Theorem C92_axis : forall c z, (2 <= length (mapPolyCoeffs c))%nat -> snd (diffMap c (V3 0 0 z)) = (None, None).
Proof. exact diff_axis. Qed.
Print Assumptions C92_axis.

Theorem C92_axis_refuted : exists c z, derivable_pt_lim (fun t => px (map_ray c (shifted (V3 0 0 z) (V3 1 0 0) t))) 0 1 /\
  snd (diffMap c (V3 0 0 z)) = (None, None).
Proof. exact axis_lost. Qed.
Print Assumptions C92_axis_refuted.

Example C92_case : snd (diffMap equidistant (V3 1 0 1)) = (Some (V3 (1 / 2) 0 (- (1 / 2))), Some (V3 0 (PI / 4) 0)).
Proof. exact jet_case. Qed.
