(** Notions for the statements about the photometric residuals. *)
From Coq Require Import Reals ZArith List Bool.
From Verif Require Import Outcome Pose GeomModel BundleModel LightModel.
Import ListNotations.
Open Scope R_scope.

(** The similarity x -> g (k x) of the world, applied to a camera-to-world pose, a depth, a keyframe. *)
Definition sim_pose (g : se3) (k : R) (p : se3) : se3 := smul g (SE (so3 p) (vscale k (tr p))).
Definition sim_point (k : R) (o : opoint) : opoint :=
  {| o_pos := o_pos o; o_lid := match o_lid o with Some lid => Some (lid - ln k) | None => None end; o_state := o_state o |}.
Definition sim_frame (g : se3) (k : R) (f : bframe) : bframe :=
  {| k_id := k_id f; k_pose := sim_pose g k (k_pose f); k_light := k_light f; k_pts := map (sim_point k) (k_pts f) |}.

(** All poses are rigid. *)
Definition all_rigid (l : list bframe) : Prop := forall f, In f l -> rigid (k_pose f).

(** The keyframes after multiplying all gains by [exp d]. *)
Definition gain_frame (d : R) (f : bframe) : bframe :=
  {| k_id := k_id f; k_pose := k_pose f; k_light := (fst (k_light f) + d, snd (k_light f)); k_pts := k_pts f |}.

(** Distance of two camera centres. *)
Definition baseline (p q : se3) : R := vnorm (vsub (tr q) (tr p)).

(** The place in the world of the pixel in direction [dir] (a unit vector) at distance [depth]. *)
Definition world_point (p : se3) (dir : vec) (depth : R) : vec := act p (vscale depth dir).

(** The two brightness-corrected intensities of a residual agree: the pixel [p] of the base frame and
    the pixel of the reference frame that shows the same place of the world. *)
Definition agree (map : vec -> pt) (direction : pt -> vec) (image : Z -> pt -> R) (base ref : bframe) (p : pt) (depth : R) : Prop :=
  light_apply (mk_light (fst (k_light ref)) (snd (k_light ref)))
    (image (k_id ref) (map (act (sinv (k_pose ref)) (world_point (k_pose base) (direction p) depth)))) =
  light_apply (mk_light (fst (k_light base)) (snd (k_light base))) (image (k_id base) p).

(** All residuals of the problem agree. *)
Definition consistent (map : vec -> pt) (direction : pt -> vec) (image : Z -> pt -> R) (pattern : list pt)
    (pr : problem) (l : list bframe) : Prop :=
  forall r base ref o lid d, In r (p_residuals pr) -> In base l -> In ref l -> k_id base = r_base r -> k_id ref = r_ref r ->
    nth_error (k_pts base) (r_point r) = Some o -> o_lid o = Some lid -> nth_error pattern (r_pattern r) = Some d ->
    agree map direction image base ref (P2 (vx (o_pos o) + px d) (vy (o_pos o) + py d)) (exp (- lid)).
