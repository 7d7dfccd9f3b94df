(** Brightness transforms: C35, C67, C68. *)
From Coq Require Import Reals Lra.
From Verif Require Import LightModel LightSpec LightProofs.
Open Scope R_scope.

(** C35: exactly when the product acts as "first the right one, then the left one". *)
Theorem C35_product : forall f g,
  acts_as_composition (light_apply f) (light_apply g) (light_apply (light_mul f g)) <->
  la g = 0 \/ lb f = - exp (la g) * lb g.
Proof. exact product_iff. Qed.
Print Assumptions C35_product.

Theorem C35_product_refuted :
  ~ (forall f g, acts_as_composition (light_apply f) (light_apply g)
                                     (light_apply (light_mul f g))).
Proof. exact product_refuted. Qed.
Print Assumptions C35_product_refuted.

(** C35: exactly when the inverse undoes the transform, on either side. *)
Theorem C35_inverse_left : forall f,
  undoes (light_apply (light_inverse f)) (light_apply f) <-> la f = 0 \/ lb f = 0.
Proof. exact inverse_left_iff. Qed.
Print Assumptions C35_inverse_left.

Theorem C35_inverse_right : forall f,
  undoes (light_apply f) (light_apply (light_inverse f)) <-> la f = 0 \/ lb f = 0.
Proof. exact inverse_right_iff. Qed.
Print Assumptions C35_inverse_right.

Theorem C35_inverse_refuted :
  ~ (forall f, undoes (light_apply (light_inverse f)) (light_apply f)) /\
  ~ (forall f, undoes (light_apply f) (light_apply (light_inverse f))).
Proof. exact inverse_refuted. Qed.
Print Assumptions C35_inverse_refuted.

Theorem C35_associative_refuted :
  ~ (forall f g h, light_mul (light_mul f g) h = light_mul f (light_mul g h)).
Proof. exact associative_refuted. Qed.
Print Assumptions C35_associative_refuted.

(** C35: the default transform is a right unit; it is a left unit only of trivial transforms. *)
Theorem C35_unit : forall f,
  light_mul f light_default = f /\
  (light_mul light_default f = f <-> la f = 0 \/ lb f = 0).
Proof. exact unit_laws. Qed.
Print Assumptions C35_unit.

(** A non-trivial pair for which the product law holds through its second disjunct. *)
Example C35_product_witness :
  acts_as_composition (light_apply (mk_light 2 (- exp 1 * 3))) (light_apply (mk_light 1 3))
    (light_apply (light_mul (mk_light 2 (- exp 1 * 3)) (mk_light 1 3))).
Proof. apply C35_product. right. reflexivity. Qed.

(** C67: tracking accepts a frame whose intensities [t] fit the base intensities [b]; the traced
    intensity predicted for that frame is [t] for all of them exactly when the transform is the
    identity.  The base keyframe here is the one tracked from, with default brightness. *)
Theorem C67_trace_after_track : forall rl : light,
  (forall t b, fits (la rl) (lb rl) t b ->
     traced_intensity rl light_default light_default b = t) <->
  la rl = 0 /\ lb rl = 0.
Proof. exact trace_agrees_all_iff. Qed.
Print Assumptions C67_trace_after_track.

(** C67: zero tracking residual is that fit. *)
Theorem C67_tracking_fit : forall (l : light) t b,
  tracking_residual l t b = 0 <-> fits (la l) (lb l) t b.
Proof. exact tracking_zero_iff. Qed.
Print Assumptions C67_tracking_fit.

(** C67: a mismatch within the default bounds of the optimiser and the intensity range. *)
Theorem C67_trace_after_track_refuted :
  exists rl t b,
    tracking_residual rl t b = 0 /\
    traced_intensity rl light_default light_default b <> t /\
    - 1 / 10 <= la rl <= 1 / 10 /\ Rabs (lb rl) <= 25 /\ 0 <= t <= 255 /\ 0 <= b <= 255.
Proof. exact trace_disagrees. Qed.
Print Assumptions C67_trace_after_track_refuted.

(** C67: with brightness optimisation off every transform is the default one and stays so, and
    intensities are compared unchanged. *)
Theorem C67_optimisation_off : forall x : R,
  light_apply light_default x = x /\
  light_mul light_default light_default = light_default /\
  light_inverse light_default = light_default /\
  traced_intensity light_default light_default light_default x = x.
Proof. exact trivial_light. Qed.
Print Assumptions C67_optimisation_off.

(** C68: a bundle adjustment residual is the difference of the two corrected intensities in the
    gain of the reference frame, so it vanishes exactly when they agree... *)
Theorem C68_residual : forall (base ref : light) t b,
  ba_residual base ref t b = exp (- la ref) * (light_apply ref t - light_apply base b) /\
  (ba_residual base ref t b = 0 <-> light_apply ref t = light_apply base b).
Proof. exact (fun base ref t b => conj (ba_residual_value base ref t b) (ba_zero_iff base ref t b)). Qed.
Print Assumptions C68_residual.

(** ... and it does not see a gain common to both frames. *)
Theorem C68_common_gain : forall (base ref : light) g t b,
  ba_residual (mk_light (la base + g) (lb base)) (mk_light (la ref + g) (lb ref)) t b =
  ba_residual base ref t b.
Proof. exact ba_gain_free. Qed.
Print Assumptions C68_common_gain.

(** C68: the brightness a new keyframe gets acts as "first to the base frame, then to the world"
    exactly when the base has no offset or the two gains cancel. *)
Theorem C68_keyframe_light : forall rel base : light,
  (forall x, light_apply (keyframe_light rel (Some base)) x = light_apply base (light_apply rel x))
  <-> lb base = 0 \/ la base = - la rel.
Proof. exact keyframe_light_ba_iff. Qed.
Print Assumptions C68_keyframe_light.

Example C68_keyframe_witness : forall x,
  light_apply (keyframe_light (mk_light 1 2) (Some (mk_light 3 0))) x =
  light_apply (mk_light 3 0) (light_apply (mk_light 1 2) x).
Proof. apply C68_keyframe_light. left. reflexivity. Qed.
