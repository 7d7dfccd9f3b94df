From Coq Require Import Reals Lra Psatz.
From Verif Require Import LightModel LightSpec.
Open Scope R_scope.

Lemma exp_eq_1 a : exp a = 1 <-> a = 0.
Proof.
  split; intro H.
  - rewrite <- exp_0 in H. now apply exp_inv.
  - subst. apply exp_0.
Qed.

Lemma exp_neg_mul a : exp (- a) * exp a = 1.
Proof. rewrite <- exp_plus. replace (- a + a) with 0 by ring. apply exp_0. Qed.

Lemma exp_nz a : exp a <> 0.
Proof. pose proof (exp_pos a). lra. Qed.

Lemma product_iff (f g : light) :
  acts_as_composition (light_apply f) (light_apply g) (light_apply (light_mul f g)) <->
  la g = 0 \/ lb f = - exp (la g) * lb g.
Proof.
  unfold acts_as_composition, light_apply, light_mul; simpl.
  pose proof (exp_pos (la f)). pose proof (exp_pos (la g)).
  split.
  - intros Hx. specialize (Hx 0). rewrite exp_plus in Hx.
    set (F := exp (la f)) in *. set (G := exp (la g)) in *.
    assert (E : F * ((G - 1) * (G * lb g + lb f)) = 0) by nra.
    apply Rmult_integral in E. destruct E as [E|E]; [lra|].
    apply Rmult_integral in E. destruct E as [E|E].
    + left. apply exp_eq_1. fold G. lra.
    + right. lra.
  - intros [E|E] x; rewrite exp_plus.
    + rewrite E, exp_0. ring.
    + rewrite E. ring.
Qed.

Lemma inverse_left_iff (f : light) :
  undoes (light_apply (light_inverse f)) (light_apply f) <-> la f = 0 \/ lb f = 0.
Proof.
  unfold undoes, light_apply, light_inverse; simpl.
  pose proof (exp_neg_mul (la f)) as E. pose proof (exp_pos (la f)). pose proof (exp_pos (- la f)).
  set (F := exp (la f)) in *. set (G := exp (- la f)) in *.
  split.
  - intros Hx. specialize (Hx 0).
    assert (K : lb f * (1 - G * G) = 0).
    { rewrite <- E at 1. rewrite <- Hx. ring. }
    apply Rmult_integral in K. destruct K as [K|K]; [now right|left].
    assert (G = 1) by nra. apply exp_eq_1 in H1. lra.
  - intros [Z|Z] x.
    + assert (F = 1) by (apply exp_eq_1; assumption).
      assert (G = 1) by (apply exp_eq_1; lra). rewrite H1, H2. ring.
    + rewrite Z. transitivity ((G * F) * x); [ring|]. rewrite E. ring.
Qed.

Lemma inverse_right_iff (f : light) :
  undoes (light_apply f) (light_apply (light_inverse f)) <-> la f = 0 \/ lb f = 0.
Proof.
  unfold undoes, light_apply, light_inverse; simpl.
  pose proof (exp_neg_mul (la f)) as E. pose proof (exp_pos (la f)). pose proof (exp_pos (- la f)).
  set (F := exp (la f)) in *. set (G := exp (- la f)) in *.
  split.
  - intros Hx. specialize (Hx 0).
    assert (K : lb f * (F - G) = 0).
    { assert (F * (G * (0 + - lb f * G) + lb f) = (F - G * (G * F)) * lb f) by ring.
      rewrite E in *. lra. }
    apply Rmult_integral in K. destruct K as [K|K]; [now right|left].
    assert (F = 1) by nra. now apply exp_eq_1 in H1.
  - intros [Z|Z] x.
    + assert (F = 1) by (apply exp_eq_1; assumption).
      assert (G = 1) by (apply exp_eq_1; lra). rewrite H1, H2. ring.
    + rewrite Z. transitivity ((G * F) * x); [ring|]. rewrite E. ring.
Qed.

Lemma product_refuted :
  ~ (forall f g, acts_as_composition (light_apply f) (light_apply g)
                                     (light_apply (light_mul f g))).
Proof.
  intros H. specialize (H (mk_light 0 0) (mk_light 1 1)).
  apply product_iff in H; simpl in H. pose proof (exp_pos 1). lra.
Qed.

Lemma inverse_refuted :
  ~ (forall f, undoes (light_apply (light_inverse f)) (light_apply f)) /\
  ~ (forall f, undoes (light_apply f) (light_apply (light_inverse f))).
Proof.
  split; intros H; specialize (H (mk_light 1 1)).
  - apply inverse_left_iff in H; simpl in H. lra.
  - apply inverse_right_iff in H; simpl in H. lra.
Qed.

Lemma associative_refuted :
  ~ (forall f g h, light_mul (light_mul f g) h = light_mul f (light_mul g h)).
Proof.
  intros H. specialize (H (mk_light 0 0) (mk_light 0 0) (mk_light 1 1)).
  apply (f_equal lb) in H. simpl in H. rewrite exp_0, Rplus_0_l in H.
  pose proof (exp_ineq1 1 ltac:(lra)). nra.
Qed.

Lemma unit_laws (f : light) :
  light_mul f light_default = f /\
  (light_mul light_default f = f <-> la f = 0 \/ lb f = 0).
Proof.
  destruct f as [a b]. unfold light_mul, light_default; simpl. split.
  - rewrite exp_0. f_equal; ring.
  - split; intro H.
    + injection H as _ H.
      assert (K : (exp a - 1) * b = 0) by lra.
      apply Rmult_integral in K. destruct K as [K|K]; [left|now right].
      apply exp_eq_1. lra.
    + destruct H as [-> | ->].
      * rewrite exp_0. f_equal; ring.
      * f_equal; ring.
Qed.

(** Tracking, bundle adjustment and tracing. *)

Lemma tracking_zero_iff (l : light) t b :
  tracking_residual l t b = 0 <-> fits (la l) (lb l) t b.
Proof. unfold tracking_residual, fits, light_apply. lra. Qed.

Lemma ba_residual_value (base ref : light) t b :
  ba_residual base ref t b =
  exp (- la ref) * (light_apply ref t - light_apply base b).
Proof.
  unfold ba_residual, normalize_multiplier, light_apply; simpl.
  rewrite exp_0. unfold Rminus. rewrite exp_plus.
  pose proof (exp_neg_mul (la ref)) as E.
  transitivity (exp (- la ref) * exp (la ref) * (t + lb ref) -
                exp (la base) * exp (- la ref) * (b + lb base)); [rewrite E|]; ring.
Qed.

Lemma ba_zero_iff (base ref : light) t b :
  ba_residual base ref t b = 0 <-> light_apply ref t = light_apply base b.
Proof.
  rewrite ba_residual_value. pose proof (exp_pos (- la ref)). split; intro H0.
  - apply Rmult_integral in H0. lra.
  - rewrite H0. ring.
Qed.

Lemma ba_gain_free (base ref : light) g t b :
  ba_residual (mk_light (la base + g) (lb base)) (mk_light (la ref + g) (lb ref)) t b =
  ba_residual base ref t b.
Proof.
  unfold ba_residual, normalize_multiplier, light_apply; simpl.
  replace (la base + g - (la ref + g)) with (la base - la ref) by ring. reflexivity.
Qed.

Lemma traced_value (rl rb bw : light) x :
  traced_intensity rl rb bw x =
  exp (la rl + la rb - la bw) *
  (x - exp (- la bw) * (exp (- la bw) * lb bw) + exp (la rb) * lb rb + lb rl).
Proof.
  unfold traced_intensity, light_apply, light_mul, light_inverse; simpl.
  f_equal. ring.
Qed.

(** The base frame of the tracked frame and of the traced point is the same keyframe whose own
    brightness is the reference. *)
Lemma traced_same_base (rl : light) x :
  traced_intensity rl light_default light_default x = light_apply rl x.
Proof.
  rewrite traced_value. unfold light_default, light_apply; simpl.
  rewrite Ropp_0, exp_0. replace (la rl + 0 - 0) with (la rl) by ring. ring.
Qed.

Lemma trace_agrees_iff (rl : light) t b :
  fits (la rl) (lb rl) t b ->
  (traced_intensity rl light_default light_default b = t <->
   (exp (la rl) - 1) * t + exp (la rl) * lb rl = 0).
Proof.
  unfold fits. intros F. rewrite traced_same_base. unfold light_apply. rewrite <- F.
  pose proof (exp_pos (la rl)) as P. set (A := exp (la rl)) in *.
  split; intro H.
  - assert (K : (A + 1) * ((A - 1) * t + A * lb rl) = 0) by nra.
    apply Rmult_integral in K. destruct K; [lra|assumption].
  - transitivity (t + (A + 1) * ((A - 1) * t + A * lb rl)); [ring|]. rewrite H. ring.
Qed.

Lemma trace_agrees_all_iff (rl : light) :
  (forall t b, fits (la rl) (lb rl) t b ->
     traced_intensity rl light_default light_default b = t) <->
  la rl = 0 /\ lb rl = 0.
Proof.
  split.
  - intros H.
    pose proof (proj1 (trace_agrees_iff rl 0 _ eq_refl) (H 0 _ eq_refl)) as H0.
    pose proof (proj1 (trace_agrees_iff rl 1 _ eq_refl) (H 1 _ eq_refl)) as H1.
    pose proof (exp_pos (la rl)).
    assert (E : exp (la rl) = 1) by lra. rewrite E in H0.
    split; [now apply exp_eq_1|lra].
  - intros [Ha Hb] t b F. apply trace_agrees_iff; [assumption|].
    rewrite Ha, Hb, exp_0. ring.
Qed.

Lemma trace_disagrees :
  exists rl t b,
    tracking_residual rl t b = 0 /\
    traced_intensity rl light_default light_default b <> t /\
    - 1 / 10 <= la rl <= 1 / 10 /\ Rabs (lb rl) <= 25 /\ 0 <= t <= 255 /\ 0 <= b <= 255.
Proof.
  exists (mk_light 0 10), 100, 110. unfold tracking_residual, light_apply; simpl.
  rewrite exp_0. split; [ring|]. split.
  - rewrite traced_same_base. unfold light_apply; simpl. rewrite exp_0. lra.
  - repeat split; try lra. rewrite Rabs_pos_eq; lra.
Qed.

(** Without brightness optimisation every transform stays the default one. *)
Lemma trivial_light (x : R) :
  light_apply light_default x = x /\
  light_mul light_default light_default = light_default /\
  light_inverse light_default = light_default /\
  traced_intensity light_default light_default light_default x = x.
Proof.
  assert (A : light_apply light_default x = x).
  { unfold light_apply, light_default; simpl. rewrite exp_0. ring. }
  repeat split; [assumption| | |rewrite traced_same_base; assumption];
    unfold light_mul, light_inverse, light_default; simpl.
  - rewrite exp_0. f_equal; ring.
  - rewrite Ropp_0. f_equal. ring.
Qed.

(** A keyframe made from a tracked frame: when the chain of transforms is exact for intensities. *)
Lemma keyframe_light_iff (rel base : light) :
  (forall x, light_apply (keyframe_light rel (Some base)) x = light_apply rel (light_apply base x))
  <-> la base = 0 \/ lb rel = - exp (la base) * lb base.
Proof. apply product_iff. Qed.

(** The direction tracking and bundle adjustment use: the frame's intensity first goes to its
    base, then to the world. *)
Lemma keyframe_light_ba_iff (rel base : light) :
  (forall x, light_apply (keyframe_light rel (Some base)) x = light_apply base (light_apply rel x))
  <-> lb base = 0 \/ la base = - la rel.
Proof.
  unfold keyframe_light, light_apply, light_mul; simpl.
  pose proof (exp_neg_mul (la rel)) as E.
  pose proof (exp_pos (la rel)). pose proof (exp_pos (la base)).
  assert (D : forall x,
    exp (la rel + la base) * (x + (exp (la base) * lb base + lb rel)) -
    exp (la base) * (exp (la rel) * (x + lb rel) + lb base) =
    exp (la rel) * exp (la base) * (lb base * (exp (la base) - exp (- la rel)))).
  { intros x. rewrite exp_plus.
    replace (exp (la rel) * exp (la base) * (lb base * (exp (la base) - exp (- la rel)))) with
      (exp (la rel) * exp (la base) * (lb base * exp (la base)) -
       exp (la base) * lb base * (exp (- la rel) * exp (la rel))) by ring.
    rewrite E. ring. }
  split.
  - intros H1. specialize (H1 0). specialize (D 0).
    assert (K : exp (la rel) * exp (la base) * (lb base * (exp (la base) - exp (- la rel))) = 0)
      by lra.
    apply Rmult_integral in K. destruct K as [K|K]; [apply Rmult_integral in K; lra|].
    apply Rmult_integral in K. destruct K as [K|K]; [now left|right].
    apply exp_inv. lra.
  - intros H1 x. specialize (D x).
    assert (K : lb base * (exp (la base) - exp (- la rel)) = 0).
    { destruct H1 as [->| ->]; ring. }
    rewrite K in D. lra.
Qed.
