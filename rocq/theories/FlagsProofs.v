From Coq Require Import ZArith QArith List.
From Verif Require Import FlagsModel FlagsSpec.
Import ListNotations.

Lemma flag_reaches fl f : f <> f_tracing_impr_factor ->
  getFlaggedSettings fl (meant_for f) = flag_value fl f.
Proof. destruct f; intros H; try reflexivity. congruence. Qed.

Lemma unflagged_default fl g : (forall f, f <> f_tracing_impr_factor -> meant_for f <> g) ->
  getFlaggedSettings fl g = default g.
Proof.
  intros H. destruct g; try reflexivity.
  all: exfalso.
  - exact (H f_average_ORB_motion ltac:(discriminate) eq_refl).
  - exact (H f_run_max_RANSAC_iterations ltac:(discriminate) eq_refl).
  - exact (H f_first_frames_skip ltac:(discriminate) eq_refl).
  - exact (H f_points_per_frame ltac:(discriminate) eq_refl).
  - exact (H f_pos_variance ltac:(discriminate) eq_refl).
  - exact (H f_optimized_stddev ltac:(discriminate) eq_refl).
  - exact (H f_tracing_GN_iter ltac:(discriminate) eq_refl).
  - exact (H f_perform_full_tracing ltac:(discriminate) eq_refl).
  - exact (H f_use_alt_H_weighting ltac:(discriminate) eq_refl).
  - exact (H f_track_fail_factor ltac:(discriminate) eq_refl).
  - exact (H f_use_grad_weights_on_tracking ltac:(discriminate) eq_refl).
  - exact (H f_fixed_motion_on_first_ba ltac:(discriminate) eq_refl).
  - exact (H f_run_ba ltac:(discriminate) eq_refl).
  - exact (H f_optimize_affine_light ltac:(discriminate) eq_refl).
  - exact (H f_num_threads ltac:(discriminate) eq_refl).
  - exact (H f_track_from_last_kf ltac:(discriminate) eq_refl).
  - exact (H f_predict_using_screw ltac:(discriminate) eq_refl).
  - exact (H f_shift_between_keyframes ltac:(discriminate) eq_refl).
Qed.

Lemma meant_for_inj f g : meant_for f = meant_for g -> f = g.
Proof. destruct f, g; simpl; intros H; try reflexivity; discriminate. Qed.

Definition flag_eq_dec : forall a b : flag, {a = b} + {a <> b}.
Proof. decide equality. Defined.

Lemma nothing_else f a b : differ_only_in f a b ->
  forall g, g <> meant_for f -> getFlaggedSettings a g = getFlaggedSettings b g.
Proof.
  intros D g Hg.
  assert (K : (exists h, h <> f_tracing_impr_factor /\ meant_for h = g) \/
              (forall h, h <> f_tracing_impr_factor -> meant_for h <> g)).
  { destruct g;
      try (right; intros h Hh; destruct h; try discriminate; congruence);
      left;
      first [ exists f_average_ORB_motion; split; [discriminate|reflexivity]
            | exists f_run_max_RANSAC_iterations; split; [discriminate|reflexivity]
            | exists f_first_frames_skip; split; [discriminate|reflexivity]
            | exists f_points_per_frame; split; [discriminate|reflexivity]
            | exists f_pos_variance; split; [discriminate|reflexivity]
            | exists f_optimized_stddev; split; [discriminate|reflexivity]
            | exists f_tracing_GN_iter; split; [discriminate|reflexivity]
            | exists f_perform_full_tracing; split; [discriminate|reflexivity]
            | exists f_use_alt_H_weighting; split; [discriminate|reflexivity]
            | exists f_track_fail_factor; split; [discriminate|reflexivity]
            | exists f_use_grad_weights_on_tracking; split; [discriminate|reflexivity]
            | exists f_fixed_motion_on_first_ba; split; [discriminate|reflexivity]
            | exists f_run_ba; split; [discriminate|reflexivity]
            | exists f_optimize_affine_light; split; [discriminate|reflexivity]
            | exists f_num_threads; split; [discriminate|reflexivity]
            | exists f_track_from_last_kf; split; [discriminate|reflexivity]
            | exists f_predict_using_screw; split; [discriminate|reflexivity]
            | exists f_shift_between_keyframes; split; [discriminate|reflexivity] ]. }
  destruct K as [(h & Hh & <-)|K].
  - rewrite !flag_reaches by assumption. apply D. intros ->. congruence.
  - rewrite !unflagged_default by assumption. reflexivity.
Qed.

Lemma impr_factor_ignored a b :
  differ_only_in f_tracing_impr_factor a b ->
  forall g, getFlaggedSettings a g = getFlaggedSettings b g.
Proof.
  intros D g. destruct (field_eq_dec g imprFactor) as [->|N]; [reflexivity|].
  now apply (nothing_else f_tracing_impr_factor).
Qed.

Lemma impr_factor_refuted :
  exists fl, getFlaggedSettings fl (meant_for f_tracing_impr_factor)
             <> flag_value fl f_tracing_impr_factor.
Proof.
  exists {|
    FLAGS_num_threads := 4; FLAGS_points_per_frame := 2000; FLAGS_first_frames_skip := 15;
    FLAGS_run_max_RANSAC_iterations := false; FLAGS_average_ORB_motion := true;
    FLAGS_optimize_affine_light := false; FLAGS_perform_full_tracing := false;
    FLAGS_use_alt_H_weighting := true; FLAGS_tracing_GN_iter := 3; FLAGS_pos_variance := 32 # 10;
    FLAGS_tracing_impr_factor := 2; FLAGS_track_from_last_kf := true;
    FLAGS_predict_using_screw := false; FLAGS_use_grad_weights_on_tracking := false;
    FLAGS_track_fail_factor := 15 # 10; FLAGS_run_ba := true;
    FLAGS_fixed_motion_on_first_ba := false; FLAGS_optimized_stddev := 24 # 10;
    FLAGS_shift_between_keyframes := 10; FLAGS_deterministic := true |}.
  cbn. discriminate.
Qed.

Lemma no_flags g : getFlaggedSettings flags_default g = default g.
Proof. destruct g; reflexivity. Qed.
