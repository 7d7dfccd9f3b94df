(** Command-line flags: C54. *)
From Coq Require Import ZArith QArith List.
From Verif Require Import FlagsModel FlagsSpec FlagsProofs.

(** C54: every flag but one sets its setting. *)
Theorem C54_flag_reaches : forall fl f, f <> f_tracing_impr_factor ->
  getFlaggedSettings fl (meant_for f) = flag_value fl f.
Proof. exact flag_reaches. Qed.
Print Assumptions C54_flag_reaches.

(** C54: changing one flag changes no other setting. *)
Theorem C54_nothing_else : forall f a b, differ_only_in f a b ->
  forall g, g <> meant_for f -> getFlaggedSettings a g = getFlaggedSettings b g.
Proof. exact nothing_else. Qed.
Print Assumptions C54_nothing_else.

(** C54: settings without a flag keep their default. *)
Theorem C54_unflagged : forall fl g,
  (forall f, f <> f_tracing_impr_factor -> meant_for f <> g) ->
  getFlaggedSettings fl g = default g.
Proof. exact unflagged_default. Qed.
Print Assumptions C54_unflagged.

(** C54: different flags are meant for different settings. *)
Theorem C54_injective : forall f g, meant_for f = meant_for g -> f = g.
Proof. exact meant_for_inj. Qed.
Print Assumptions C54_injective.

(** C54: without flags the settings are the defaults. *)
Theorem C54_no_flags : forall g, getFlaggedSettings flags_default g = default g.
Proof. exact no_flags. Qed.
Print Assumptions C54_no_flags.

(** C54: the improvement factor flag has no effect at all. *)
Theorem C54_impr_factor_ignored : forall a b, differ_only_in f_tracing_impr_factor a b ->
  forall g, getFlaggedSettings a g = getFlaggedSettings b g.
Proof. exact impr_factor_ignored. Qed.
Print Assumptions C54_impr_factor_ignored.

Theorem C54_impr_factor_refuted :
  exists fl, getFlaggedSettings fl (meant_for f_tracing_impr_factor)
             <> flag_value fl f_tracing_impr_factor.
Proof. exact impr_factor_refuted. Qed.
Print Assumptions C54_impr_factor_refuted.

(** A command line with one changed flag. *)
Example C54_witness :
  let fl := {|
    FLAGS_num_threads := 8; FLAGS_points_per_frame := 2000; FLAGS_first_frames_skip := 15;
    FLAGS_run_max_RANSAC_iterations := false; FLAGS_average_ORB_motion := true;
    FLAGS_optimize_affine_light := false; FLAGS_perform_full_tracing := false;
    FLAGS_use_alt_H_weighting := true; FLAGS_tracing_GN_iter := 3; FLAGS_pos_variance := 32 # 10;
    FLAGS_tracing_impr_factor := 1; FLAGS_track_from_last_kf := true;
    FLAGS_predict_using_screw := false; FLAGS_use_grad_weights_on_tracking := false;
    FLAGS_track_fail_factor := 15 # 10; FLAGS_run_ba := true;
    FLAGS_fixed_motion_on_first_ba := false; FLAGS_optimized_stddev := 24 # 10;
    FLAGS_shift_between_keyframes := 10; FLAGS_deterministic := true |} in
  differ_only_in f_num_threads fl flags_default /\
  getFlaggedSettings fl numThreads = VInt 8 /\ getFlaggedSettings fl pointsNum = VInt 2000.
Proof.
  split; [|split; reflexivity]. intros g Hg. destruct g; try reflexivity. congruence.
Qed.
