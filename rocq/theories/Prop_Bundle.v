(** Properties of the bundle adjustment (C57, C75). *)
From Coq Require Import Reals ZArith List Permutation.
From Verif Require Import Outcome Pose SphereModel BundleModel BundleSpec BundleMore BundleExamples.
Import ListNotations.
Open Scope R_scope.

(** C57: the same keyframes with the same points at the same places come out. *)
Theorem C57_frames : forall s isOOB value solve ks l', solver solve -> NoDup (map k_id ks) ->
  adjust_frames s isOOB value solve ks = Ok l' ->
  Permutation (map k_id l') (map k_id ks) /\ forall k k', became ks l' k k' -> successor k k'.
Proof. exact ba_frames. Qed.
Print Assumptions C57_frames.

(** C57: the first keyframe keeps its pose and light. *)
Theorem C57_first : forall s isOOB value solve ks l' k k', solver solve -> NoDup (map k_id ks) ->
  adjust_frames s isOOB value solve ks = Ok l' -> first_of ks k -> became ks l' k k' ->
  k_pose k' = k_pose k /\ k_light k' = k_light k.
Proof. exact ba_first. Qed.
Print Assumptions C57_first.

(** C57: the distance of the second keyframe to the first is kept, or it falls onto the first. *)
Theorem C57_scale : forall s isOOB value solve ks l' f f' k k', solver solve -> NoDup (map k_id ks) ->
  adjust_frames s isOOB value solve ks = Ok l' -> first_of ks f -> second_of ks k ->
  became ks l' f f' -> became ks l' k k' ->
  let baseline := fun a b => vnorm (vsub (tr (k_pose b)) (tr (k_pose a))) in
  baseline f' k' = baseline f k \/ tr (k_pose k') = tr (k_pose f').
Proof. exact ba_scale. Qed.
Print Assumptions C57_scale.

(** C57: the three options that hold parameters fixed. *)
Theorem C57_fixed_motion : forall s isOOB value solve ks l' k k', solver solve -> NoDup (map k_id ks) ->
  adjust_frames s isOOB value solve ks = Ok l' -> b_fixedMotion s = true -> length ks = 2%nat -> became ks l' k k' ->
  k_pose k' = k_pose k /\ k_light k' = k_light k.
Proof. exact ba_fixed_motion. Qed.
Print Assumptions C57_fixed_motion.

Theorem C57_fixed_rotation : forall s isOOB value solve ks l' k k', solver solve -> NoDup (map k_id ks) ->
  adjust_frames s isOOB value solve ks = Ok l' -> b_fixedRotation s = true -> second_of ks k -> became ks l' k k' ->
  so3 (k_pose k') = so3 (k_pose k).
Proof. exact ba_fixed_rotation. Qed.
Print Assumptions C57_fixed_rotation.

Theorem C57_fixed_light : forall s isOOB value solve ks l' k k', solver solve -> NoDup (map k_id ks) ->
  adjust_frames s isOOB value solve ks = Ok l' -> b_optimizeLight s = false -> became ks l' k k' ->
  k_light k' = k_light k.
Proof. exact ba_fixed_light. Qed.
Print Assumptions C57_fixed_light.

(** C57: how the points of the second keyframe are marked, from their final residuals. *)
Theorem C57_marking : forall s isOOB value solve ks l' k k' n o o' rs, solver solve -> state_blind value -> NoDup (map k_id ks) ->
  adjust_frames s isOOB value solve ks = Ok l' -> second_of ks k -> became ks l' k k' ->
  is_point k n o -> is_point k' n o' ->
  NoDup rs -> (forall r, In r rs <-> contributes s isOOB ks r /\ r_base r = k_id k /\ r_point r = n) ->
  marked (b_outlierDiff s) (map (value l') rs) o o'.
Proof. exact ba_marking. Qed.
Print Assumptions C57_marking.

(** C57: the points of all other keyframes keep their states. *)
Theorem C57_others : forall s isOOB value solve ks l' k k' n o o', solver solve -> NoDup (map k_id ks) ->
  adjust_frames s isOOB value solve ks = Ok l' -> ~ second_of ks k -> became ks l' k k' ->
  is_point k n o -> is_point k' n o' -> o_state o' = o_state o.
Proof. exact ba_others. Qed.
Print Assumptions C57_others.

(** C57: no point becomes active, and none that is out of bounds changes. *)
Theorem C57_never : forall s isOOB value solve ks l' k k' n o o', solver solve -> NoDup (map k_id ks) ->
  adjust_frames s isOOB value solve ks = Ok l' -> became ks l' k k' ->
  is_point k n o -> is_point k' n o' ->
  (o_state o' = ACTIVE -> o_state o = ACTIVE) /\ (o_state o = OOB -> o_state o' = OOB).
Proof. exact ba_never. Qed.
Print Assumptions C57_never.

(** C57, counterexamples: large negative residuals; an outlier seen nowhere; the second keyframe
    added. *)
Theorem C57_negative_refuted : exists s isOOB value solve ks l' k k' o o' r,
  solver solve /\ state_blind value /\ NoDup (map k_id ks) /\
  adjust_frames s isOOB value solve ks = Ok l' /\ second_of ks k /\ became ks l' k k' /\
  is_point k 0 o /\ is_point k' 0 o' /\ contributes s isOOB ks r /\ r_base r = k_id k /\ r_point r = 0%nat /\
  (forall r, value l' r = -1000) /\ b_outlierDiff s = 12 /\ o_state o' = ACTIVE.
Proof. exact negative_witness. Qed.
Print Assumptions C57_negative_refuted.

Theorem C57_lost_refuted : exists s isOOB value solve ks l' k k' o o',
  solver solve /\ state_blind value /\ NoDup (map k_id ks) /\
  adjust_frames s isOOB value solve ks = Ok l' /\ second_of ks k /\ became ks l' k k' /\
  is_point k 0 o /\ is_point k' 0 o' /\ o_state o = OUTLIER /\ o_state o' = OOB.
Proof. exact lost_witness. Qed.
Print Assumptions C57_lost_refuted.

Theorem C57_address_refuted : exists s isOOB value solve f k j l' k' o o' r,
  let ks := [f; k; j] in
  solver solve /\ state_blind value /\ NoDup (map k_id ks) /\
  adjust_frames s isOOB value solve ks = Ok l' /\ became ks l' k k' /\
  is_point k 0 o /\ is_point k' 0 o' /\ contributes s isOOB ks r /\ r_base r = k_id k /\ r_point r = 0%nat /\
  (forall r, value l' r = 1000) /\ b_outlierDiff s = 12 /\ o_state o' = ACTIVE.
Proof. exact address_witness. Qed.
Print Assumptions C57_address_refuted.

Example C57_witness : exists l' k' o',
  solver idle /\ state_blind (always 1000) /\ NoDup (map k_id (two ACTIVE)) /\
  adjust_frames settings0 (visible true) (always 1000) idle (two ACTIVE) = Ok l' /\
  first_of (two ACTIVE) (frame0 1 0 ACTIVE) /\ second_of (two ACTIVE) (frame0 2 1 ACTIVE) /\
  became (two ACTIVE) l' (frame0 2 1 ACTIVE) k' /\ is_point k' 0 o' /\ o_state o' = OUTLIER.
Proof. exact bundle_witness. Qed.

(** C75: exactly the points of finite depth, whatever their state, contribute, with one residual
    per pattern pixel and keyframe that sees them; only depths, poses and lights change. *)
Theorem C75_problem : forall s isOOB value solve ks l', solver solve -> NoDup (map k_id ks) ->
  adjust_frames s isOOB value solve ks = Ok l' ->
  exists pr l l1, Permutation l ks /\ l1 = solve pr l /\
    NoDup (p_residuals pr) /\ (forall r, In r (p_residuals pr) <-> contributes s isOOB ks r) /\
    (forall id n, In (Depth id n) (p_blocks pr) <-> exists k o, In k ks /\ k_id k = id /\ is_point k n o /\ o_lid o <> None) /\
    (forall id n, ~ In (Depth id n) (p_constant pr)) /\
    Forall2 same_params l1 l'.
Proof. exact ba_problem. Qed.
Print Assumptions C75_problem.

(** C75: afterwards all parameters are within the configured bounds, or nothing was changed. *)
Theorem C75_bounds : forall s isOOB value solve ks l', solver solve -> NoDup (map k_id ks) ->
  adjust_frames s isOOB value solve ks = Ok l' ->
  (forall k k', became ks l' k k' -> same_params k k') \/
  forall k', In k' l' ->
    b_minA s <= fst (k_light k') <= b_maxA s /\ b_minB s <= snd (k_light k') <= b_maxB s /\
    forall n o v, is_point k' n o -> o_lid o = Some v -> - ln (b_maxDepth s) <= v <= - ln (b_minDepth s).
Proof. exact ba_bounds. Qed.
Print Assumptions C75_bounds.

(** C75: a depth that is not finite stays so, and on the second keyframe is out of bounds. *)
Theorem C75_nonfinite : forall s isOOB value solve ks l' k k' n o o', solver solve -> state_blind value -> NoDup (map k_id ks) ->
  adjust_frames s isOOB value solve ks = Ok l' -> became ks l' k k' ->
  is_point k n o -> is_point k' n o' ->
  (o_lid o = None <-> o_lid o' = None) /\ (o_lid o = None -> second_of ks k -> o_state o' = OOB).
Proof. exact ba_nonfinite. Qed.
Print Assumptions C75_nonfinite.

(** C75: defined for two or more keyframes whose first two are at different places; undefined
    behaviour for a single one, abort for coinciding ones. *)
Theorem C75_defined : forall s isOOB value solve f ks, NoDup (map k_id (f :: ks)) ->
  (ks = [] -> adjust_frames s isOOB value solve (f :: ks) = UB) /\
  (forall k, second_of (f :: ks) k -> tr (k_pose k) = tr (k_pose f) -> adjust_frames s isOOB value solve (f :: ks) = Abort) /\
  (forall k, second_of (f :: ks) k -> tr (k_pose k) <> tr (k_pose f) -> exists l', adjust_frames s isOOB value solve (f :: ks) = Ok l').
Proof. exact ba_defined. Qed.
Print Assumptions C75_defined.
