(** C93: the affine light along a run. *)
From Coq Require Import ZArith Reals List.
From Verif Require Import Outcome Pose CamModel CamSpec PyramidModel PyramidSpec TrackerModel TrackerSpec TrackerExamples LightRunModel LightRunSpec LightRunProofs.
Import ListNotations.
Open Scope nat_scope.

(** With bounds that allow the identity, all lights of a run stay within them, the guesses
    handed to the tracker included. *)
Theorem C93_bounds : forall solve trackable s cam, level_solver solve -> s_useGrad s = false -> within s identity_light ->
  forall n ts r, Forall valid_tracking ts -> add_frames solve trackable s cam ts (initial n) = Ok r ->
  (forall l, In l (all_lights (fst r)) -> within s l) /\
  forall e, In e (snd r) -> within s (snd (fst e)) /\ within s (snd (snd e)).
Proof. exact initial_bounds. Qed.
Print Assumptions C93_bounds.

(** Without light optimisation all lights are the identity. *)
Theorem C93_constant : forall solve trackable s cam, level_solver solve -> s_useGrad s = false -> s_optimizeLight s = false ->
  forall n ts r, Forall valid_tracking ts -> add_frames solve trackable s cam ts (initial n) = Ok r ->
  (forall l, In l (all_lights (fst r)) -> l = identity_light) /\
  forall e, In e (snd r) -> snd (fst e) = identity_light /\ snd (snd e) = identity_light.
Proof. exact initial_constant. Qed.
Print Assumptions C93_constant.

(** With bounds that exclude the identity no frame is ever tracked: every frame gets its predicted
    motion. *)
Theorem C93_blocked_refuted : forall solve trackable s cam, refuses solve -> s_useGrad s = false -> ~ within s identity_light ->
  forall n ts r, Forall valid_tracking ts -> add_frames solve trackable s cam ts (initial n) = Ok r ->
  forall e, In e (snd r) -> snd e = fst e /\ snd (snd e) = identity_light.
Proof. exact initial_blocked. Qed.
Print Assumptions C93_blocked_refuted.

(** Runs exist. *)
Theorem C93_total : forall solve trackable s cam, (2 <= s_levelNum s <= 6)%Z -> s_useGrad s = false ->
  forall ts st, Forall valid_tracking ts -> exists r, add_frames solve trackable s cam ts st = Ok r /\ length (snd r) = length ts.
Proof. exact run_total. Qed.
Print Assumptions C93_total.

(** Each frame starts from the light of the frame before, whichever keyframes the two are
    relative to. *)
Theorem C93_guess : forall solve trackable s cam ts st r, add_frames solve trackable s cam ts st = Ok r -> handed_on (lightKfToLast st) (snd r).
Proof. exact run_guess. Qed.
Print Assumptions C93_guess.

Theorem C93_stale_refuted : forall trackable cam m, exists solve ts r, level_solver solve /\ Forall valid_tracking ts /\
  add_frames solve trackable (ex_set 2 false true) cam ts (initial 2) = Ok r /\
  exists t1 t2 e1 e2, ts = [t1; t2] /\ t_fate t1 = Promoted /\ t_base t2 = t_frame t1 /\ t_frame t2 = t_base t2 /\ t_predicted t2 = m /\
    snd r = [e1; e2] /\ snd (fst e1) = identity_light /\ snd (fst e2) <> identity_light.
Proof. exact stale_guess. Qed.
Print Assumptions C93_stale_refuted.

(** A system restored after a frame that was kept continues from the light saved. *)
Theorem C93_restored : forall solve trackable s cam t st r, 2 <= length (kfs st) -> t_fate t = Kept ->
  add_frame solve trackable s cam t st = Ok r -> restored_light (kfs (fst r)) = Ok (lightKfToLast (fst r)).
Proof. exact restore_kept. Qed.
Print Assumptions C93_restored.

(** After a keyframe it takes the light of the frame before; without one this is undefined. *)
Theorem C93_restored_keyframe : forall solve trackable s cam t st r, t_fate t = Promoted -> t_erased t < length (kfs st) ->
  add_frame solve trackable s cam t st = Ok r ->
  restored_light (kfs (fst r)) = match rev (end_tracked (kfs st)) with [] => UB | l :: _ => Ok l end.
Proof. exact restore_promoted. Qed.
Print Assumptions C93_restored_keyframe.

Theorem C93_restored_refuted : forall trackable cam, exists solve ts r l, level_solver solve /\ Forall valid_tracking ts /\
  add_frames solve trackable (ex_set 2 false true) cam ts (initial 2) = Ok r /\ restored_light (kfs (fst r)) = Ok l /\ l <> lightKfToLast (fst r).
Proof. exact restore_differs. Qed.
Print Assumptions C93_restored_refuted.

Example C93_case : level_solver (finds (fun _ => case_light)) /\ within (ex_set 2 false true) identity_light /\
  Forall valid_tracking [case_tracking sid Promoted; case_tracking sid Kept].
Proof. exact (conj (finds_solver _) (conj (proj2 case_within) (Forall_cons _ (case_valid _ _) (Forall_cons _ (case_valid _ _) (Forall_nil _))))). Qed.
