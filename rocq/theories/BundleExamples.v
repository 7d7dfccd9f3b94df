(** Concrete cases for the statements about the bundle adjustment. *)
From Coq Require Import Reals ZArith List Bool Permutation Lia Lra.
From Verif Require Import Outcome Pose SphereModel BundleModel BundleSpec BundleProofs BundleMore.
Import ListNotations.
Open Scope R_scope.

(** A solver that stops at once meets the contract. *)
Definition idle (pr : problem) (l : list bframe) : list bframe := l.

Lemma idle_ok : solver idle.
Proof.
  intros pr l. unfold idle. constructor; try (apply Forall2_refl'; intros k; auto); auto.
  - split; [split; [reflexivity|split; [reflexivity|]]|]; intros n o o' P P'; unfold is_point in *; congruence.
  - intros n o o' P P' _. unfold is_point in *; congruence.
  - intros n o o' P P'. assert (o' = o) by (unfold is_point in *; congruence). subst. tauto.
Qed.

Definition always (v : R) (l : list bframe) (r : residual) : R := v.
Lemma always_blind v : state_blind (always v).
Proof. intros l l' r _. reflexivity. Qed.

Definition settings0 : bsettings :=
  {| b_patternSize := 1; b_outlierDiff := 12; b_minDepth := 1; b_maxDepth := 2;
     b_minA := -1; b_maxA := 1; b_minB := -1; b_maxB := 1;
     b_optimizeLight := true; b_fixedRotation := true; b_fixedMotion := true |}.

Definition point0 (st : ostate) : opoint := {| o_pos := vzero; o_lid := Some 0; o_state := st |}.
Definition frame0 (id : Z) (x : R) (st : ostate) : bframe :=
  {| k_id := id; k_pose := SE qone (V3 x 0 0); k_light := (0, 0); k_pts := [point0 st] |}.

Definition visible (v : bool) : oob_test := fun _ _ _ => negb v.

Definition two (st : ostate) : list bframe := [frame0 1 0 st; frame0 2 1 st].
Definition three (st : ostate) : list bframe := [frame0 1 0 st; frame0 3 1 st; frame0 2 2 st].

Lemma two_nodup st : NoDup (map k_id (two st)).
Proof. cbn. constructor; [intros [X|[]]; discriminate|constructor; [intros []|constructor]]. Qed.
Lemma three_nodup st : NoDup (map k_id (three st)).
Proof.
  cbn. constructor; [intros [X|[X|[]]]; discriminate|constructor; [intros [X|[]]; discriminate|constructor; [intros []|constructor]]].
Qed.

Lemma two_second st : second_of (two st) (frame0 2 1 st).
Proof. exists (frame0 1 0 st), [frame0 2 1 st]. split; [reflexivity|split; [now left|]]. intros j [<-|[]]. cbn. lia. Qed.
Lemma three_second st : second_of (three st) (frame0 2 2 st).
Proof.
  exists (frame0 1 0 st), [frame0 3 1 st; frame0 2 2 st]. split; [reflexivity|split; [right; now left|]].
  intros j [<-|[<-|[]]]; cbn; lia.
Qed.

Lemma two_runs isOOB value st : exists l', adjust_frames settings0 isOOB value idle (two st) = Ok l'.
Proof.
  destruct (ba_defined settings0 isOOB value idle (frame0 1 0 st) [frame0 2 1 st] (two_nodup st)) as (_ & _ & D).
  apply (D _ (two_second st)). cbn. intros E. injection E. lra.
Qed.
Lemma three_runs isOOB value st : exists l', adjust_frames settings0 isOOB value idle (three st) = Ok l'.
Proof.
  destruct (ba_defined settings0 isOOB value idle (frame0 1 0 st) [frame0 3 1 st; frame0 2 2 st] (three_nodup st)) as (_ & _ & D).
  apply (D _ (three_second st)). cbn. intros E. injection E. lra.
Qed.

(** every keyframe and every point has a successor *)
Lemma becomes s isOOB value solve ks l' k : solver solve -> NoDup (map k_id ks) ->
  adjust_frames s isOOB value solve ks = Ok l' -> In k ks -> exists k', became ks l' k k'.
Proof.
  intros SO ND H K. destruct (ba_frames _ _ _ _ _ _ SO ND H) as [P _].
  assert (I : In (k_id k) (map k_id l')) by (apply (Permutation_in _ (Permutation_sym P)); now apply in_map).
  apply in_map_iff in I. destruct I as (k' & E & K'). exists k'. repeat split; auto.
Qed.

Lemma point_after k k' n o : successor k k' -> is_point k n o -> exists o', is_point k' n o'.
Proof.
  intros (_ & L & _) P. unfold is_point in *. destruct (nth_error (k_pts k') n) as [q|] eqn:N; [eauto|].
  apply nth_error_None in N. assert (X : nth_error (k_pts k) n <> None) by congruence. apply nth_error_Some in X. lia.
Qed.

(** the one residual of the point of the second of two keyframes *)
Definition res21 : residual := {| r_base := 2; r_point := 0; r_ref := 1; r_pattern := 0 |}.

Lemma two_contrib v st r : contributes settings0 (visible v) (two st) r /\ r_base r = k_id (frame0 2 1 st) /\ r_point r = 0%nat <->
  v = true /\ r = res21.
Proof.
  split.
  - intros ((b & o & f & IB & IR & E1 & E2 & NE & P & L & V & PS) & RB & RP).
    destruct v; [|discriminate]. split; [reflexivity|]. cbn in PS.
    destruct IB as [<-|[<-|[]]]; cbn in E1, RB; [congruence|].
    destruct IR as [<-|[<-|[]]]; cbn in E2; [|congruence].
    destruct r as [rb rp rr ri]; cbn in *. unfold res21. subst. f_equal. lia.
  - intros [-> ->]. split; [|split; reflexivity]. exists (frame0 2 1 st), (point0 st), (frame0 1 0 st).
    cbn. repeat split; auto; try discriminate; lia.
Qed.

Lemma two_marked v x st l' k' o' : adjust_frames settings0 (visible v) (always x) idle (two st) = Ok l' ->
  became (two st) l' (frame0 2 1 st) k' -> is_point k' 0 o' ->
  marked 12 (if v then [x] else []) (point0 st) o'.
Proof.
  intros H B P.
  pose proof (ba_marking settings0 (visible v) (always x) idle (two st) l' (frame0 2 1 st) k' 0 (point0 st) o'
    (if v then [res21] else []) idle_ok (always_blind x) (two_nodup st) H (two_second st) B eq_refl P) as M.
  replace (if v then [x] else []) with (map (always x l') (if v then [res21] else [])) by (destruct v; reflexivity).
  apply M.
  - destruct v; [constructor; [intros []|constructor]|constructor].
  - intros r. rewrite two_contrib. destruct v; cbn; split; intros X; intuition congruence.
Qed.

(** large negative residuals *)
Lemma negative_witness : exists s isOOB value solve ks l' k k' o o' r,
  solver solve /\ state_blind value /\ NoDup (map k_id ks) /\
  adjust_frames s isOOB value solve ks = Ok l' /\ second_of ks k /\ became ks l' k k' /\
  is_point k 0 o /\ is_point k' 0 o' /\ contributes s isOOB ks r /\ r_base r = k_id k /\ r_point r = 0%nat /\
  (forall r, value l' r = -1000) /\ b_outlierDiff s = 12 /\ o_state o' = ACTIVE.
Proof.
  destruct (two_runs (visible true) (always (-1000)) ACTIVE) as [l' H].
  destruct (becomes _ _ _ _ _ _ (frame0 2 1 ACTIVE) idle_ok (two_nodup _) H) as [k' B]; [right; now left|].
  destruct (ba_frames _ _ _ _ _ _ idle_ok (two_nodup _) H) as [_ SH].
  destruct (point_after _ _ 0 (point0 ACTIVE) (SH _ _ B) eq_refl) as [o' P].
  destruct (proj2 (two_contrib true ACTIVE res21) (conj eq_refl eq_refl)) as (C & RB & RP).
  exists settings0, (visible true), (always (-1000)), idle, (two ACTIVE), l', (frame0 2 1 ACTIVE), k', (point0 ACTIVE), o', res21.
  repeat (split; [first [exact idle_ok|apply always_blind|apply two_nodup|exact H|apply two_second|exact B|reflexivity|exact P|exact C]|]).
  destruct (two_marked _ _ _ _ _ _ H B P) as [[_ [X|X]]|(_ & _ & [[A _]|[_ A]])]; try discriminate.
  - unfold above in A. cbn in A. destruct (Rlt_dec 12 (-1000)); [lra|cbn in A; lia].
  - exact A.
Qed.

(** an outlier that is seen nowhere becomes out of bounds *)
Lemma lost_witness : exists s isOOB value solve ks l' k k' o o',
  solver solve /\ state_blind value /\ NoDup (map k_id ks) /\
  adjust_frames s isOOB value solve ks = Ok l' /\ second_of ks k /\ became ks l' k k' /\
  is_point k 0 o /\ is_point k' 0 o' /\ o_state o = OUTLIER /\ o_state o' = OOB.
Proof.
  destruct (two_runs (visible false) (always 0) OUTLIER) as [l' H].
  destruct (becomes _ _ _ _ _ _ (frame0 2 1 OUTLIER) idle_ok (two_nodup _) H) as [k' B]; [right; now left|].
  destruct (ba_frames _ _ _ _ _ _ idle_ok (two_nodup _) H) as [_ SH].
  destruct (point_after _ _ 0 (point0 OUTLIER) (SH _ _ B) eq_refl) as [o' P].
  exists settings0, (visible false), (always 0), idle, (two OUTLIER), l', (frame0 2 1 OUTLIER), k', (point0 OUTLIER), o'.
  repeat (split; [first [exact idle_ok|apply always_blind|apply two_nodup|exact H|apply two_second|exact B|reflexivity|exact P]|]).
  destruct (two_marked _ _ _ _ _ _ H B P) as [[X _]|(_ & X & _)]; [exact X|congruence].
Qed.

(** the points of the keyframe added second, all of whose residuals are large, stay as they are *)
Lemma address_witness : exists s isOOB value solve f k j l' k' o o' r,
  let ks := [f; k; j] in
  solver solve /\ state_blind value /\ NoDup (map k_id ks) /\
  adjust_frames s isOOB value solve ks = Ok l' /\ became ks l' k k' /\
  is_point k 0 o /\ is_point k' 0 o' /\ contributes s isOOB ks r /\ r_base r = k_id k /\ r_point r = 0%nat /\
  (forall r, value l' r = 1000) /\ b_outlierDiff s = 12 /\ o_state o' = ACTIVE.
Proof.
  destruct (three_runs (visible true) (always 1000) ACTIVE) as [l' H].
  destruct (becomes _ _ _ _ _ _ (frame0 3 1 ACTIVE) idle_ok (three_nodup _) H) as [k' B]; [right; now left|].
  destruct (ba_frames _ _ _ _ _ _ idle_ok (three_nodup _) H) as [_ SH].
  destruct (point_after _ _ 0 (point0 ACTIVE) (SH _ _ B) eq_refl) as [o' P].
  exists settings0, (visible true), (always 1000), idle, (frame0 1 0 ACTIVE), (frame0 3 1 ACTIVE), (frame0 2 2 ACTIVE), l', k', (point0 ACTIVE), o',
    {| r_base := 3; r_point := 0; r_ref := 1; r_pattern := 0 |}. cbv zeta.
  assert (C : contributes settings0 (visible true) (three ACTIVE) {| r_base := 3; r_point := 0; r_ref := 1; r_pattern := 0 |}).
  { exists (frame0 3 1 ACTIVE), (point0 ACTIVE), (frame0 1 0 ACTIVE). cbn. repeat split; auto; try discriminate; lia. }
  repeat (split; [first [exact idle_ok|apply always_blind|apply (three_nodup ACTIVE)|exact H|exact B|reflexivity|exact P|exact C]|]).
  rewrite (ba_others settings0 (visible true) (always 1000) idle (three ACTIVE) l' (frame0 3 1 ACTIVE) k' 0 (point0 ACTIVE) o'
    idle_ok (three_nodup _) H); auto; [|reflexivity].
  intros S. pose proof (second_unique _ _ _ (three_nodup ACTIVE) S (three_second ACTIVE)) as X. discriminate.
Qed.

(** a case of the hypotheses in which a point is marked *)
Lemma bundle_witness : exists l' k' o',
  solver idle /\ state_blind (always 1000) /\ NoDup (map k_id (two ACTIVE)) /\
  adjust_frames settings0 (visible true) (always 1000) idle (two ACTIVE) = Ok l' /\
  first_of (two ACTIVE) (frame0 1 0 ACTIVE) /\ second_of (two ACTIVE) (frame0 2 1 ACTIVE) /\
  became (two ACTIVE) l' (frame0 2 1 ACTIVE) k' /\ is_point k' 0 o' /\ o_state o' = OUTLIER.
Proof.
  destruct (two_runs (visible true) (always 1000) ACTIVE) as [l' H].
  destruct (becomes _ _ _ _ _ _ (frame0 2 1 ACTIVE) idle_ok (two_nodup _) H) as [k' B]; [right; now left|].
  destruct (ba_frames _ _ _ _ _ _ idle_ok (two_nodup _) H) as [_ SH].
  destruct (point_after _ _ 0 (point0 ACTIVE) (SH _ _ B) eq_refl) as [o' P].
  exists l', k', o'.
  repeat (split; [first [exact idle_ok|apply always_blind|apply two_nodup|exact H|apply two_second|exact B|exact P|eexists; reflexivity]|]).
  destruct (two_marked _ _ _ _ _ _ H B P) as [[_ [X|X]]|(_ & _ & [[_ A]|[A _]])]; try discriminate.
  - exact A.
  - unfold above in A. cbn in A. destruct (Rlt_dec 12 1000); [cbn in A; lia|lra].
Qed.
