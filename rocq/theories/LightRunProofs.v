(** The light along a run. *)
From Coq Require Import ZArith QArith Reals List Lia Lra.
From Verif Require Import Outcome Pose CamModel CamSpec PyramidModel PyramidSpec TrackerModel TrackerSpec TrackerProofs TrackerMore TrackerExamples LightRunModel LightRunSpec.
Import ListNotations.


Section Run.
Variables (solve : level_problem -> estimate -> estimate) (trackable : trackable_test) (s : tracker_settings) (cam : camera).

Lemma step_inv t st r : add_frame solve trackable s cam t st = Ok r -> exists es fin,
  track_in_system solve trackable s cam (t_base t) (t_points t) (t_depths t) (t_weights t) (t_frame t) (t_predicted t, lightKfToLast st) = Ok (es, fin) /\
  snd r = ((t_predicted t, lightKfToLast st), fin) /\ lightKfToLast (fst r) = snd fin /\
  kfs (fst r) = match t_fate t with Kept => keep_last (snd fin) (kfs st) | Promoted => skipn (t_erased t) (kfs st ++ [KL (snd fin) []]) | Released => kfs st end.
Proof.
  unfold add_frame. destruct (track_in_system _ _ _ _ _ _ _ _ _ _) as [[es fin]| | | |]; cbn; try discriminate. intros E. injection E as <-. exists es, fin. auto.
Qed.

Lemma kept_in (P : light -> Prop) l ks : (forall x, In x (flat_map (fun k => own k :: tracked k) ks) -> P x) -> P l ->
  forall x, In x (flat_map (fun k => own k :: tracked k) (keep_last l ks)) -> P x.
Proof.
  intros H L x. unfold keep_last. destruct (rev ks) as [|k b] eqn:E; [intros []|]. assert (ks = rev b ++ [k]) as -> by (rewrite <- (rev_involutive ks), E; reflexivity).
  rewrite flat_map_app, in_app_iff. cbn. intros [I|[I|I]].
  - apply H. rewrite flat_map_app, in_app_iff. auto.
  - apply H. rewrite flat_map_app, in_app_iff. right. cbn. auto.
  - rewrite app_nil_r, in_app_iff in I. destruct I as [I|[<-|[]]]; [|exact L]. apply H. rewrite flat_map_app, in_app_iff. right. cbn. rewrite app_nil_r. auto.
Qed.
Lemma skip_in {A} (n : nat) (l : list A) x : In x (skipn n l) -> In x l.
Proof. intros I. rewrite <- (firstn_skipn n l). apply in_or_app. auto. Qed.
Lemma promoted_in (P : light -> Prop) l ks n : (forall x, In x (flat_map (fun k => own k :: tracked k) ks) -> P x) -> P l ->
  forall x, In x (flat_map (fun k => own k :: tracked k) (skipn n (ks ++ [KL l []]))) -> P x.
Proof.
  intros H L x I. apply in_flat_map in I. destruct I as (k & K & I). apply skip_in, in_app_or in K. destruct K as [K|[<-|[]]].
  - apply H. apply in_flat_map. eauto.
  - destruct I as [<-|[]]. exact L.
Qed.

(** A property of lights that every tracking keeps holds of all of them, always. *)
Lemma run_keeps (P : light -> Prop) : forall ts st r, Forall valid_tracking ts ->
  (forall t st' es fin, In t ts -> P (lightKfToLast st') -> track_in_system solve trackable s cam (t_base t) (t_points t) (t_depths t) (t_weights t) (t_frame t) (t_predicted t, lightKfToLast st') = Ok (es, fin) -> P (snd fin)) ->
  (forall x, In x (all_lights st) -> P x) -> add_frames solve trackable s cam ts st = Ok r ->
  (forall x, In x (all_lights (fst r)) -> P x) /\ forall e, In e (snd r) -> P (snd (fst e)) /\ P (snd (snd e)).
Proof.
  induction ts as [|t ts IH]; intros st r V K I E; cbn [add_frames] in E.
  { injection E as <-. split; [exact I|intros e []]. }
  destruct (add_frame solve trackable s cam t st) as [r1| | | |] eqn:E1; cbn in E; try discriminate.
  destruct (add_frames solve trackable s cam ts (fst r1)) as [r2| | | |] eqn:E2; cbn in E; try discriminate. injection E as <-. cbn [fst snd].
  destruct (step_inv _ _ _ E1) as (es & fin & T & S & L & F). inversion V; subst.
  assert (P0 : P (lightKfToLast st)) by (apply I; left; reflexivity). assert (P1 : P (snd fin)) by (eapply K; [left; reflexivity|exact P0|exact T]).
  destruct (IH (fst r1) r2) as [A B]; try assumption.
  - intros t' st' es' fin' J. apply K. right. exact J.
  - intros x [<-|J]; [rewrite L; exact P1|]. rewrite F in J. destruct (t_fate t).
    + eapply kept_in; [|exact P1|exact J]. intros y Y. apply I. right. exact Y.
    + eapply promoted_in; [|exact P1|exact J]. intros y Y. apply I. right. exact Y.
    + apply I. right. exact J.
  - split; [exact A|]. intros e [<-|J]; [rewrite S; auto|apply B; exact J].
Qed.

Theorem run_bounds : level_solver solve -> s_useGrad s = false -> forall ts st r, Forall valid_tracking ts ->
  (forall x, In x (all_lights st) -> within s x) -> add_frames solve trackable s cam ts st = Ok r ->
  (forall x, In x (all_lights (fst r)) -> within s x) /\ forall e, In e (snd r) -> within s (snd (fst e)) /\ within s (snd (snd e)).
Proof.
  intros SV G ts st r V I E. apply (run_keeps (within s) ts st r V); try assumption. intros t st' es fin J P T. rewrite Forall_forall in V.
  destruct (system_light_bounds _ _ _ _ _ _ _ _ _ _ _ _ SV (V t J) G T) as [->|B]; [exact P|exact B].
Qed.

Theorem run_constant : level_solver solve -> s_useGrad s = false -> s_optimizeLight s = false -> forall ts st r a, Forall valid_tracking ts ->
  (forall x, In x (all_lights st) -> x = a) -> add_frames solve trackable s cam ts st = Ok r ->
  (forall x, In x (all_lights (fst r)) -> x = a) /\ forall e, In e (snd r) -> snd (fst e) = a /\ snd (snd e) = a.
Proof.
  intros SV G O ts st r a V I E. apply (run_keeps (fun x => x = a) ts st r V); try assumption. intros t st' es fin J P T. rewrite Forall_forall in V.
  rewrite (system_light_constant _ _ _ _ _ _ _ _ _ _ _ _ SV (V t J) G O T). exact P.
Qed.


Theorem run_blocked : refuses solve -> s_useGrad s = false -> forall ts st r, Forall valid_tracking ts -> ~ within s (lightKfToLast st) ->
  add_frames solve trackable s cam ts st = Ok r -> forall e, In e (snd r) -> snd e = fst e /\ snd (snd e) = lightKfToLast st.
Proof.
  intros SV G. induction ts as [|t ts IH]; intros st r V N E; cbn [add_frames] in E; [injection E as <-; intros e []|].
  destruct (add_frame solve trackable s cam t st) as [r1| | | |] eqn:E1; cbn in E; try discriminate.
  destruct (add_frames solve trackable s cam ts (fst r1)) as [r2| | | |] eqn:E2; cbn in E; try discriminate. injection E as <-. cbn [fst snd].
  destruct (step_inv _ _ _ E1) as (es & fin & T & S & L & F). inversion V; subst.
  assert (fin = (t_predicted t, lightKfToLast st)) as -> by (eapply light_outside; [exact SV| |exact G| |exact T]; [assumption|exact N]).
  cbn [snd] in L. intros e [<-|J]; [rewrite S; auto|]. destruct (IH (fst r1) r2 ltac:(assumption) ltac:(rewrite L; exact N) E2 e J) as [A B]. rewrite <- L. auto.
Qed.

Theorem run_total : (2 <= s_levelNum s <= 6)%Z -> s_useGrad s = false -> forall ts st, Forall valid_tracking ts -> exists r,
  add_frames solve trackable s cam ts st = Ok r /\ length (snd r) = length ts.
Proof.
  intros N G. induction ts as [|t ts IH]; intros st V; [exists (st, []); auto|]. inversion V as [|? ? V1 V2]; subst. cbn [add_frames]. unfold add_frame.
  destruct (system_total solve trackable s cam (t_base t) (t_points t) (t_depths t) (t_weights t) (t_frame t) (t_predicted t, lightKfToLast st) N V1 G) as (? & ? & ? & es & fin & _ & _ & -> & _). cbn [bind fst snd].
  destruct (IH {| kfs := match t_fate t with Kept => keep_last (snd fin) (kfs st) | Promoted => skipn (t_erased t) (kfs st ++ [KL (snd fin) []]) | Released => kfs st end; lightKfToLast := snd fin |} V2) as (r & -> & L).
  cbn [bind]. eexists. split; [reflexivity|]. cbn. rewrite L. reflexivity.
Qed.

(** ** Guesses and restored guesses *)
Theorem run_guess : forall ts st r, add_frames solve trackable s cam ts st = Ok r -> handed_on (lightKfToLast st) (snd r).
Proof.
  induction ts as [|t ts IH]; intros st r E; cbn [add_frames] in E; [injection E as <-; exact I|].
  destruct (add_frame solve trackable s cam t st) as [r1| | | |] eqn:E1; cbn in E; try discriminate.
  destruct (add_frames solve trackable s cam ts (fst r1)) as [r2| | | |] eqn:E2; cbn in E; try discriminate. injection E as <-. cbn [fst snd].
  destruct (step_inv _ _ _ E1) as (es & fin & T & S & L & F). cbn [handed_on]. rewrite S. cbn [fst snd]. split; [reflexivity|]. rewrite <- L. apply IH, E2.
Qed.


Theorem restore_kept t st r : (2 <= length (kfs st))%nat -> t_fate t = Kept -> add_frame solve trackable s cam t st = Ok r ->
  restored_light (kfs (fst r)) = Ok (lightKfToLast (fst r)).
Proof.
  intros N K E. destruct (step_inv _ _ _ E) as (es & fin & T & S & L & F). rewrite F, K, L. unfold keep_last.
  destruct (rev (kfs st)) as [|k b] eqn:R; [apply (f_equal (@length _)) in R; rewrite rev_length in R; cbn in R; lia|].
  destruct b as [|k' b]; [apply (f_equal (@length _)) in R; rewrite rev_length in R; cbn in R; lia|].
  unfold restored_light. rewrite rev_app_distr, rev_involutive. cbn [rev app tracked]. destruct (tracked k ++ [snd fin]) as [|x y] eqn:A; [destruct (tracked k); discriminate|]. rewrite <- A, rev_app_distr. reflexivity.
Qed.

Lemma skip_last {A} n (a : list A) x y : (n <= length a)%nat -> skipn n (a ++ [x; y]) = skipn n a ++ [x; y].
Proof. intros H. rewrite skipn_app. replace (n - length a)%nat with 0%nat by lia. reflexivity. Qed.

(** right after a keyframe the restored light is that of the frame before it, if there is one *)
Theorem restore_promoted t st r : t_fate t = Promoted -> (t_erased t < length (kfs st))%nat -> add_frame solve trackable s cam t st = Ok r ->
  restored_light (kfs (fst r)) = match rev (end_tracked (kfs st)) with [] => UB | l :: _ => Ok l end.
Proof.
  intros K N E. destruct (step_inv _ _ _ E) as (es & fin & T & S & L & F). rewrite F, K. unfold end_tracked.
  destruct (rev (kfs st)) as [|k b] eqn:R; [apply (f_equal (@length _)) in R; rewrite rev_length in R; cbn in R; lia|].
  assert (Q : kfs st = rev b ++ [k]) by (rewrite <- (rev_involutive (kfs st)), R; reflexivity). rewrite Q in N |- *. rewrite app_length in N. cbn in N.
  rewrite <- app_assoc. cbn [app]. rewrite skip_last by lia. unfold restored_light. rewrite rev_app_distr. cbn [rev app tracked]. reflexivity.
Qed.
End Run.

(** ** Cases *)
(** a solver that finds the light [l m] for the motion [m] wherever it is free and allowed *)
Definition finds (l : se3 -> light) (pr : level_problem) (e : estimate) : estimate :=
  let x := l (fst e) in
  if l_constLight pr then e else
  if Rle_dec (fst (l_boundsA pr)) (fst x) then if Rle_dec (fst x) (snd (l_boundsA pr)) then
  if Rle_dec (fst (l_boundsB pr)) (snd x) then if Rle_dec (snd x) (snd (l_boundsB pr)) then (fst e, x) else e else e else e else e.
Lemma finds_solver l : level_solver (finds l).
Proof.
  intros pr e. unfold finds. cbv zeta. destruct (l_constLight pr); [split; [reflexivity|left; reflexivity]|]. split; [intros; discriminate|].
  destruct (Rle_dec _ _); [|auto]. destruct (Rle_dec _ _); [|auto]. destruct (Rle_dec _ _); [|auto]. destruct (Rle_dec _ _); [|auto]. right. cbn. auto.
Qed.

Lemma found trackable s cam l base points ds ws frame coarse es fin : (2 <= s_levelNum s <= 6)%Z -> valid_base base points ds ws -> s_useGrad s = false ->
  s_optimizeLight s = true -> within s (l (fst coarse)) -> track_in_system (finds l) trackable s cam base points ds ws frame coarse = Ok (es, fin) -> snd fin = l (fst coarse).
Proof.
  intros N V G O [[A1 A2] [B1 B2]] E. destruct (system_total (finds l) trackable s cam base points ds ws frame coarse N V G) as (im & de & fi & es' & fin' & _ & _ & E' & LV & C & W).
  rewrite E in E'. injection E' as <- <-.
  assert (AF : forall e, In e es -> fst (e_before e) = fst coarse -> fst (e_after e) = fst coarse /\ snd (e_after e) = l (fst coarse)).
  { intros e I B. destruct (W e I) as (i & d & f & Q). cbn zeta in Q. destruct Q as (_ & _ & _ & Q1 & _ & _ & Q2 & Q3 & Q4 & _). rewrite Q1. unfold finds. cbv zeta. rewrite Q2, O, Q3, Q4, B. cbn [negb fst snd].
    destruct (Rle_dec _ _); [|lra]. destruct (Rle_dec _ _); [|lra]. destruct (Rle_dec _ _); [|lra]. destruct (Rle_dec _ _); [|lra]. auto. }
  assert (NE : es <> []). { intros ->. cbn in LV. apply (f_equal (@length _)) in LV. rewrite map_length, rev_length, seq_length in LV. cbn in LV. lia. }
  assert (ST : exists st, fst st = fst coarse /\ chained st es fin) by (exists coarse; auto). clear - ST AF NE. revert ST. set (m := fst coarse) in *. clearbody m.
  induction es as [|e es IH]; intros (st & M & C); [congruence|]. cbn in C. destruct C as [B C]. destruct (AF e ltac:(left; reflexivity) ltac:(congruence)) as [F1 F2].
  destruct es as [|e' es]; [cbn in C; subst fin; exact F2|]. apply IH; [intros x I; apply AF; right; exact I|discriminate|]. exists (e_after e). auto.
Qed.

Definition case_tracking (m : se3) (f : fate) : tracking :=
  {| t_base := ex_img; t_points := ex_points; t_depths := ex_ds; t_weights := ex_ws; t_frame := ex_img; t_predicted := m; t_fate := f; t_erased := 0 |}.
Definition case_light : light := ((1 / 2)%R, 1%R).
Lemma case_within : within (ex_set 2 false true) case_light /\ within (ex_set 2 false true) identity_light.
Proof. unfold within, ex_set, case_light, identity_light. cbn. split; lra. Qed.
Lemma case_valid m f : valid_tracking (case_tracking m f).
Proof. exact ex_valid. Qed.

Lemma step_found trackable cam l m f st r : within (ex_set 2 false true) (l m) -> add_frame (finds l) trackable (ex_set 2 false true) cam (case_tracking m f) st = Ok r ->
  snd (snd (snd r)) = l m /\ lightKfToLast (fst r) = l m.
Proof.
  intros W E. destruct (step_inv _ _ _ _ _ _ _ E) as (es & fin & T & S & L & _). rewrite S, L. cbn [snd].
  assert (F : snd fin = l m) by (eapply found in T; [exact T| |exact ex_valid| | |exact W]; try reflexivity; cbn; lia). auto.
Qed.

(** The frame after a keyframe, equal to the keyframe, is tracked from the light of the keyframe
    against the keyframe before it. *)
Theorem stale_guess trackable cam m : exists solve ts r, level_solver solve /\ Forall valid_tracking ts /\
  add_frames solve trackable (ex_set 2 false true) cam ts (initial 2) = Ok r /\
  exists t1 t2 e1 e2, ts = [t1; t2] /\ t_fate t1 = Promoted /\ t_base t2 = t_frame t1 /\ t_frame t2 = t_base t2 /\ t_predicted t2 = m /\
    snd r = [e1; e2] /\ snd (fst e1) = identity_light /\ snd (fst e2) <> identity_light.
Proof.
  set (solve := finds (fun _ => case_light)). set (ts := [case_tracking m Promoted; case_tracking m Kept]).
  assert (V : Forall valid_tracking ts) by (repeat constructor; apply ex_valid).
  destruct (run_total solve trackable (ex_set 2 false true) cam ltac:(cbn; lia) eq_refl ts (initial 2) V) as (r & E & L).
  exists solve, ts, r. split; [apply finds_solver|]. split; [exact V|]. split; [exact E|]. pose proof (run_guess _ _ _ _ _ _ _ E) as H.
  destruct (snd r) as [|e1 [|e2 [|]]] eqn:S; try discriminate L. exists (case_tracking m Promoted), (case_tracking m Kept), e1, e2. repeat (split; [reflexivity|]). cbn [handed_on] in H. destruct H as (H1 & H2 & _). split; [exact H1|]. rewrite H2.
  unfold ts in E. cbn [add_frames] in E. destruct (add_frame _ _ _ _ _ (initial 2)) as [r1| | | |] eqn:E1; cbn [bind] in E; try discriminate E.
  destruct (add_frame _ _ _ _ _ (fst r1)) as [r2| | | |]; cbn [bind] in E; try discriminate E. injection E as <-. cbn [snd] in S. injection S as <- <-.
  apply step_found in E1; [|apply case_within]. rewrite (proj1 E1). unfold case_light, identity_light. intros Q. injection Q. lra.
Qed.

(** Restored right after a keyframe, a system starts from another light than the one saved. *)
Theorem restore_differs trackable cam : exists solve ts r l, level_solver solve /\ Forall valid_tracking ts /\
  add_frames solve trackable (ex_set 2 false true) cam ts (initial 2) = Ok r /\ restored_light (kfs (fst r)) = Ok l /\ l <> lightKfToLast (fst r).
Proof.
  set (m x := SE qone (V3 x 0 0)). set (l := fun g : se3 => if Req_EM_T (vx (tr g)) 0 then case_light else identity_light).
  set (ts := [case_tracking (m 0%R) Kept; case_tracking (m 1%R) Promoted]).
  assert (V : Forall valid_tracking ts) by (repeat constructor; apply ex_valid).
  destruct (run_total (finds l) trackable (ex_set 2 false true) cam ltac:(cbn; lia) eq_refl ts (initial 2) V) as (r & E & _). pose proof E as E0.
  unfold ts in E. cbn [add_frames] in E. destruct (add_frame _ _ _ _ _ (initial 2)) as [r1| | | |] eqn:E1; cbn [bind] in E; try discriminate E.
  destruct (add_frame _ _ _ _ _ (fst r1)) as [r2| | | |] eqn:E2; cbn [bind] in E; try discriminate E. injection E as <-. cbn [fst snd] in *.
  assert (L0 : l (m 0%R) = case_light) by (unfold l, m; cbn; destruct (Req_EM_T 0 0); [reflexivity|congruence]).
  assert (L1 : l (m 1%R) = identity_light) by (unfold l, m; cbn; destruct (Req_EM_T 1 0); [lra|reflexivity]).
  assert (F : kfs (fst r1) = [KL identity_light []; KL identity_light [case_light]]).
  { destruct (step_inv _ _ _ _ _ _ _ E1) as (es & fin & T & _ & L & F). apply step_found in E1; [|rewrite L0; apply case_within]. rewrite L, L0 in E1. rewrite F, (proj2 E1). reflexivity. }
  exists (finds l), ts, (fst r2, [snd r1; snd r2]), case_light. split; [apply finds_solver|]. split; [exact V|]. split; [exact E0|]. cbn [fst]. split.
  - rewrite (restore_promoted _ _ _ _ (case_tracking (m 1%R) Promoted) (fst r1) r2 eq_refl ltac:(rewrite F; cbn; lia) E2), F. reflexivity.
  - apply step_found in E2; [|rewrite L1; apply case_within]. rewrite (proj2 E2), L1. unfold case_light, identity_light. intros Q. injection Q. lra.
Qed.

(** ** From the initial state *)
Lemma initial_lights n l : In l (all_lights (initial n)) -> l = identity_light.
Proof. intros [<-|I]; [reflexivity|]. apply in_flat_map in I. destruct I as (k & K & I). apply repeat_spec in K. subst k. destruct I as [<-|[]]. reflexivity. Qed.
Theorem initial_bounds solve trackable s cam : level_solver solve -> s_useGrad s = false -> within s identity_light ->
  forall n ts r, Forall valid_tracking ts -> add_frames solve trackable s cam ts (initial n) = Ok r ->
  (forall l, In l (all_lights (fst r)) -> within s l) /\ forall e, In e (snd r) -> within s (snd (fst e)) /\ within s (snd (snd e)).
Proof. intros SV G W n ts r V E. eapply run_bounds; try eassumption. intros x I. rewrite (initial_lights _ _ I). exact W. Qed.
Theorem initial_constant solve trackable s cam : level_solver solve -> s_useGrad s = false -> s_optimizeLight s = false ->
  forall n ts r, Forall valid_tracking ts -> add_frames solve trackable s cam ts (initial n) = Ok r ->
  (forall l, In l (all_lights (fst r)) -> l = identity_light) /\ forall e, In e (snd r) -> snd (fst e) = identity_light /\ snd (snd e) = identity_light.
Proof. intros SV G O n ts r V E. eapply run_constant; try eassumption. intros x I. exact (initial_lights _ _ I). Qed.
Theorem initial_blocked solve trackable s cam : refuses solve -> s_useGrad s = false -> ~ within s identity_light ->
  forall n ts r, Forall valid_tracking ts -> add_frames solve trackable s cam ts (initial n) = Ok r ->
  forall e, In e (snd r) -> snd e = fst e /\ snd (snd e) = identity_light.
Proof. intros SV G W n ts r V E e I. exact (run_blocked _ _ _ _ SV G ts (initial n) r V W E e I). Qed.
