(** Proofs about CloudWriterGT and about the order of the lines. *)
From Coq Require Import Ascii String ZArith Bool Lia List Reals Lra Permutation Sorting.Sorted.
From Verif Require Import Outcome Dbl Pose PoseProofs MotionModel MotionSpec MotionProofs
  DsoModel DsoSpec DsoHistory DsoProofs DsoFinal DsoRestore PlyModel PlySpec PlyProofs
  OutputModel OutputSpec OutputProofs GtModel GtSpec GtProofs.
Import ListNotations.
Open Scope Z_scope.

Section Cloud.
Variables IP OP : Type.
Variable fmt : Z -> dbl -> bytes.
Variable dbl_of : vec -> point.
Notation kf := (kf se3 IP OP).
Notation event := (event se3 IP OP).
Notation outs := (@out_frames se3 IP OP smul sinv).

Section Fixed.
Variables (al : aligner) (sc : R) (points : list (list vec)) (colors : list (list color)).
Hypothesis S : scaleGTToDso al = Some sc.

Definition put_frame (f : Z * se3) : ply_op :=
  PutPoints (map dbl_of (map (cloud_point sc (snd f)) (nth (Z.to_nat (fst f)) points [])))
            (nth (Z.to_nat (fst f)) colors []).

Definition ready_cg (w : cg) : Prop := cg_aligner w = Some al /\ cg_points w = points /\ cg_colors w = colors.
Definition in_range (n : Z) : Prop := 0 <= n < Z.of_nat (List.length points) /\ 0 <= n < Z.of_nat (List.length colors).

Lemma cg_set_set w h h' : cg_set_holder (cg_set_holder w h) h' = cg_set_holder w h'.
Proof. reflexivity. Qed.
Lemma cg_set_same w : cg_set_holder w (cg_holder w) = w.
Proof. destruct w. reflexivity. Qed.

Lemma cg_frame_put w f : ready_cg w -> in_range (fst f) ->
  cg_frame fmt dbl_of al w f = bind (ply_step fmt (cg_holder w) (put_frame f)) (fun h => Ok (cg_set_holder w h)).
Proof.
  intros (A & B & C) (H1 & H2). unfold cg_frame. rewrite B, C.
  rewrite (at_frame_ok points _ [] H1), (at_frame_ok colors _ [] H2). cbn [bind].
  rewrite (omap_ok _ (cloud_point sc (snd f))); [reflexivity|].
  intros p _. unfold align_scale. rewrite S. reflexivity.
Qed.

Lemma cg_frames_put fs : forall w, ready_cg w -> (forall f, In f fs -> in_range (fst f)) ->
  ofold (cg_frame fmt dbl_of al) fs w = bind (ply_run fmt (map put_frame fs) (cg_holder w)) (fun h => Ok (cg_set_holder w h)).
Proof.
  induction fs as [|f fs IH]; intros w Hw Hf.
  - cbn. rewrite cg_set_same. reflexivity.
  - unfold ply_run. cbn [ofold map]. rewrite cg_frame_put by (auto; apply Hf; left; reflexivity).
    destruct (ply_step fmt (cg_holder w) (put_frame f)) as [h| | | |]; try reflexivity. cbn [bind].
    rewrite IH; [|exact Hw|intros; apply Hf; right; assumption]. reflexivity.
Qed.

Lemma cg_kfs_frames (l : list kf) : forall w, ofold (cg_kf fmt dbl_of al) l w = ofold (cg_frame fmt dbl_of al) (outs l) w.
Proof.
  induction l as [|k l IH]; intros w; [reflexivity|]. cbn [ofold]. unfold out_frames. cbn [flat_map].
  rewrite ofold_app. unfold cg_kf at 1. cbn [ofold]. destruct (cg_frame fmt dbl_of al w (kf_num k, kf_pose k)) as [w1| | | |]; try reflexivity.
  cbn [bind]. rewrite ofold_map. destruct (ofold _ (kf_tracked k) w1); try reflexivity. cbn [bind]. apply IH.
Qed.

Definition event_ops (e : event) : list ply_op :=
  match e with
  | EvMarg l | EvDestructed l => map put_frame (outs l) ++ [UpdateCount]
  | _ => []
  end.

Lemma cg_marg_ops w (l : list kf) : ready_cg w -> (forall f, In f (outs l) -> in_range (fst f)) ->
  cg_marg fmt dbl_of w l = bind (ply_run fmt (map put_frame (outs l) ++ [UpdateCount]) (cg_holder w)) (fun h => Ok (cg_set_holder w h)).
Proof.
  intros Hw Hf. unfold cg_marg. destruct Hw as (A & B & C). rewrite A, cg_kfs_frames, cg_frames_put by (auto; split; auto).
  unfold ply_run. rewrite ofold_app. destruct (ofold (ply_step fmt) _ (cg_holder w)) as [h| | | |]; try reflexivity.
  cbn [bind ofold ply_step cg_holder cg_set_holder]. destruct (update_count h); reflexivity.
Qed.

Lemma cg_log_ops (log : list event) : Forall (plain IP OP) log -> forall w, ready_cg w ->
  (forall f, In f (outs (reported log)) -> in_range (fst f)) ->
  ofold (cg_event fmt dbl_of) log w = bind (ply_run fmt (flat_map event_ops log) (cg_holder w)) (fun h => Ok (cg_set_holder w h)).
Proof.
  induction 1 as [|e log He F IH]; intros w Hw Hf.
  - cbn. rewrite cg_set_same. reflexivity.
  - assert (G : forall l, reported (e :: log) = l ++ reported log -> event_ops e = map put_frame (outs l) ++ [UpdateCount] ->
        bind (cg_marg fmt dbl_of w l) (ofold (cg_event fmt dbl_of) log) =
        bind (ply_run fmt (flat_map event_ops (e :: log)) (cg_holder w)) (fun h => Ok (cg_set_holder w h))).
    { intros l El Eo. rewrite El in Hf. cbn [flat_map]. rewrite Eo. unfold ply_run at 1. rewrite ofold_app.
      rewrite cg_marg_ops by (auto; intros f Hin; apply Hf; rewrite outs_app; apply in_app_iff; auto).
      unfold ply_run at 1. destruct (ofold (ply_step fmt) (map put_frame (outs l) ++ [UpdateCount]) (cg_holder w)) as [h| | | |]; try reflexivity.
      cbn [bind]. rewrite IH; [reflexivity|exact Hw|]. intros f Hin. apply Hf. rewrite outs_app. apply in_app_iff. auto. }
    cbn [ofold]. destruct e; try destruct He; cbn [cg_event];
      try (cbn [bind]; rewrite IH by assumption; reflexivity).
    + apply G; reflexivity.
    + apply G; reflexivity.
Qed.

Lemma given_ops (log : list event) : given (flat_map event_ops log) = flat_map put_of (map put_frame (outs (reported log))).
Proof.
  induction log as [|e log IH]; [reflexivity|]. unfold given in *. cbn [flat_map]. rewrite flat_map_app, IH.
  destruct e; try reflexivity.
  all: unfold reported; cbn [flat_map event_ops]; rewrite outs_app, map_app, !flat_map_app; cbn [flat_map put_of app]; rewrite ?app_nil_r; reflexivity.
Qed.
End Fixed.
End Cloud.

Section Run.
Variables IP OP : Type.
Variable promote : IP -> OP.
Variable ready : IP -> bool.
Variable s : dso_settings.
Variables obsA obsB : list nat.
Notation kf := (kf se3 IP OP).
Notation state := (state se3 IP OP).
Notation run := (run sid smul sinv promote ready s).
Notation st0 := (init s obsA obsB : state).
Notation outs := (@out_frames se3 IP OP smul sinv).

Lemma gt_cloud_put dbl_of sc points colors fs :
  flat_map put_of (map (put_frame dbl_of sc points colors) fs) = gt_cloud dbl_of sc points colors fs.
Proof.
  unfold gt_cloud. induction fs as [|f fs IH]; [reflexivity|]. cbn [map flat_map]. rewrite IH. f_equal.
  unfold put_frame, put_of. rewrite map_map. reflexivity.
Qed.

Theorem gt_cloud_run fmt dbl_of cs st k0 k1 gt points colors g0 g1 : fmt_ok fmt ->
  run cs st0 = Ok st -> In (EvInitialized [k0; k1]) (st_log st) ->
  Forall rigid gt -> rigid (kf_pose k1) ->
  gt_covers points (numbers cs) -> gt_covers colors (numbers cs) ->
  gt_at gt (kf_num k0) g0 -> gt_at gt (kf_num k1) g1 ->
  apart g0 g1 -> apart (sinv (kf_pose k0)) (sinv (kf_pose k1)) ->
  exists sc, (0 < sc)%R /\ baseline sc (sinv (kf_pose k0)) (sinv (kf_pose k1)) g0 g1 /\
  let content := gt_cloud dbl_of sc points colors (outs (reported (destroy st))) in
  (Z.of_nat (List.length content) <= INT_MAX -> Forall (fun pc => color_ok (snd pc)) content ->
   exists w vs, cg_run fmt dbl_of gt points colors (destroy st) = Ok w /\
     parse_ply (h_file (cg_holder w)) = Some (Z.of_nat (List.length vs), vs) /\
     Forall2 (vertex_words fmt 6) content vs).
Proof.
  intros FOK Hrun Hin RG RK Cp Cc G0 G1 AG AE.
  destruct (started_event _ _ _ _ _ (run_started _ _ _ _ _ _ _ _ _ Hrun) Hin) as (rest & L & F & PK).
  pose proof (the_facts _ _ gt k0 k1 g0 g1 RG RK PK G0 G1 AG AE) as (sc & S & Hsc & RA & A0 & Bs).
  set (al := the_aligner _ _ k0 k1 g0 g1) in *. exists sc. split; [exact Hsc|]. split; [exact Bs|].
  intros content Hm Hc.
  destruct (log_cases _ _ _ _ _ _ _ L F (or_intror eq_refl)) as (rest' & EL & F' & ER & _).
  assert (Er : rest' = rest ++ [EvDestructed (st_kfs st)]).
  { unfold destroy in EL. rewrite L in EL. cbn [app] in EL. injection EL as EL. symmetry. exact EL. }
  set (ops := flat_map (event_ops IP OP dbl_of sc points colors) rest ++ map (put_frame dbl_of sc points colors) (outs (st_kfs st))).
  assert (Eo : flat_map (event_ops IP OP dbl_of sc points colors) rest' = ops ++ [UpdateCount]).
  { rewrite Er, flat_map_app. unfold ops. cbn [flat_map event_ops]. rewrite app_nil_r, app_assoc. reflexivity. }
  assert (Eg : given ops = content).
  { unfold content. rewrite ER, <- gt_cloud_put, <- given_ops, Eo. unfold given. rewrite flat_map_app. cbn [flat_map put_of].
    rewrite !app_nil_r. reflexivity. }
  destruct (ply_well_formed fmt FOK ops) as (h & vs & R1 & R2 & R3); [rewrite Eg; exact Hm|rewrite Eg; exact Hc|].
  rewrite Eg in R3.
  assert (Run : cg_run fmt dbl_of gt points colors (destroy st) =
    Ok {| cg_gt := map (align_pose al) gt; cg_points := points; cg_colors := colors; cg_aligner := Some al; cg_holder := h |}).
  { unfold cg_run. rewrite EL. cbn [ofold cg_event cg_new cg_gt].
    rewrite (gt_init_ok _ _ gt k0 k1 g0 g1 RG RK PK G0 G1 AG AE). fold al. cbn [bind fst snd cg_points cg_colors cg_holder].
    rewrite (cg_log_ops IP OP fmt dbl_of al sc points colors S rest' F').
    - cbn [cg_holder cg_new]. rewrite Eo, R1. reflexivity.
    - repeat split.
    - intros f Hf. apply (in_map fst) in Hf. rewrite (outs_fst se3 smul sinv), <- ER in Hf.
      destruct (frames_numbers _ _ _ _ _ _ _ _ _ Hrun _ Hf) as [Hn Hp]. specialize (Cp _ Hn). specialize (Cc _ Hn).
      split; lia. }
  rewrite Run. eexists _, vs. split; [reflexivity|]. split; [exact R2|exact R3].
Qed.

(** Where an estimated pose agrees with the aligned ground truth, the frame's points are the images
    of the ground-truth world points. *)
Lemma exact_estimate sc W g pose x : rigid pose -> sees_scaled sc W g (sinv pose) ->
  cloud_point sc pose (act g x) = W x.
Proof.
  intros R H. unfold cloud_point. rewrite <- (H x), <- act_mul, (sinv_r _ R). apply act_id.
Qed.

(** ** Order of the lines *)
Lemma sorted_perm_eq (l1 l2 : list Z) : StronglySorted Z.lt l1 -> StronglySorted Z.lt l2 -> Permutation l1 l2 -> l1 = l2.
Proof.
  revert l2. induction l1 as [|a l1 IH]; intros l2 S1 S2 H.
  - apply Permutation_nil in H. auto.
  - destruct l2 as [|b l2]; [apply Permutation_sym, Permutation_nil in H; discriminate|].
    inversion S1 as [|? ? S3 F1]; subst. inversion S2 as [|? ? S4 F2]; subst. rewrite Forall_forall in F1, F2.
    assert (a = b).
    { assert (Ia : In a (b :: l2)) by (eapply Permutation_in; [exact H|left; reflexivity]).
      assert (Ib : In b (a :: l1)) by (eapply Permutation_in; [apply Permutation_sym, H|left; reflexivity]).
      destruct Ia as [|Ia]; [auto|]. destruct Ib as [|Ib]; [auto|]. specialize (F1 _ Ib). specialize (F2 _ Ia). lia. }
    subst b. f_equal. apply IH; auto. eapply Permutation_cons_inv; eauto.
Qed.

Lemma last_sorted cs st : trackFromLastKf s = true -> run cs st0 = Ok st ->
  StronglySorted Z.lt (frames_of (reported (destroy st))).
Proof.
  intros Hl Hrun. destruct (inv_facts _ _ _ _ _ _ _ _ _ _ _ _ _ Hrun) as (_ & F & _). rewrite reported_destroy. auto.
Qed.

Theorem same_lines v cs st : trackFromLastKf s = true -> run cs st0 = Ok st -> (forall n, In n (numbers cs) -> n < v) ->
  forall gt w, tg_run gt (destroy st) = Ok w ->
  exists t, tw_run smul sinv (Ok v) (destroy st) = Ok t /\ map fst (tw_written t) = map fst (tg_poses w).
Proof.
  intros Hl Hrun Hv gt w Hw. pose proof (tg_run_frames _ _ _ _ _ _ _ _ _ _ _ Hrun Hw) as Ew.
  destruct (complete_at_shutdown se3 sid smul sinv IP OP promote ready s obsA obsB v cs st) as (t & T1 & T2 & T3); auto.
  { intros _ E. congruence. }
  exists t. split; [exact T1|]. rewrite Ew. apply sorted_perm_eq; [exact T3|apply last_sorted with cs; auto|].
  rewrite <- (outs_fst se3 smul sinv). apply Permutation_map. exact T2.
Qed.

Theorem crossed_lines v cs st a b c : trackFromLastKf s = false -> continueChoosing s = true -> maxKeyFrames s <> 2 ->
  skip_count (firstFramesSkip s) = O -> numbers cs = [a; b; c] -> due (shiftBetweenKeyFrames s) b c = false ->
  run cs st0 = Ok st -> c < v ->
  forall gt w, tg_run gt (destroy st) = Ok w ->
  map fst (tg_poses w) = [a; c; b] /\
  exists t, tw_run smul sinv (Ok v) (destroy st) = Ok t /\ map fst (tw_written t) = [a; b; c].
Proof.
  intros Hl Hc Hm Hs Hn Hd Hrun Hv gt w Hw. pose proof (tg_run_frames _ _ _ _ _ _ _ _ _ _ _ Hrun Hw) as Ew.
  destruct (accepted_sorted _ _ _ _ _ _ _ _ _ _ _ _ _ Hrun) as [So _]. rewrite Hn in So.
  inversion So as [|? ? S1 F1]; subst. inversion S1 as [|? ? S2 F2]; subst.
  inversion F1 as [|? ? A1 F3]; subst. inversion F3 as [|? ? A2 _]; subst. inversion F2 as [|? ? A3 _]; subst.
  assert (Ef : frames_of (reported (destroy st)) = [a; c; b]).
  { rewrite frames_hall, (all_reported _ _ _ _ _ _ _ _ _ _ _ _ _ Hrun), Hn. unfold history. rewrite Hs. cbn [skipn fold_left history_step].
    rewrite Hd, Hl. reflexivity. }
  split; [rewrite Ew; exact Ef|].
  destruct (complete_at_shutdown se3 sid smul sinv IP OP promote ready s obsA obsB v cs st) as (t & T1 & T2 & T3); auto.
  { intros _ _. exact Hm. }
  { rewrite Hn. intros n [<-|[<-|[<-|[]]]]; lia. }
  exists t. split; [exact T1|]. apply sorted_perm_eq; [exact T3|repeat constructor; lia|].
  rewrite (Permutation_map fst T2), (outs_fst se3 smul sinv), Ef. apply perm_skip, perm_swap.
Qed.
End Run.
