(** Proofs about the ground-truth writers. *)
From Coq Require Import Ascii String ZArith Bool Lia List Reals Lra Permutation Sorting.Sorted.
From Verif Require Import Outcome Dbl Pose PoseProofs MotionModel MotionSpec MotionProofs
  DsoModel DsoSpec DsoHistory DsoProofs DsoFinal DsoRestore PlyModel PlySpec PlyProofs
  OutputModel OutputSpec OutputProofs GtModel GtSpec.
Import ListNotations.
Open Scope Z_scope.

(** ** The alignment *)
Lemma omap_ok {A B} (f : A -> outcome B) (g : A -> B) l : (forall a, In a l -> f a = Ok (g a)) ->
  omap f l = Ok (map g l).
Proof.
  induction l as [|a l IH]; intros H; [reflexivity|]. cbn [omap map]. rewrite (H a) by (left; reflexivity).
  cbn [bind]. rewrite IH by (intros; apply H; right; assumption). reflexivity.
Qed.

Lemma at_frame_ok {A} (l : list A) n d : 0 <= n < Z.of_nat (List.length l) -> at_frame l n = Ok (nth (Z.to_nat n) l d).
Proof.
  intros H. unfold at_frame. destruct (Z.ltb_spec n 0); [lia|].
  rewrite (nth_error_nth' l d) by lia. reflexivity.
Qed.
Lemma at_frame_short {A} (l : list A) n : Z.of_nat (List.length l) <= n -> at_frame l n = UB.
Proof.
  intros H. unfold at_frame. destruct (Z.ltb_spec n 0); [reflexivity|].
  replace (nth_error l (Z.to_nat n)) with (@None A); [reflexivity|]. symmetry. apply nth_error_None. lia.
Qed.

Lemma gt_at_nth {A} (l : list A) n x d : gt_at l n x -> nth (Z.to_nat n) l d = x /\ 0 <= n < Z.of_nat (List.length l).
Proof.
  intros [H H0]. split; [apply nth_error_nth; exact H0|]. split; [exact H|].
  assert (Z.to_nat n < List.length l)%nat; [|lia]. apply nth_error_Some. congruence.
Qed.
Lemma nth_gt_at {A} (l : list A) n d : 0 <= n < Z.of_nat (List.length l) -> gt_at l n (nth (Z.to_nat n) l d).
Proof. intros H. split; [lia|]. apply nth_error_nth'. lia. Qed.

Open Scope R_scope.
Lemma apart_norm g h : rigid g -> rigid h -> apart g h -> 1 / 1000 <= vnorm (tr (smul h (sinv g))).
Proof.
  intros G H A. destruct (center_exists g G) as (cg & Cg & _). destruct (center_exists h H) as (ch & Ch & _).
  rewrite <- (center_rel g h cg ch) by assumption. apply A; assumption.
Qed.
Lemma close_norm g h : rigid g -> rigid h -> close g h -> vnorm (tr (smul h (sinv g))) < 1 / 1000.
Proof.
  intros G H A. destruct (center_exists g G) as (cg & Cg & _). destruct (center_exists h H) as (ch & Ch & _).
  rewrite <- (center_rel g h cg ch) by assumption. apply A; assumption.
Qed.

Lemma act_sub g p q : vsub (act g p) (act g q) = rot (so3 g) (vsub p q).
Proof. unfold act. generalize (so3 g) (tr g). intros a t. vring. Qed.

Definition world_map (al : aligner) (s : R) (p : vec) : vec := act (sinv (gtToDso al)) (vscale s p).

Lemma world_similar al s : 0 < s -> rigid (gtToDso al) -> similarity s (world_map al s).
Proof.
  intros Hs G. split; [exact Hs|]. intros p q. unfold distance, world_map. rewrite act_sub.
  rewrite rot_norm by (apply (rigid_inv _ G)).
  replace (vsub (vscale s p) (vscale s q)) with (vscale s (vsub p q)) by vring.
  rewrite vnorm_scale, Rabs_right by lra. reflexivity.
Qed.

Lemma act_scale_tr s g p : act (scale_tr s g) (vscale s p) = vscale s (act g p).
Proof. unfold act, scale_tr. cbn [so3 tr]. generalize (so3 g) (tr g). intros q t. vring. Qed.

Lemma world_sees al s g g' : scaleGTToDso al = Some s -> rigid (gtToDso al) ->
  align_world_to_frame al g = Ok g' -> sees_scaled s (world_map al s) g g'.
Proof.
  intros S G H p. unfold align_world_to_frame in H. rewrite S in H. injection H as <-.
  unfold world_map. rewrite act_mul, <- (act_mul (gtToDso al)), (sinv_r _ G), act_id. apply act_scale_tr.
Qed.

Definition align_pose (al : aligner) (g : se3) : se3 :=
  match align_world_to_frame al g with Ok g' => g' | _ => g end.
Lemma align_pose_ok al s g : scaleGTToDso al = Some s -> align_world_to_frame al g = Ok (align_pose al g).
Proof. intros H. unfold align_pose, align_world_to_frame. rewrite H. reflexivity. Qed.

Lemma aligner_facts e0 e1 g0 g1 : rigid e0 -> rigid e1 -> rigid g0 -> rigid g1 -> apart e0 e1 -> apart g0 g1 ->
  let al := aligner_new e0 e1 g0 g1 in
  exists s, scaleGTToDso al = Some s /\ 0 < s /\ rigid (gtToDso al) /\ align_pose al g0 = e0 /\ baseline s e0 e1 g0 g1.
Proof.
  intros E0 E1 G0 G1 AE AG al.
  pose proof (apart_norm _ _ E0 E1 AE) as NE. pose proof (apart_norm _ _ G0 G1 AG) as NG.
  destruct (aligner_ok e0 e1 g0 g1 E0 E1 G0 G1 NG NE) as (s & Hs & S & R & Es & A).
  exists s. split; [exact S|]. split; [exact Hs|]. split; [exact R|]. split.
  - unfold align_pose, al. rewrite A. reflexivity.
  - intros a0 a1 b0 b1 A0 A1 B0 B1. rewrite (center_rel e0 e1 a0 a1), (center_rel g0 g1 b0 b1) by assumption.
    rewrite Es. field. lra.
Qed.
Close Scope R_scope.

(** ** Logs *)
Section Log.
Variables IP OP : Type.
Variable promote : IP -> OP.
Variable ready : IP -> bool.
Variable s : dso_settings.
Notation kf := (kf se3 IP OP).
Notation state := (state se3 IP OP).
Notation call := (call se3 IP OP).
Notation event := (event se3 IP OP).
Notation run := (run sid smul sinv promote ready s).
Notation do_call := (do_call sid smul sinv promote ready s).

Definition plain (e : event) : Prop := match e with EvInitialized _ => False | _ => True end.

Lemma track_log (st st' : state) fi r : track_frame smul sinv promote ready s st fi = Ok (st', r) ->
  exists tail, st_log st' = st_log st ++ tail /\ Forall plain tail.
Proof.
  intros H.
  destruct (track_spec _ _ _ _ _ _ _ _ _ _ _ _ H) as (b & l & obs & pose & n1 & n2 & n3 & rest & need & st1 & Hb & Hl & Ht & Hp & Hrev & Hsz & -> & Hneed & I1 & I2 & I3 & I4 & I5 & I6 & I7 & I8 & I9 & I10 & Hc).
  destruct Hc as [[Hc ->]|[Hc Hpr]].
  - eexists. split; [exact I10|]. repeat constructor.
  - destruct (promote_spec _ _ _ _ _ _ _ _ _ _ _ _ _ Hpr) as (imm & gone & kept & kfs & bk & P1 & P2 & P3 & P4 & Q1 & Q2 & Q3 & Q4 & Q5 & Q6 & Q7 & Q8 & Q9).
    rewrite I10, <- app_assoc in Q8. eexists. split; [exact Q8|]. apply Forall_app. split; [repeat constructor|].
    apply Forall_app. split; [|repeat constructor]. destruct gone; repeat constructor.
Qed.

(** An initialised system reports no further initialisation. *)
Lemma call_log (st st' : state) c : st_inited st = true -> do_call st c = Ok st' ->
  st_inited st' = true /\ exists tail, st_log st' = st_log st ++ tail /\ Forall plain tail.
Proof.
  intros Hi H. destruct c as [fi|o].
  - cbn [DsoModel.do_call] in H. apply bind_ok_inv in H as ((x & r) & E & H). injection H as <-. cbn [fst].
    unfold add_frame in E. apply bind_ok_inv in E as (st1 & Hb & E). rewrite Hi in E.
    destruct (begin_spec _ _ _ _ _ _ _ Hb) as (Hn & Hl & B1 & B2 & B3 & B4 & B5 & B6 & B7 & B8 & B9).
    destruct (track_log _ _ _ _ E) as (tail & T1 & T2). rewrite B8 in T1. split; [|eauto].
    destruct (track_fields _ _ _ _ _ _ _ _ _ _ _ _ E) as (F & _). rewrite F.
    destruct B9 as [(_ & -> & _)|[(C & _)|(f & C & _)]]; [reflexivity|congruence|congruence].
  - injection H as <-. split; [exact Hi|]. exists []. cbn. rewrite app_nil_r. auto.
Qed.

Lemma run_log cs : forall st st' : state, st_inited st = true -> run cs st = Ok st' ->
  exists tail, st_log st' = st_log st ++ tail /\ Forall plain tail.
Proof.
  induction cs as [|c cs IH]; intros st st' Hi H.
  - injection H as <-. exists []. rewrite app_nil_r. auto.
  - unfold DsoModel.run in H. cbn [ofold] in H. apply bind_ok_inv in H as (st1 & E & H).
    destruct (call_log _ _ _ Hi E) as (Hi1 & t1 & L1 & F1). destruct (IH _ _ Hi1 H) as (t2 & L2 & F2).
    exists (t1 ++ t2). rewrite L2, L1, <- app_assoc. split; [reflexivity|]. apply Forall_app. auto.
Qed.

Variables obsA obsB : list nat.
Notation st0 := (init s obsA obsB : state).
Notation inv := (inv se3 IP OP s obsA obsB).

Definition started (st : state) : Prop :=
  (st_inited st = false /\ st_log st = [] /\ st_kfs st = []) \/
  (st_inited st = true /\ exists k0 k1 rest, st_log st = EvInitialized [k0; k1] :: rest /\ Forall plain rest /\
     kf_pose k0 = sid).

Lemma run_started cs st : run cs st0 = Ok st -> started st.
Proof.
  revert cs st. apply (run_ind2 se3 sid smul sinv IP OP promote ready s obsA obsB (fun cs st => started st)).
  - left. auto.
  - intros cs st c st' _ Hinv [(Hi & Hl & Hk)|(Hi & k0 & k1 & rest & Hl & Hr & Hp)] H _.
    + destruct c as [fi|o].
      * cbn [DsoModel.do_call] in H. apply bind_ok_inv in H as ((x & r) & E & H). injection H as <-. cbn [fst].
        destruct (add_frame_cases _ _ _ _ _ _ _ _ _ _ _ _ _ _ _ _ Hinv E) as (st1 & Hb & Hlt & Hcase).
        destruct (begin_spec _ _ _ _ _ _ _ Hb) as (Hn & Hlast & B1 & B2 & B3 & B4 & B5 & B6 & B7 & B8 & B9).
        destruct Hcase as [(Pw & L & -> & ->)|[(Pw & L & Hi1 & Hf)|(Pr & Ht)]].
        -- unfold started. rewrite B8, B4. destruct (st_inited st1) eqn:Ei; [|left; auto]. exfalso.
           destruct Pw as (W1 & W2 & W3 & W4 & W5 & W6 & W7 & W8).
           destruct B9 as [(C1 & _)|[(C1 & C2 & C3 & _)|(f & C1 & C2 & C3 & [(D1 & D2 & D3)|(D1 & D2 & D3)])]]; try congruence.
           rewrite W7 in C2. destruct (numbers cs) as [|z zs]; [discriminate|]. unfold skip_count in L. cbn [List.length] in *. lia.
        -- destruct Pw as (W1 & W2 & W3 & W4 & W5 & W6 & W7 & W8).
           destruct B9 as [(C1 & _)|[(C1 & C2 & C3 & C4 & C5)|(f & C1 & C2 & C3 & C4)]]; try congruence.
           assert (Hff : f < fi_num fi).
           { rewrite W7 in C2. destruct (numbers cs); [discriminate|]. injection C2 as ->. inversion Hlt; auto. }
           destruct (finish_spec _ _ _ _ _ _ _ _ _ _ _ (eq_trans B4 W3) C3 Hff Hf) as (m & imm0 & imm1 & F1 & F2 & F3 & F4 & F5 & F6 & F7 & F8 & F9 & F10 & F11 & _).
           right. rewrite F11, Hi1. split; [reflexivity|]. rewrite B8, Hl, F5 in F6. cbn [app] in F6.
           eexists _, _, _. split; [exact F6|]. split; [repeat constructor|reflexivity].
        -- destruct Pr as (R1 & _). congruence.
      * injection H as <-. left. auto.
    + destruct (call_log _ _ _ Hi H) as (Hi' & tail & L & F). right. split; [exact Hi'|].
      exists k0, k1, (rest ++ tail). rewrite L, Hl. split; [reflexivity|]. split; [apply Forall_app; auto|exact Hp].
Qed.

Lemma started_event st k0 k1 : started st -> In (EvInitialized [k0; k1]) (st_log st) ->
  exists rest, st_log st = EvInitialized [k0; k1] :: rest /\ Forall plain rest /\ kf_pose k0 = sid.
Proof.
  intros [(_ & L & _)|(_ & a & b & rest & L & F & E)] H; rewrite L in H.
  - destruct H.
  - destruct H as [H|H].
    + injection H as <- <-. eauto.
    + rewrite Forall_forall in F. destruct (F _ H).
Qed.

(** Frame numbers. *)
Lemma frames_numbers cs st : run cs st0 = Ok st ->
  forall n, In n (frames_of (reported (destroy st))) -> In n (numbers cs) /\ 0 < n.
Proof.
  intros H n Hn. destruct (accepted_sorted _ _ _ _ _ _ _ _ _ _ _ _ _ H) as [So Po].
  rewrite frames_hall, (all_reported _ _ _ _ _ _ _ _ _ _ _ _ _ H) in Hn.
  destruct (history_hall (firstFramesSkip s) (shiftBetweenKeyFrames s) (trackFromLastKf s) (continueChoosing s) _ So) as [_ G].
  assert (I : In n (numbers cs)). { apply G. eapply Permutation_in; [apply hall_rev|exact Hn]. }
  split; [exact I|]. rewrite Forall_forall in Po. apply Po in I. lia.
Qed.

Lemma init_numbers cs st k0 k1 : run cs st0 = Ok st -> In (EvInitialized [k0; k1]) (st_log st) ->
  In (kf_num k0) (numbers cs) /\ In (kf_num k1) (numbers cs) /\ 0 < kf_num k0 /\ 0 < kf_num k1 /\ kf_num k0 <> kf_num k1.
Proof.
  intros H.
  assert (G : Forall (fun n => 0 < n) (numbers cs) /\ (In (EvInitialized [k0; k1]) (st_log st) ->
     In (kf_num k0) (numbers cs) /\ In (kf_num k1) (numbers cs) /\ kf_num k0 <> kf_num k1)).
  { split.
    - destruct (accepted_sorted _ _ _ _ _ _ _ _ _ _ _ _ _ H) as [_ Po]. eapply Forall_impl; [|exact Po]. cbn. intros; lia.
    - clear - H. revert cs st H. apply (run_ind2 se3 sid smul sinv IP OP promote ready s obsA obsB (fun cs st => In (EvInitialized [k0; k1]) (st_log st) ->
        In (kf_num k0) (numbers cs) /\ In (kf_num k1) (numbers cs) /\ kf_num k0 <> kf_num k1)).
      + intros [].
      + intros cs st c st' Hrun Hinv IH H _ Hin.
        assert (IH' : In (EvInitialized [k0; k1]) (st_log st) -> In (kf_num k0) (numbers (cs ++ [c])) /\ In (kf_num k1) (numbers (cs ++ [c])) /\ kf_num k0 <> kf_num k1).
        { intros I. destruct (IH I) as (A & B & C). rewrite numbers_app, !in_app_iff. auto. }
        destruct (run_started _ _ Hrun) as [(Hi & Hl & Hk)|(Hi & _)].
        * destruct c as [fi|o].
          -- cbn [DsoModel.do_call] in H. apply bind_ok_inv in H as ((x & r) & E & H). injection H as <-. cbn [fst] in Hin.
             destruct (add_frame_cases _ _ _ _ _ _ _ _ _ _ _ _ _ _ _ _ Hinv E) as (st1 & Hb & Hlt & Hcase).
             destruct (begin_spec _ _ _ _ _ _ _ Hb) as (Hn & Hlast & B1 & B2 & B3 & B4 & B5 & B6 & B7 & B8 & B9).
             destruct Hcase as [(Pw & L & -> & ->)|[(Pw & L & Hi1 & Hf)|(Pr & Ht)]].
             ++ rewrite B8 in Hin. auto.
             ++ destruct Pw as (W1 & W2 & W3 & W4 & W5 & W6 & W7 & W8).
                destruct B9 as [(C1 & _)|[(C1 & C2 & C3 & C4 & C5)|(f & C1 & C2 & C3 & C4)]]; try congruence.
                assert (Hff : In f (numbers cs)). { rewrite W7 in C2. destruct (numbers cs); [discriminate|]. injection C2 as ->. left. reflexivity. }
                assert (Hlt' : f < fi_num fi). { rewrite Forall_forall in Hlt. auto. }
                destruct (finish_spec _ _ _ _ _ _ _ _ _ _ _ (eq_trans B4 W3) C3 Hlt' Hf) as (m & imm0 & imm1 & F1 & F2 & F3 & F4 & F5 & F6 & _).
                rewrite F6, B8, Hl, F5 in Hin. destruct Hin as [Hin|[Hin|[]]]; [|discriminate]. injection Hin as <- <-.
                rewrite numbers_app, !in_app_iff. cbn. repeat split; auto. lia.
             ++ destruct Pr as (R1 & _). congruence.
          -- injection H as <-. auto.
        * destruct (call_log _ _ _ Hi H) as (_ & tail & L & F). rewrite L in Hin. apply in_app_iff in Hin as [Hin|Hin]; [auto|].
          rewrite Forall_forall in F. destruct (F _ Hin). }
  destruct G as [Po G]. intros Hin. destruct (G Hin) as (A & B & C). rewrite Forall_forall in Po. auto 6.
Qed.

(** ** The trajectory writer *)
Definition row_of (gt : list se3) (n : Z) : Z * se3 := (n, nth (Z.to_nat n) gt sid).

Definition tg_add (w : tg) (ns : list Z) : tg :=
  {| tg_gt := tg_gt w; tg_unaligned := tg_unaligned w; tg_aligner := tg_aligner w;
     tg_poses := tg_poses w ++ map (row_of (tg_gt w)) ns;
     tg_matrices := tg_matrices w ++ map (fun n => sinv (nth (Z.to_nat n) (tg_unaligned w) sid)) ns |}.

Lemma tg_frames_ok ns : forall w, (forall n, In n ns -> 0 <= n < Z.of_nat (List.length (tg_gt w)) /\ 0 <= n < Z.of_nat (List.length (tg_unaligned w))) ->
  ofold tg_frame ns w = Ok (tg_add w ns).
Proof.
  induction ns as [|n ns IH]; intros w H.
  - cbn. unfold tg_add. cbn [map]. rewrite !app_nil_r. destruct w; reflexivity.
  - cbn [ofold]. unfold tg_frame at 1. destruct (H n (or_introl eq_refl)) as [H1 H2].
    rewrite (at_frame_ok _ n sid H1), (at_frame_ok _ n sid H2). cbn [bind]. rewrite IH.
    + unfold tg_add. cbn [tg_gt tg_unaligned tg_aligner tg_poses tg_matrices map]. rewrite <- !app_assoc. reflexivity.
    + cbn [tg_gt tg_unaligned]. intros m Hm. apply H. right. exact Hm.
Qed.

Lemma tg_kfs_frames (l : list kf) : forall w, ofold tg_kf l w = ofold tg_frame (frames_of l) w.
Proof.
  induction l as [|k l IH]; intros w; [reflexivity|]. cbn [ofold]. unfold frames_of. cbn [flat_map].
  rewrite ofold_app. unfold tg_kf at 1. cbn [ofold]. destruct (tg_frame w (kf_num k)) as [w1| | | |]; try reflexivity.
  cbn [bind]. destruct (ofold tg_frame (map fst (kf_tracked k)) w1); try reflexivity. cbn [bind]. apply IH.
Qed.

Lemma tg_log_frames (log : list event) : Forall plain log -> forall w,
  ofold tg_event log w = ofold tg_frame (frames_of (reported log)) w.
Proof.
  induction 1 as [|e log He F IH]; intros w; [reflexivity|]. cbn [ofold].
  destruct e; try destruct He; try (cbn [tg_event bind]; rewrite IH; reflexivity).
  all: cbn [tg_event]; rewrite tg_kfs_frames; unfold reported; cbn [flat_map];
    fold (@reported se3 IP OP log); rewrite (frames_app se3 IP OP), ofold_app;
    destruct (ofold tg_frame (frames_of l) w); try reflexivity; cbn [bind]; apply IH.
Qed.

Lemma log_cases (st : state) (log : list event) rest k0 k1 : st_log st = EvInitialized [k0; k1] :: rest -> Forall plain rest ->
  log = st_log st \/ log = destroy st ->
  exists rest', log = EvInitialized [k0; k1] :: rest' /\ Forall plain rest' /\ reported log = reported rest' /\
    (forall k, In k (reported log) -> In k (reported (destroy st))).
Proof.
  intros L F [->| ->].
  - exists rest. split; [exact L|]. split; [exact F|]. split; [rewrite L; reflexivity|].
    intros k Hk. rewrite reported_destroy. apply in_app_iff. auto.
  - exists (rest ++ [EvDestructed (st_kfs st)]). unfold destroy. rewrite L. split; [reflexivity|].
    split; [apply Forall_app; split; [exact F|repeat constructor]|]. split; [reflexivity|auto].
Qed.

Lemma frames_incl (l l' : list kf) : (forall k, In k l -> In k l') -> forall n, In n (frames_of l) -> In n (frames_of l').
Proof. intros H n. unfold frames_of. rewrite !in_flat_map. intros (k & Hk & Hn). exists k. auto. Qed.

Section Aligned.
Variables (gt : list se3) (k0 k1 : kf) (g0 g1 : se3).
Hypothesis RG : Forall rigid gt.
Hypothesis RK : rigid (kf_pose k1).
Hypothesis PK : kf_pose k0 = sid.
Hypothesis G0 : gt_at gt (kf_num k0) g0.
Hypothesis G1 : gt_at gt (kf_num k1) g1.
Hypothesis AG : apart g0 g1.
Hypothesis AE : apart (sinv (kf_pose k0)) (sinv (kf_pose k1)).

Definition the_aligner : aligner := aligner_new (sinv (kf_pose k0)) (sinv (kf_pose k1)) g0 g1.

Lemma gt_rigid n g : gt_at gt n g -> rigid g.
Proof. intros [_ H]. rewrite Forall_forall in RG. apply RG. eapply nth_error_In; eauto. Qed.

Lemma the_facts : exists sc, scaleGTToDso the_aligner = Some sc /\ (0 < sc)%R /\ rigid (gtToDso the_aligner) /\
  align_pose the_aligner g0 = sinv (kf_pose k0) /\ baseline sc (sinv (kf_pose k0)) (sinv (kf_pose k1)) g0 g1.
Proof.
  apply aligner_facts; eauto using gt_rigid, rigid_inv.
  rewrite PK. apply rigid_inv, rigid_id.
Qed.

Lemma gt_init_ok : gt_initialized gt [k0; k1] = Ok (the_aligner, map (align_pose the_aligner) gt).
Proof.
  destruct the_facts as (sc & S & _). unfold gt_initialized. cbn [rev app].
  destruct (gt_at_nth _ _ _ sid G0) as [E0 L0]. destruct (gt_at_nth _ _ _ sid G1) as [E1 L1].
  rewrite (at_frame_ok gt _ sid L0), (at_frame_ok gt _ sid L1). cbn [bind]. rewrite E0, E1. fold the_aligner.
  rewrite (omap_ok _ (align_pose the_aligner)); [reflexivity|]. intros g _. eapply align_pose_ok; eauto.
Qed.
End Aligned.

Theorem gt_rows cs st k0 k1 gt g0 g1 : run cs st0 = Ok st -> In (EvInitialized [k0; k1]) (st_log st) ->
  Forall rigid gt -> rigid (kf_pose k1) -> gt_covers gt (numbers cs) ->
  gt_at gt (kf_num k0) g0 -> gt_at gt (kf_num k1) g1 ->
  apart g0 g1 -> apart (sinv (kf_pose k0)) (sinv (kf_pose k1)) ->
  exists sc W, similarity sc W /\ baseline sc (sinv (kf_pose k0)) (sinv (kf_pose k1)) g0 g1 /\
  forall log, log = st_log st \/ log = destroy st ->
  exists w, tg_run gt log = Ok w /\
    map fst (tg_poses w) = frames_of (reported log) /\
    List.length (tg_matrices w) = List.length (tg_poses w) /\
    (forall n g', In (n, g') (tg_poses w) -> exists g, gt_at gt n g /\ sees_scaled sc W g g') /\
    (forall g', In (kf_num k0, g') (tg_poses w) -> undoes g' (kf_pose k0)) /\
    (forall i n g' m, nth_error (tg_poses w) i = Some (n, g') -> nth_error (tg_matrices w) i = Some m ->
       exists g, gt_at gt n g /\ undoes g m /\ undoes m g).
Proof.
  intros Hrun Hin RG RK Cov G0 G1 AG AE.
  destruct (started_event _ _ _ (run_started _ _ Hrun) Hin) as (rest & L & F & PK).
  pose proof (the_facts gt k0 k1 g0 g1 RG RK PK G0 G1 AG AE) as (sc & S & Hsc & RA & A0 & Bs).
  set (al := the_aligner k0 k1 g0 g1) in *.
  exists sc, (world_map al sc). split; [apply world_similar; assumption|]. split; [exact Bs|].
  intros log Hlog. destruct (log_cases _ _ _ _ _ L F Hlog) as (rest' & EL & F' & ER & Inc).
  assert (Len : List.length (map (align_pose al) gt) = List.length gt) by apply map_length.
  assert (Hfr : forall n, In n (frames_of (reported rest')) -> 0 <= n < Z.of_nat (List.length gt)).
  { intros n Hn. rewrite <- ER in Hn. apply (frames_incl _ _ Inc) in Hn.
    destruct (frames_numbers _ _ Hrun n Hn) as [Hn1 Hn2]. apply Cov in Hn1. lia. }
  unfold tg_run. rewrite EL. cbn [ofold tg_event tg_new tg_gt].
  rewrite (gt_init_ok gt k0 k1 g0 g1 RG RK PK G0 G1 AG AE). fold al. cbn [bind fst snd tg_unaligned tg_poses tg_matrices].
  rewrite tg_log_frames, tg_frames_ok by (cbn [tg_gt tg_unaligned]; rewrite ?Len; auto).
  eexists. split; [reflexivity|]. unfold tg_add. cbn [tg_new tg_gt tg_unaligned tg_poses tg_matrices app].
  assert (Row : forall n, In n (frames_of (reported rest')) ->
     nth (Z.to_nat n) (map (align_pose al) gt) sid = align_pose al (nth (Z.to_nat n) gt sid)).
  { intros n Hn. specialize (Hfr n Hn). rewrite (nth_indep _ sid (align_pose al sid)) by (rewrite Len; lia). apply map_nth. }
  split; [|split; [|split; [|split]]].
  - rewrite map_map. cbn [fst row_of]. apply map_id.
  - rewrite !map_length. reflexivity.
  - intros n g' Hn. apply in_map_iff in Hn as (n' & E & Hn). injection E as -> <-.
    exists (nth (Z.to_nat n) gt sid). split; [apply nth_gt_at; auto|]. rewrite (Row n Hn).
    apply world_sees; auto. apply (align_pose_ok al sc). exact S.
  - intros g' Hn. apply in_map_iff in Hn as (n' & E & Hn). injection E as E <-. subst n'. rewrite (Row _ Hn).
    destruct (gt_at_nth _ _ _ sid G0) as [E0 _]. rewrite E0, A0. intros p.
    rewrite <- act_mul, sinv_l, act_id; [reflexivity|]. rewrite PK. apply rigid_id.
  - intros i n g' m Hi Hm. rewrite nth_error_map in Hi, Hm.
    destruct (nth_error (frames_of (reported rest')) i) as [n'|] eqn:En; [|discriminate].
    cbn in Hi, Hm. injection Hi as -> <-. injection Hm as <-.
    assert (Hn : In n (frames_of (reported rest'))) by (eapply nth_error_In; eauto).
    assert (GA : gt_at gt n (nth (Z.to_nat n) gt sid)) by (apply nth_gt_at; auto).
    exists (nth (Z.to_nat n) gt sid). split; [exact GA|].
    pose proof (gt_rigid gt RG _ _ GA) as R. split; intros p; rewrite <- act_mul.
    + rewrite (sinv_r _ R). apply act_id.
    + rewrite (sinv_l _ R). apply act_id.
Qed.

(** The lines are the reported frames in their order. *)
Lemma tg_frames_fst ns : forall w w', ofold tg_frame ns w = Ok w' -> map fst (tg_poses w') = map fst (tg_poses w) ++ ns.
Proof.
  induction ns as [|n ns IH]; intros w w' H; [injection H as <-; rewrite app_nil_r; reflexivity|]. cbn [ofold] in H.
  apply bind_ok_inv in H as (w1 & E & H). rewrite (IH _ _ H). unfold tg_frame in E.
  apply bind_ok_inv in E as (a & _ & E). apply bind_ok_inv in E as (b & _ & E). injection E as <-.
  cbn [tg_poses]. rewrite map_app, <- app_assoc. reflexivity.
Qed.

Lemma tg_run_frames cs st gt w : run cs st0 = Ok st -> tg_run gt (destroy st) = Ok w ->
  map fst (tg_poses w) = frames_of (reported (destroy st)).
Proof.
  intros Hrun Hw. destruct (run_started _ _ Hrun) as [(_ & L & K)|(_ & k0 & k1 & rest & L & F & _)].
  - unfold destroy in *. rewrite L, K in *. cbn in Hw. injection Hw as <-. reflexivity.
  - destruct (log_cases _ _ _ _ _ L F (or_intror eq_refl)) as (rest' & EL & F' & ER & _).
    unfold tg_run in Hw. rewrite EL in Hw. cbn [ofold tg_event] in Hw. apply bind_ok_inv in Hw as (w1 & E & Hw).
    apply bind_ok_inv in E as (r & _ & E). injection E as <-. rewrite tg_log_frames in Hw by exact F'.
    rewrite (tg_frames_fst _ _ _ Hw), ER. reflexivity.
Qed.

(** ** Failures of the alignment *)
Lemma static_init gt (k0 k1 : kf) g0 g1 : rigid g0 -> rigid g1 -> rigid (kf_pose k0) -> rigid (kf_pose k1) ->
  gt_at gt (kf_num k0) g0 -> gt_at gt (kf_num k1) g1 ->
  close g0 g1 \/ close (sinv (kf_pose k0)) (sinv (kf_pose k1)) -> gt_initialized gt [k0; k1] = UB.
Proof.
  intros R0 R1 K0 K1 G0 G1 C. unfold gt_initialized. cbn [rev app].
  destruct (gt_at_nth _ _ _ sid G0) as [E0 L0]. destruct (gt_at_nth _ _ _ sid G1) as [E1 L1].
  rewrite (at_frame_ok gt _ sid L0), (at_frame_ok gt _ sid L1). cbn [bind]. rewrite E0, E1.
  destruct gt as [|g gt]; [cbn in L0; lia|]. cbn [omap].
  destruct (align_static_ub (sinv (kf_pose k0)) (sinv (kf_pose k1)) g0 g1) as [A _].
  { destruct C as [C|C]; [left|right]; apply close_norm; auto using rigid_inv. }
  rewrite A. reflexivity.
Qed.

Lemma short_init gt (k0 k1 : kf) : Z.of_nat (List.length gt) <= Z.max (kf_num k0) (kf_num k1) -> gt_initialized gt [k0; k1] = UB.
Proof.
  intros H. unfold gt_initialized. cbn [rev app].
  destruct (at_frame gt (kf_num k0)) as [x| | | |] eqn:E0.
  - destruct (Z.le_gt_cases (Z.of_nat (List.length gt)) (kf_num k1)) as [C|C].
    + cbn [bind]. rewrite (at_frame_short gt (kf_num k1)) by exact C. reflexivity.
    + rewrite at_frame_short in E0 by lia. discriminate.
  - reflexivity.
  - exfalso. revert E0. unfold at_frame. destruct (_ <? 0); [discriminate|]. destruct (nth_error _ _); discriminate.
  - exfalso. revert E0. unfold at_frame. destruct (_ <? 0); [discriminate|]. destruct (nth_error _ _); discriminate.
  - exfalso. revert E0. unfold at_frame. destruct (_ <? 0); [discriminate|]. destruct (nth_error _ _); discriminate.
Qed.

Lemma init_first_ub st k0 k1 gt log : started st -> In (EvInitialized [k0; k1]) (st_log st) ->
  log = st_log st \/ log = destroy st -> gt_initialized gt [k0; k1] = UB ->
  tg_run gt log = UB /\ forall fmt dbl_of points colors, cg_run fmt dbl_of gt points colors log = UB.
Proof.
  intros St Hin Hlog U. destruct (started_event _ _ _ St Hin) as (rest & L & F & _).
  destruct (log_cases _ _ _ _ _ L F Hlog) as (rest' & -> & _). split.
  - unfold tg_run. cbn [ofold tg_event tg_new tg_gt]. rewrite U. reflexivity.
  - intros. unfold cg_run. cbn [ofold cg_event cg_new cg_gt]. rewrite U. reflexivity.
Qed.

Theorem gt_static cs st k0 k1 gt g0 g1 log : run cs st0 = Ok st -> In (EvInitialized [k0; k1]) (st_log st) ->
  log = st_log st \/ log = destroy st ->
  rigid g0 -> rigid g1 -> rigid (kf_pose k1) -> gt_at gt (kf_num k0) g0 -> gt_at gt (kf_num k1) g1 ->
  close g0 g1 \/ close (sinv (kf_pose k0)) (sinv (kf_pose k1)) ->
  tg_run gt log = UB /\ forall fmt dbl_of points colors, cg_run fmt dbl_of gt points colors log = UB.
Proof.
  intros Hrun Hin Hlog R0 R1 K1 G0 G1 C. pose proof (run_started _ _ Hrun) as St.
  apply (init_first_ub st k0 k1); auto. destruct (started_event _ _ _ St Hin) as (_ & _ & _ & PK).
  apply (static_init gt k0 k1 g0 g1); auto. rewrite PK. apply rigid_id.
Qed.

Theorem gt_short cs st k0 k1 gt log : run cs st0 = Ok st -> In (EvInitialized [k0; k1]) (st_log st) ->
  log = st_log st \/ log = destroy st -> Z.of_nat (List.length gt) <= Z.max (kf_num k0) (kf_num k1) ->
  tg_run gt log = UB /\ forall fmt dbl_of points colors, cg_run fmt dbl_of gt points colors log = UB.
Proof.
  intros Hrun Hin Hlog Hs. apply (init_first_ub st k0 k1); auto; [eapply run_started; eauto|]. apply short_init. exact Hs.
Qed.

(** A missing ground-truth pose of a frame reported later. *)
Lemma tg_frames_ub ns : forall w n, In n ns -> Z.of_nat (List.length (tg_unaligned w)) <= n ->
  ofold tg_frame ns w = UB.
Proof.
  induction ns as [|m ns IH]; intros w n H Hn; [destruct H|]. destruct H as [-> |H].
  - cbn [ofold]. unfold tg_frame at 1. rewrite at_frame_short by exact Hn. reflexivity.
  - cbn [ofold]. destruct (tg_frame w m) as [w1| | | |] eqn:E.
    + cbn [bind]. apply (IH w1 n H). unfold tg_frame in E. apply bind_ok_inv in E as (a & _ & E). apply bind_ok_inv in E as (b & _ & E).
      injection E as <-. exact Hn.
    + reflexivity.
    + exfalso. revert E. unfold tg_frame, at_frame. destruct (m <? 0); [discriminate|].
      destruct (nth_error (tg_unaligned w) _); [|discriminate]. cbn [bind]. destruct (nth_error (tg_gt w) _); discriminate.
    + exfalso. revert E. unfold tg_frame, at_frame. destruct (m <? 0); [discriminate|].
      destruct (nth_error (tg_unaligned w) _); [|discriminate]. cbn [bind]. destruct (nth_error (tg_gt w) _); discriminate.
    + exfalso. revert E. unfold tg_frame, at_frame. destruct (m <? 0); [discriminate|].
      destruct (nth_error (tg_unaligned w) _); [|discriminate]. cbn [bind]. destruct (nth_error (tg_gt w) _); discriminate.
Qed.

Lemma init_ok_or_ub gt (k0 k1 : kf) : gt_initialized gt [k0; k1] = UB \/ exists r, gt_initialized gt [k0; k1] = Ok r.
Proof.
  unfold gt_initialized. cbn [rev app].
  assert (AF : forall n, at_frame gt n = UB \/ exists g, at_frame gt n = Ok g).
  { intros n. unfold at_frame. destruct (n <? 0); [auto|]. destruct (nth_error gt _); eauto. }
  destruct (AF (kf_num k0)) as [-> |[x0 ->]]; [auto|]. destruct (AF (kf_num k1)) as [-> |[x1 ->]]; [auto|]. cbn [bind].
  set (al := aligner_new _ _ _ _). destruct (scaleGTToDso al) as [sc|] eqn:S.
  - rewrite (omap_ok _ (align_pose al)) by (intros; eapply align_pose_ok; eauto). cbn [bind]. eauto.
  - destruct gt as [|g r]; [cbn; eauto|]. cbn [omap]. unfold align_world_to_frame at 1. rewrite S. cbn [bind]. auto.
Qed.

Theorem gt_missing_frame cs st k0 k1 gt log n : run cs st0 = Ok st -> In (EvInitialized [k0; k1]) (st_log st) ->
  log = st_log st \/ log = destroy st -> In n (frames_of (reported log)) -> Z.of_nat (List.length gt) <= n ->
  tg_run gt log = UB.
Proof.
  intros Hrun Hin Hlog Hn Hs. destruct (started_event _ _ _ (run_started _ _ Hrun) Hin) as (rest & L & F & _).
  destruct (log_cases _ _ _ _ _ L F Hlog) as (rest' & -> & F' & ER & _).
  unfold tg_run. cbn [ofold tg_event tg_new tg_gt]. destruct (init_ok_or_ub gt k0 k1) as [-> |[r ->]]; [reflexivity|]. cbn [bind].
  rewrite tg_log_frames by exact F'. apply (tg_frames_ub _ _ n); [rewrite <- ER; exact Hn|exact Hs].
Qed.

(** ** Runs that never tell the writers about an initialisation *)
Lemma cg_plain_abort fmt dbl_of (log : list event) : Forall plain log ->
  (exists l, In (EvMarg l) log \/ In (EvDestructed l) log) ->
  forall w, cg_aligner w = None -> ofold (cg_event fmt dbl_of) log w = Abort.
Proof.
  induction 1 as [|e log He F IH]; intros (l & H) w Hw; [destruct H as [[]|[]]|]. cbn [ofold].
  destruct e; try destruct He; cbn [cg_event]; try (unfold cg_marg; rewrite Hw; reflexivity).
  all: cbn [bind]; apply IH; [|exact Hw]; exists l; destruct H as [[H|H]|[H|H]]; auto; discriminate H.
Qed.

Theorem gt_uninitialized cs st gt : run cs st0 = Ok st -> (List.length (numbers cs) <= S (skip_count (firstFramesSkip s)))%nat ->
  (exists w, tg_run gt (destroy st) = Ok w /\ tg_poses w = [] /\ tg_matrices w = []) /\
  forall fmt dbl_of points colors, cg_run fmt dbl_of gt points colors (destroy st) = Abort.
Proof.
  intros Hrun Hl. assert (E : destroy st = [EvDestructed []]).
  { destruct (inv_run _ _ _ _ _ _ _ _ _ _ _ _ _ Hrun) as (_ & _ & _ & _ & _ & [W|R]).
    - destruct W as (_ & _ & W3 & W4 & _). unfold destroy. rewrite W3, W4. reflexivity.
    - destruct R as (_ & R & _). lia. }
  rewrite E. split; [eexists; split; [reflexivity|auto]|]. reflexivity.
Qed.

Theorem gt_restored nobs ctorObs createdObs kfs st cs st' gt :
  restore smul sinv s nobs ctorObs createdObs kfs = Ok st -> run cs st = Ok st' ->
  (forall n, In n (frames_of (reported (destroy st'))) -> 0 <= n < Z.of_nat (List.length gt)) ->
  (exists w, tg_run gt (destroy st') = Ok w /\ map fst (tg_poses w) = frames_of (reported (destroy st')) /\
     forall n g', In (n, g') (tg_poses w) -> gt_at gt n g') /\
  forall fmt dbl_of points colors, cg_run fmt dbl_of gt points colors (destroy st') = Abort.
Proof.
  intros Hr Hrun Hn.
  assert (I : st_inited st = true /\ st_log st = []).
  { unfold restore in Hr. destruct (_ <? _)%nat; [discriminate|]. apply bind_ok_inv in Hr as (st1 & E & Hr).
    assert (G : st_inited st1 = true /\ st_log st1 = []).
    { revert E. match goal with |- ofold _ _ ?x = _ -> _ => generalize (conj (eq_refl : st_inited x = true) (eq_refl : st_log x = [])); generalize x end.
      clear. induction kfs as [|k l IH]; intros a I H; [injection H as <-; exact I|]. cbn [ofold] in H.
      apply bind_ok_inv in H as (b & E & H). apply (IH b); [|exact H]. clear - I E. unfold restore_kf in E.
      apply bind_ok_inv in E as (z & _ & E). apply bind_ok_inv in E as (t & _ & E).
      revert E. match goal with |- ofold _ _ ?x = _ -> _ => generalize (I : st_inited x = true /\ st_log x = []); generalize x end.
      clear. induction (repeat_app nobs (kf_tracked k)) as [|e l IH]; intros a I H; [injection H as <-; exact I|].
      cbn [ofold] in H. apply bind_ok_inv in H as (c & E & H). apply (IH c); [|exact H].
      apply bind_ok_inv in E as (z & _ & E). apply bind_ok_inv in E as (t & _ & E). injection E as <-. exact I. }
    apply bind_ok_inv in Hr as (l & _ & Hr). apply bind_ok_inv in Hr as (lb & _ & Hr).
    destruct (kf_tracked l), (kf_tracked lb); try discriminate; injection Hr as <-; exact G. }
  destruct I as [Ii Il]. destruct (run_log _ _ _ Ii Hrun) as (tail & L & F). rewrite Il in L. cbn [app] in L.
  assert (Pl : Forall plain (destroy st')).
  { unfold destroy. rewrite L. apply Forall_app. split; [exact F|repeat constructor]. }
  split.
  - unfold tg_run. rewrite tg_log_frames, tg_frames_ok by (cbn [tg_new tg_gt tg_unaligned]; auto).
    eexists. split; [reflexivity|]. unfold tg_add. cbn [tg_new tg_gt tg_unaligned tg_poses tg_matrices app]. split.
    + rewrite map_map. cbn [fst row_of]. apply map_id.
    + intros n g' H. apply in_map_iff in H as (m & E & H). injection E as -> <-. apply nth_gt_at. auto.
  - intros. unfold cg_run. apply cg_plain_abort; [exact Pl| |reflexivity].
    exists (st_kfs st'). right. unfold destroy. apply in_app_iff. right. left. reflexivity.
Qed.
End Log.
