(** Reachability of the border of the coarsest level, and the witnesses. *)
From Coq Require Import ZArith QArith Reals List Bool Lia Lra.
From Verif Require Import Outcome Pose CamModel CamSpec CamProofs PyramidModel PyramidSpec PyramidProofs TrackerModel TrackerSpec TrackerProofs.
Import ListNotations.
Open Scope Z_scope.

Lemma xsum_nonneg f : (forall i, 0 <= f i)%R -> forall n a, (0 <= xsum n a f)%R.
Proof. intros H. induction n as [|n IH]; intros a; cbn; [lra|]. specialize (H a). specialize (IH (a + 1)). lra. Qed.

Lemma xsum_ge f : (forall i, 0 <= f i)%R -> forall n a k, a <= k < a + Z.of_nat n -> (f k <= xsum n a f)%R.
Proof.
  intros H. induction n as [|n IH]; intros a k K; [lia|]. cbn [xsum]. destruct (Z.eq_dec k a) as [->|NE].
  - pose proof (xsum_nonneg f H n (a + 1)). lra.
  - specialize (IH (a + 1) k ltac:(lia)). specialize (H a). lra.
Qed.

Lemma block_ge l x y f bx by_ : (forall i j, 0 <= f i j)%R -> in_block (Z.of_nat l) x y bx by_ -> (f bx by_ <= block_rtotal l x y f)%R.
Proof.
  intros H [BX BY]. unfold block_rtotal.
  assert (P : Z.of_nat (2 ^ l) = 2 ^ Z.of_nat l) by (rewrite Nat2Z.inj_pow; reflexivity).
  eapply Rle_trans; [|apply (xsum_ge _ (fun j => xsum_nonneg _ (fun i => H i j) _ _) _ _ by_); rewrite P; lia].
  cbn beta. apply (xsum_ge (fun i => f i by_)); [intros; apply H|]. rewrite P. lia.
Qed.

(** the last point of a pixel *)
Lemma pixel_dec (q : Q) (x : Z) : {in_pixel q x} + {~ in_pixel q x}.
Proof.
  unfold in_pixel. destruct (Qlt_le_dec q (inject_Z x)) as [H|H].
  - right. intros [A _]. apply (Qlt_not_le _ _ H A).
  - destruct (Qlt_le_dec q (inject_Z (x + 1))) as [H'|H']; [left; auto|]. right. intros [_ A]. apply (Qlt_not_le _ _ A H').
Qed.

Lemma last_or_none points x y : (exists i, last_in points x y i) \/ none_in points x y.
Proof.
  induction points as [|p l IH]; [right; intros [|j] q H; discriminate|].
  destruct IH as [(i & (q & Q1 & Q2 & Q3) & H)|H].
  - left. exists (S i). split; [exists q; auto|]. intros [|j] r J N; [lia|]. apply (H j r); [lia|exact N].
  - destruct (pixel_dec (fst p) x) as [A|A]; [destruct (pixel_dec (snd p) y) as [B|B]|].
    + left. exists 0%nat. split; [exists p; repeat split; (apply A || apply B)|]. intros [|j] r J N; [lia|]. apply (H j r N).
    + right. intros [|j] r N; [injection N as <-; tauto|apply (H j r N)].
    + right. intros [|j] r N; [injection N as <-; tauto|apply (H j r N)].
Qed.

(** a cell with a point in it has a positive depth *)
Lemma cell_positive base n points ds ws images depths l dep p x y :
  1 <= n -> valid_base base points ds ws ->
  depthedImagePyramid base n points ds ws = Ok (images, depths) ->
  Forall (fun d => 0 < d)%R ds -> Forall (fun w => 1 / 100000000 < w)%R ws ->
  nth_error depths l = Some dep -> In p points ->
  (exists bx by_, in_pixel (fst p) bx /\ in_pixel (snd p) by_ /\ in_block (Z.of_nat l) x y bx by_) ->
  0 <= x -> 0 <= y -> (0 < dat dep x y)%R.
Proof.
  intros N (R0 & C0 & L1 & L2 & IN) D FD FW HD IP (bx & by_ & PX & PY & BL) X0 Y0.
  destruct (depth_pyramid base n points ds ws N L1 L2 IN) as (im & de & Dm & Wm & E & EI & LD & DEP & Z0 & ZL).
  rewrite D in E. injection E as <- <-. rewrite Forall_forall in FD, FW.
  assert (WP : forall i j, (exists k, last_in points i j k) -> (0 < Dm i j)%R /\ (1 / 100000000 < Wm i j)%R).
  { intros i j (k & LK). destruct (DEP i j) as [_ H]. destruct (H k LK) as [A B]. split; [apply FD|apply FW]; eapply nth_error_In; eauto. }
  assert (WN : forall i j, (0 <= Wm i j)%R /\ (0 <= Dm i j * Wm i j)%R).
  { intros i j. destruct (last_or_none points i j) as [H|H].
    - destruct (WP i j H). split; [lra|]. apply Rmult_le_pos; lra.
    - destruct (DEP i j) as [A _]. rewrite (A H). lra. }
  assert (HERE : (0 < Dm bx by_)%R /\ (1 / 100000000 < Wm bx by_)%R).
  { apply WP. destruct (last_or_none points bx by_) as [H|H]; [exact H|]. apply In_nth_error in IP. destruct IP as (k & K). exfalso. apply (H k p K). auto. }
  destruct HERE as [HD1 HW1]. destruct l as [|l].
  - destruct Z0 as (m & M & _ & _ & V). rewrite HD in M. injection M as <-. destruct (V x y) as [-> _].
    unfold in_block in BL. change (Z.of_nat 0) with 0 in BL. rewrite Z.pow_0_r in BL. replace x with bx by lia. replace y with by_ by lia. exact HD1.
  - destruct (ZL (S l) dep) as (_ & _ & V); [lia|exact HD|]. destruct (V x y X0 Y0) as [V1 _].
    pose proof (block_ge (S l) x y Wm bx by_ (fun i j => proj1 (WN i j)) BL) as B1.
    pose proof (block_ge (S l) x y (fun i j => Dm i j * Wm i j)%R bx by_ (fun i j => proj2 (WN i j)) BL) as B2. cbn beta in B2.
    rewrite V1 by (rewrite Rabs_pos_eq; lra). apply Rmult_lt_0_compat.
    + eapply Rlt_le_trans; [|exact B2]. apply Rmult_lt_0_compat; lra.
    + apply Rinv_0_lt_compat. lra.
Qed.

Lemma border_reached solve trackable s cam base points ds ws frame coarse p x y :
  2 <= s_levelNum s <= 6 -> valid_base base points ds ws -> s_useGrad s = true ->
  Forall (fun d => 0 < d)%R ds -> Forall (fun w => 1 / 100000000 < w)%R ws ->
  (forall c x y d, trackable c x y d (fst coarse) = true) ->
  let k := 2 ^ (s_levelNum s - 1) in
  In p points -> 0 <= x < gcols base / k -> 0 <= y < grows base / k ->
  (exists bx by_, in_pixel (fst p) bx /\ in_pixel (snd p) by_ /\ in_block (s_levelNum s - 1) x y bx by_) ->
  x = 0 \/ y = 0 \/ x = gcols base / k - 1 \/ y = grows base / k - 1 ->
  track_in_system solve trackable s cam base points ds ws frame coarse = UB.
Proof.
  intros N V G FD FW T k IP X Y BL B.
  destruct (base_pyramid base (s_levelNum s) points ds ws) as (im & de & D & I & LI & LD & SZ); [lia|exact V|].
  set (l := Z.to_nat (s_levelNum s - 1)).
  destruct (nth_error im l) as [img|] eqn:HI; [|apply nth_error_None in HI; unfold l in HI; lia].
  destruct (nth_error de l) as [dep|] eqn:HD; [|apply nth_error_None in HD; unfold l in HD; lia].
  destruct V as (R0 & C0 & V'). destruct (pyramid_sizes base _ im l img R0 C0 I HI) as [S1 S2].
  assert (EL : Z.of_nat l = s_levelNum s - 1) by (unfold l; lia). rewrite EL in S1, S2. fold k in S1, S2.
  assert (S3 : gcols img = gcols base / k) by (first [exact S1|exact S2]). assert (S4 : grows img = grows base / k) by (first [exact S1|exact S2]).
  apply (system_border solve trackable s cam base points ds ws frame coarse im de img dep x y); auto.
  - unfold valid_base. auto.
  - split; [lia|split; [lia|split; [|apply T]]].
    apply (cell_positive base (s_levelNum s) points ds ws im de l dep p x y); auto; try lia; try (unfold valid_base; now auto).
    rewrite EL. exact BL.
  - unfold on_border. rewrite S3, S4. exact B.
Qed.

Lemma system_total solve trackable s cam base points ds ws frame coarse :
  2 <= s_levelNum s <= 6 -> valid_base base points ds ws -> s_useGrad s = false ->
  exists images depths fimages es fin,
    depthedImagePyramid base (s_levelNum s) points ds ws = Ok (images, depths) /\ imagePyramid frame 6 = Ok fimages /\
    track_in_system solve trackable s cam base points ds ws frame coarse = Ok (es, fin) /\
    map e_level es = map Z.of_nat (rev (seq 0 (Z.to_nat (s_levelNum s)))) /\ chained coarse es fin /\
    forall e, In e es -> well_posed solve trackable s cam images depths fimages e.
Proof.
  intros N V G. destruct (base_pyramid base (s_levelNum s) points ds ws) as (im & de & D & _); [lia|exact V|].
  destruct (pyramid_levels frame 6) as (fi & FI & _); [lia|].
  destruct (system_ok solve trackable s cam base points ds ws frame coarse im de fi N V D) as (es & fin & A); [|exact FI|].
  - intros G'. congruence.
  - exists im, de, fi, es, fin. auto.
Qed.

Lemma system_weighted solve trackable s cam base points ds ws frame coarse images depths :
  2 <= s_levelNum s <= 6 -> valid_base base points ds ws ->
  depthedImagePyramid base (s_levelNum s) points ds ws = Ok (images, depths) -> borders_free s images depths ->
  exists fimages es fin, imagePyramid frame 6 = Ok fimages /\
    track_in_system solve trackable s cam base points ds ws frame coarse = Ok (es, fin) /\
    map e_level es = map Z.of_nat (rev (seq 0 (Z.to_nat (s_levelNum s)))) /\ chained coarse es fin /\
    forall e, In e es -> well_posed solve trackable s cam images depths fimages e.
Proof.
  intros N V D BF. destruct (pyramid_levels frame 6) as (fi & FI & _); [lia|].
  destruct (system_ok solve trackable s cam base points ds ws frame coarse images depths fi N V D BF FI) as (es & fin & A).
  exists fi, es, fin. auto.
Qed.

Lemma system_light_constant solve trackable s cam base points ds ws frame coarse es fin :
  level_solver solve -> valid_base base points ds ws -> s_useGrad s = false -> s_optimizeLight s = false ->
  track_in_system solve trackable s cam base points ds ws frame coarse = Ok (es, fin) -> snd fin = snd coarse.
Proof.
  intros SV V G O E.
  destruct (Z_le_gt_dec (s_levelNum s) 0) as [H|H]; [exfalso; exact (system_none _ _ _ _ _ _ _ _ _ _ H _ E)|].
  destruct (Z.eq_dec (s_levelNum s) 1) as [H1|H1]; [rewrite system_one in E by assumption; discriminate|].
  destruct (Z_lt_le_dec 6 (s_levelNum s)) as [H6|H6]; [rewrite system_ub in E by assumption; discriminate|].
  destruct (system_total solve trackable s cam base points ds ws frame coarse) as (im & de & fi & es' & fin' & _ & _ & E' & _ & C & W); [lia|exact V|exact G|].
  rewrite E in E'. injection E' as <- <-. apply (light_constant solve SV es); [|exact C].
  intros e I. destruct (W e I) as (i & d & f & Q). cbn zeta in Q. destruct Q as (_ & _ & _ & Q1 & _ & _ & Q2 & _). rewrite O in Q2. auto.
Qed.

Lemma system_light_bounds solve trackable s cam base points ds ws frame coarse es fin :
  level_solver solve -> valid_base base points ds ws -> s_useGrad s = false ->
  track_in_system solve trackable s cam base points ds ws frame coarse = Ok (es, fin) ->
  fin = coarse \/ ((s_minA s <= fst (snd fin) <= s_maxA s)%R /\ (s_minB s <= snd (snd fin) <= s_maxB s)%R).
Proof.
  intros SV V G E.
  destruct (Z_le_gt_dec (s_levelNum s) 0) as [H|H]; [exfalso; exact (system_none _ _ _ _ _ _ _ _ _ _ H _ E)|].
  destruct (Z.eq_dec (s_levelNum s) 1) as [H1|H1]; [rewrite system_one in E by assumption; discriminate|].
  destruct (Z_lt_le_dec 6 (s_levelNum s)) as [H6|H6]; [rewrite system_ub in E by assumption; discriminate|].
  destruct (system_total solve trackable s cam base points ds ws frame coarse) as (im & de & fi & es' & fin' & _ & _ & E' & _ & C & W); [lia|exact V|exact G|].
  rewrite E in E'. injection E' as <- <-.
  apply (light_bounds solve (s_minA s, s_maxA s) (s_minB s, s_maxB s) SV es coarse fin); [|exact C].
  intros e I. destruct (W e I) as (i & d & f & Q). cbn zeta in Q. destruct Q as (_ & _ & _ & Q1 & _ & _ & _ & Q2 & Q3 & _). auto.
Qed.

(** a light outside the bounds blocks tracking altogether *)
Lemma light_outside solve trackable s cam base points ds ws frame coarse es fin :
  (forall pr e, ~ ((fst (l_boundsA pr) <= fst (snd e) <= snd (l_boundsA pr))%R /\ (fst (l_boundsB pr) <= snd (snd e) <= snd (l_boundsB pr))%R) -> solve pr e = e) ->
  valid_base base points ds ws -> s_useGrad s = false ->
  ~ ((s_minA s <= fst (snd coarse) <= s_maxA s)%R /\ (s_minB s <= snd (snd coarse) <= s_maxB s)%R) ->
  track_in_system solve trackable s cam base points ds ws frame coarse = Ok (es, fin) -> fin = coarse.
Proof.
  intros SV V G B E.
  destruct (Z_le_gt_dec (s_levelNum s) 0) as [H|H]; [exfalso; exact (system_none _ _ _ _ _ _ _ _ _ _ H _ E)|].
  destruct (Z.eq_dec (s_levelNum s) 1) as [H1|H1]; [rewrite system_one in E by assumption; discriminate|].
  destruct (Z_lt_le_dec 6 (s_levelNum s)) as [H6|H6]; [rewrite system_ub in E by assumption; discriminate|].
  destruct (system_total solve trackable s cam base points ds ws frame coarse) as (im & de & fi & es' & fin' & _ & _ & E' & _ & C & W); [lia|exact V|exact G|].
  rewrite E in E'. injection E' as <- <-. clear E. revert coarse B C. induction es as [|e es IH]; intros coarse B C; cbn in C; [exact C|].
  destruct C as [C1 C]. assert (A : e_after e = coarse).
  { destruct (W e) as (i & d & f & Q); [now left|]. cbn zeta in Q. destruct Q as (_ & _ & _ & Q1 & _ & _ & _ & Q2 & Q3 & _).
    rewrite Q1, SV; [exact C1|]. rewrite Q2, Q3, C1. exact B. }
  rewrite A in C. apply IH; [|exact B|exact C]. intros e' I. apply W. now right.
Qed.
