(** Proofs about the tracking of frames. *)
From Coq Require Import ZArith QArith Reals List Bool Lia Lra.
From Verif Require Import Outcome Pose CamModel CamProofs PyramidModel PyramidSpec PyramidProofs TrackerModel TrackerSpec.
Import ListNotations.
Open Scope Z_scope.

Lemma at_ok {A} (l : list A) i : 0 <= i < Z.of_nat (length l) -> exists x, at_ l i = Ok x /\ nth_error l (Z.to_nat i) = Some x.
Proof.
  intros H. unfold at_. destruct (i <? 0) eqn:E; [apply Z.ltb_lt in E; lia|].
  destruct (nth_error l (Z.to_nat i)) as [x|] eqn:N; [eauto|]. apply nth_error_None in N. lia.
Qed.

Lemma at_ub {A} (l : list A) i : Z.of_nat (length l) <= i -> at_ l i = UB.
Proof.
  intros H. unfold at_. destruct (i <? 0) eqn:E; [reflexivity|].
  replace (nth_error l (Z.to_nat i)) with (@None A); [reflexivity|]. symmetry. apply nth_error_None. lia.
Qed.

Lemma make_grids_ok pyr : forall n lvl, 0 <= lvl -> lvl + Z.of_nat n <= Z.of_nat (length pyr) -> lvl + Z.of_nat n <= 8 ->
  make_grids pyr lvl n = Ok (firstn n (skipn (Z.to_nat lvl) pyr)).
Proof.
  induction n as [|n IH]; intros lvl L H1 H2; [reflexivity|]. cbn [make_grids].
  destruct (lvl <? max_levelNum) eqn:E; [|apply Z.ltb_ge in E; unfold max_levelNum in E; lia].
  destruct (at_ok pyr lvl) as (x & -> & N); [lia|]. cbn [bind]. rewrite IH by lia. cbn [bind].
  replace (Z.to_nat (lvl + 1)) with (S (Z.to_nat lvl)) by lia.
  assert (SK : skipn (Z.to_nat lvl) pyr = x :: skipn (S (Z.to_nat lvl)) pyr).
  { clear - N. revert N. generalize (Z.to_nat lvl) as k. intros k. revert pyr. induction k as [|k IH]; intros [|y l] N; try discriminate.
    - cbn in N. injection N as ->. reflexivity.
    - cbn in N. cbn [skipn]. apply IH, N. }
  rewrite SK. reflexivity.
Qed.

Lemma make_grids_full pyr : Z.of_nat (length pyr) <= 8 -> make_grids pyr 0 (length pyr) = Ok pyr.
Proof. intros H. rewrite make_grids_ok by lia. cbn [Z.to_nat skipn]. now rewrite firstn_all. Qed.

Lemma make_grids_ub pyr : forall n lvl, 0 <= lvl <= 8 -> 8 < lvl + Z.of_nat n -> lvl + Z.of_nat n <= Z.of_nat (length pyr) ->
  make_grids pyr lvl n = UB.
Proof.
  induction n as [|n IH]; intros lvl L H1 H2; [lia|]. cbn [make_grids].
  destruct (lvl <? max_levelNum) eqn:E; [|reflexivity]. apply Z.ltb_lt in E. unfold max_levelNum in E.
  destruct (at_ok pyr lvl) as (x & -> & N); [lia|]. cbn [bind]. rewrite IH by lia. reflexivity.
Qed.

Lemma new_preframe_ok img n : 1 <= n <= 8 -> exists f,
  new_preframe img n = Ok f /\ imagePyramid img n = Ok (f_pyr f) /\ f_grids f = f_pyr f /\ f_levelNum f = n /\ length (f_pyr f) = Z.to_nat n.
Proof.
  intros H. destruct (pyramid_levels img n) as (pyr & E & L & _); [lia|].
  unfold new_preframe. rewrite E. cbn [bind]. rewrite <- L, make_grids_full by lia. cbn [bind].
  eexists. repeat split; auto.
Qed.

Lemma new_preframe_ub img n : 8 < n -> new_preframe img n = UB.
Proof.
  intros H. destruct (pyramid_levels img n) as (pyr & E & L & _); [lia|].
  unfold new_preframe. rewrite E. cbn [bind]. rewrite make_grids_ub by lia. reflexivity.
Qed.

(* ---------- collecting ---------- *)

Lemma collect_ok {A} (f : Z -> outcome (list A)) (g : Z -> list A) : forall n i,
  (forall j, i <= j < i + Z.of_nat n -> f j = Ok (g j)) ->
  exists l, collect f i n = Ok l /\ (forall x, In x l <-> exists j, i <= j < i + Z.of_nat n /\ In x (g j)) /\
    ((forall j, i <= j < i + Z.of_nat n -> NoDup (g j)) ->
     (forall j k x, i <= j < i + Z.of_nat n -> i <= k < i + Z.of_nat n -> In x (g j) -> In x (g k) -> j = k) -> NoDup l).
Proof.
  induction n as [|n IH]; intros i H.
  - exists []. split; [reflexivity|split; [|intros; constructor]]. intros x. split; [intros []|intros (j & J & _); lia].
  - cbn [collect]. rewrite H by lia. cbn [bind]. destruct (IH (i + 1)) as (l & -> & M & N).
    { intros j J. apply H. lia. }
    cbn [bind]. exists (g i ++ l). split; [reflexivity|split].
    + intros x. rewrite in_app_iff, M. split.
      * intros [I|(j & J & I)]; [exists i; split; [lia|exact I]|exists j; split; [lia|exact I]].
      * intros (j & J & I). destruct (Z.eq_dec j i) as [->|NE]; [left; exact I|right; exists j; split; [lia|exact I]].
    + intros ND DJ. 
      assert (ND1 : NoDup (g i)) by (apply ND; lia).
      assert (ND2 : NoDup l).
      { apply N. - intros j J. apply ND. lia. - intros j k x J K. apply DJ; lia. }
      assert (D : forall x, In x (g i) -> ~ In x l).
      { intros x I I'. apply M in I'. destruct I' as (j & J & I'). assert (i = j) by (eapply DJ; eauto; lia). lia. }
      clear - ND1 ND2 D. induction ND1 as [|x l' NI ND1 IH]; cbn; [exact ND2|]. constructor.
      * intros I. apply in_app_or in I. destruct I as [I|I]; [contradiction|]. apply (D x); [now left|exact I].
      * apply IH. intros y Y. apply D. now right.
Qed.

Lemma collect_ub {A} (f : Z -> outcome (list A)) : forall n i,
  (forall j, i <= j < i + Z.of_nat n -> (exists l, f j = Ok l) \/ f j = UB) ->
  (exists j, i <= j < i + Z.of_nat n /\ f j = UB) -> collect f i n = UB.
Proof.
  induction n as [|n IH]; intros i H (j & J & U); [lia|]. cbn [collect].
  destruct (H i) as [(l & E)|E]; [lia| |rewrite E; reflexivity]. rewrite E. cbn [bind].
  rewrite IH; [reflexivity| |].
  - intros k K. apply H. lia.
  - exists j. split; [|exact U]. assert (j <> i) by (intros ->; congruence). lia.
Qed.

Definition wt (s : tracker_settings) (img : gray) (x y : Z) : R := match lossWeight s img x y with Ok w => w | _ => 0%R end.

Definition px_list (trackable : trackable_test) (s : tracker_settings) (cam : camera) (img : gray) (depths : dmat) (motion : se3) (x y : Z) : list tresidual :=
  if Rlt_dec 0 (dat depths x y) then
    if trackable cam x y (dat depths x y) motion then [{| r_x := x; r_y := y; r_depth := dat depths x y; r_int := gat img x y; r_weight := wt s img x y |}] else []
  else [].

Lemma gradNorm_ok img x y : 0 <= x < gcols img -> 0 <= y < grows img -> ~ on_border img x y ->
  gradNormAt img x y = Ok (sqrt (fst (central img x y) * fst (central img x y) + snd (central img x y) * snd (central img x y))).
Proof.
  intros X Y B. unfold on_border in B. unfold gradNormAt.
  assert ((1 <=? x) && (x + 1 <? gcols img) && (1 <=? y) && (y + 1 <? grows img) = true) as ->; [|reflexivity].
  rewrite !andb_true_iff, !Z.leb_le, !Z.ltb_lt. lia.
Qed.

Lemma gradNorm_ub img x y : on_border img x y -> gradNormAt img x y = UB.
Proof.
  intros B. unfold on_border in B. unfold gradNormAt.
  assert ((1 <=? x) && (x + 1 <? gcols img) && (1 <=? y) && (y + 1 <? grows img) = false) as ->; [|reflexivity].
  apply not_true_iff_false. rewrite !andb_true_iff, !Z.leb_le, !Z.ltb_lt. lia.
Qed.

(** pixels where the gradient can be taken if it is needed *)
Definition gradient_free (s : tracker_settings) (img : gray) (P : Z -> Z -> Prop) : Prop :=
  s_useGrad s = true -> (0 < s_gradC s)%R /\ forall x y, P x y -> ~ on_border img x y.

Lemma sumsq_pos (c a b : R) : (0 < c)%R -> (0 < c * c + (a * a + b * b))%R.
Proof. intros H. assert (0 < c * c)%R by nra. assert (0 <= a * a)%R by nra. assert (0 <= b * b)%R by nra. lra. Qed.

Lemma loss_ok s img x y : 0 <= x < gcols img -> 0 <= y < grows img -> (s_useGrad s = true -> (0 < s_gradC s)%R /\ ~ on_border img x y) ->
  exists w, lossWeight s img x y = Ok w /\ forall w', weight_of (s_useGrad s) (s_gradC s) img x y w' <-> w' = w.
Proof.
  intros X Y H. unfold lossWeight, weight_of. destruct (s_useGrad s).
  - destruct H as [C B]; [reflexivity|]. rewrite gradNorm_ok by assumption. cbn [bind]. eexists. split; [reflexivity|].
    set (a := fst (central img x y)). set (b := snd (central img x y)). set (c := s_gradC s) in *.
    rewrite sqrt_sqrt by nra. assert (P := sumsq_pos c a b C). assert (Q := sqrt_lt_R0 _ P).
    set (q := sqrt (c * c + (a * a + b * b))) in *. intros w'. split; [intros E|intros ->; field; lra].
    apply (Rmult_eq_reg_r q); [|lra]. rewrite E. field. lra.
  - exists 1%R. split; [reflexivity|]. intros w'. reflexivity.
Qed.

Lemma residuals_ok trackable s cam img depths motion : dcols depths = gcols img -> drows depths = grows img ->
  gradient_free s img (used_pixel trackable cam img depths motion) ->
  exists l, collect (fun y => collect (fun x => pixel_residual trackable s cam img depths motion x y) 0 (Z.to_nat (gcols img))) 0 (Z.to_nat (grows img)) = Ok l /\
    (forall r, In r l <-> tracked_pixel trackable (s_useGrad s) (s_gradC s) cam img depths motion r) /\ NoDup l.
Proof.
  intros DC DR GF.
  assert (US : forall x y, 0 <= x < gcols img -> 0 <= y < grows img -> used_pixel trackable cam img depths motion x y ->
    lossWeight s img x y = Ok (wt s img x y) /\ forall w', weight_of (s_useGrad s) (s_gradC s) img x y w' <-> w' = wt s img x y).
  { intros x y X Y U. destruct (loss_ok s img x y X Y) as (w & E & W).
    - intros G. destruct (GF G) as [C B]. split; [exact C|]. apply B, U.
    - unfold wt. rewrite E. split; [reflexivity|exact W]. }
  assert (PX : forall x y, 0 <= x < gcols img -> 0 <= y < grows img ->
    pixel_residual trackable s cam img depths motion x y = Ok (px_list trackable s cam img depths motion x y)).
  { intros x y X Y. unfold pixel_residual, px_list. rewrite DC, DR.
    assert (x <? gcols img = true) as -> by (apply Z.ltb_lt; lia). assert (y <? grows img = true) as -> by (apply Z.ltb_lt; lia).
    cbn [andb]. destruct (Rlt_dec 0 (dat depths x y)) as [P|P]; [|reflexivity]. destruct (trackable _ _ _ _ _) eqn:T; [|reflexivity].
    destruct (US x y X Y) as [-> _]; [|reflexivity]. repeat split; auto; lia. }
  assert (PIN : forall x y r, In r (px_list trackable s cam img depths motion x y) -> r_x r = x /\ r_y r = y).
  { intros x y r. unfold px_list. destruct (Rlt_dec _ _); [|intros []]. destruct (trackable _ _ _ _ _); [|intros []]. intros [<-|[]]. split; reflexivity. }
  assert (PND : forall x y, NoDup (px_list trackable s cam img depths motion x y)).
  { intros x y. unfold px_list. destruct (Rlt_dec _ _); [|constructor]. destruct (trackable _ _ _ _ _); [constructor; [intros []|constructor]|constructor]. }
  assert (ROW : forall y, 0 <= y < grows img -> exists l,
    collect (fun x => pixel_residual trackable s cam img depths motion x y) 0 (Z.to_nat (gcols img)) = Ok l /\
    (forall r, In r l <-> exists x, 0 <= x < gcols img /\ In r (px_list trackable s cam img depths motion x y)) /\ NoDup l).
  { intros y Y. destruct (collect_ok (fun x => pixel_residual trackable s cam img depths motion x y)
      (fun x => px_list trackable s cam img depths motion x y) (Z.to_nat (gcols img)) 0) as (l & E & M & N).
    - intros j J. apply PX; [lia|exact Y].
    - exists l. split; [exact E|split].
      + intros r. rewrite M. split; intros (x & X & I); exists x; (split; [lia|exact I]).
      + apply N; [intros; apply PND|]. intros j k r _ _ I J. apply PIN in I, J. lia. }
  set (row := fun y => match collect (fun x => pixel_residual trackable s cam img depths motion x y) 0 (Z.to_nat (gcols img)) with Ok l => l | _ => [] end).
  destruct (collect_ok (fun y => collect (fun x => pixel_residual trackable s cam img depths motion x y) 0 (Z.to_nat (gcols img))) row (Z.to_nat (grows img)) 0) as (l & E & M & N).
  - intros y Y. destruct (ROW y) as (r & E & _); [lia|]. unfold row. rewrite E. reflexivity.
  - exists l. split; [exact E|split].
    + intros r. rewrite M. unfold tracked_pixel. split.
      * intros (y & Y & I). destruct (ROW y) as (q & E' & M' & _); [lia|]. unfold row in I. rewrite E' in I. apply M' in I.
        destruct I as (x & X & I). pose proof (PIN _ _ _ I) as [RX RY]. unfold px_list in I.
        destruct (Rlt_dec 0 (dat depths x y)); [|destruct I]. destruct (trackable cam x y (dat depths x y) motion) eqn:T; [|destruct I].
        assert (U : used_pixel trackable cam img depths motion x y) by (repeat split; auto; lia).
        destruct I as [<-|[]]. cbn. split; [exact U|]. split; [reflexivity|split; [reflexivity|]]. apply US; [lia|lia|exact U|reflexivity].
      * intros (U & D & II & W). pose proof U as (X & Y & P & T). exists (r_y r). split; [lia|]. destruct (ROW (r_y r)) as (q & E' & M' & _); [lia|].
        unfold row. rewrite E'. apply M'. exists (r_x r). split; [exact X|]. unfold px_list.
        destruct (Rlt_dec 0 (dat depths (r_x r) (r_y r))); [|contradiction]. rewrite T. left. apply US in W; [|lia|lia|exact U]. destruct r; cbn in *. congruence.
    + apply N.
      * intros y Y. destruct (ROW y) as (q & E' & _ & ND); [lia|]. unfold row. rewrite E'. exact ND.
      * intros j k r J K I1 I2. destruct (ROW j) as (q & E1 & M1 & _); [lia|]. destruct (ROW k) as (q' & E2 & M2 & _); [lia|].
        unfold row in I1, I2. rewrite E1 in I1. rewrite E2 in I2. apply M1 in I1. apply M2 in I2.
        destruct I1 as (x & _ & I1), I2 as (x' & _ & I2). apply PIN in I1, I2. lia.
Qed.

Lemma residuals_ub trackable s cam img depths motion : dcols depths = gcols img -> drows depths = grows img ->
  s_useGrad s = true -> (exists x y, used_pixel trackable cam img depths motion x y /\ on_border img x y) ->
  collect (fun y => collect (fun x => pixel_residual trackable s cam img depths motion x y) 0 (Z.to_nat (gcols img))) 0 (Z.to_nat (grows img)) = UB.
Proof.
  intros DC DR G (x0 & y0 & (X & Y & P & T) & B).
  assert (PX : forall x y, (exists l, pixel_residual trackable s cam img depths motion x y = Ok l) \/ pixel_residual trackable s cam img depths motion x y = UB).
  { intros x y. unfold pixel_residual. destruct (_ && _); [|right; reflexivity]. destruct (Rlt_dec _ _); [|left; eauto].
    destruct (trackable cam x y (dat depths x y) motion); [|left; eauto]. unfold lossWeight. rewrite G. unfold gradNormAt. destruct (_ && _); [left; eexists; reflexivity|right; reflexivity]. }
  assert (ROW : forall y, (exists l, collect (fun x => pixel_residual trackable s cam img depths motion x y) 0 (Z.to_nat (gcols img)) = Ok l) \/
    collect (fun x => pixel_residual trackable s cam img depths motion x y) 0 (Z.to_nat (gcols img)) = UB).
  { intros y. generalize 0. induction (Z.to_nat (gcols img)) as [|n IH]; intros i; cbn [collect]; [left; eauto|].
    destruct (PX i y) as [(l & ->)| ->]; cbn [bind]; [|right; reflexivity]. destruct (IH (i + 1)) as [(l' & ->)| ->]; cbn [bind]; [left; eauto|right; reflexivity]. }
  apply collect_ub; [intros; apply ROW|]. exists y0. split; [lia|]. apply collect_ub; [intros; apply PX|]. exists x0. split; [lia|].
  unfold pixel_residual. rewrite DC, DR.
  assert (x0 <? gcols img = true) as -> by (apply Z.ltb_lt; lia). assert (y0 <? grows img = true) as -> by (apply Z.ltb_lt; lia).
  cbn [andb]. destruct (Rlt_dec 0 (dat depths x0 y0)); [|contradiction]. rewrite T. unfold lossWeight. rewrite G, gradNorm_ub by exact B. reflexivity.
Qed.

(* ---------- the levels ---------- *)

Definition event_ok (solve : level_problem -> estimate -> estimate) (trackable : trackable_test) (t : tracker) (f : preframe) (e : event) : Prop :=
  exists cam img dep fimg,
    nth_error (k_cams t) (Z.to_nat (e_level e)) = Some cam /\ nth_error (k_images t) (Z.to_nat (e_level e)) = Some img /\
    nth_error (k_depths t) (Z.to_nat (e_level e)) = Some dep /\ nth_error (f_pyr f) (Z.to_nat (e_level e)) = Some fimg /\
    e_after e = solve (e_problem e) (e_before e) /\
    l_cam (e_problem e) = cam /\ l_grid (e_problem e) = fimg /\
    l_constLight (e_problem e) = negb (s_optimizeLight (k_set t)) /\
    l_boundsA (e_problem e) = (s_minA (k_set t), s_maxA (k_set t)) /\ l_boundsB (e_problem e) = (s_minB (k_set t), s_maxB (k_set t)) /\
    NoDup (l_res (e_problem e)) /\
    forall r, In r (l_res (e_problem e)) <-> tracked_pixel trackable (s_useGrad (k_set t)) (s_gradC (k_set t)) cam img dep (fst (e_before e)) r.

Lemma track_levels_ok solve trackable t f : f_grids f = f_pyr f -> forall n cur,
  (n <= length (k_cams t))%nat -> (n <= length (k_images t))%nat -> (n <= length (k_depths t))%nat ->
  (n <= length (f_pyr f))%nat -> Z.of_nat n <= f_levelNum f ->
  (forall i img dep, nth_error (k_images t) i = Some img -> nth_error (k_depths t) i = Some dep ->
     dcols dep = gcols img /\ drows dep = grows img) ->
  (forall i img dep, nth_error (k_images t) i = Some img -> nth_error (k_depths t) i = Some dep ->
     gradient_free (k_set t) img (fun x y => 0 <= x < gcols img /\ 0 <= y < grows img /\ (0 < dat dep x y)%R)) ->
  exists es fin, track_levels solve trackable t f n cur = Ok (es, fin) /\
    map e_level es = map Z.of_nat (rev (seq 0 n)) /\ chained cur es fin /\ Forall (event_ok solve trackable t f) es.
Proof.
  intros FG. induction n as [|n IH]; intros cur H1 H2 H3 H4 H5 SZ GF.
  - exists [], cur. repeat split. constructor.
  - cbn [track_levels].
    destruct (at_ok (k_cams t) (Z.of_nat n)) as (cam & -> & N1); [lia|].
    destruct (at_ok (k_images t) (Z.of_nat n)) as (img & -> & N2); [lia|].
    destruct (at_ok (k_depths t) (Z.of_nat n)) as (dep & -> & N3); [lia|].
    destruct (at_ok (f_pyr f) (Z.of_nat n)) as (fimg & E4 & N4); [lia|]. rewrite E4. cbn [bind].
    unfold trackPyrLevel, interpolator.
    assert ((0 <=? Z.of_nat n) && (Z.of_nat n <? f_levelNum f) = true) as ->.
    { apply andb_true_iff. split; [apply Z.leb_le|apply Z.ltb_lt]; lia. }
    rewrite FG, E4. cbn [bind]. destruct (SZ _ _ _ N2 N3) as [S1 S2].
    assert (G1 : gradient_free (k_set t) img (used_pixel trackable cam img dep (fst cur))).
    { intros G. destruct (GF _ _ _ N2 N3 G) as [C B]. split; [exact C|]. intros x y (X & Y & P & _). apply B. auto. }
    destruct (residuals_ok trackable (k_set t) cam img dep (fst cur) S1 S2 G1) as (res & -> & M & ND). cbn [bind fst snd].
    set (pr := {| l_cam := cam; l_grid := fimg; l_res := res |}).
    destruct (IH (solve pr cur)) as (es & fin & -> & L & C & F); try lia; [exact SZ|exact GF|]. cbn [bind fst snd].
    eexists _, fin. split; [reflexivity|split; [|split]].
    + rewrite seq_S, rev_app_distr. cbn [map rev app e_level]. rewrite L. reflexivity.
    + cbn. split; [reflexivity|exact C].
    + constructor; [|exact F]. exists cam, img, dep, fimg. cbn. repeat split; auto; apply M; assumption.
Qed.

(** out of the range of the frame *)
Lemma track_levels_ub solve trackable t f n cur :
  (length (f_pyr f) < n)%nat -> (n <= length (k_cams t))%nat -> (n <= length (k_images t))%nat -> (n <= length (k_depths t))%nat ->
  track_levels solve trackable t f n cur = UB.
Proof.
  intros H H1 H2 H3. destruct n as [|n]; [lia|]. cbn [track_levels].
  destruct (at_ok (k_cams t) (Z.of_nat n)) as (cam & -> & N1); [lia|].
  destruct (at_ok (k_images t) (Z.of_nat n)) as (img & -> & N2); [lia|].
  destruct (at_ok (k_depths t) (Z.of_nat n)) as (dep & -> & N3); [lia|].
  cbn [bind]. rewrite at_ub by lia. reflexivity.
Qed.

Lemma base_pyramid base n points ds ws : 1 <= n -> valid_base base points ds ws ->
  exists images depths, depthedImagePyramid base n points ds ws = Ok (images, depths) /\ imagePyramid base n = Ok images /\
    length images = Z.to_nat n /\ length depths = Z.to_nat n /\
    (forall i img dep, nth_error images i = Some img -> nth_error depths i = Some dep -> dcols dep = gcols img /\ drows dep = grows img).
Proof.
  intros N (R & C & L1 & L2 & IN). destruct (depth_pyramid base n points ds ws N L1 L2 IN) as (images & depths & D & W & E & EI & LD & _ & Z0 & ZL).
  destruct (pyramid_levels base n N) as (images' & E' & LI & N0). rewrite E' in EI. injection EI as ->.
  exists images, depths. repeat split; auto; revert H H0.
  - intros H H0. destruct (pyramid_sizes base n images i img R C E' H) as [A B]. destruct i as [|i].
    + destruct Z0 as (m & M & M1 & _). rewrite H0 in M. injection M as ->. rewrite N0 in H. injection H as ->. exact M1.
    + destruct (ZL (S i) dep) as (M1 & _); [lia|exact H0|]. congruence.
  - intros H H0. destruct (pyramid_sizes base n images i img R C E' H) as [A B]. destruct i as [|i].
    + destruct Z0 as (m & M & _ & M1 & _). rewrite H0 in M. injection M as ->. rewrite N0 in H. injection H as ->. exact M1.
    + destruct (ZL (S i) dep) as (_ & M1 & _); [lia|exact H0|]. congruence.
Qed.

(* ---------- in the system ---------- *)

Lemma camPyr_length cam n : length (camPyr cam n) = n.
Proof. unfold camPyr. rewrite map_length, seq_length. reflexivity. Qed.

Lemma system_ok solve trackable s cam base points ds ws frame coarse images depths fimages :
  2 <= s_levelNum s <= 6 -> valid_base base points ds ws ->
  depthedImagePyramid base (s_levelNum s) points ds ws = Ok (images, depths) -> borders_free s images depths ->
  imagePyramid frame 6 = Ok fimages ->
  exists es fin, track_in_system solve trackable s cam base points ds ws frame coarse = Ok (es, fin) /\
    map e_level es = map Z.of_nat (rev (seq 0 (Z.to_nat (s_levelNum s)))) /\ chained coarse es fin /\
    forall e, In e es -> well_posed solve trackable s cam images depths fimages e.
Proof.
  intros N V D BF FI. destruct (base_pyramid base (s_levelNum s) points ds ws) as (im & de & D' & I & LI & LD & SZ); [lia|exact V|].
  rewrite D in D'. injection D' as <- <-.
  unfold track_in_system. assert (s_levelNum s <? 0 = false) as -> by (apply Z.ltb_ge; lia). rewrite D. cbn [bind].
  unfold new_tracker. destruct (at_ok (camPyr cam (Z.to_nat (s_levelNum s))) 1) as (c1 & -> & _); [rewrite camPyr_length; lia|]. cbn [bind fst snd].
  change default_levelNum with 6. destruct (new_preframe_ok frame 6) as (f & -> & FI' & FG & FL & FN); [lia|]. rewrite FI in FI'. injection FI' as ->. cbn [bind].
  unfold trackFrame. cbn [k_set].
  set (t := {| k_cams := camPyr cam (Z.to_nat (s_levelNum s)); k_images := images; k_depths := depths; k_set := s |}).
  destruct (track_levels_ok solve trackable t f FG (Z.to_nat (s_levelNum s)) coarse) as (es & fin & E & L & C & F); cbn [t k_cams k_images k_depths k_set].
  - rewrite camPyr_length. lia.
  - lia.
  - lia.
  - rewrite FN. lia.
  - rewrite FL. lia.
  - exact SZ.
  - intros i img dep H1 H2 G. destruct (BF G) as [C B]. split; [exact C|]. intros x y (X & Y & P) O. specialize (B i img dep x y H1 H2 X Y O). lra.
  - exists es, fin. split; [exact E|split; [exact L|split; [exact C|]]]. intros e IE.
    rewrite Forall_forall in F. destruct (F e IE) as (cam' & img & dep & fimg & A1 & A2 & A3 & A4 & A5 & A6 & A7 & A8 & A9 & A10 & A11 & A12).
    exists img, dep, fimg. cbn [t k_cams k_images k_depths k_set] in *.
    assert (cam' = pyr_camera cam (Z.to_nat (e_level e))).
    { assert (IL : In (e_level e) (map e_level es)) by (apply in_map, IE). rewrite L in IL. apply in_map_iff in IL.
      destruct IL as (k & EK & IK). rewrite <- in_rev, in_seq in IK. rewrite <- EK, Nat2Z.id in *. rewrite camPyr_nth in A1 by lia. congruence. }
    rewrite H in A6, A12. cbn zeta. exact (conj A2 (conj A3 (conj A4 (conj A5 (conj A6 (conj A7 (conj A8 (conj A9 (conj A10 (conj A11 A12)))))))))).
Qed.

Lemma system_ub solve trackable s cam base points ds ws frame coarse :
  6 < s_levelNum s -> valid_base base points ds ws ->
  track_in_system solve trackable s cam base points ds ws frame coarse = UB.
Proof.
  intros N V. destruct (base_pyramid base (s_levelNum s) points ds ws) as (im & de & D & I & LI & LD & SZ); [lia|exact V|].
  unfold track_in_system. assert (s_levelNum s <? 0 = false) as -> by (apply Z.ltb_ge; lia). rewrite D. cbn [bind].
  unfold new_tracker. destruct (at_ok (camPyr cam (Z.to_nat (s_levelNum s))) 1) as (c1 & -> & _); [rewrite camPyr_length; lia|]. cbn [bind fst snd].
  change default_levelNum with 6. destruct (new_preframe_ok frame 6) as (f & -> & FI & FG & FL & FN); [lia|]. cbn [bind]. unfold trackFrame. cbn [k_set].
  apply track_levels_ub; cbn [k_cams k_images k_depths]; rewrite ?camPyr_length; try lia. all: rewrite FN; lia.
Qed.

Lemma system_one solve trackable s cam base points ds ws frame coarse :
  s_levelNum s = 1 -> valid_base base points ds ws ->
  track_in_system solve trackable s cam base points ds ws frame coarse = UB.
Proof.
  intros N V. destruct (base_pyramid base (s_levelNum s) points ds ws) as (im & de & D & I & LI & LD & SZ); [lia|exact V|].
  unfold track_in_system. assert (s_levelNum s <? 0 = false) as -> by (apply Z.ltb_ge; lia). rewrite D. cbn [bind].
  unfold new_tracker. rewrite at_ub; [reflexivity|]. rewrite camPyr_length. lia.
Qed.

Lemma system_none solve trackable s cam base points ds ws frame coarse :
  s_levelNum s <= 0 -> forall r, track_in_system solve trackable s cam base points ds ws frame coarse <> Ok r.
Proof.
  intros N r. unfold track_in_system. destruct (s_levelNum s <? 0) eqn:E; [discriminate|]. apply Z.ltb_ge in E.
  replace (s_levelNum s) with 0 by lia. destruct (depthedImagePyramid base 0 points ds ws); discriminate.
Qed.

(** gradient weighting on the border of the coarsest level *)
Lemma system_border solve trackable s cam base points ds ws frame coarse images depths img dep x y :
  2 <= s_levelNum s <= 6 -> valid_base base points ds ws ->
  depthedImagePyramid base (s_levelNum s) points ds ws = Ok (images, depths) ->
  let l := Z.to_nat (s_levelNum s - 1) in
  nth_error images l = Some img -> nth_error depths l = Some dep ->
  s_useGrad s = true -> used_pixel trackable (pyr_camera cam l) img dep (fst coarse) x y -> on_border img x y ->
  track_in_system solve trackable s cam base points ds ws frame coarse = UB.
Proof.
  intros N V D l HI HD G U B. destruct (base_pyramid base (s_levelNum s) points ds ws) as (im & de & D' & I & LI & LD & SZ); [lia|exact V|].
  rewrite D in D'. injection D' as <- <-.
  unfold track_in_system. assert (s_levelNum s <? 0 = false) as -> by (apply Z.ltb_ge; lia). rewrite D. cbn [bind].
  unfold new_tracker. destruct (at_ok (camPyr cam (Z.to_nat (s_levelNum s))) 1) as (c1 & -> & _); [rewrite camPyr_length; lia|]. cbn [bind fst snd].
  change default_levelNum with 6. destruct (new_preframe_ok frame 6) as (f & -> & FI' & FG & FL & FN); [lia|]. cbn [bind].
  unfold trackFrame. cbn [k_set]. replace (Z.to_nat (s_levelNum s)) with (S l) at 2 by (unfold l; lia). cbn [track_levels k_cams k_images k_depths].
  assert (AT : forall A (q : list A) v, nth_error q l = Some v -> at_ q (Z.of_nat l) = Ok v).
  { intros A q v H. unfold at_. destruct (Z.of_nat l <? 0) eqn:E; [apply Z.ltb_lt in E; lia|]. rewrite Nat2Z.id, H. reflexivity. }
  rewrite (AT _ _ (pyr_camera cam l)) by (apply camPyr_nth; unfold l; lia). cbn [bind]. rewrite (AT _ _ _ HI), (AT _ _ _ HD). cbn [bind].
  destruct (at_ok (f_pyr f) (Z.of_nat l)) as (fimg & E4 & N4); [rewrite FN; unfold l; lia|]. rewrite E4. cbn [bind].
  unfold trackPyrLevel, interpolator.
  assert ((0 <=? Z.of_nat l) && (Z.of_nat l <? f_levelNum f) = true) as ->.
  { apply andb_true_iff. split; [apply Z.leb_le|apply Z.ltb_lt]; [lia|]. rewrite FL. unfold l. lia. }
  rewrite FG, E4. cbn [bind]. destruct (SZ _ _ _ HI HD) as [S1 S2].
  rewrite residuals_ub; [reflexivity|exact S1|exact S2|exact G|eauto].
Qed.

(* ---------- light ---------- *)

Lemma light_constant solve : level_solver solve -> forall es a b,
  (forall e, In e es -> e_after e = solve (e_problem e) (e_before e) /\ l_constLight (e_problem e) = true) ->
  chained a es b -> snd b = snd a.
Proof.
  intros SV. induction es as [|e es IH]; intros a b H C; cbn in C; [subst; reflexivity|]. destruct C as [<- C].
  transitivity (snd (e_after e)).
  - apply IH; [|exact C]. intros e' I. apply H. now right.
  - destruct (H e) as [E L]; [now left|]. rewrite E. apply SV, L.
Qed.

Lemma light_bounds solve la lb : level_solver solve -> forall es a b,
  (forall e, In e es -> e_after e = solve (e_problem e) (e_before e) /\ l_boundsA (e_problem e) = la /\ l_boundsB (e_problem e) = lb) ->
  chained a es b ->
  b = a \/ ((fst la <= fst (snd b) <= snd la)%R /\ (fst lb <= snd (snd b) <= snd lb)%R).
Proof.
  intros SV. induction es as [|e es IH]; intros a b H C; cbn in C; [left; exact C|]. destruct C as [<- C].
  destruct (IH (e_after e) b) as [->|B]; [|exact C| |right; exact B].
  - intros e' I. apply H. now right.
  - destruct (H e) as (E & LA & LB); [now left|]. rewrite E. destruct (SV (e_problem e) (e_before e)) as (_ & [->|B]); [left; reflexivity|].
    right. rewrite LA, LB in B. exact B.
Qed.

Lemma weight_range weighted c img x y w : (0 < c)%R -> weight_of weighted c img x y w -> (0 < w <= 1)%R.
Proof.
  unfold weight_of. intros C. destruct weighted; [|intros ->; lra].
  set (a := fst _). set (b := snd _). assert (P := sumsq_pos c a b C). assert (Q := sqrt_lt_R0 _ P).
  set (q := sqrt _) in *. intros E.
  assert (LE : (c <= q)%R).
  { unfold q. rewrite <- (sqrt_square c) at 1 by lra. apply sqrt_le_1_alt. nra. }
  split.
  - destruct (Rlt_le_dec 0 w) as [H|H]; [exact H|]. nra.
  - destruct (Rle_lt_dec w 1) as [H|H]; [exact H|]. nra.
Qed.

Lemma weight_flat c img x y w : (0 < c)%R -> weight_of true c img x y w -> (w = 1%R <-> central img x y = (0, 0)%R).
Proof.
  unfold weight_of. intros C. destruct (central img x y) as [a b]. cbn [fst snd]. assert (P := sumsq_pos c a b C). assert (Q := sqrt_lt_R0 _ P).
  intros E. split.
  - intros ->. rewrite Rmult_1_l in E. assert (SQ := sqrt_sqrt _ (Rlt_le _ _ P)). rewrite E in SQ.
    assert (0 <= a * a)%R by nra. assert (0 <= b * b)%R by nra. assert (a * a = 0)%R by lra. assert (b * b = 0)%R by lra. f_equal; nra.
  - intros H. injection H as -> ->. replace (c * c + (0 * 0 + 0 * 0))%R with (c * c)%R in E by ring. rewrite sqrt_square in E by lra.
    apply (Rmult_eq_reg_r c); lra.
Qed.
