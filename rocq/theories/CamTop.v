(** The lemmas about the camera in the form used by the property theorems. *)
From Coq Require Import Reals ZArith QArith List Bool Lra Lia Psatz Sorting.Sorted.
From Verif Require Import Outcome Pose PoseProofs GeomModel GeomSpec GeomProofs GeomExamples SphereModel SphereSpec SphereProofs
  CamModel CamSpec CamProofs PyramidModel PyramidProofs.
Import ListNotations.
Close Scope Q_scope.
Open Scope R_scope.

Lemma sq_sum a b : 0 <= a * a + b * b.
Proof. pose proof (Rle_0_sqr a). pose proof (Rle_0_sqr b). unfold Rsqr in *. lra. Qed.
Lemma sq_pos a : 0 <= a * a.
Proof. exact (Rle_0_sqr a). Qed.

Lemma raw_wf w h sc ctr coeffs : coeffs <> [] -> wf (raw w h sc ctr coeffs).
Proof. intros N. left. split; [reflexivity|exact N]. Qed.
Lemma pinhole_wf w h f cx cy : wf (pinhole_raw w h f cx cy).
Proof. right. split; reflexivity. Qed.

Lemma new_unmap samples fit c0 c u : new_camera samples fit c0 = Ok c -> unmap c u = unmap (normalize c0) u.
Proof. intros H. rewrite (new_camera_fields _ _ _ _ H). reflexivity. Qed.

Lemma new_wf samples fit c0 c : wf c0 -> new_camera samples fit c0 = Ok c -> wf c.
Proof. intros W H. pose proof (normalize_wf _ W) as W'. rewrite (new_camera_fields _ _ _ _ H). exact W'. Qed.

Lemma lift_raw samples fit w h sc cx cy coeffs c : coeffs <> [] -> 0 < sc -> (0 < w)%Z ->
  new_camera samples fit (raw w h sc (P2 cx cy) coeffs) = Ok c ->
  exists k, 0 < k /\ forall u, unmap c u = vscale k (lifted coeffs sc cx cy u).
Proof.
  intros N S W H. destruct (normalize_ray (raw w h sc (P2 cx cy) coeffs) (raw_wf _ _ _ _ _ N) S W) as (k & K & E).
  exists k. split; [exact K|]. intros u. rewrite (new_unmap _ _ _ _ u H), E.
  rewrite (unmap_lifted _ _ (raw_wf _ _ _ _ _ N)). reflexivity.
Qed.

Lemma lift_pinhole samples fit w h f cx cy c : (0 < w)%Z ->
  new_camera samples fit (pinhole_raw w h f cx cy) = Ok c ->
  exists k, 0 < k /\ forall u, unmap c u = vscale k (V3 (px u - cx) (py u - cy) f).
Proof.
  intros W H. destruct (normalize_ray (pinhole_raw w h f cx cy) (pinhole_wf _ _ _ _ _) Rlt_0_1 W) as (k & K & E).
  exists k. split; [exact K|]. intros u. rewrite (new_unmap _ _ _ _ u H), E.
  rewrite (unmap_lifted _ _ (pinhole_wf _ _ _ _ _)). unfold lifted. cbn [pinhole_raw center scale unmapPolyCoeffs px py calibration power_sum].
  f_equal. f_equal; field.
Qed.

Lemma lift_own samples fit w h sc cx cy coeffs c u : coeffs <> [] ->
  new_camera samples fit (raw w h sc (P2 cx cy) coeffs) = Ok c ->
  unmap c u = lifted (unmapPolyCoeffs c) (scale c) (px (center c)) (py (center c)) u.
Proof. intros N H. apply unmap_lifted. eapply new_wf; [|exact H]. apply raw_wf, N. Qed.

Lemma radius_raw samples fit w h sc cx cy coeffs c u : coeffs <> [] -> 0 < sc -> (0 < w)%Z ->
  new_camera samples fit (raw w h sc (P2 cx cy) coeffs) = Ok c -> in_image w h u ->
  sqrt (vx (unmap c u) * vx (unmap c u) + vy (unmap c u) * vy (unmap c u)) <= 1.
Proof.
  intros N S W H I. rewrite (new_unmap _ _ _ _ u H). apply (normalize_radius _ u (raw_wf _ _ _ _ _ N) S W I).
Qed.

Lemma radius_raw_tight samples fit w h sc cx cy coeffs c : coeffs <> [] -> 0 < sc -> (0 < w)%Z -> (0 < h)%Z ->
  new_camera samples fit (raw w h sc (P2 cx cy) coeffs) = Ok c ->
  exists u, in_image w h u /\ sqrt (vx (unmap c u) * vx (unmap c u) + vy (unmap c u) * vy (unmap c u)) = 1.
Proof.
  intros N S W HD H. destruct (normalize_radius_tight _ (raw_wf w h sc (P2 cx cy) _ N) S W HD) as (u & I & E).
  exists u. split; [exact I|]. rewrite (new_unmap _ _ _ _ u H). exact E.
Qed.

(** ** The corner radius *)
Lemma corner_radius_unique w h sc cx cy a b : (0 <= w)%Z -> (0 <= h)%Z ->
  corner_radius w h sc cx cy a -> corner_radius w h sc cx cy b -> a = b.
Proof.
  intros W H [(u & UX & UY & UE) UA] [(v & VX & VY & VE) VA].
  assert (X : forall u, (px u = 0 \/ px u = IZR w) -> (py u = 0 \/ py u = IZR h) -> in_image w h u).
  { intros t TX TY. apply IZR_le in W, H. unfold in_image. destruct TX as [-> | ->], TY as [-> | ->]; lra. }
  pose proof (UA v (X v VX VY)). pose proof (VA u (X u UX UY)). lra.
Qed.

Lemma new_corner w h sc cx cy coeffs : 0 < sc -> (0 < w)%Z -> (0 <= h)%Z ->
  corner_radius w h sc cx cy (new_scale (raw w h sc (P2 cx cy) coeffs) / sc).
Proof.
  intros S W H. unfold new_scale, normalize. cbn [scale raw width height center px py].
  set (dist := fun x y => sqrt ((x - cx * sc) * (x - cx * sc) + (y - cy * sc) * (y - cy * sc))).
  assert (D : forall x y, off_axis sc cx cy (P2 x y) = dist x y / sc).
  { intros x y. unfold off_axis, dist. cbn [px py].
    replace ((x / sc - cx) * (x / sc - cx) + (y / sc - cy) * (y / sc - cy))
      with (((x - cx * sc) * (x - cx * sc) + (y - cy * sc) * (y - cy * sc)) * (/ sc * / sc)) by (field; lra).
    assert (0 < / sc) by (apply Rinv_0_lt_compat, S). rewrite sqrt_mult by first [apply sq_sum | apply sq_pos]. rewrite sqrt_square by lra. reflexivity. }
  split.
  - assert (M : forall a b, Rmax a b = a \/ Rmax a b = b) by (intros a b; unfold Rmax; destruct (Rle_dec a b); auto).
    match goal with |- context [Rmax (Rmax ?a ?b) (Rmax ?d ?e)] =>
      destruct (M (Rmax a b) (Rmax d e)) as [->| ->]; [destruct (M a b) as [->| ->]|destruct (M d e) as [->| ->]] end.
    + exists (P2 0 0). rewrite D. cbn [px py]. auto.
    + exists (P2 (IZR w) 0). rewrite D. cbn [px py]. auto.
    + exists (P2 0 (IZR h)). rewrite D. cbn [px py]. auto.
    + exists (P2 (IZR w) (IZR h)). rewrite D. cbn [px py]. auto.
  - intros [x y] [X Y]. rewrite D. cbn [px py] in X, Y. unfold Rdiv. apply Rmult_le_compat_r.
    + left. apply Rinv_0_lt_compat, S.
    + apply (corner_le (cx * sc) (cy * sc) (IZR w) (IZR h) x y X Y).
Qed.

Lemma profile_scaled w h sc cx cy coeffs r : coeffs <> [] -> 0 < sc -> (0 < w)%Z ->
  let c := raw w h sc (P2 cx cy) coeffs in let s := new_scale c / sc in
  profile (normalize c) r = calibration coeffs (s * r) / s.
Proof.
  intros N S W c s. pose proof (new_scale_pos c W) as NS.
  assert (SP : 0 < s) by (apply Rdiv_lt_0_compat; assumption).
  pose proof (scaled_calibration c s (s * r) (raw_wf _ _ _ _ _ N)) as E. cbn [unmapPolyCoeffs raw c] in E. rewrite <- E by lra.
  unfold profile. replace (s * r / s) with r by (field; lra).
  assert (PC : unmapPolyCoeffs (normalize c) = scale_coeffs (unmapPolyDeg c) s (/ s) (unmapPolyCoeffs c)).
  { unfold normalize. cbn [unmapPolyCoeffs]. change (Rmax _ _) with (new_scale c).
    change (scale c) with sc. fold s. replace (sc / new_scale c) with (/ s); [reflexivity|]. unfold s. field. split; lra. }
  rewrite PC. reflexivity.
Qed.

Lemma no_wider_scaled P P' s r r' : 0 < s -> (forall r, P' r = P (s * r) / s) ->
  (no_wider P' r r' <-> no_wider P (s * r) (s * r')).
Proof.
  intros S E. unfold no_wider. rewrite !E.
  assert (X : forall a b, b / s / sqrt (a * a + b / s * (b / s)) = b / sqrt (s * a * (s * a) + b * b)).
  { intros a b. replace (a * a + b / s * (b / s)) with ((s * a * (s * a) + b * b) * (/ s * / s)) by (field; lra).
    assert (IS : 0 < / s) by (apply Rinv_0_lt_compat, S). rewrite sqrt_mult by first [apply sq_sum | apply sq_pos]. rewrite sqrt_square by lra.
    set (q := sqrt _). destruct (Req_dec q 0) as [Z|Z].
    - rewrite Z. unfold Rdiv. rewrite Rmult_0_l. rewrite Rinv_0. ring.
    - field. split; lra. }
  rewrite !X. tauto.
Qed.

Lemma max_angle_raw samples fit w h sc cx cy coeffs c R0 u : coeffs <> [] -> 0 < sc -> (0 < w)%Z -> (0 < h)%Z ->
  new_camera samples fit (raw w h sc (P2 cx cy) coeffs) = Ok c ->
  corner_radius w h sc cx cy R0 -> calibration coeffs 0 <> 0 -> widening (calibration coeffs) R0 ->
  in_image w h u -> in_sector (maxAngle c) (unmap c u).
Proof.
  intros N S W HD H CR A0 WI I. set (c0 := raw w h sc (P2 cx cy) coeffs) in *.
  assert (R0 = new_scale c0 / sc).
  { apply (corner_radius_unique w h sc cx cy); try lia; [exact CR|]. apply new_corner; try assumption. lia. }
  subst R0. set (s := new_scale c0 / sc) in *. pose proof (new_scale_pos c0 W) as NS.
  assert (SP : 0 < s) by (apply Rdiv_lt_0_compat; assumption).
  rewrite (new_unmap _ _ _ _ u H). assert (MA : maxAngle c = maxAngle (normalize c0)) by (rewrite (new_camera_fields _ _ _ _ H); reflexivity).
  rewrite MA. apply max_angle; try assumption.
  - apply raw_wf, N.
  - intros r r' R1 R2 R3. apply (no_wider_scaled (calibration coeffs) _ s r r' SP).
    + intros t. apply (profile_scaled w h sc cx cy coeffs t N S W).
    + apply WI; nra.
Qed.

(** ** Projection *)
Lemma back_raw samples fit w h sc cx cy coeffs c u k t : coeffs <> [] -> 0 < sc -> (0 < w)%Z ->
  new_camera samples fit (raw w h sc (P2 cx cy) coeffs) = Ok c ->
  let v := unmap c u in let r := sqrt (vx v * vx v + vy v * vy v) in
  0 < k -> 0 < r -> 0 <= t <= PI -> cos t * vnorm v = vz v ->
  distance_pt (map_ray c (vscale k v)) u = scale c * Rabs (polynomial (mapPolyCoeffs c) t - r).
Proof.
  intros N S W H v r K R T C. apply round_trip; try assumption.
  - eapply new_wf; [|exact H]. apply raw_wf, N.
  - rewrite (new_camera_fields _ _ _ _ H). cbn [scale]. apply (new_scale_pos (raw w h sc (P2 cx cy) coeffs) W).
Qed.

Lemma back_axis samples fit w h sc cx cy coeffs c k : coeffs <> [] -> 0 < sc -> (0 < w)%Z ->
  new_camera samples fit (raw w h sc (P2 cx cy) coeffs) = Ok c ->
  let u := P2 (cx * sc) (cy * sc) in map_ray c (vscale k (unmap c u)) = u.
Proof.
  intros N S W H u. pose proof (new_scale_pos (raw w h sc (P2 cx cy) coeffs) W) as NS.
  apply round_trip_axis.
  - rewrite (new_camera_fields _ _ _ _ H). exact NS.
  - rewrite (new_unmap _ _ _ _ u H). rewrite (normalized_radius _ u (raw_wf _ _ _ _ _ N) S W).
    unfold u. cbn [raw center px py scale]. rewrite !Rminus_diag_eq by reflexivity. rewrite Rmult_0_l, Rplus_0_l, sqrt_0. unfold Rdiv. ring.
Qed.

Lemma new_scale_value samples fit w h sc cx cy coeffs c R0 : 0 < sc -> (0 < w)%Z -> (0 <= h)%Z ->
  new_camera samples fit (raw w h sc (P2 cx cy) coeffs) = Ok c -> corner_radius w h sc cx cy R0 -> scale c = sc * R0.
Proof.
  intros S W HD H CR. set (c0 := raw w h sc (P2 cx cy) coeffs) in *.
  assert (R0 = new_scale c0 / sc).
  { apply (corner_radius_unique w h sc cx cy); try lia; [exact CR|]. apply new_corner; assumption. }
  subst R0. rewrite (new_camera_fields _ _ _ _ H). cbn [scale]. change (scale (normalize c0)) with (new_scale c0). field. lra.
Qed.

(** ** The check *)
Lemma check_raw samples fit w h sc cx cy coeffs R0 : coeffs <> [] -> 0 < sc -> (0 < w)%Z -> (0 <= h)%Z ->
  corner_radius w h sc cx cy R0 -> calibration coeffs 0 <> 0 ->
  Sorted Rle samples -> Forall (fun r => 0 <= r <= 1) samples ->
  ((exists c, new_camera samples fit (raw w h sc (P2 cx cy) coeffs) = Ok c) <->
   forall i j r r', (i < j)%nat -> nth_error samples i = Some r -> nth_error samples j = Some r' ->
     no_wider (calibration coeffs) (R0 * r) (R0 * r')).
Proof.
  intros N S W HD CR A0 ST F. set (c0 := raw w h sc (P2 cx cy) coeffs) in *.
  assert (R0 = new_scale c0 / sc).
  { apply (corner_radius_unique w h sc cx cy); try lia; [exact CR|]. apply new_corner; assumption. }
  subst R0. set (s := new_scale c0 / sc) in *. pose proof (new_scale_pos c0 W) as NS.
  assert (SP : 0 < s) by (apply Rdiv_lt_0_compat; assumption).
  assert (PS : forall t, profile (normalize c0) t = calibration coeffs (s * t) / s).
  { intros t. apply (profile_scaled w h sc cx cy coeffs t N S W). }
  rewrite (check_exact samples fit c0 (raw_wf _ _ _ _ _ N) S W).
  - split; intros X i j r r' L A B; specialize (X i j r r' L A B); apply (no_wider_scaled (calibration coeffs) _ s r r' SP PS); exact X.
  - exact ST.
  - eapply Forall_impl; [|exact F]. intros r ?. cbn in *. lra.
  - apply Forall_forall. intros r _. destruct (Req_dec r 0) as [E|E]; [right|left; exact E].
    rewrite PS, E, Rmult_0_r. intros Z. apply A0. apply Rmult_eq_reg_r with (/ s); [|apply Rinv_neq_0_compat; lra]. unfold Rdiv in Z. lra.
Qed.

Lemma widening_accepted samples fit w h sc cx cy coeffs R0 : coeffs <> [] -> 0 < sc -> (0 < w)%Z -> (0 <= h)%Z ->
  corner_radius w h sc cx cy R0 -> calibration coeffs 0 <> 0 -> widening (calibration coeffs) R0 ->
  Sorted Rle samples -> Forall (fun r => 0 <= r <= 1) samples ->
  exists c, new_camera samples fit (raw w h sc (P2 cx cy) coeffs) = Ok c.
Proof.
  intros N S W HD CR A0 WI ST F. apply (check_raw samples fit w h sc cx cy coeffs R0 N S W HD CR A0 ST F).
  intros i j r r' L A B.
  assert (LE : r <= r').
  { apply Sorted_StronglySorted in ST; [|intros x y z; apply Rle_trans]. clear - ST L A B. revert i j L A B.
    induction ST as [|x l ST IH F]; intros i j L A B; [destruct i; discriminate|].
    destruct j as [|j]; [lia|]. destruct i as [|i]; cbn in *.
    - injection A as <-. rewrite Forall_forall in F. apply F. eapply nth_error_In, B.
    - apply (IH i j); try assumption; lia. }
  rewrite Forall_forall in F. apply nth_error_In in A, B. pose proof (F _ A). pose proof (F _ B).
  assert (0 <= R0). { destruct CR as [(u & _ & _ & <-) _]. apply sqrt_pos. }
  apply WI; nra.
Qed.

(** A polynomial that turns back between the two samples. *)
Definition bent : list R := [1; -15; 14].
Lemma bent_missed fit : exists w h sc cx cy R0, 0 < sc /\ (0 < w)%Z /\ (0 < h)%Z /\ corner_radius w h sc cx cy R0 /\
  calibration bent 0 <> 0 /\ ~ widening (calibration bent) R0 /\
  Sorted Rle [0; 1] /\ exists c, new_camera [0; 1] fit (raw w h sc (P2 cx cy) bent) = Ok c.
Proof.
  exists 3%Z, 4%Z, 5, 0, 0, 1.
  assert (CR : corner_radius 3 4 5 0 0 1).
  { pose proof (new_corner 3 4 5 0 0 bent ltac:(lra) ltac:(lia) ltac:(lia)) as H.
    split.
    - exists (P2 3 4). cbn [px py]. split; [right; reflexivity|]. split; [right; reflexivity|].
      unfold off_axis. cbn [px py]. replace (_ + _) with (1 * 1) by field. apply sqrt_square. lra.
    - intros [x y] [X Y]. cbn [px py] in X, Y. unfold off_axis. cbn [px py]. rewrite <- sqrt_1. apply sqrt_le_1_alt. nra. }
  assert (C0 : calibration bent 0 = 1) by (unfold bent; cbn; ring).
  assert (C1 : calibration bent 1 = 0) by (unfold bent; cbn; ring).
  split; [lra|]. split; [lia|]. split; [lia|]. split; [exact CR|]. split; [lra|]. split.
  - intros WI. specialize (WI (1 / 2) 1 ltac:(lra) ltac:(lra) ltac:(lra)). unfold no_wider in WI.
    assert (CH : calibration bent (1 / 2) = - 1) by (unfold bent; cbn; field).
    rewrite C1, CH in WI.
    assert (0 < / sqrt (1 / 2 * (1 / 2) + -1 * -1)) by (apply Rinv_0_lt_compat, sqrt_lt_R0; lra). unfold Rdiv at 1 in WI. rewrite Rmult_0_l in WI. unfold Rdiv in WI. nra.
  - split; [repeat constructor; lra|].
    apply (check_raw [0; 1] fit 3 4 5 0 0 bent 1); try lra; try lia; try exact CR; try discriminate.
    + repeat constructor; lra.
    + repeat constructor; lra.
    + intros i j r r' L A B. destruct j as [|[|j]]; [lia| |destruct j; discriminate].
      destruct i as [|i]; [|lia]. injection A as <-. injection B as <-. unfold no_wider.
      rewrite Rmult_0_r, Rmult_1_r, C0, C1. unfold Rdiv. rewrite Rmult_0_l.
      assert (0 < / sqrt (0 * 0 + 1 * 1)) by (apply Rinv_0_lt_compat, sqrt_lt_R0; lra). lra.
Qed.

(** ** Sizes of the pyramids *)
Lemma insert_sizes pts : forall d w d' w', insert_points pts d w = Ok (d', w') ->
  (drows d' = drows d /\ dcols d' = dcols d) /\ (drows w' = drows w /\ dcols w' = dcols w).
Proof.
  assert (DS : forall m p v m', dset m p v = Ok m' -> drows m' = drows m /\ dcols m' = dcols m).
  { intros m [x y] v m'. unfold dset. destruct (_ && _)%bool; [|discriminate]. intros H. injection H as <-. split; reflexivity. }
  induction pts as [|[[p dv] wv] pts IH]; intros d w d' w' H; cbn [insert_points] in H.
  - injection H as <- <-. auto.
  - destruct (dset d (toCvPoint p) dv) as [d1| | | |] eqn:E1; cbn [bind] in H; try discriminate.
    destruct (dset w (toCvPoint p) wv) as [w1| | | |] eqn:E2; cbn [bind] in H; try discriminate.
    apply IH in H. apply DS in E1, E2. destruct H as [[H1 H2] [H3 H4]], E1, E2. repeat split; congruence.
Qed.

Lemma depth_sizes base L points ds ws images depths l m : (0 <= grows base)%Z -> (0 <= gcols base)%Z ->
  depthedImagePyramid base L points ds ws = Ok (images, depths) -> nth_error depths l = Some m ->
  dcols m = (gcols base / 2 ^ Z.of_nat l)%Z /\ drows m = (grows base / 2 ^ Z.of_nat l)%Z.
Proof.
  intros G1 G2 H N. unfold depthedImagePyramid in H.
  destruct (imagePyramid base L) as [im| | | |]; cbn [bind] in H; try discriminate.
  destruct (_ && _)%bool; [|discriminate].
  destruct (insert_points _ _ _) as [[d w]| | | |] eqn:E; cbn [bind] in H; try discriminate.
  apply insert_sizes in E. cbn [drows dcols] in E. destruct E as [[D1 D2] [W1 W2]].
  injection H as <- <-. destruct l as [|l]; cbn [nth_error] in N.
  - injection N as <-. rewrite D1, D2. change (2 ^ Z.of_nat 0)%Z with 1%Z. rewrite !Z.div_1_r. auto.
  - rewrite nth_error_map in N.
    assert (L1 : (l < length (seq 1 (Z.to_nat L - 1)))%nat).
    { destruct (nth_error (seq 1 (Z.to_nat L - 1)) l) eqn:X; [|discriminate]. apply nth_error_Some. congruence. }
    rewrite (nth_error_nth' _ 0%nat L1) in N. rewrite seq_nth in N by (rewrite seq_length in L1; exact L1).
    injection N as <-. cbn [pyrNUpDepth integral drows dcols]. rewrite D1, D2.
    rewrite !Z.shiftr_div_pow2 by lia. replace (1 + l)%nat with (S l) by lia.
    replace (gcols base + 1 - 1)%Z with (gcols base) by lia. replace (grows base + 1 - 1)%Z with (grows base) by lia. auto.
Qed.

Definition ramp : gray := {| grows := 128; gcols := 128; gat := fun x _ => (2 * x) mod 256 |}.
Lemma ramp_shift images img x y : imagePyramid ramp 2 = Ok images -> nth_error images 1 = Some img ->
  (0 <= x < 64)%Z -> (0 <= y < 64)%Z -> (gat img x y = gat ramp (2 * x) (2 * y) + 1)%Z.
Proof.
  intros H N X Y. cbn in H. injection H as <-. cbn in N. injection N as <-. cbn [boxFilterPyrDown gat ramp].
  rewrite (Z.mod_small (2 * (2 * x)) 256), (Z.mod_small (2 * (2 * x + 1)) 256) by lia.
  replace (2 * (2 * x) + 2 * (2 * x + 1) + 2 * (2 * x) + 2 * (2 * x + 1))%Z with ((2 * (2 * x) + 1) * 4)%Z by ring.
  rewrite Z.quot_mul by lia. apply Z.mod_small. lia.
Qed.

Lemma pyramids_agree c n l cl base L points ds ws images depths img m :
  width c = gcols base -> height c = grows base -> (0 <= gcols base)%Z -> (0 <= grows base)%Z ->
  nth_error (camPyr c n) l = Some cl ->
  depthedImagePyramid base L points ds ws = Ok (images, depths) ->
  nth_error images l = Some img -> nth_error depths l = Some m ->
  (width cl = gcols img /\ height cl = grows img) /\ (width cl = dcols m /\ height cl = drows m).
Proof.
  intros WC HC G1 G2 NC H NI ND.
  destruct (camPyr_sizes c n l cl NC) as [W1 W2]; try lia.
  destruct (depth_sizes base L points ds ws images depths l m G2 G1 H ND) as [D1 D2].
  unfold depthedImagePyramid in H. destruct (imagePyramid base L) as [im| | | |] eqn:E; cbn [bind] in H; try discriminate.
  assert (im = images).
  { destruct (_ && _)%bool; [|discriminate]. destruct (insert_points _ _ _) as [[? ?]| | | |]; cbn [bind] in H; try discriminate. injection H as <- <-. reflexivity. }
  subst im. destruct (pyramid_sizes base L images l img G2 G1 E NI) as [S1 S2].
  rewrite W1, W2, D1, D2, S1, S2, WC, HC. auto.
Qed.
