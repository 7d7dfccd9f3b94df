(** Proofs about the camera. *)
From Coq Require Import Reals ZArith List Bool Lra Lia Psatz Sorting.Sorted.
From Verif Require Import Outcome Pose PoseProofs GeomModel GeomSpec GeomProofs GeomExamples SphereModel SphereSpec SphereProofs CamModel CamSpec.
Import ListNotations.
Open Scope R_scope.

Definition wf (c : camera) : Prop :=
  (unmapPolyDeg c = length (unmapPolyCoeffs c) /\ unmapPolyCoeffs c <> []) \/
  (unmapPolyDeg c = 0%nat /\ length (unmapPolyCoeffs c) = 1%nat).

(** ** Polynomials *)
Lemma power_sum_app p q r : forall k, power_sum (p ++ q) r k = power_sum p r k + power_sum q r (k + length p).
Proof.
  induction p as [|a p IH]; intros k; cbn [power_sum app length].
  - rewrite Nat.add_0_r. ring.
  - rewrite IH. replace (S k + length p)%nat with (k + S (length p))%nat by lia. ring.
Qed.

Lemma coeff_skipn p i : (i < length p)%nat -> skipn i p = coeff p i :: skipn (S i) p.
Proof.
  unfold coeff. revert i. induction p as [|a p IH]; intros i H; [cbn in H; lia|].
  destruct i as [|i]; [reflexivity|]. cbn [skipn nth]. rewrite IH by (cbn in H; lia). destruct p; reflexivity.
Qed.

Lemma calc_loop_sum n p r : forall i k res rN, (i + n = length p)%nat -> rN = r ^ k ->
  calc_loop n p r i res rN = res + power_sum (skipn i p) r k.
Proof.
  induction n as [|n IH]; intros i k res rN H E; cbn [calc_loop].
  - rewrite skipn_all2 by lia. cbn. ring.
  - rewrite (IH (i + 1)%nat (S k)) by (try lia; subst rN; cbn [pow]; ring).
    rewrite (coeff_skipn p i) by lia. cbn [power_sum]. rewrite E. replace (i + 1)%nat with (S i) by lia. ring.
Qed.

Lemma calcUnmapPoly_calibration c r : wf c ->
  calcUnmapPoly (unmapPolyDeg c) (unmapPolyCoeffs c) r = calibration (unmapPolyCoeffs c) r.
Proof.
  intros W. unfold calcUnmapPoly, calibration.
  assert (L : (1 <= length (unmapPolyCoeffs c))%nat).
  { destruct W as [[_ W]|[_ W]]; [destruct (unmapPolyCoeffs c); [congruence|cbn; lia]|lia]. }
  rewrite (calc_loop_sum _ _ r 1 2).
  - destruct (unmapPolyCoeffs c) as [|a p]; [cbn in L; lia|]. reflexivity.
  - destruct W as [[W _]|[W V]]; lia.
  - cbn [pow]. ring.
Qed.

Lemma calcMapPoly_polynomial p v : calcMapPoly p v = polynomial p v.
Proof.
  unfold calcMapPoly, polynomial. destruct p as [|a p]; [reflexivity|].
  rewrite (calc_loop_sum _ _ v 1 1) by (cbn; try lia; ring). cbn [skipn power_sum pow]. unfold coeff. cbn [nth]. ring.
Qed.

Lemma unmap_loop_sum p r n : forall i k z rhoN, (length p <= i + 2 * n)%nat -> rhoN = r ^ k ->
  unmap_loop n (length p) p r (r * r) i z rhoN = z + power_sum (skipn i p) r k.
Proof.
  induction n as [|n IH]; intros i k z rhoN H E; cbn [unmap_loop].
  - rewrite skipn_all2 by lia. cbn. ring.
  - destruct (Nat.ltb_spec i (length p)) as [L|L].
    2:{ rewrite skipn_all2 by lia. cbn. ring. }
    rewrite (IH (i + 2)%nat (S (S k))) by (try lia; subst rhoN; cbn [pow]; ring).
    rewrite (coeff_skipn p i L). cbn [power_sum].
    destruct (Nat.ltb_spec (i + 1) (length p)) as [L'|L'].
    + rewrite (coeff_skipn p (S i)) by lia. cbn [power_sum].
      replace (i + 1)%nat with (S i) by lia. replace (i + 2)%nat with (S (S i)) by lia. rewrite E. cbn [pow]. ring.
    + rewrite (skipn_all2 p (n := S i)) by lia. rewrite (skipn_all2 p (n := (i + 2)%nat)) by lia. cbn [power_sum]. rewrite E. ring.
Qed.

Theorem unmap_lifted c u : wf c ->
  unmap c u = lifted (unmapPolyCoeffs c) (scale c) (px (center c)) (py (center c)) u.
Proof.
  intros W. unfold unmap, lifted. set (x := px u / scale c - px (center c)). set (y := py u / scale c - py (center c)).
  f_equal. set (r := sqrt (x * x + y * y)).
  assert (R : x * x + y * y = r * r) by (unfold r; rewrite sqrt_sqrt; [reflexivity|nra]). rewrite R.
  unfold calibration. destruct W as [[W N]|[W N]].
  - rewrite W, (unmap_loop_sum _ r _ 1 2) by (try lia; cbn [pow]; ring).
    destruct (unmapPolyCoeffs c) as [|a p]; [congruence|]. reflexivity.
  - rewrite W. cbn [unmap_loop]. destruct (unmapPolyCoeffs c) as [|a [|b p]]; cbn in N; try lia. unfold coeff. cbn. ring.
Qed.

(** ** Normalisation *)
Lemma scale_loop_sum n s p r : s <> 0 -> forall k sK j, (length p <= n)%nat -> sK = s ^ j ->
  power_sum (scale_loop n s sK p) (r / s) (j + k) = power_sum p r (j + k) / s ^ k.
Proof.
  intros NZ. revert p. induction n as [|n IH]; intros p k sK j L E.
  - destruct p; [|cbn in L; lia]. cbn. unfold Rdiv. ring.
  - destruct p as [|a p]; [cbn; unfold Rdiv; ring|]. cbn [scale_loop power_sum].
    replace (S (j + k)) with (S j + k)%nat by lia.
    rewrite (IH p k (sK * s) (S j)) by (cbn in L; try lia; subst sK; cbn [pow]; ring).
    assert (SK : s ^ k <> 0) by (apply pow_nonzero, NZ). assert (SJ : s ^ j <> 0) by (apply pow_nonzero, NZ).
    rewrite E. unfold Rdiv at 1. rewrite Rpow_mult_distr, pow_inv by exact NZ. rewrite (pow_add s j k). field. split; assumption.
Qed.

Lemma scale_loop_0 n s p : forall sK, (n = 0)%nat -> scale_loop n s sK p = p.
Proof. intros sK ->. destruct p; reflexivity. Qed.

Lemma scaled_calibration c s r : wf c -> s <> 0 ->
  calibration (scale_coeffs (unmapPolyDeg c) s (/ s) (unmapPolyCoeffs c)) (r / s) = calibration (unmapPolyCoeffs c) r / s.
Proof.
  intros W S. destruct W as [[W N]|[W N]]; rewrite W; destruct (unmapPolyCoeffs c) as [|a p]; try congruence.
  - cbn [scale_coeffs calibration length]. replace (Datatypes.S (length p) - 1)%nat with (length p) by lia.
    pose proof (scale_loop_sum (length p) s p r S 1 s 1 (le_n _) ltac:(cbn; ring)) as H. cbn [Nat.add] in H. rewrite H.
    cbn [pow]. field. exact S.
  - discriminate.
  - destruct p; [|cbn in N; lia]. cbn. field. exact S.
Qed.

Definition new_scale (c : camera) : R := scale (normalize c).

Lemma corner_le ix iy wd hd x y : 0 <= x <= wd -> 0 <= y <= hd ->
  let dist x y := sqrt ((x - ix) * (x - ix) + (y - iy) * (y - iy)) in
  dist x y <= Rmax (Rmax (dist 0 0) (dist wd 0)) (Rmax (dist 0 hd) (dist wd hd)).
Proof.
  intros X Y dist.
  assert (QX : exists cx, (cx = 0 \/ cx = wd) /\ (x - ix) * (x - ix) <= (cx - ix) * (cx - ix)).
  { destruct (Rle_lt_dec ix (wd / 2)); [exists wd|exists 0]; (split; [auto|]); nra. }
  assert (QY : exists cy, (cy = 0 \/ cy = hd) /\ (y - iy) * (y - iy) <= (cy - iy) * (cy - iy)).
  { destruct (Rle_lt_dec iy (hd / 2)); [exists hd|exists 0]; (split; [auto|]); nra. }
  destruct QX as (cx & CX & HX), QY as (cy & CY & HY).
  apply Rle_trans with (dist cx cy).
  - unfold dist. apply sqrt_le_1_alt. lra.
  - pose proof (Rmax_l (dist 0 0) (dist wd 0)). pose proof (Rmax_r (dist 0 0) (dist wd 0)).
    pose proof (Rmax_l (dist 0 hd) (dist wd hd)). pose proof (Rmax_r (dist 0 hd) (dist wd hd)).
    pose proof (Rmax_l (Rmax (dist 0 0) (dist wd 0)) (Rmax (dist 0 hd) (dist wd hd))).
    pose proof (Rmax_r (Rmax (dist 0 0) (dist wd 0)) (Rmax (dist 0 hd) (dist wd hd))).
    destruct CX as [-> | ->], CY as [-> | ->]; lra.
Qed.

Lemma new_scale_pos c : (0 < width c)%Z -> 0 < new_scale c.
Proof.
  intros W. unfold new_scale, normalize. cbn [scale].
  set (ix := px (center c) * scale c). set (iy := py (center c) * scale c). set (wd := IZR (width c)). set (hd := IZR (height c)).
  assert (WP : 0 < wd) by (apply IZR_lt, W).
  set (d0 := sqrt ((0 - ix) * (0 - ix) + (0 - iy) * (0 - iy))). set (d1 := sqrt ((wd - ix) * (wd - ix) + (0 - iy) * (0 - iy))).
  assert (0 < Rmax d0 d1).
  { destruct (Req_dec ix 0) as [Z|Z].
    - apply Rlt_le_trans with d1; [|apply Rmax_r]. apply sqrt_lt_R0. rewrite Z. nra.
    - apply Rlt_le_trans with d0; [|apply Rmax_l]. apply sqrt_lt_R0.
      assert (0 < ix * ix) by (apply Rsqr_pos_lt in Z; exact Z). nra. }
  eapply Rlt_le_trans; [eassumption|apply Rmax_l].
Qed.

Lemma normalize_wf c : wf c -> wf (normalize c).
Proof.
  assert (L : forall n s sK p, length (scale_loop n s sK p) = length p).
  { induction n as [|n IH]; intros s sK [|a p]; cbn; try reflexivity. f_equal. apply IH. }
  intros [[W N]|[W N]]; [left|right]; unfold normalize; cbn [unmapPolyDeg unmapPolyCoeffs]; split; try exact W.
  - unfold scale_coeffs. destruct (unmapPolyCoeffs c) as [|a p]; [congruence|]. cbn [length]. rewrite L. exact W.
  - unfold scale_coeffs. destruct (unmapPolyCoeffs c); congruence.
  - unfold scale_coeffs. destruct (unmapPolyCoeffs c) as [|a p]; [exact N|]. cbn [length] in *. rewrite L. exact N.
Qed.

Theorem normalize_ray c : wf c -> 0 < scale c -> (0 < width c)%Z ->
  exists k, 0 < k /\ forall u, unmap (normalize c) u = vscale k (unmap c u).
Proof.
  intros W S WD. pose proof (new_scale_pos c WD) as NS. set (s := new_scale c / scale c).
  assert (SP : 0 < s) by (apply Rdiv_lt_0_compat; assumption).
  exists (/ s). split; [apply Rinv_0_lt_compat, SP|]. intros u.
  rewrite (unmap_lifted (normalize c)) by (apply normalize_wf, W). rewrite (unmap_lifted c u W).
  assert (P : unmapPolyCoeffs (normalize c) = scale_coeffs (unmapPolyDeg c) s (/ s) (unmapPolyCoeffs c)).
  { unfold normalize. cbn [unmapPolyCoeffs]. fold (new_scale c).
    change (Rmax _ _) with (new_scale c). fold s. replace (scale c / new_scale c) with (/ s); [reflexivity|].
    unfold s. field. split; lra. }
  rewrite P. change (scale (normalize c)) with (new_scale c).
  assert (CX : px (center (normalize c)) = px (center c) / s) by reflexivity.
  assert (CY : py (center (normalize c)) = py (center c) / s) by reflexivity.
  rewrite CX, CY. unfold lifted.
  set (x := px u / scale c - px (center c)). set (y := py u / scale c - py (center c)).
  assert (X : px u / new_scale c - px (center c) / s = x / s) by (unfold x, s; field; split; lra).
  assert (Y : py u / new_scale c - py (center c) / s = y / s) by (unfold y, s; field; split; lra).
  rewrite X, Y.
  assert (R : sqrt (x / s * (x / s) + y / s * (y / s)) = sqrt (x * x + y * y) / s).
  { replace (x / s * (x / s) + y / s * (y / s)) with ((x * x + y * y) * (/ s * / s)) by (field; lra).
    assert (0 < / s) by (apply Rinv_0_lt_compat, SP).
    rewrite sqrt_mult by nra. rewrite sqrt_square by lra. reflexivity. }
  rewrite R, scaled_calibration by (try exact W; lra).
  unfold vscale. cbn [vx vy vz]. unfold Rdiv. f_equal; ring.
Qed.

Definition radius (v : vec) : R := sqrt (vx v * vx v + vy v * vy v).

Lemma normalized_radius c u : wf c -> 0 < scale c -> (0 < width c)%Z ->
  radius (unmap (normalize c) u) =
  sqrt ((px u - px (center c) * scale c) * (px u - px (center c) * scale c)
        + (py u - py (center c) * scale c) * (py u - py (center c) * scale c)) / new_scale c.
Proof.
  intros W S WD. pose proof (new_scale_pos c WD) as NS. unfold radius.
  assert (X : vx (unmap (normalize c) u) = (px u - px (center c) * scale c) * / new_scale c).
  { unfold unmap. cbn [vx]. change (scale (normalize c)) with (new_scale c).
    change (px (center (normalize c))) with (px (center c) / (new_scale c / scale c)). field. split; lra. }
  assert (Y : vy (unmap (normalize c) u) = (py u - py (center c) * scale c) * / new_scale c).
  { unfold unmap. cbn [vy]. change (scale (normalize c)) with (new_scale c).
    change (py (center (normalize c))) with (py (center c) / (new_scale c / scale c)). field. split; lra. }
  rewrite X, Y. set (a := px u - _) in *. set (b := py u - _) in *. assert (0 < / new_scale c) by (apply Rinv_0_lt_compat, NS).
  replace (a * / new_scale c * (a * / new_scale c) + b * / new_scale c * (b * / new_scale c))
    with ((a * a + b * b) * (/ new_scale c * / new_scale c)) by ring.
  rewrite sqrt_mult by nra. rewrite sqrt_square by lra. reflexivity.
Qed.

Theorem normalize_radius c u : wf c -> 0 < scale c -> (0 < width c)%Z ->
  in_image (width c) (height c) u -> radius (unmap (normalize c) u) <= 1.
Proof.
  intros W S WD [X Y]. pose proof (new_scale_pos c WD) as NS. rewrite (normalized_radius c u W S WD).
  apply Rmult_le_reg_r with (new_scale c); [exact NS|]. unfold Rdiv. rewrite Rmult_assoc, Rinv_l, Rmult_1_r, Rmult_1_l by lra.
  apply (corner_le (px (center c) * scale c) (py (center c) * scale c) (IZR (width c)) (IZR (height c)) (px u) (py u) X Y).
Qed.

Theorem normalize_radius_tight c : wf c -> 0 < scale c -> (0 < width c)%Z -> (0 < height c)%Z ->
  exists u, in_image (width c) (height c) u /\ radius (unmap (normalize c) u) = 1.
Proof.
  intros W S WD HD. pose proof (new_scale_pos c WD) as NS.
  assert (WP : 0 < IZR (width c)) by (apply IZR_lt, WD). assert (HP : 0 < IZR (height c)) by (apply IZR_lt, HD).
  assert (E : exists u, in_image (width c) (height c) u /\
    sqrt ((px u - px (center c) * scale c) * (px u - px (center c) * scale c)
        + (py u - py (center c) * scale c) * (py u - py (center c) * scale c)) = new_scale c).
  { unfold new_scale, normalize. cbn [scale].
    assert (M : forall a b, Rmax a b = a \/ Rmax a b = b) by (intros a b; unfold Rmax; destruct (Rle_dec a b); auto).
    match goal with |- context [Rmax (Rmax ?a ?b) (Rmax ?d ?e)] =>
      destruct (M (Rmax a b) (Rmax d e)) as [->| ->]; [destruct (M a b) as [->| ->]|destruct (M d e) as [->| ->]] end.
    - exists (P2 0 0). split; [unfold in_image; cbn; lra|reflexivity].
    - exists (P2 (IZR (width c)) 0). split; [unfold in_image; cbn; lra|reflexivity].
    - exists (P2 0 (IZR (height c))). split; [unfold in_image; cbn; lra|reflexivity].
    - exists (P2 (IZR (width c)) (IZR (height c))). split; [unfold in_image; cbn; lra|reflexivity]. }
  destruct E as (u & I & E). exists u. split; [exact I|]. rewrite (normalized_radius c u W S WD), E. field. lra.
Qed.

(** ** Angles *)
Lemma atan2_spec y x : 0 <= y -> (y <> 0 \/ x <> 0) ->
  0 <= atan2 y x <= PI /\ cos (atan2 y x) = x / sqrt (y * y + x * x).
Proof.
  intros Y N. pose proof PI_RGT_0 as P. unfold atan2. destruct (Rlt_dec 0 x) as [X|X].
  - assert (T : 0 <= y / x) by (unfold Rdiv; apply Rmult_le_pos; [exact Y|left; apply Rinv_0_lt_compat, X]).
    split.
    + pose proof (atan_bound (y / x)). split; [|lra]. destruct (Rle_lt_or_eq_dec _ _ T) as [L|L].
      * rewrite <- atan_0. left. apply atan_increasing, L.
      * rewrite <- L, atan_0. lra.
    + rewrite cos_atan. replace (1 + (y / x)²) with ((y * y + x * x) * (/ x * / x)) by (unfold Rsqr; field; lra).
      assert (0 < / x) by (apply Rinv_0_lt_compat, X). rewrite sqrt_mult by nra. rewrite sqrt_square by lra.
      assert (0 < sqrt (y * y + x * x)) by (apply sqrt_lt_R0; nra). field. split; lra.
  - destruct (Rlt_dec x 0) as [X'|X'].
    + destruct (Rlt_dec y 0) as [Y'|_]; [lra|].
      assert (T : y / x <= 0).
      { replace (y / x) with (- (y * / - x)) by (field; lra). assert (0 < / - x) by (apply Rinv_0_lt_compat; lra). nra. }
      split.
      * pose proof (atan_bound (y / x)). split; [lra|]. destruct (Rle_lt_or_eq_dec _ _ T) as [L|L].
        -- pose proof (atan_increasing _ _ L) as I. rewrite atan_0 in I. lra.
        -- rewrite L, atan_0. lra.
      * rewrite neg_cos, cos_atan. replace (1 + (y / x)²) with ((y * y + x * x) * (/ - x * / - x)) by (unfold Rsqr; field; lra).
        assert (0 < / - x) by (apply Rinv_0_lt_compat; lra). rewrite sqrt_mult by nra. rewrite sqrt_square by lra.
        assert (0 < sqrt (y * y + x * x)) by (apply sqrt_lt_R0; nra). field. split; lra.
    + assert (x = 0) by lra. subst x. destruct (Rlt_dec 0 y) as [Y'|Y']; [|lra].
      split; [lra|]. rewrite cos_PI2. unfold Rdiv. ring.
Qed.

Lemma vnorm_radius v : vnorm v = sqrt (radius v * radius v + vz v * vz v).
Proof.
  unfold radius. rewrite sqrt_sqrt by nra. unfold vnorm, dot. reflexivity.
Qed.

Lemma lifted_radius p sc cx cy u : vz (lifted p sc cx cy u) = calibration p (radius (lifted p sc cx cy u)).
Proof. reflexivity. Qed.

Definition profile (c : camera) : R -> R := calibration (unmapPolyCoeffs c).

Theorem max_angle c u : wf c -> 0 < scale c -> (0 < width c)%Z -> (0 < height c)%Z ->
  profile c 0 <> 0 -> widening (profile (normalize c)) 1 -> in_image (width c) (height c) u ->
  in_sector (maxAngle (normalize c)) (unmap (normalize c) u).
Proof.
  intros W S WD HD A0 WI I. pose proof (normalize_wf c W) as W'.
  unfold in_sector. change (maxAngle (normalize c)) with (atan2 1 (calcUnmapPoly (unmapPolyDeg (normalize c)) (unmapPolyCoeffs (normalize c)) 1)).
  rewrite (calcUnmapPoly_calibration (normalize c) 1 W'). fold (profile (normalize c)). set (P := profile (normalize c)) in *.
  destruct (atan2_spec 1 (P 1)) as [_ ->]; [lra|left; lra|].
  set (v := unmap (normalize c) u).
  assert (Z : vz v = P (radius v)).
  { unfold v. rewrite (unmap_lifted _ u W'). apply lifted_radius. }
  pose proof (normalize_radius c u W S WD I) as R1. fold v in R1.
  assert (R0 : 0 <= radius v) by apply sqrt_pos.
  pose proof (WI (radius v) 1 R0 R1 (Rle_refl 1)) as Q. unfold no_wider in Q. rewrite <- Z in Q.
  rewrite vnorm_radius. set (n := sqrt (radius v * radius v + vz v * vz v)) in *.
  assert (NP : 0 < n).
  { apply sqrt_lt_R0. destruct (Req_dec (radius v) 0) as [E|E].
    - assert (vz v <> 0).
      { rewrite Z, E. unfold P, profile in *.
        pose proof (scaled_calibration c (new_scale c / scale c) 0 W) as SC.
        pose proof (new_scale_pos c WD).
        assert (SP : 0 < new_scale c / scale c) by (apply Rdiv_lt_0_compat; lra).
        assert (PC : unmapPolyCoeffs (normalize c) = scale_coeffs (unmapPolyDeg c) (new_scale c / scale c) (/ (new_scale c / scale c)) (unmapPolyCoeffs c)).
        { unfold normalize. cbn [unmapPolyCoeffs]. change (Rmax _ _) with (new_scale c).
          replace (scale c / new_scale c) with (/ (new_scale c / scale c)); [reflexivity|]. field. split; lra. }
        rewrite PC. set (t := new_scale c / scale c) in *.
        assert (Z0 : 0 / t = 0) by (unfold Rdiv; ring). rewrite Z0 in SC. rewrite SC by lra.
        intros C. apply A0. apply Rmult_eq_reg_r with (/ t); [|apply Rinv_neq_0_compat; lra]. unfold Rdiv in C. lra. }
      assert (0 < vz v * vz v) by (apply Rsqr_pos_lt in H; exact H). nra.
    - assert (0 < radius v * radius v) by (apply Rsqr_pos_lt in E; exact E). nra. }
  apply Rle_trans with (vz v / n * n).
  - apply Rmult_le_compat_r; [lra|]. replace (1 * 1 + P 1 * P 1) with (1 * 1 + P 1 * P 1) by ring. exact Q.
  - right. field. lra.
Qed.

(** ** Projection after lifting *)
Lemma atan2_unique y x t : 0 <= y -> (y <> 0 \/ x <> 0) -> 0 <= t <= PI ->
  cos t * sqrt (y * y + x * x) = x -> atan2 y x = t.
Proof.
  intros Y N T H. destruct (atan2_spec y x Y N) as [B C].
  assert (0 < sqrt (y * y + x * x)).
  { apply sqrt_lt_R0. destruct N as [N|N]; apply Rsqr_pos_lt in N; unfold Rsqr in N; nra. }
  assert (E : cos (atan2 y x) = cos t) by (rewrite C, <- H at 1; field; lra).
  destruct B as [B1 B2], T as [T1 T2]. destruct (Rtotal_order (atan2 y x) t) as [L|[L|L]]; [|exact L|].
  - pose proof (cos_decreasing_1 (atan2 y x) t B1 B2 T1 T2 L). lra.
  - pose proof (cos_decreasing_1 t (atan2 y x) T1 T2 B1 B2 L). lra.
Qed.

Lemma radius_scale k v : 0 <= k -> radius (vscale k v) = k * radius v.
Proof.
  intros K. unfold radius. destruct v as [x y z]. cbn [vscale vx vy].
  replace (k * x * (k * x) + k * y * (k * y)) with (k * k * (x * x + y * y)) by ring.
  rewrite sqrt_mult by nra. rewrite sqrt_square by exact K. reflexivity.
Qed.

Lemma map_ray_formula c v t : 0 <= t <= PI -> v <> vzero -> cos t * vnorm v = vz v -> 0 < radius v ->
  map_ray c v = P2 ((vx v / radius v * polynomial (mapPolyCoeffs c) t + px (center c)) * scale c)
                   ((vy v / radius v * polynomial (mapPolyCoeffs c) t + py (center c)) * scale c).
Proof.
  intros T N C R. unfold map_ray. fold (radius v). rewrite (atan2_unique (radius v) (vz v) t).
  - rewrite calcMapPoly_polynomial. destruct (Rlt_dec 0 (radius v)) as [_|X]; [reflexivity|contradiction].
  - lra.
  - left. lra.
  - exact T.
  - rewrite <- vnorm_radius. exact C.
Qed.

Lemma map_ray_axis c v : radius v = 0 -> map_ray c v = P2 (px (center c) * scale c) (py (center c) * scale c).
Proof.
  intros R. unfold map_ray. fold (radius v). rewrite R. destruct (Rlt_dec 0 0) as [X|_]; [lra|].
  assert (E : vx v * vx v + vy v * vy v = 0).
  { apply sqrt_eq_0; [nra|exact R]. }
  assert (vx v = 0) by nra. assert (vy v = 0) by nra. rewrite H, H0. f_equal; ring.
Qed.

Theorem round_trip c u k t : wf c -> 0 < scale c -> 0 < k -> let v := unmap c u in
  0 < radius v -> 0 <= t <= PI -> cos t * vnorm v = vz v ->
  distance_pt (map_ray c (vscale k v)) u = scale c * Rabs (polynomial (mapPolyCoeffs c) t - radius v).
Proof.
  intros W S K v R T C.
  assert (N : vscale k v <> vzero).
  { intros Z. assert (E : radius (vscale k v) = 0) by (rewrite Z; unfold radius, vzero; cbn; rewrite Rmult_0_l, Rplus_0_l; apply sqrt_0).
    rewrite radius_scale in E by lra. nra. }
  rewrite (map_ray_formula c (vscale k v) t T N).
  - rewrite radius_scale by lra. set (m := polynomial (mapPolyCoeffs c) t).
    assert (X : vx v = px u / scale c - px (center c)) by reflexivity.
    assert (Y : vy v = py u / scale c - py (center c)) by reflexivity.
    assert (RR : radius v * radius v = vx v * vx v + vy v * vy v) by (unfold radius; rewrite sqrt_sqrt; [reflexivity|nra]).
    unfold distance_pt, dist2. cbn [px py].
    replace (vx (vscale k v)) with (k * vx v) by (destruct v; reflexivity).
    replace (vy (vscale k v)) with (k * vy v) by (destruct v; reflexivity).
    assert (EX : px u = (vx v + px (center c)) * scale c) by (rewrite X; field; lra).
    assert (EY : py u = (vy v + py (center c)) * scale c) by (rewrite Y; field; lra).
    clearbody v. rewrite EX, EY. set (r := radius v) in *.
    match goal with |- sqrt ?e = _ => replace e with ((scale c * (m - r)) * (scale c * (m - r))) end.
    + change (sqrt (Rsqr (scale c * (m - r))) = scale c * Rabs (m - r)). rewrite sqrt_Rsqr_abs. rewrite Rabs_mult, (Rabs_right (scale c)) by lra. reflexivity.
    + transitivity (scale c * scale c * ((m - r) * (m - r) / (r * r)) * (vx v * vx v + vy v * vy v)).
      * rewrite <- RR. field. lra.
      * field. split; lra.
  - rewrite vnorm_scale, Rabs_right by lra. replace (vz (vscale k v)) with (k * vz v) by (destruct v; reflexivity).
    rewrite <- C. ring.
  - rewrite radius_scale by lra. nra.
Qed.

Theorem round_trip_axis c u k : 0 < scale c -> let v := unmap c u in radius v = 0 -> map_ray c (vscale k v) = u.
Proof.
  intros S v R.
  assert (E : vx v * vx v + vy v * vy v = 0) by (apply sqrt_eq_0; [nra|exact R]).
  assert (X0 : vx v = 0) by nra. assert (Y0 : vy v = 0) by nra.
  rewrite map_ray_axis.
  - assert (X : vx v = px u / scale c - px (center c)) by reflexivity.
    assert (Y : vy v = py u / scale c - py (center c)) by reflexivity.
    destruct u as [a b]. cbn [px py] in *. rewrite X0 in X. rewrite Y0 in Y.
    f_equal.
    + replace (px (center c)) with (a / scale c) by lra. field. lra.
    + replace (py (center c)) with (b / scale c) by lra. field. lra.
  - unfold radius. replace (vx (vscale k v)) with (k * vx v) by (destruct v; reflexivity).
    replace (vy (vscale k v)) with (k * vy v) by (destruct v; reflexivity). rewrite X0, Y0.
    replace (_ + _) with 0 by ring. apply sqrt_0.
Qed.

(** ** The calibration check *)
Definition graph (c : camera) (samples : list R) : list (R * R) :=
  map (fun r => (r, atan2 r (calcUnmapPoly (unmapPolyDeg c) (unmapPolyCoeffs c) r))) samples.

Lemma decreasing_iff (l : list (R * R)) : decreasing_somewhere l = false <-> Sorted (fun a b => snd a <= snd b) l.
Proof.
  induction l as [|a [|b l] IH].
  - split; [constructor|reflexivity].
  - split; [repeat constructor|reflexivity].
  - cbn [decreasing_somewhere]. destruct (Rlt_dec (snd b) (snd a)) as [L|L].
    + split; [discriminate|]. intros H. inversion H as [|? ? ? HD]; subst. inversion HD; subst. lra.
    + rewrite IH. split; intros H.
      * constructor; [exact H|]. constructor. lra.
      * inversion H; assumption.
Qed.

Lemma sorted_pairs (l : list R) (f : R -> R) :
  Sorted (fun a b : R * R => snd a <= snd b) (map (fun r => (r, f r)) l) <->
  (forall i j a b, (i < j)%nat -> nth_error l i = Some a -> nth_error l j = Some b -> f a <= f b).
Proof.
  split.
  - intros H. apply Sorted_StronglySorted in H; [|intros x y z; apply Rle_trans].
    induction l as [|x l IH]; intros i j a b L A B.
    + destruct i; discriminate.
    + cbn in H. inversion H as [|? ? S F]; subst. destruct j as [|j]; [lia|]. destruct i as [|i]; cbn in *.
      * injection A as <-. rewrite Forall_forall in F. apply (F (b, f b)). apply in_map_iff. exists b. split; [reflexivity|].
        eapply nth_error_In, B.
      * apply (IH S i j a b); try assumption; lia.
  - induction l as [|x l IH]; intros H; [constructor|]. cbn. constructor.
    + apply IH. intros i j a b L A B. apply (H (S i) (S j) a b); [lia| |]; assumption.
    + destruct l as [|y l]; [constructor|]. constructor. cbn. apply (H 0%nat 1%nat x y); [lia| |]; reflexivity.
Qed.

Lemma atan2_le r r' (P : R -> R) : 0 <= r -> r <= r' -> (r <> 0 \/ P r <> 0) ->
  (atan2 r (P r) <= atan2 r' (P r') <-> no_wider P r r' \/ (r' = 0 /\ P r' = 0 /\ False)).
Proof.
  intros R0 LE N.
  assert (N' : r' <> 0 \/ P r' <> 0).
  { destruct N as [N|N]; [left; lra|]. destruct (Req_dec r' 0) as [E|E]; [right|left; exact E].
    assert (r = r') by lra. subst. exact N. }
  destruct (atan2_spec r (P r) R0 N) as [B C]. destruct (atan2_spec r' (P r') ltac:(lra) N') as [B' C'].
  unfold no_wider. rewrite <- C, <- C'. split.
  - intros H. left. destruct (Req_dec (atan2 r (P r)) (atan2 r' (P r'))) as [E|E]; [rewrite E; lra|].
    left. apply cos_decreasing_1; lra.
  - intros [H|[_ [_ []]]]. apply Rnot_lt_le. intros L. pose proof (cos_decreasing_1 (atan2 r' (P r')) (atan2 r (P r))). lra.
Qed.

Theorem check_exact samples fit c : wf c -> 0 < scale c -> (0 < width c)%Z ->
  let P := profile (normalize c) in
  Sorted Rle samples -> Forall (fun r => 0 <= r) samples -> Forall (fun r => r <> 0 \/ P r <> 0) samples ->
  ((exists c', new_camera samples fit c = Ok c') <->
   forall i j r r', (i < j)%nat -> nth_error samples i = Some r -> nth_error samples j = Some r' -> no_wider P r r').
Proof.
  intros W S WD P ST F0 F1. unfold new_camera, setMapPolyCoeffs. fold (graph (normalize c) samples).
  assert (G : decreasing_somewhere (graph (normalize c) samples) = false <->
    forall i j a b, (i < j)%nat -> nth_error samples i = Some a -> nth_error samples j = Some b ->
      atan2 a (P a) <= atan2 b (P b)).
  { rewrite decreasing_iff. unfold graph. rewrite (sorted_pairs samples (fun r => atan2 r (calcUnmapPoly (unmapPolyDeg (normalize c)) (unmapPolyCoeffs (normalize c)) r))).
    pose proof (normalize_wf c W) as W'.
    split; intros H i j a b L A B; specialize (H i j a b L A B); rewrite !(calcUnmapPoly_calibration _ _ W') in *; exact H. }
  assert (LE : forall i j a b, (i < j)%nat -> nth_error samples i = Some a -> nth_error samples j = Some b -> a <= b).
  { apply Sorted_StronglySorted in ST; [|intros x y z; apply Rle_trans]. clear - ST.
    induction ST as [|x l ST IH F]; intros i j a b L A B; [destruct i; discriminate|].
    destruct j as [|j]; [lia|]. destruct i as [|i]; cbn in *.
    - injection A as <-. rewrite Forall_forall in F. apply F. eapply nth_error_In, B.
    - apply (IH i j a b); try assumption; lia. }
  assert (T : forall i j a b, (i < j)%nat -> nth_error samples i = Some a -> nth_error samples j = Some b ->
     (atan2 a (P a) <= atan2 b (P b) <-> no_wider P a b)).
  { intros i j a b L A B. rewrite atan2_le.
    - tauto.
    - rewrite Forall_forall in F0. apply F0. eapply nth_error_In, A.
    - apply (LE i j a b L A B).
    - rewrite Forall_forall in F1. apply F1. eapply nth_error_In, A. }
  destruct (decreasing_somewhere (graph (normalize c) samples)) eqn:D.
  - split; [intros [c' H]; discriminate|]. intros H. exfalso.
    assert (X : true = false) by (apply G; intros i j a b L A B; apply (T i j a b L A B), (H i j a b L A B)). discriminate.
  - split; [|eauto]. intros _ i j a b L A B. apply (T i j a b L A B). apply (proj1 G eq_refl i j a b L A B).
Qed.

Lemma new_camera_fields samples fit c c' : new_camera samples fit c = Ok c' ->
  c' = {| width := width c; height := height c; unmapPolyDeg := unmapPolyDeg c;
          unmapPolyCoeffs := unmapPolyCoeffs (normalize c); center := center (normalize c); scale := scale (normalize c);
          maxRadius := 1; minZ := minZ (normalize c); maxAngle := maxAngle (normalize c); mapPolyCoeffs := mapPolyCoeffs c' |}.
Proof.
  unfold new_camera, setMapPolyCoeffs. destruct (decreasing_somewhere _); [discriminate|]. intros H. injection H as <-. reflexivity.
Qed.

(** ** The pyramid of cameras *)
Lemma camPyr_nth c n i : (i < n)%nat -> nth_error (camPyr c n) i = Some (pyr_camera c i).
Proof.
  intros L. unfold camPyr. rewrite nth_error_map.
  rewrite (nth_error_nth' (seq 0 n) 0%nat) by (rewrite seq_length; exact L). rewrite seq_nth by exact L. reflexivity.
Qed.
Lemma shift_pow i : Z.shiftl 1 (Z.of_nat i) = (2 ^ Z.of_nat i)%Z.
Proof. rewrite Z.shiftl_mul_pow2 by lia. lia. Qed.
Lemma pow_IZR i : IZR (2 ^ Z.of_nat i) = 2 ^ i.
Proof. rewrite <- pow_IZR. reflexivity. Qed.

Theorem camPyr_projects c n i ci ray : nth_error (camPyr c n) i = Some ci ->
  map_ray ci ray = pscale (/ 2 ^ i) (map_ray c ray).
Proof.
  intros N. assert (L : (i < n)%nat).
  { assert (X : nth_error (camPyr c n) i <> None) by (rewrite N; discriminate). apply nth_error_Some in X. unfold camPyr in X. rewrite map_length, seq_length in X. exact X. }
  rewrite (camPyr_nth c n i L) in N. injection N as <-. unfold map_ray, pyr_camera, pscale.
  cbn [center scale mapPolyCoeffs]. rewrite shift_pow, pow_IZR. assert (2 ^ i <> 0) by (apply pow_nonzero; lra).
  cbn [px py]. f_equal; field; assumption.
Qed.

Theorem camPyr_lifts c n i ci u : nth_error (camPyr c n) i = Some ci -> 0 < scale c ->
  unmap ci (pscale (/ 2 ^ i) u) = unmap c u.
Proof.
  intros N S. assert (L : (i < n)%nat).
  { assert (X : nth_error (camPyr c n) i <> None) by (rewrite N; discriminate). apply nth_error_Some in X. unfold camPyr in X. rewrite map_length, seq_length in X. exact X. }
  rewrite (camPyr_nth c n i L) in N. injection N as <-. unfold unmap, pyr_camera, pscale.
  cbn [center scale mapPolyCoeffs unmapPolyDeg unmapPolyCoeffs px py]. rewrite shift_pow, pow_IZR.
  assert (2 ^ i <> 0) by (apply pow_nonzero; lra).
  replace (/ 2 ^ i * px u / (scale c / 2 ^ i)) with (px u / scale c) by (field; repeat split; first [assumption | lra]).
  replace (/ 2 ^ i * py u / (scale c / 2 ^ i)) with (py u / scale c) by (field; repeat split; first [assumption | lra]). reflexivity.
Qed.

Theorem camPyr_sizes c n i ci : nth_error (camPyr c n) i = Some ci -> (0 <= width c)%Z -> (0 <= height c)%Z ->
  width ci = (width c / 2 ^ Z.of_nat i)%Z /\ height ci = (height c / 2 ^ Z.of_nat i)%Z.
Proof.
  intros N W H. assert (L : (i < n)%nat).
  { assert (X : nth_error (camPyr c n) i <> None) by (rewrite N; discriminate). apply nth_error_Some in X. unfold camPyr in X. rewrite map_length, seq_length in X. exact X. }
  rewrite (camPyr_nth c n i L) in N. injection N as <-. unfold pyr_camera. cbn [width height]. rewrite shift_pow.
  assert (0 < 2 ^ Z.of_nat i)%Z by (apply Z.pow_pos_nonneg; lia).
  rewrite !Z.quot_div_nonneg by lia. split; reflexivity.
Qed.
