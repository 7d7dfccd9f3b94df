(** Rounding of fractions: the integer functions of DoubleModel are the roundings of Flocq. *)
From Coq Require Import List ZArith Bool Ascii String Lia Reals Lra Psatz Floats.SpecFloat.
From Flocq Require Import Core.
From Verif Require Import Outcome Dbl PlyModel SnapshotModel DoubleModel.
Import ListNotations.
Open Scope Z_scope.

Definition radix10 : radix := Build_radix 10 eq_refl.
Notation "n // d" := (IZR n / IZR d)%R (at level 40).

Lemma quot_pos n d : 0 < n -> 0 < d -> (0 < n // d)%R.
Proof. intros N D. apply Rdiv_lt_0_compat; apply IZR_lt; auto. Qed.

Lemma down_ok (b : radix) n d k n' d' : 0 < d -> down b n d k = (n', d') ->
  0 < d' /\ (n' // d' = n // d * bpow b (- k))%R /\ (0 < n -> 0 < n').
Proof.
  intros D H. unfold down in H. pose proof (radix_gt_0 b) as B. destruct (Z.leb_spec 0 k) as [K|K]; inversion H; subst; clear H.
  - assert (P : 0 < b ^ k) by (apply Z.pow_pos_nonneg; lia). split; [lia|]. split; [|auto].
    rewrite bpow_opp, mult_IZR, (IZR_Zpower b) by auto. field. split; [apply Rgt_not_eq, bpow_gt_0|apply IZR_neq; lia].
  - assert (P : 0 < b ^ (- k)) by (apply Z.pow_pos_nonneg; lia). split; [lia|]. split; [|intros; lia].
    rewrite mult_IZR, (IZR_Zpower b) by lia. field. apply IZR_neq; lia.
Qed.

Lemma round_div_ok n d : 0 < d -> round_div n d = ZnearestE (n // d).
Proof.
  intros D. unfold round_div, Znearest. rewrite Zfloor_div by lia.
  assert (Q : n = d * (n / d) + n mod d) by (apply Z.div_mod; lia).
  assert (B : 0 <= n mod d < d) by (apply Z.mod_pos_bound; lia).
  assert (E : (n // d - IZR (n / d) = (n mod d) // d)%R).
  { rewrite Q at 1. rewrite plus_IZR, mult_IZR. field. apply IZR_neq; lia. }
  rewrite E. assert (DP : (0 < IZR d)%R) by (apply IZR_lt; auto).
  assert (C : n mod d <> 0 -> Zceil (n // d) = n / d + 1).
  { intros N. rewrite Zceil_floor_neq; rewrite Zfloor_div by lia; auto. intros F. rewrite <- F in E. rewrite Rminus_diag_eq in E by auto.
    apply N. apply eq_IZR. apply (Rmult_eq_reg_r (/ IZR d)); [|apply Rinv_neq_0_compat, Rgt_not_eq; auto]. unfold Rdiv in E. rewrite <- E. ring. }
  assert (S : (((n mod d) // d - / 2) * (2 * IZR d) = IZR (2 * (n mod d) - d))%R).
  { rewrite minus_IZR, mult_IZR. field. apply IZR_neq; lia. }
  destruct (Z.compare_spec (2 * (n mod d)) d) as [H|H|H].
  - rewrite Rcompare_Eq; [rewrite C by lia; rewrite Z.negb_even, <- Z.negb_even; destruct (Z.even (n / d)); reflexivity|].
    replace (2 * (n mod d) - d) with 0 in S by lia. apply Rmult_integral in S. destruct S; lra.
  - rewrite Rcompare_Lt; auto. assert (IZR (2 * (n mod d) - d) < 0)%R by (apply IZR_lt; lia). nra.
  - rewrite Rcompare_Gt; [rewrite C by lia; reflexivity|]. assert (0 < IZR (2 * (n mod d) - d))%R by (apply IZR_lt; lia). nra.
Qed.

(** Number of digits *)
Lemma digits_len : forall fuel z, 0 < z -> (Z.log2 z < Z.of_nat fuel) -> 10 ^ (Z.of_nat (List.length (digits fuel z)) - 1) <= z < 10 ^ Z.of_nat (List.length (digits fuel z)).
Proof.
  induction fuel as [|f IH]; intros z Z0 L; [pose proof (Z.log2_nonneg z); lia|]. cbn [digits]. destruct (Z.ltb_spec z 10) as [H|H].
  - cbn. lia.
  - assert (P : 0 < z / 10) by (apply Z.div_str_pos; lia).
    assert (Q : Z.log2 (z / 10) < Z.of_nat f).
    { assert (Z.log2 (z / 10) <= Z.log2 (z / 2)) by (apply Z.log2_le_mono; apply Z.div_le_compat_l; lia).
      assert (Z.log2 (z / 2) = Z.log2 z - 1).
      { change (z / 2) with (z / 2 ^ 1). rewrite <- Z.shiftr_div_pow2 by lia. rewrite Z.log2_shiftr by lia. pose proof (Z.log2_pos z ltac:(lia)). lia. }
      lia. }
    specialize (IH _ P Q). rewrite app_length. cbn [List.length]. set (n := List.length (digits f (z / 10))) in *.
    replace (Z.of_nat (n + 1) - 1) with (Z.of_nat n) by lia. replace (Z.of_nat (n + 1)) with (Z.of_nat n + 1) by lia.
    assert (N : 1 <= Z.of_nat n). { destruct n; [|lia]. cbn in IH. lia. }
    assert (E1 : 10 ^ Z.of_nat n = 10 * 10 ^ (Z.of_nat n - 1)). { rewrite <- Z.pow_succ_r by lia. f_equal. lia. }
    rewrite Z.pow_add_r by lia. change (10 ^ 1) with 10. pose proof (Z.div_mod z 10 ltac:(lia)). pose proof (Z.mod_pos_bound z 10 ltac:(lia)). lia.
Qed.
Lemma ndig_ok z : 0 < z -> 10 ^ (ndig z - 1) <= z < 10 ^ ndig z.
Proof. intros H. unfold ndig, dec. replace (z <? 0) with false by lia. apply digits_len; auto. pose proof (Z.log2_nonneg z). lia. Qed.
Lemma ndig_pos z : 0 < z -> 0 < ndig z.
Proof.
  intros H. pose proof (ndig_ok z H). destruct (Z.lt_ge_cases 0 (ndig z)); auto. unfold ndig in *.
  assert (E : Z.of_nat (List.length (dec z)) = 0) by lia. rewrite E in *. cbn in *. lia.
Qed.
Lemma ndig_unique z k : 0 < z -> 10 ^ (k - 1) <= z < 10 ^ k -> ndig z = k.
Proof.
  intros H K. pose proof (ndig_ok z H) as N. pose proof (ndig_pos z H).
  assert (0 < k). { destruct (Z.lt_ge_cases 0 k); auto. destruct (Z.eq_dec k 0) as [->|]; [cbn in K; lia|rewrite (Z.pow_neg_r 10 k) in K by lia; lia]. }
  assert (k - 1 < ndig z) by (apply (Z.pow_lt_mono_r_iff 10); lia). assert (ndig z - 1 < k) by (apply (Z.pow_lt_mono_r_iff 10); lia). lia.
Qed.

Lemma le_quot a n d : 0 < d -> (a * d <= n <-> (IZR a <= n // d)%R).
Proof.
  intros D. assert (P : (0 < IZR d)%R) by (apply IZR_lt; auto). split; intros H.
  - apply IZR_le in H. rewrite mult_IZR in H. apply (Rmult_le_reg_r (IZR d)); auto. unfold Rdiv. rewrite Rmult_assoc, Rinv_l, Rmult_1_r; auto. lra.
  - apply le_IZR. rewrite mult_IZR. apply (Rmult_le_compat_r (IZR d)) in H; [|lra]. unfold Rdiv in H. rewrite Rmult_assoc, Rinv_l, Rmult_1_r in H; auto. lra.
Qed.
Lemma one_le_quot n d : 0 < d -> (d <= n <-> (1 <= n // d)%R).
Proof. intros D. rewrite <- (le_quot 1 n d D). lia. Qed.

Lemma quot_bounds (b : radix) n d i j : 0 < n -> 0 < d -> 0 <= i -> 0 <= j -> b ^ i <= n < b ^ (i + 1) -> b ^ j <= d < b ^ (j + 1) ->
  (bpow b (i - j - 1) < n // d < bpow b (i - j + 1))%R.
Proof.
  intros N D I J A B. pose proof (IZR_lt _ _ (proj2 A)) as A2. pose proof (IZR_le _ _ (proj1 A)) as A1.
  pose proof (IZR_lt _ _ (proj2 B)) as B2. pose proof (IZR_le _ _ (proj1 B)) as B1.
  rewrite (IZR_Zpower b) in A2, A1, B2, B1 by lia. assert (P : (0 < IZR d)%R) by (apply IZR_lt; auto). split.
  - apply (Rmult_lt_reg_r (IZR d)); auto. unfold Rdiv. rewrite Rmult_assoc, Rinv_l, Rmult_1_r by lra.
    apply Rlt_le_trans with (bpow b (i - j - 1) * bpow b (j + 1))%R; [apply Rmult_lt_compat_l; auto; apply bpow_gt_0|].
    rewrite <- bpow_plus. replace (i - j - 1 + (j + 1)) with i by lia. auto.
  - apply (Rmult_lt_reg_r (IZR d)); auto. unfold Rdiv. rewrite Rmult_assoc, Rinv_l, Rmult_1_r by lra.
    apply Rlt_le_trans with (bpow b (i + 1))%R; auto. replace (i + 1) with (i - j + 1 + j) by lia. rewrite bpow_plus.
    apply Rmult_le_compat_l; auto. apply bpow_ge_0.
Qed.

(** The choice between the two possible exponents *)
Lemma exp_choice (b : radix) n d k n' d' : 0 < n -> 0 < d -> (bpow b (k - 1) < n // d < bpow b (k + 1))%R -> down b n d k = (n', d') ->
  let x := if d' <=? n' then k else k - 1 in (bpow b x <= n // d < bpow b (x + 1))%R.
Proof.
  intros N D B H. destruct (down_ok b n d k n' d' D H) as [D' [Q _]]. destruct (Z.leb_spec d' n') as [L|L]; cbv zeta.
  - apply (one_le_quot n' d' D') in L. rewrite Q in L. split; [|apply B]. rewrite bpow_opp in L. pose proof (bpow_gt_0 b k) as P.
    apply (Rmult_le_compat_r (bpow b k)) in L; [|lra]. rewrite Rmult_assoc, Rinv_l in L by lra. lra.
  - split; [lra|]. replace (k - 1 + 1) with k by lia. apply Rnot_le_lt. intros F. apply (proj1 (Z.lt_nge _ _) L). apply (one_le_quot n' d' D'). rewrite Q, bpow_opp.
    pose proof (bpow_gt_0 b k) as P. apply (Rmult_le_reg_r (bpow b k)); auto. rewrite Rmult_assoc, Rinv_l by lra. lra.
Qed.

Lemma exp10_ok n d : 0 < n -> 0 < d -> (bpow radix10 (exp10 n d) <= n // d < bpow radix10 (exp10 n d + 1))%R.
Proof.
  intros N D. unfold exp10. destruct (down 10 n d (ndig n - ndig d)) as [n' d'] eqn:E.
  refine (exp_choice radix10 n d (ndig n - ndig d) n' d' N D _ E).
  pose proof (ndig_ok n N) as A. pose proof (ndig_ok d D) as B. pose proof (ndig_pos n N). pose proof (ndig_pos d D).
  replace (ndig n - ndig d - 1) with ((ndig n - 1) - (ndig d - 1) - 1) by lia. replace (ndig n - ndig d + 1) with ((ndig n - 1) - (ndig d - 1) + 1) by lia.
  apply quot_bounds; auto; try lia; change (radix_val radix10) with 10; replace (ndig n - 1 + 1) with (ndig n) by lia; replace (ndig d - 1 + 1) with (ndig d) by lia; auto.
Qed.
Definition raw2 (n d : Z) : Z := let k := Z.log2 n - Z.log2 d in let (n', d') := down 2 n d k in if d' <=? n' then k else k - 1.
Lemma raw2_ok n d : 0 < n -> 0 < d -> (bpow radix2 (raw2 n d) <= n // d < bpow radix2 (raw2 n d + 1))%R.
Proof.
  intros N D. unfold raw2. destruct (down 2 n d (Z.log2 n - Z.log2 d)) as [n' d'] eqn:E. cbv zeta.
  refine (exp_choice radix2 n d (Z.log2 n - Z.log2 d) n' d' N D _ E).
  pose proof (Z.log2_spec n N). pose proof (Z.log2_spec d D). pose proof (Z.log2_nonneg n). pose proof (Z.log2_nonneg d).
  apply quot_bounds; auto.
Qed.
Lemma exp2_raw n d : exp2 n d = Z.max (-1074) (raw2 n d - 52).
Proof. unfold exp2, raw2. destruct (down 2 n d _) as [n' d']. cbv zeta. destruct (d' <=? n'); lia. Qed.

Lemma mag_quot (b : radix) n d x : 0 < n -> 0 < d -> (bpow b x <= n // d < bpow b (x + 1))%R -> mag b (n // d) = (x + 1) :> Z.
Proof. intros N D H. apply mag_unique. rewrite Rabs_pos_eq by (apply Rlt_le, quot_pos; auto). replace (x + 1 - 1) with x by lia. exact H. Qed.

(** Decimal rounding *)
Notation FLX10 p := (FLX_exp p).
Lemma significant_ok p n d m x : 1 <= p -> 0 < n -> 0 < d -> significant p n d = (m, x) ->
  10 ^ (p - 1) <= m < 10 ^ p /\ (IZR m * bpow radix10 (x - p + 1) = round radix10 (FLX10 p) ZnearestE (n // d))%R.
Proof.
  intros P N D H. unfold significant in H. destruct (down 10 n d (exp10 n d - p + 1)) as [n' d'] eqn:E.
  pose proof (exp10_ok n d N D) as X. set (x0 := exp10 n d) in *. destruct (down_ok radix10 n d (x0 - p + 1) n' d' D E) as [D' [Q N']].
  rewrite round_div_ok in H by auto.
  assert (C : cexp radix10 (FLX10 p) (n // d) = x0 - p + 1). { unfold cexp. rewrite (mag_quot radix10 n d x0); auto. unfold FLX_exp. lia. }
  assert (R : (IZR (ZnearestE (n' // d')) * bpow radix10 (x0 - p + 1) = round radix10 (FLX10 p) ZnearestE (n // d))%R).
  { unfold round, F2R, scaled_mantissa. cbn [Fnum Fexp]. rewrite C, Q. reflexivity. }
  assert (B1 : (IZR (10 ^ (p - 1)) <= n' // d' <= IZR (10 ^ p))%R).
  { rewrite Q. change 10 with (radix_val radix10). rewrite !IZR_Zpower by lia. change (radix_val radix10) with 10. destruct X as [X1 X2]. split.
    - apply (Rmult_le_compat_r (bpow radix10 (- (x0 - p + 1)))) in X1; [|apply bpow_ge_0]. rewrite <- bpow_plus in X1. replace (x0 + - (x0 - p + 1)) with (p - 1) in X1 by lia. auto.
    - apply Rlt_le in X2. apply (Rmult_le_compat_r (bpow radix10 (- (x0 - p + 1)))) in X2; [|apply bpow_ge_0]. rewrite <- bpow_plus in X2. replace (x0 + 1 + - (x0 - p + 1)) with p in X2 by lia. auto. }
  assert (B : 10 ^ (p - 1) <= ZnearestE (n' // d') <= 10 ^ p).
  { split.
    - rewrite <- (Zrnd_IZR ZnearestE (10 ^ (p - 1))). apply Zrnd_le; [apply valid_rnd_N|apply B1].
    - rewrite <- (Zrnd_IZR ZnearestE (10 ^ p)). apply Zrnd_le; [apply valid_rnd_N|apply B1]. }
  assert (S : 10 ^ p = 10 * 10 ^ (p - 1)). { rewrite <- Z.pow_succ_r by lia. f_equal. lia. }
  assert (0 < 10 ^ (p - 1)) by (apply Z.pow_pos_nonneg; lia).
  destruct (Z.eqb_spec (ZnearestE (n' // d')) (10 ^ p)) as [F|F]; inversion H; subst m x.
  - split; [lia|]. rewrite <- R, F. change 10 with (radix_val radix10). rewrite !IZR_Zpower by lia. rewrite <- !bpow_plus. f_equal. lia.
  - split; [lia|]. exact R.
Qed.

(** Binary rounding *)
Notation FLT64 := (FLT_exp (-1074) 53).
Lemma fexp64 : forall e, SpecFloat.fexp 53 1024 e = FLT64 e.
Proof. intros e. unfold SpecFloat.fexp, SpecFloat.emin, FLT_exp. reflexivity. Qed.

Lemma digits2_log m : Z.pos (SpecFloat.digits2_pos m) = Z.log2 (Z.pos m) + 1.
Proof.
  assert (G : forall m, Z.pos (SpecFloat.digits2_pos m) = Z.pos (Pos.size m)).
  { clear. induction m; cbn; auto; rewrite !Pos2Z.inj_succ, IHm; auto. }
  rewrite G. destruct m; cbn; try lia.
Qed.
Lemma valid_shape s m e : 0 < Z.pos m < 2 ^ 53 -> -1074 <= e <= 971 -> (2 ^ 52 <= Z.pos m \/ e = -1074) -> valid_binary 53 1024 (S754_finite s m e) = true.
Proof.
  intros M E C. cbn [valid_binary]. unfold bounded, canonical_mantissa. rewrite fexp64. unfold FLT_exp. rewrite digits2_log.
  apply andb_true_intro. split; [|apply Z.leb_le; lia]. apply Zeq_bool_true. destruct C as [C|C].
  - assert (Z.log2 (Z.pos m) = 52) as ->; [|lia]. apply Z.log2_unique; lia.
  - assert (Z.log2 (Z.pos m) < 53); [|lia]. apply Z.log2_lt_pow2; lia.
Qed.


Theorem nearest_ok s n d : 0 < n -> 0 < d ->
  match nearest s n d with
  | None => (bpow radix2 1024 <= round radix2 FLT64 ZnearestE (n // d))%R
  | Some (S754_finite s' m e) => s' = s /\ valid_binary 53 1024 (S754_finite s m e) = true /\
      (F2R (Float radix2 (Z.pos m) e) = round radix2 FLT64 ZnearestE (n // d))%R
  | Some x => x = S754_zero s /\ (round radix2 FLT64 ZnearestE (n // d) = 0)%R
  end.
Proof.
  intros N D. unfold nearest. pose proof (raw2_ok n d N D) as X. rewrite exp2_raw. set (x := raw2 n d) in *.
  destruct (down 2 n d (Z.max (-1074) (x - 52))) as [n' d'] eqn:E. set (e := Z.max (-1074) (x - 52)) in *.
  destruct (down_ok radix2 n d e n' d' D E) as [D' [Q N']]. rewrite round_div_ok by auto.
  assert (C : cexp radix2 FLT64 (n // d) = e). { unfold cexp. rewrite (mag_quot radix2 n d x); auto. unfold FLT_exp, e. lia. }
  assert (R : (IZR (ZnearestE (n' // d')) * bpow radix2 e = round radix2 FLT64 ZnearestE (n // d))%R).
  { unfold round, F2R, scaled_mantissa. cbn [Fnum Fexp]. rewrite C, Q. reflexivity. }
  assert (B1 : (n' // d' <= IZR (2 ^ 53))%R).
  { rewrite Q. change 2 with (radix_val radix2). rewrite IZR_Zpower by lia. apply Rle_trans with (bpow radix2 (x + 1) * bpow radix2 (- e))%R.
    - apply Rmult_le_compat_r; [apply bpow_ge_0|lra].
    - rewrite <- bpow_plus. apply bpow_le. unfold e. lia. }
  assert (B0 : (0 <= n' // d')%R) by (apply Rlt_le, quot_pos; auto).
  assert (B2 : e <> -1074 -> (IZR (2 ^ 52) <= n' // d')%R).
  { intros NE. rewrite Q. change 2 with (radix_val radix2). rewrite IZR_Zpower by lia. apply Rle_trans with (bpow radix2 x * bpow radix2 (- e))%R.
    - rewrite <- bpow_plus. apply bpow_le. unfold e in *. lia.
    - apply Rmult_le_compat_r; [apply bpow_ge_0|lra]. }
  set (m := ZnearestE (n' // d')) in *.
  assert (M1 : 0 <= m <= 2 ^ 53).
  { unfold m. split.
    - rewrite <- (Zrnd_IZR ZnearestE 0). apply Zrnd_le; [apply valid_rnd_N|auto].
    - rewrite <- (Zrnd_IZR ZnearestE (2 ^ 53)). apply Zrnd_le; [apply valid_rnd_N|auto]. }
  assert (M2 : e <> -1074 -> 2 ^ 52 <= m).
  { intros NE. unfold m. rewrite <- (Zrnd_IZR ZnearestE (2 ^ 52)). apply Zrnd_le; [apply valid_rnd_N|auto]. }
  assert (E0 : -1074 <= e) by (unfold e; lia).
  rewrite <- R. clear - M1 M2 E0. destruct (Z.eqb_spec m (2 ^ 53)) as [F|F].
  - destruct (Z.ltb_spec 971 (e + 1)) as [G|G].
    + rewrite F. change 2 with (radix_val radix2). rewrite IZR_Zpower by lia. rewrite <- bpow_plus. apply bpow_le. lia.
    + change (2 ^ 52) with 4503599627370496. split; [reflexivity|]. split; [apply valid_shape; lia|].
      rewrite F. unfold F2R. cbn [Fnum Fexp]. change (Z.pos 4503599627370496) with (radix2 ^ 52). change (2 ^ 53) with (radix2 ^ 53).
      rewrite !IZR_Zpower by lia. rewrite <- !bpow_plus. f_equal. lia.
  - destruct (Z.ltb_spec 971 e) as [G|G].
    + specialize (M2 ltac:(lia)). apply Rle_trans with (bpow radix2 52 * bpow radix2 e)%R; [rewrite <- bpow_plus; apply bpow_le; lia|].
      apply Rmult_le_compat_r; [apply bpow_ge_0|]. rewrite <- IZR_Zpower by lia. apply IZR_le. exact M2.
    + destruct m as [|m|m]; [split; auto; ring| |lia]. split; [reflexivity|]. split; [apply valid_shape; lia|]. reflexivity.
Qed.
