(** Proofs for StopModel. *)
From Coq Require Import Reals ZArith Lra Lia Psatz.
From Verif Require Import Outcome StereoSpec StopModel.
Open Scope R_scope.

Lemma gtb_spec a b : stop_gtb a b = true <-> b < a.
Proof. unfold stop_gtb. destruct (Rlt_dec b a); split; intros; auto; discriminate || contradiction. Qed.

Lemma base_pos p n : 0 < p < 1 -> (1 <= n)%Z ->
  0 < 1 - Rpower (1 - p) (1 / IZR n) < 1 /\ ln (1 - p) < 0.
Proof.
  intros P N. apply IZR_le in N.
  assert (L : ln (1 - p) < 0).
  { rewrite <- ln_1. apply ln_increasing; lra. }
  assert (0 < 1 / IZR n) by (apply Rdiv_lt_0_compat; lra).
  unfold Rpower. pose proof (exp_pos (1 / IZR n * ln (1 - p))).
  assert (exp (1 / IZR n * ln (1 - p)) < 1).
  { pose proof (exp_increasing (1 / IZR n * ln (1 - p)) 0 ltac:(nra)) as X. rewrite exp_0 in X.
    exact X. }
  lra.
Qed.

Lemma root5 b : 0 < b -> Rpower b (1 / 5) ^ 5 = b.
Proof.
  intros B. rewrite <- Rpower_pow by (unfold Rpower; apply exp_pos).
  rewrite Rpower_mult. replace (1 / 5 * INR 5) with 1 by (cbn [INR]; field).
  apply Rpower_1. exact B.
Qed.

Lemma pow5_lt a b : 0 < a -> a < b -> a ^ 5 < b ^ 5.
Proof.
  intros A B. assert (forall n, a ^ S n < b ^ S n) as H; [|apply (H 4%nat)].
  induction n as [|n IH].
  - cbn [pow]. lra.
  - change (a ^ S (S n)) with (a * a ^ S n). change (b ^ S (S n)) with (b * b ^ S n).
    assert (0 < a ^ S n) by (apply pow_lt; exact A).
    apply Rmult_gt_0_lt_compat; lra.
Qed.

Lemma quotient_bound p maxIter q : 0 < p < 1 -> (1 <= maxIter)%Z ->
  stop_q0 p maxIter < q -> q < 1 -> 0 < ln (1 - p) / ln (1 - q ^ 5) < IZR maxIter.
Proof.
  intros P N Q Q1. destruct (base_pos p maxIter P N) as [[B0 B1] L].
  set (b := 1 - Rpower (1 - p) (1 / IZR maxIter)) in *.
  unfold stop_q0 in Q. fold b in Q.
  assert (R0 : 0 < Rpower b (1 / 5)) by (unfold Rpower; apply exp_pos).
  pose proof (pow5_lt _ _ R0 Q) as X. rewrite (root5 b B0) in X.
  assert (Q5 : q ^ 5 < 1).
  { rewrite <- (pow1 5). apply pow5_lt; lra. }
  apply IZR_le in N.
  assert (Y : ln (1 - q ^ 5) < ln (1 - p) / IZR maxIter).
  { replace (ln (1 - p) / IZR maxIter) with (ln (Rpower (1 - p) (1 / IZR maxIter))).
    - apply ln_increasing; [lra|]. unfold b in X. lra.
    - unfold Rpower. rewrite ln_exp. field. lra. }
  set (l := ln (1 - q ^ 5)) in *. set (L0 := ln (1 - p)) in *.
  assert (L0 / IZR maxIter < 0).
  { unfold Rdiv. assert (0 < / IZR maxIter) by (apply Rinv_0_lt_compat; lra). nra. }
  assert (Hl : l < 0) by lra.
  assert (Y' : IZR maxIter * l < L0).
  { apply (Rmult_lt_compat_l (IZR maxIter)) in Y; [|lra].
    replace (IZR maxIter * (L0 / IZR maxIter)) with L0 in Y by (field; lra). exact Y. }
  assert (Hi : / l < 0) by (apply Rinv_lt_0_compat; exact Hl).
  unfold Rdiv. split; [nra|].
  replace (IZR maxIter) with (IZR maxIter * l * / l) by (field; lra). nra.
Qed.

Lemma stop_iter_bound p maxIter q : 0 < p < 1 -> (1 <= maxIter < 2 ^ 31)%Z ->
  stop_q0 p maxIter < q -> q <= 1 ->
  exists z, stop_iter p q = Ok z /\ (0 <= z <= maxIter)%Z.
Proof.
  intros P N Q Q1. unfold stop_iter.
  assert (0 < stop_q0 p maxIter) by (unfold stop_q0, Rpower; apply exp_pos).
  destruct (Req_EM_T q 1) as [E|E].
  - exists 0%Z. split; [reflexivity|lia].
  - destruct (Rlt_dec 1 q); [lra|]. destruct (Rle_dec q 0); [lra|].
    assert (Q2 : q < 1) by lra.
    destruct (quotient_bound p maxIter q P ltac:(lia) Q Q2) as [A B].
    set (x := ln (1 - p) / ln (1 - q ^ 5)) in *. unfold to_llong.
    destruct (Rlt_dec (Rabs x) (2 ^ 63)) as [_|C].
    + destruct (Rle_dec 0 x); [|lra].
      exists (up x - 1)%Z. split; [reflexivity|].
      destruct (archimed x) as [U1 U2].
      assert (0 < up x)%Z by (apply lt_IZR; lra).
      assert (up x < maxIter + 1)%Z by (apply lt_IZR; rewrite plus_IZR; lra). lia.
    + exfalso. apply C. rewrite Rabs_right by lra.
      assert (IZR maxIter <= 2 ^ 31).
      { change 2 with (IZR 2) at 1. rewrite pow_IZR. apply IZR_le.
        change (2 ^ Z.of_nat 31)%Z with (2 ^ 31)%Z. lia. }
      assert (2 ^ 31 <= 2 ^ 63) by (apply Rle_pow; [lra|lia]). lra.
Qed.

Lemma real_stop_ok p maxIter n : 0 < p < 1 -> (1 <= maxIter < 2 ^ 31)%Z -> (0 < n)%nat ->
  stop_ok n maxIter (stop_q0 p maxIter) (stop_ratio n) stop_gtb
    (fun k z => stop_iter p (stop_ratio n k) = Ok z).
Proof.
  intros P N Hn. split.
  - intros a b c A B. rewrite gtb_spec in *. lra.
  - intros k K G. rewrite gtb_spec in G.
    destruct (stop_iter_bound p maxIter (stop_ratio n k) P N G) as (z & Hz & B).
    + unfold stop_ratio. apply Rmult_le_reg_r with (INR n).
      * apply lt_0_INR. exact Hn.
      * unfold Rdiv. rewrite Rmult_assoc, Rinv_l by (apply not_0_INR; lia).
        rewrite INR_IZR_INZ, Rmult_1_r, Rmult_1_l. apply IZR_le. lia.
    + exists z. split; [exact Hz|lia].
Qed.

(** More inliers never ask for more iterations. *)
Lemma stop_iter_perfect p : stop_iter p 1 = Ok 0%Z.
Proof. unfold stop_iter. destruct (Req_EM_T 1 1); [reflexivity|congruence]. Qed.
