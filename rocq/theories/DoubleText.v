(** The text of a number and its value. *)
From Coq Require Import List ZArith Bool Ascii String Lia ZifyBool Reals Lra Floats.SpecFloat.
From Flocq Require Import Core.
From Verif Require Import Outcome Dbl PlyModel SnapshotModel DoubleModel DoubleSpec DoubleArith.
Import ListNotations.
Open Scope Z_scope.

Lemma ten_bpow k : ten k = bpow radix10 k.
Proof. unfold ten. rewrite bpow_powerRZ. reflexivity. Qed.

Lemma digit_of_val c : is_dig c -> digit_of c = Some (Z.of_nat (nat_of_ascii c) - 48).
Proof.
  intros [A B]. unfold digit_of. replace (48 <=? Z.of_nat (nat_of_ascii c)) with true by lia. replace (Z.of_nat (nat_of_ascii c) <=? 57) with true by lia. reflexivity.
Qed.
Lemma fold_val l : forall a, fold_left (fun a c => 10 * a + (Z.of_nat (nat_of_ascii c) - 48)) l a = a * 10 ^ Z.of_nat (List.length l) + int_val l.
Proof.
  unfold int_val. induction l as [|c l IH]; intros a; cbn [fold_left List.length]; [cbn; lia|].
  rewrite IH, (IH (10 * 0 + _)). rewrite Nat2Z.inj_succ, Z.pow_succ_r by lia. ring.
Qed.
Lemma int_val_app a b : int_val (a ++ b) = int_val a * 10 ^ Z.of_nat (List.length b) + int_val b.
Proof. unfold int_val at 1. rewrite fold_left_app. apply fold_val. Qed.
Lemma int_val_nonneg l : Forall is_dig l -> 0 <= int_val l.
Proof.
  intros H. induction l as [|c l IH] using rev_ind; [cbn; lia|]. apply Forall_app in H. destruct H as [H1 H2]. inversion H2; subst. destruct H3.
  rewrite int_val_app. cbn [List.length]. change (int_val [c]) with (10 * 0 + (Z.of_nat (nat_of_ascii c) - 48)). specialize (IH H1). lia.
Qed.

Lemma digit_ok d : 0 <= d < 10 -> is_dig (digit d) /\ int_val [digit d] = d.
Proof.
  intros H. assert (d = 0 \/ d = 1 \/ d = 2 \/ d = 3 \/ d = 4 \/ d = 5 \/ d = 6 \/ d = 7 \/ d = 8 \/ d = 9) by lia.
  unfold is_dig. repeat (destruct H0 as [->|H0]; [cbn; lia|]). subst. cbn. lia.
Qed.
Lemma digits_ok : forall fuel z, 0 <= z -> Z.log2 z < Z.of_nat fuel -> digits fuel z <> [] /\ Forall is_dig (digits fuel z) /\ int_val (digits fuel z) = z.
Proof.
  induction fuel as [|f IH]; intros z Z0 L; [pose proof (Z.log2_nonneg z); lia|]. cbn [digits]. destruct (Z.ltb_spec z 10) as [H|H].
  - destruct (digit_ok z ltac:(lia)). split; [discriminate|]. auto.
  - assert (P : 0 < z / 10) by (apply Z.div_str_pos; lia).
    assert (Q : Z.log2 (z / 10) < Z.of_nat f).
    { assert (Z.log2 (z / 10) <= Z.log2 (z / 2)) by (apply Z.log2_le_mono; apply Z.div_le_compat_l; lia).
      assert (Z.log2 (z / 2) = Z.log2 z - 1).
      { change (z / 2) with (z / 2 ^ 1). rewrite <- Z.shiftr_div_pow2 by lia. rewrite Z.log2_shiftr by lia. pose proof (Z.log2_pos z ltac:(lia)). lia. }
      lia. }
    destruct (IH (z / 10) ltac:(lia) Q) as [A [B C]]. pose proof (Z.mod_pos_bound z 10 ltac:(lia)) as M. destruct (digit_ok (z mod 10) M) as [E F].
    split; [destruct (digits f (z / 10)); discriminate|]. split; [apply Forall_app; auto|]. rewrite int_val_app, C, F. cbn [List.length].
    change (10 ^ Z.of_nat 1) with 10. pose proof (Z.div_mod z 10 ltac:(lia)). lia.
Qed.
Lemma dec_ok z : 0 <= z -> dec z <> [] /\ Forall is_dig (dec z) /\ int_val (dec z) = z.
Proof. intros H. unfold dec. replace (z <? 0) with false by lia. apply digits_ok; auto. pose proof (Z.log2_nonneg z). lia. Qed.

Lemma undec_val l : Forall is_dig l -> forall acc, undec acc l = Some (acc * 10 ^ Z.of_nat (List.length l) + int_val l).
Proof.
  intros H. induction H as [|c l D H IH]; intros acc; cbn [undec List.length]; [cbn; f_equal; lia|]. rewrite digit_of_val, IH by auto. f_equal.
  change (c :: l) with ([c] ++ l). rewrite int_val_app. change (int_val [c]) with (10 * 0 + (Z.of_nat (nat_of_ascii c) - 48)).
  rewrite Nat2Z.inj_succ, Z.pow_succ_r by lia. ring.
Qed.
Lemma mantissa_val dot a w : Forall is_dig a -> forall acc behind seen,
  mantissa dot acc behind seen (a ++ w) = mantissa dot (acc * 10 ^ Z.of_nat (List.length a) + int_val a)
    (if dot then behind + Z.of_nat (List.length a) else behind) (seen + Z.of_nat (List.length a)) w.
Proof.
  intros H. induction H as [|c l D H IH]; intros acc behind seen; cbn [app mantissa List.length].
  - cbn [int_val fold_left]. f_equal; [cbn; unfold int_val; cbn; lia|destruct dot; cbn; lia|cbn; lia].
  - rewrite digit_of_val, IH by auto. change (c :: l) with ([c] ++ l). rewrite int_val_app. change (int_val [c]) with (10 * 0 + (Z.of_nat (nat_of_ascii c) - 48)).
    rewrite Nat2Z.inj_succ, Z.pow_succ_r by lia. f_equal; [ring|destruct dot; lia|lia].
Qed.

Lemma exp_text_read t k : exp_text t k -> forall acc behind seen dot, mantissa dot acc behind seen t = (acc, behind, seen, t) /\
  match t with [] => k = 0 | c :: r => (Ascii.eqb c "e" || Ascii.eqb c "E") = true /\ exponent r = Some k end.
Proof.
  intros H acc behind seen dot. destruct H as [|l N D|l N D].
  - auto.
  - split; [reflexivity|]. split; [reflexivity|]. cbn [exponent]. change (Ascii.eqb "+" "-") with false. change (Ascii.eqb "+" "+") with true. cbv iota.
    destruct l; [now elim N|]. rewrite undec_val by auto. f_equal; lia.
  - split; [reflexivity|]. split; [reflexivity|]. cbn [exponent]. change (Ascii.eqb "-" "-") with true. cbv iota.
    destruct l; [now elim N|]. rewrite undec_val by auto. cbn [option_map]. f_equal; lia.
Qed.

(** Reading a numeral *)
Lemma decimal_ok w r : numeral w r -> exists n k, decimal w = Some (n, k) /\ 0 <= n /\ r = (IZR n * ten k)%R.
Proof.
  intros H. destruct H as [a t k N D T|a b t k N NB D DB T].
  - exists (int_val a), k. split; [|split; [apply int_val_nonneg; auto|reflexivity]]. unfold decimal. rewrite mantissa_val by auto.
    destruct (exp_text_read t k T (0 * 10 ^ Z.of_nat (List.length a) + int_val a) 0 (0 + Z.of_nat (List.length a)) false) as [E M]. cbv iota. rewrite E.
    replace (0 + Z.of_nat (List.length a) =? 0) with false by (destruct a; [now elim N|cbn [List.length]; lia]).
    rewrite Z.mul_0_l, Z.add_0_l. destruct t as [|c t']; [subst k; reflexivity|]. destruct M as [M1 M2]. rewrite M1, M2. cbn [option_map]. do 2 f_equal. lia.
  - exists (int_val (a ++ b)), (k - Z.of_nat (List.length b)). split; [|split; [apply int_val_nonneg, Forall_app; auto|reflexivity]]. unfold decimal. rewrite mantissa_val by auto.
    cbv iota. cbn [mantissa]. change (digit_of ".") with (@None Z). change (Ascii.eqb "." "." && negb false) with true. cbv iota.
    rewrite mantissa_val by auto. cbv iota. rewrite Z.mul_0_l, Z.add_0_l.
    match goal with |- context [mantissa true ?x ?y ?z t] => destruct (exp_text_read t k T x y z true) as [E M] end. rewrite E.
    match goal with |- context [?x =? 0] => replace (x =? 0) with false by (destruct a; [now elim N|cbn [List.length]; lia]) end.
    rewrite <- int_val_app. destruct t as [|c t']; [subst k; do 2 f_equal|]. destruct M as [M1 M2]. rewrite M1, M2. cbn [option_map]. do 2 f_equal.
Qed.

(** Writing *)
Lemma strip_ok : forall fuel m, 0 < m -> exists z, 0 <= z /\ m = strip fuel m * 10 ^ z /\ 0 < strip fuel m.
Proof.
  induction fuel as [|f IH]; intros m M; cbn [strip]; [exists 0; cbn; lia|]. destruct (Z.eqb_spec (m mod 10) 0) as [E|E].
  - pose proof (Z.div_mod m 10 ltac:(lia)). destruct (IH (m / 10) ltac:(lia)) as [z [A [B C]]]. exists (z + 1). split; [lia|]. split; auto.
    rewrite Z.pow_add_r by lia. change (10 ^ 1) with 10. lia.
  - exists 0. cbn. lia.
Qed.

Lemma zeros_ok n : Forall is_dig (zeros n) /\ int_val (zeros n) = 0 /\ (0 <= n -> Z.of_nat (List.length (zeros n)) = n).
Proof.
  unfold zeros. split; [apply Forall_forall; intros c H; apply repeat_spec in H; subst; unfold is_dig; cbn; lia|]. split.
  - induction (Z.to_nat n) as [|k IH]; cbn [repeat]; [reflexivity|]. change ("0"%char :: repeat "0"%char k) with (["0"%char] ++ repeat "0"%char k). rewrite int_val_app, IH. cbn. reflexivity.
  - intros H. rewrite repeat_length. lia.
Qed.

Lemma exp_e x : exp_text ("e"%char :: (if x <? 0 then "-"%char else "+"%char) :: (if Z.abs x <? 10 then ["0"%char] else []) ++ dec (Z.abs x)) x.
Proof.
  destruct (dec_ok (Z.abs x) ltac:(lia)) as [A [B C]]. set (l := (if Z.abs x <? 10 then ["0"%char] else []) ++ dec (Z.abs x)).
  assert (N : l <> []) by (unfold l; destruct (dec (Z.abs x)); [now elim A|destruct (_ <? _); discriminate]).
  assert (D : Forall is_dig l). { unfold l. apply Forall_app. split; auto. destruct (_ <? _); constructor; [unfold is_dig; cbn; lia|constructor]. }
  assert (V : int_val l = Z.abs x). { unfold l. rewrite int_val_app, C. destruct (_ <? _); cbn; lia. }
  destruct (Z.ltb_spec x 0).
  - clearbody l. replace x with (- int_val l) by lia. constructor; auto.
  - clearbody l. replace x with (int_val l) by lia. constructor; auto.
Qed.


Theorem general_ok p n d : 1 <= p -> 0 < n -> 0 < d ->
  numeral (general p n d) (round radix10 (FLX_exp p) ZnearestE (n // d)).
Proof.
  intros P N D. unfold general. destruct (significant p n d) as [m x] eqn:E. destruct (significant_ok p n d m x P N D E) as [M V]. rewrite <- V. clear V E.
  assert (0 < 10 ^ (p - 1)) by (apply Z.pow_pos_nonneg; lia).
  destruct (strip_ok (Z.to_nat p) m ltac:(lia)) as [z [Z0 [E S]]]. set (m' := strip (Z.to_nat p) m) in *. clearbody m'. subst m.
  assert (ZP : z < p). { destruct (Z.lt_ge_cases z p); auto. assert (10 ^ p <= 10 ^ z) by (apply Z.pow_le_mono_r; lia). nia. }
  assert (L : ndig m' = p - z).
  { apply ndig_unique; auto. replace (p - 1) with (p - z - 1 + z) in M by lia. replace (10 ^ p) with (10 ^ (p - z + z)) in M by (f_equal; lia).
    rewrite !Z.pow_add_r in M by lia. assert (0 < 10 ^ z) by (apply Z.pow_pos_nonneg; lia). nia. }
  assert (R : (IZR (m' * 10 ^ z) * bpow radix10 (x - p + 1) = IZR m' * ten (x + 1 - ndig m'))%R).
  { rewrite ten_bpow, mult_IZR, Rmult_assoc. f_equal. change 10 with (radix_val radix10). rewrite IZR_Zpower by lia. rewrite <- bpow_plus. f_equal. rewrite L. lia. }
  rewrite R. clear R M. destruct (dec_ok m' ltac:(lia)) as [A [B C]]. pose proof (ndig_pos m' S) as LP. unfold ndig in LP, L |- *.
  set (s := dec m') in *. clearbody s. rewrite <- C. clear C.
  destruct ((x <? -4) || (p <=? x)).
  - (* style e *)
    unfold style_e. destruct s as [|c r]; [now elim A|]. cbn [firstn skipn]. inversion B; subst. pose proof (exp_e x) as T.
    set (t := "e"%char :: (if x <? 0 then "-"%char else "+"%char) :: (if Z.abs x <? 10 then ["0"%char] else []) ++ dec (Z.abs x)) in *. clearbody t.
    destruct r as [|c' r].
    + cbn [point_rest app List.length]. replace (x + 1 - Z.of_nat 1) with x by lia. change (c :: t) with ([c] ++ t). apply numeral_int; auto; discriminate.
    + cbn [point_rest]. replace (x + 1 - Z.of_nat (List.length (c :: c' :: r))) with (x - Z.of_nat (List.length (c' :: r))) by (cbn [List.length]; lia).
      change (c :: c' :: r) with ([c] ++ c' :: r). apply (numeral_frac [c] (c' :: r) t x); auto; discriminate.
  - unfold style_f. destruct (Z.ltb_spec x 0) as [X|X].
    + destruct (zeros_ok (- x - 1)) as [Z1 [Z2 Z3]]. specialize (Z3 ltac:(lia)).
      replace (int_val s) with (int_val (lit "0" ++ (zeros (- x - 1) ++ s))) by (rewrite !int_val_app, Z2; cbn; lia).
      replace (x + 1 - Z.of_nat (List.length s)) with (0 - Z.of_nat (List.length (zeros (- x - 1) ++ s))) by (rewrite app_length, Nat2Z.inj_add, Z3; lia).
      replace (lit "0." ++ zeros (- x - 1) ++ s) with (lit "0" ++ "."%char :: (zeros (- x - 1) ++ s) ++ []) by (rewrite app_nil_r; reflexivity).
      apply numeral_frac; [discriminate|destruct s; [now elim A|destruct (zeros _); discriminate]|repeat constructor; cbn; lia|apply Forall_app; auto|constructor].
    + destruct (Z.le_gt_cases (Z.of_nat (List.length s)) (x + 1)) as [Y|Y].
      * rewrite firstn_all2, skipn_all2 by lia. cbn [point_rest]. rewrite app_nil_r. destruct (zeros_ok (x + 1 - Z.of_nat (List.length s))) as [Z1 [Z2 Z3]]. specialize (Z3 ltac:(lia)).
        replace (IZR (int_val s) * ten (x + 1 - Z.of_nat (List.length s)))%R with (IZR (int_val (s ++ zeros (x + 1 - Z.of_nat (List.length s)))) * ten 0)%R.
        { rewrite <- (app_nil_r (s ++ zeros _)). rewrite (app_nil_r (s ++ zeros _)) at 2. apply numeral_int; [destruct s; [now elim A|discriminate]|apply Forall_app; auto|constructor]. }
        rewrite int_val_app, Z2, Z3, Z.add_0_r, mult_IZR, !ten_bpow. change 10 with (radix_val radix10). rewrite IZR_Zpower by lia. rewrite Rmult_assoc, <- bpow_plus. do 2 f_equal. lia.
      * unfold zeros. replace (Z.to_nat (x + 1 - Z.of_nat (List.length s))) with 0%nat by lia. cbn [repeat app].
        set (a := firstn (Z.to_nat (x + 1)) s). set (b := skipn (Z.to_nat (x + 1)) s).
        assert (AB : s = a ++ b) by (unfold a, b; symmetry; apply firstn_skipn).
        assert (LB : Z.of_nat (List.length b) = Z.of_nat (List.length s) - (x + 1)) by (unfold b; rewrite skipn_length; lia).
        assert (LA : List.length a = Z.to_nat (x + 1)) by (unfold a; rewrite firstn_length; lia).
        assert (BN : b <> []) by (destruct b; [cbn in LB; lia|discriminate]). assert (AN : a <> []) by (destruct a; [cbn in LA; lia|discriminate]).
        replace (point_rest b) with ("."%char :: b ++ []) by (rewrite app_nil_r; destruct b; [now elim BN|reflexivity]).
        replace (x + 1 - Z.of_nat (List.length s)) with (0 - Z.of_nat (List.length b)) by lia. rewrite AB. rewrite AB in B. apply Forall_app in B. destruct B.
        apply numeral_frac; auto. constructor.
Qed.

(** A numeral is a word and begins with a digit *)
Lemma numeral_word w r : numeral w r -> (exists c w', w = c :: w' /\ is_dig c) /\ Forall (fun c => c <> " "%char /\ c <> "010"%char) w.
Proof.
  assert (DG : forall l, Forall is_dig l -> Forall (fun c => c <> " "%char /\ c <> "010"%char) l).
  { intros l H. eapply Forall_impl; [|exact H]. intros c [A B]. split; intros ->; cbn in *; lia. }
  assert (TG : forall t k, exp_text t k -> Forall (fun c => c <> " "%char /\ c <> "010"%char) t).
  { intros t k H. destruct H; repeat constructor; try discriminate; auto. }
  intros H. destruct H as [a t k N D T|a b t k N NB D DB T].
  - split; [destruct a as [|c a]; [now elim N|]; inversion D; subst; exists c, (a ++ t); auto|]. apply Forall_app. split; eauto.
  - split; [destruct a as [|c a]; [now elim N|]; inversion D; subst; exists c, (a ++ "."%char :: b ++ t); auto|].
    apply Forall_app. split; eauto. constructor; [split; discriminate|]. apply Forall_app. split; eauto.
Qed.
