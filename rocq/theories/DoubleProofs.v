(** Reading what was written. *)
From Coq Require Import List ZArith Bool Ascii String Lia ZifyBool Reals Lra Psatz Floats.SpecFloat Eqdep_dec QArith.QArith_base QArith.Qreals.
From Flocq Require Import Core IEEE754.BinarySingleNaN.
From Verif Require Import Outcome Dbl PlyModel PlySpec SnapshotModel SnapshotSpec DoubleModel DoubleSpec DoubleArith DoubleText.
Import ListNotations.
Close Scope Q_scope.
Open Scope Z_scope.

Local Instance prec64 : Prec_gt_0 53 := eq_refl.
Local Instance vexp64 : Valid_exp FLT64 := FLT_exp_valid (-1074) 53.
Lemma prec17 p : 1 <= p -> Prec_gt_0 p. Proof. intros H. unfold Prec_gt_0. lia. Qed.

Lemma real_F2R s m e : real_of (S754_finite s m e) = F2R (Float radix2 (cond_Zopp s (Z.pos m)) e).
Proof. unfold real_of, F2R. cbn [Fnum Fexp]. rewrite bpow_powerRZ. destruct s; cbn [cond_Zopp]; [rewrite opp_IZR|]; reflexivity. Qed.
Lemma valid_canonical s m e : valid_binary 53 1024 (S754_finite s m e) = true -> canonical radix2 FLT64 (Float radix2 (Z.pos m) e).
Proof.
  intros H. cbn in H. unfold bounded in H. apply andb_prop in H. destruct H as [H _].
  exact (canonical_canonical_mantissa 53 1024 false m e H).
Qed.
Lemma valid_format x : valid_binary 53 1024 x = true -> generic_format radix2 FLT64 (real_of x).
Proof.
  intros H. destruct x as [s|s| |s m e]; try apply generic_format_0. rewrite real_F2R. destruct s; cbn [cond_Zopp].
  - change (Z.neg m) with (- Z.pos m). rewrite F2R_Zopp. apply generic_format_opp, generic_format_canonical, (valid_canonical true). exact H.
  - apply generic_format_canonical, (valid_canonical false). exact H.
Qed.
Lemma valid_bounds s m e : valid_binary 53 1024 (S754_finite s m e) = true -> Z.pos m < 2 ^ 53 /\ -1074 <= e <= 971.
Proof.
  intros H. cbn [valid_binary] in H. unfold bounded, canonical_mantissa in H. rewrite fexp64 in H. unfold FLT_exp in H. rewrite digits2_log in H.
  apply andb_prop in H. destruct H as [H1 H2]. apply Zeq_bool_eq in H1. apply Z.leb_le in H2. split; [|lia].
  destruct (Z.lt_ge_cases (Z.pos m) (2 ^ 53)) as [|G]; auto. apply Z.log2_le_mono in G. rewrite Z.log2_pow2 in G by lia. lia.
Qed.
Lemma small x : valid_binary 53 1024 x = true -> finite x = true -> (Rabs (real_of x) < bpow radix2 1024)%R.
Proof.
  intros V F. destruct x as [s|s| |s m e]; try (cbn [real_of]; rewrite Rabs_R0; apply bpow_gt_0). destruct (valid_bounds s m e V) as [M E].
  rewrite real_F2R, <- F2R_Zabs, abs_cond_Zopp. cbn [Z.abs]. unfold F2R. cbn [Fnum Fexp]. apply Rlt_le_trans with (bpow radix2 53 * bpow radix2 e)%R.
  - apply Rmult_lt_compat_r; [apply bpow_gt_0|]. rewrite <- IZR_Zpower by lia. apply IZR_lt. exact M.
  - rewrite <- bpow_plus. apply bpow_le. lia.
Qed.

(** Writing is exactly rounded *)
Lemma nearest_dec p r : 1 <= p -> nearest_decimal p r (round radix10 (FLX_exp p) ZnearestE r).
Proof.
  intros P. pose proof (prec17 p P) as PG. destruct (round_N_pt radix10 (FLX_exp p) (fun x => negb (Z.even x)) r) as [F G]. split.
  - apply FLX_format_generic in F; auto. destruct F as [f E B]. exists (Fnum f), (Fexp f). split; [exact B|]. rewrite ten_bpow. exact E.
  - intros u [m [k [B ->]]]. rewrite ten_bpow. apply G. apply generic_format_FLX. exists (Float radix10 m k); auto.
Qed.
Theorem writing p n d : 1 <= p -> 0 < n -> 0 < d -> exists v, numeral (general p n d) v /\ nearest_decimal p (n // d) v.
Proof. intros P N D. eexists. split; [apply general_ok; auto|]. apply nearest_dec. exact P. Qed.

(** Reading is exactly rounded *)
Lemma round_pos r : (0 < r)%R -> (0 <= round radix2 FLT64 ZnearestE r)%R.
Proof. intros H. rewrite <- (round_0 radix2 FLT64 ZnearestE). apply round_le; auto; try apply FLT_exp_valid; try apply valid_rnd_N; try lra. unfold Prec_gt_0. lia. Qed.

Lemma nearest_spec s n d : 0 < n -> 0 < d ->
  match nearest s n d with
  | Some x => nearest_double (if s then - (n // d) else n // d)%R x /\ real_of x = (if s then - round radix2 FLT64 ZnearestE (n // d) else round radix2 FLT64 ZnearestE (n // d))%R
  | None => forall y, valid_binary 53 1024 y = true -> finite y = true -> (Rabs (real_of y) < n // d)%R
  end.
Proof.
  intros N D. pose proof (nearest_ok s n d N D) as H. assert (PG : Prec_gt_0 53) by (unfold Prec_gt_0; lia).
  destruct (nearest s n d) as [x|] eqn:E.
  - assert (Q : valid_binary 53 1024 x = true /\ finite x = true /\ real_of x = (if s then - round radix2 FLT64 ZnearestE (n // d) else round radix2 FLT64 ZnearestE (n // d))%R).
    { destruct x as [s'|s'| |s' m e].
      - destruct H as [H1 H2]. split; [reflexivity|]. split; [reflexivity|]. cbn [real_of]. rewrite H2. destruct s; lra.
      - destruct H as [H _]. discriminate.
      - destruct H as [H _]. discriminate.
      - destruct H as [-> [V R]]. split; [exact V|]. split; [reflexivity|]. rewrite real_F2R, <- R. destruct s; cbn [cond_Zopp]; [|reflexivity]. change (Z.neg m) with (- Z.pos m). apply F2R_Zopp. }
    destruct Q as [V [F R]]. split; auto. split; auto. split; auto. intros y VY FY. rewrite R.
    destruct (round_N_pt radix2 FLT64 (fun x => negb (Z.even x)) (n // d)) as [_ G]. destruct s.
    + replace (- round radix2 FLT64 ZnearestE (n // d) - - (n // d))%R with (- (round radix2 FLT64 ZnearestE (n // d) - n // d))%R by ring.
      replace (real_of y - - (n // d))%R with (- (- real_of y - n // d))%R by ring. rewrite !Rabs_Ropp. apply G. apply generic_format_opp, valid_format; auto.
    + apply G. apply valid_format; auto.
  - intros y VY FY. apply Rnot_le_lt. intros L. pose proof (small y VY FY) as S. apply (Rlt_irrefl (bpow radix2 1024)).
    apply Rle_lt_trans with (2 := S). apply Rle_trans with (1 := H).
    assert (GF : generic_format radix2 FLT64 (Rabs (real_of y))) by (apply generic_format_abs, valid_format; auto).
    rewrite <- (round_generic radix2 FLT64 ZnearestE (Rabs (real_of y))) by auto. apply round_le; auto; [apply FLT_exp_valid; auto|apply valid_rnd_N].
Qed.

Lemma not_special w r : numeral w r -> is_word w "inf" = false /\ is_word w "nan" = false /\ forall c w', w = c :: w' -> Ascii.eqb c "-" = false /\ Ascii.eqb c "+" = false.
Proof.
  intros H. destruct (numeral_word w r H) as [[c [w' [-> D]]] _]. unfold is_word. unfold is_dig in D. split; [|split].
  - destruct (list_eq_dec _ _ _) as [E|]; auto. inversion E; subst. cbn in D. lia.
  - destruct (list_eq_dec _ _ _) as [E|]; auto. inversion E; subst. cbn in D. lia.
  - intros c1 w1 E. inversion E; subst. split; apply Ascii.eqb_neq; intros ->; cbn in D; lia.
Qed.

Lemma read_abs_numeral s w r : numeral w r -> (0 < r)%R -> exists n d, 0 < n /\ 0 < d /\ r = (n // d)%R /\ read_abs s w = nearest s n d.
Proof.
  intros H P. destruct (not_special w r H) as [A [B _]]. unfold read_abs. rewrite A, B. destruct (decimal_ok w r H) as [n [k [E [N V]]]]. rewrite E.
  assert (NZ : n <> 0). { intros ->. rewrite V in P. lra. }
  replace (n =? 0) with false by lia. destruct (down 10 n 1 (- k)) as [n' d'] eqn:DN. destruct (down_ok radix10 n 1 (- k) n' d' ltac:(lia) DN) as [D' [Q N']].
  exists n', d'. split; [apply N'; lia|]. split; auto. split; auto. rewrite V, Q, ten_bpow. replace (- - k) with k by lia. field.
Qed.
Lemma read_abs_zero s w : numeral w 0%R -> read_abs s w = Some (S754_zero s).
Proof.
  intros H. destruct (not_special w _ H) as [A [B _]]. unfold read_abs. rewrite A, B. destruct (decimal_ok w _ H) as [n [k [E [N V]]]]. rewrite E.
  replace (n =? 0) with true; auto. symmetry. apply Z.eqb_eq. apply eq_IZR. rewrite ten_bpow in V. pose proof (bpow_gt_0 radix10 k). symmetry in V. apply Rmult_integral in V. destruct V; [auto|lra].
Qed.

Theorem reading w r : signed w r ->
  match read_sf w with
  | Some x => nearest_double r x
  | None => forall y, valid_binary 53 1024 y = true -> finite y = true -> (Rabs (real_of y) < Rabs r)%R
  end.
Proof.
  assert (Z0 : forall s, nearest_double 0 (S754_zero s)).
  { intros s. split; [reflexivity|]. split; [reflexivity|]. intros y _ _. cbn [real_of]. rewrite Rminus_0_r, Rabs_R0. apply Rabs_pos. }
  assert (G : forall s w r, numeral w r -> match read_abs s w with
            | Some x => nearest_double (if s then - r else r)%R x | None => forall y, valid_binary 53 1024 y = true -> finite y = true -> (Rabs (real_of y) < Rabs r)%R end).
  { clear w r. intros s w r H. destruct (Rle_lt_or_eq_dec 0 r) as [P|P].
    - destruct (decimal_ok w r H) as [n [k [_ [N ->]]]]. apply Rmult_le_pos; [apply IZR_le; auto|rewrite ten_bpow; apply bpow_ge_0].
    - destruct (read_abs_numeral s w r H P) as [n [d [N [D [-> ->]]]]]. pose proof (nearest_spec s n d N D) as X. destruct (nearest s n d); [apply X|]. rewrite (Rabs_pos_eq (n // d)) by lra. exact X.
    - subst r. rewrite (read_abs_zero s w H). rewrite Ropp_0. destruct s; apply Z0. }
  intros [H|[w' [-> H]]].
  - pose proof (G false w r H) as X. destruct (not_special w r H) as [_ [_ C]]. destruct (numeral_word w r H) as [[c [w' [-> _]]] _]. destruct (C c w' eq_refl) as [C1 C2].
    cbn [read_sf]. rewrite C1, C2. exact X.
  - pose proof (G true w' _ H) as X. cbn [read_sf]. change (Ascii.eqb "-" "-") with true. cbv iota. rewrite Ropp_involutive, Rabs_Ropp in X. exact X.
Qed.

(** The round trip *)
Lemma back m e p v : 17 <= p -> valid_binary 53 1024 (S754_finite false m e) = true ->
  v = round radix10 (FLX_exp p) ZnearestE (F2R (Float radix2 (Z.pos m) e)) -> round radix2 FLT64 ZnearestE v = F2R (Float radix2 (Z.pos m) e).
Proof.
  intros P V ->. pose proof (valid_canonical false m e V) as C. destruct (valid_bounds false m e V) as [MB EB]. set (x := F2R (Float radix2 (Z.pos m) e)) in *.
  assert (X0 : (0 < x)%R) by (apply F2R_gt_0; cbn; lia). pose proof (prec17 p ltac:(lia)) as PG. assert (PG' : Prec_gt_0 53) by (unfold Prec_gt_0; lia).
  set (v := round radix10 (FLX_exp p) ZnearestE x).
  assert (U : ulp radix2 FLT64 x = bpow radix2 e) by (apply ulp_canonical; auto; lia).
  assert (XE : x = (IZR (Z.pos m) * bpow radix2 e)%R) by reflexivity.
  (* the decimal error *)
  assert (B : (Rabs (v - x) <= / 2 * (bpow radix10 (1 - p) * x))%R).
  { pose proof (error_le_half_ulp radix10 (FLX_exp p) (fun t => negb (Z.even t)) x) as H. apply Rle_trans with (1 := H). apply Rmult_le_compat_l; [lra|].
    rewrite ulp_neq_0 by lra. unfold cexp, FLX_exp. destruct (mag radix10 x) as [k K]. cbn. specialize (K ltac:(lra)). rewrite Rabs_pos_eq in K by lra.
    replace (k - p) with (1 - p + (k - 1)) by lia. rewrite bpow_plus. apply Rmult_le_compat_l; [apply bpow_ge_0|lra]. }
  assert (T : (bpow radix10 (1 - p) <= bpow radix10 (-16))%R) by (apply bpow_le; lia).
  assert (T16 : (bpow radix10 (-16) * IZR (10 ^ 16) = 1)%R). { change 10 with (radix_val radix10). rewrite IZR_Zpower by lia. rewrite <- bpow_plus. reflexivity. }
  pose proof (bpow_gt_0 radix2 e) as E0. pose proof (bpow_gt_0 radix10 (1 - p)) as P0.
  assert (GF : generic_format radix2 FLT64 x) by (apply generic_format_canonical; auto).
  assert (MR : (IZR (Z.pos m) <= IZR (2 ^ 53))%R) by (apply IZR_le; lia).
  assert (BU : (Rabs (v - x) < / 2 * bpow radix2 e)%R).
  { apply Rle_lt_trans with (1 := B). apply Rmult_lt_compat_l; [lra|]. rewrite XE, <- Rmult_assoc. rewrite <- (Rmult_1_l (bpow radix2 e)) at 2. apply Rmult_lt_compat_r; auto.
    apply Rle_lt_trans with (bpow radix10 (-16) * IZR (2 ^ 53))%R; [apply Rmult_le_compat; auto; [lra|apply IZR_le; lia]|]. rewrite <- T16.
    apply Rmult_lt_compat_l; [apply bpow_gt_0|apply IZR_lt; lia]. }
  apply Rabs_lt_inv in BU. destruct BU as [BL BH].
  apply Rle_antisym.
  - apply round_N_le_midp; auto; try apply FLT_exp_valid; auto. rewrite succ_eq_pos by lra. rewrite U. lra.
  - apply round_N_ge_midp; auto; try apply FLT_exp_valid; auto. rewrite pred_eq_pos by lra. unfold pred_pos. case Req_bool_spec; intros HP.
    + (* a power of two *)
      assert (FE : e - 1 <= FLT64 (mag radix2 x - 1)).
      { assert (CE : e = FLT64 (mag radix2 x)) by (exact C). unfold FLT_exp in *. lia. }
      apply (bpow_le radix2) in FE. replace (e - 1) with (-1 + e) in FE by lia. rewrite bpow_plus in FE. change (bpow radix2 (-1)) with (/ 2)%R in FE.
      assert (M52 : (IZR (Z.pos m) <= IZR (2 ^ 52))%R).
      { apply IZR_le. assert (ME : e = FLT64 (mag radix2 x)) by (exact C). assert (MG : mag radix2 x <= 53 + e) by (unfold FLT_exp in ME; lia).
        assert (XL : (x <= bpow radix2 (52 + e))%R) by (rewrite HP; apply bpow_le; lia). rewrite XE, bpow_plus in XL. apply Rmult_le_reg_r in XL; auto.
        rewrite <- IZR_Zpower in XL by lia. apply le_IZR in XL. exact XL. }
      assert (BQ : (Rabs (v - x) < / 4 * bpow radix2 e)%R).
      { apply Rle_lt_trans with (1 := B). replace (/ 4)%R with (/ 2 * / 2)%R by lra. rewrite Rmult_assoc. apply Rmult_lt_compat_l; [lra|]. rewrite XE, <- Rmult_assoc. apply Rmult_lt_compat_r; auto.
        apply Rle_lt_trans with (bpow radix10 (-16) * IZR (2 ^ 52))%R; [apply Rmult_le_compat; auto; [lra|apply IZR_le; lia]|].
        replace (/ 2)%R with (/ 2 * (bpow radix10 (-16) * IZR (10 ^ 16)))%R by (rewrite T16; lra).
        replace (/ 2 * (bpow radix10 (-16) * IZR (10 ^ 16)))%R with (bpow radix10 (-16) * (/ 2 * IZR (10 ^ 16)))%R by ring.
        apply Rmult_lt_compat_l; [apply bpow_gt_0|]. apply (Rmult_lt_reg_l 2); [lra|]. rewrite <- Rmult_assoc, Rinv_r, Rmult_1_l by lra. rewrite <- mult_IZR. apply IZR_lt. lia. }
      apply Rabs_lt_inv in BQ. lra.
    + rewrite U. lra.
Qed.

Lemma frac_ok m e n d : frac (Z.pos m) e = (n, d) -> 0 < n /\ 0 < d /\ (n // d)%R = F2R (Float radix2 (Z.pos m) e).
Proof.
  intros H. unfold frac in H. destruct (down_ok radix2 (Z.pos m) 1 (- e) n d ltac:(lia) H) as [D [Q N]]. split; [apply N; lia|]. split; auto.
  rewrite Q. unfold F2R. cbn [Fnum Fexp]. replace (- - e) with e by lia. field.
Qed.

Lemma sf_inj x y : valid_binary 53 1024 x = true -> valid_binary 53 1024 y = true -> match x with S754_finite _ _ _ => True | _ => False end ->
  match y with S754_finite s _ _ => match x with S754_finite s' _ _ => s = s' | _ => False end | S754_zero _ => True | _ => False end -> real_of y = real_of x -> y = x.
Proof.
  intros VX VY SX SY R. destruct x as [s|s| |s m e]; try contradiction. rewrite real_F2R in R.
  assert (NZ : F2R (Float radix2 (Z.pos m) e) <> 0%R) by (apply Rgt_not_eq, F2R_gt_0; cbn; lia).
  destruct y as [s'|s'| |s' m' e']; try contradiction.
  - cbn [real_of] in R. exfalso. apply NZ. destruct s; cbn [cond_Zopp] in R; auto. change (Z.neg m) with (- Z.pos m) in R. rewrite F2R_Zopp in R. lra.
  - subst s'. rewrite real_F2R in R. assert (Q : F2R (Float radix2 (Z.pos m') e') = F2R (Float radix2 (Z.pos m) e)).
    { destruct s; cbn [cond_Zopp] in R; auto. change (Z.neg m) with (- Z.pos m) in R. change (Z.neg m') with (- Z.pos m') in R. rewrite !F2R_Zopp in R. lra. }
    apply (canonical_unique radix2 FLT64) in Q; [|eapply valid_canonical; eauto|eapply valid_canonical; eauto]. inversion Q; subst. reflexivity.
Qed.

Theorem round_trip p x : 17 <= p -> valid_binary 53 1024 x = true -> read_sf (print_sf p x) = Some x.
Proof.
  intros P V. destruct x as [s|s| |s m e].
  - destruct s; vm_compute; reflexivity.
  - destruct s; vm_compute; reflexivity.
  - vm_compute; reflexivity.
  - cbn [print_sf]. destruct (frac (Z.pos m) e) as [n d] eqn:F. destruct (frac_ok m e n d F) as [N [D Q]].
    pose proof (general_ok p n d ltac:(lia) N D) as G. set (w := general p n d) in *. clearbody w. set (v := round radix10 (FLX_exp p) ZnearestE (n // d)) in *.
    assert (VP : valid_binary 53 1024 (S754_finite false m e) = true) by (exact V).
    assert (BK : round radix2 FLT64 ZnearestE v = F2R (Float radix2 (Z.pos m) e)) by (apply (back m e p); auto; unfold v; now rewrite Q).
    assert (X0 : (0 < F2R (Float radix2 (Z.pos m) e))%R) by (apply F2R_gt_0; cbn; lia).
    assert (VPOS : (0 < v)%R).
    { apply Rnot_le_lt. intros L. assert (H : (round radix2 FLT64 ZnearestE v <= 0)%R).
      { rewrite <- (round_0 radix2 FLT64 ZnearestE). apply round_le; auto; [apply FLT_exp_valid; unfold Prec_gt_0; lia|apply valid_rnd_N]. }
      rewrite BK in H. lra. }
    assert (H : read_abs s w = Some (S754_finite s m e)).
    { destruct (read_abs_numeral s w v G VPOS) as [n1 [d1 [N1 [D1 [E1 ->]]]]]. pose proof (nearest_spec s n1 d1 N1 D1) as S. pose proof (nearest_ok s n1 d1 N1 D1) as S2.
      rewrite <- E1, BK in S, S2. destruct (nearest s n1 d1) as [y|].
      - destruct S as [[VY [FY _]] RY]. f_equal. apply sf_inj; auto.
        + destruct y; auto; try (destruct S2; discriminate). destruct S2 as [S2 _]. exact S2.
        + rewrite RY, real_F2R. destruct s; cbn [cond_Zopp]; auto. change (Z.neg m) with (- Z.pos m). now rewrite F2R_Zopp.
      - exfalso. pose proof (small _ VP eq_refl) as SM. rewrite real_F2R in SM. cbn [cond_Zopp] in SM. rewrite Rabs_pos_eq in SM by lra. lra. }
    destruct s; cbn [minus app].
    + cbn [read_sf]. change (Ascii.eqb "-" "-") with true. exact H.
    + destruct (not_special w v G) as [_ [_ C]]. destruct (numeral_word w v G) as [[c [w' [-> _]]] _]. destruct (C c w' eq_refl) as [C1 C2]. cbn [read_sf]. rewrite C1, C2. exact H.
Qed.

Lemma plain_sf p x : 1 <= p -> print_sf p x <> [] /\ Forall (fun c => c <> " "%char /\ c <> "010"%char) (print_sf p x).
Proof.
  intros P. destruct x as [s|s| |s m e]; cbn [print_sf].
  - split; [destruct s; discriminate|destruct s; repeat constructor; discriminate].
  - split; [destruct s; discriminate|destruct s; repeat constructor; discriminate].
  - split; [discriminate|repeat constructor; discriminate].
  - destruct (frac (Z.pos m) e) as [n d] eqn:F. destruct (frac_ok m e n d F) as [N [D Q]]. pose proof (general_ok p n d P N D) as G.
    destruct (numeral_word _ _ G) as [[c [w' [E _]]] W]. split; [rewrite E; destruct s; discriminate|]. apply Forall_app. split; auto. destruct s; repeat constructor; discriminate.
Qed.

Theorem codec p : 17 <= p -> codec_ok (print p) read.
Proof.
  intros P [x V]. unfold print, read. cbn [proj1_sig]. split; [|apply plain_sf; lia]. rewrite round_trip by auto.
  destruct (Bool.bool_dec (valid_binary 53 1024 x) true) as [q|q]; [|now elim q]. rewrite (UIP_dec Bool.bool_dec q V). reflexivity.
Qed.
Theorem opp_opp (x : double) : opp (opp x) = x.
Proof.
  destruct x as [x V]. unfold opp. cbn [proj1_sig proj2_sig]. assert (E : opp_sf (opp_sf x) = x) by (destruct x; cbn; rewrite ?negb_involutive; auto).
  apply eq_sig_hprop; [intros y; apply UIP_dec; apply Bool.bool_dec|]. exact E.
Qed.

(** Coordinates of exported clouds *)
Theorem plain_dbl p x : 1 <= p -> print_dbl p x <> [] /\ Forall (fun c => c <> " "%char /\ c <> "010"%char) (print_dbl p x).
Proof.
  intros P. destruct x as [q| | |]; cbn [print_dbl]; try (split; [discriminate|repeat constructor; discriminate]).
  destruct (Z.eqb_spec (Qnum q) 0) as [E|E]; [split; [discriminate|repeat constructor; discriminate]|].
  pose proof (general_ok p (Z.abs (Qnum q)) (Z.pos (Qden q)) P ltac:(lia) ltac:(lia)) as G.
  destruct (numeral_word _ _ G) as [[c [w' [X _]]] W]. split; [rewrite X; destruct (_ <? _); discriminate|]. apply Forall_app. split; auto. destruct (_ <? _); repeat constructor; discriminate.
Qed.

Lemma error p r : 1 <= p -> (0 < r)%R -> (Rabs (round radix10 (FLX_exp p) ZnearestE r - r) <= / 2 * (ten (1 - p) * r))%R.
Proof.
  intros P R0. pose proof (prec17 p P) as PG. pose proof (error_le_half_ulp radix10 (FLX_exp p) (fun t => negb (Z.even t)) r) as H. apply Rle_trans with (1 := H). apply Rmult_le_compat_l; [lra|].
  rewrite ulp_neq_0 by lra. unfold cexp, FLX_exp. destruct (mag radix10 r) as [k K]. cbn. specialize (K ltac:(lra)). rewrite Rabs_pos_eq in K by lra.
  rewrite ten_bpow. replace (k - p) with (1 - p + (k - 1)) by lia. rewrite bpow_plus. apply Rmult_le_compat_l; [apply bpow_ge_0|lra].
Qed.
Theorem coordinate p q : 1 <= p -> exists v, signed (print_dbl p (Fin q)) v /\ nearest_decimal p (Q2R q) v /\ (Rabs (v - Q2R q) <= / 2 * ten (1 - p) * Rabs (Q2R q))%R.
Proof.
  intros P. cbn [print_dbl]. destruct (Z.eqb_spec (Qnum q) 0) as [E|E].
  - assert (Q0 : Q2R q = 0%R) by (unfold Q2R; rewrite E; ring). rewrite Q0. exists 0%R. split; [|split].
    + left. assert (Z0 : (IZR (int_val (lit "0")) * ten 0 = 0)%R) by (change (int_val (lit "0")) with 0; ring).
      assert (NU : numeral (lit "0" ++ []) (IZR (int_val (lit "0")) * ten 0)) by (apply numeral_int; [discriminate|repeat constructor; cbn; lia|constructor]).
      rewrite Z0 in NU. exact NU.
    + split; [exists 0, 0; split; [apply Z.pow_pos_nonneg; lia|ring]|]. intros u _. rewrite Rminus_0_r, Rabs_R0. apply Rabs_pos.
    + rewrite Rminus_0_r, Rabs_R0. lra.
  - set (n := Z.abs (Qnum q)). set (d := Z.pos (Qden q)). assert (N : 0 < n) by (unfold n; lia). assert (D : 0 < d) by (unfold d; lia).
    pose proof (general_ok p n d P N D) as G. pose proof (nearest_dec p (n // d) P) as [H1 H2]. pose proof (error p (n // d) P (quot_pos n d N D)) as H3.
    set (v := round radix10 (FLX_exp p) ZnearestE (n // d)) in *. clearbody v. destruct (Z.ltb_spec (Qnum q) 0) as [S|S]; cbn [minus app].
    + assert (QE : Q2R q = (- (n // d))%R). { unfold Q2R, n, d. rewrite Z.abs_neq by lia. rewrite opp_IZR. unfold Rdiv. ring. }
      exists (- v)%R. split; [right; eexists; split; [reflexivity|]; rewrite Ropp_involutive; exact G|]. rewrite QE. split; [split|].
      * destruct H1 as [m [k [A B]]]. exists (- m), k. split; [lia|]. rewrite B, opp_IZR. ring.
      * intros u [m [k [A ->]]]. replace (- v - - (n // d))%R with (- (v - n // d))%R by ring. replace (IZR m * ten k - - (n // d))%R with (- (IZR (- m) * ten k - n // d))%R by (rewrite opp_IZR; ring).
        rewrite !Rabs_Ropp. apply H2. exists (- m), k. split; [lia|reflexivity].
      * replace (- v - - (n // d))%R with (- (v - n // d))%R by ring. rewrite !Rabs_Ropp. rewrite (Rabs_pos_eq (n // d)) by (apply Rlt_le, quot_pos; auto). lra.
    + assert (QE : Q2R q = (n // d)%R). { unfold Q2R, n, d. rewrite Z.abs_eq by lia. reflexivity. }
      exists v. rewrite QE. split; [left; exact G|]. split; [split; auto|]. rewrite (Rabs_pos_eq (n // d)) by (apply Rlt_le, quot_pos; auto). lra.
Qed.
