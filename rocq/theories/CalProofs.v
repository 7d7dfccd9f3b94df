(** Proofs for CalModel. *)
From Coq Require Import Reals ZArith QArith Qreals String List Bool Lia Lra ZifyBool.
From Verif Require Import Outcome Dbl Pose GeomModel CamModel ReaderModel ReaderSpec ReaderProofs CalModel CalSpec.
Import ListNotations.
Open Scope nat_scope.

Lemma same_length {A B} (P : A -> B -> Prop) l l' : Forall2 P l l' -> length l = length l'.
Proof. induction 1; cbn; congruence. Qed.

Lemma all_written_det vs : all_written (map Det vs) = Ok vs.
Proof. induction vs as [|v vs IH]; [reflexivity|]. cbn [map all_written written bind]. rewrite IH. reflexivity. Qed.

Lemma all_written_indet l : In Indet l -> all_written l = UB.
Proof.
  induction l as [|c l IH]; intros H; [contradiction|]. cbn [all_written]. destruct c as [|q]; [reflexivity|]. cbn [written bind].
  destruct H as [H|H]; [discriminate|]. rewrite (IH H). reflexivity.
Qed.

(** the head of the file *)
Lemma head_read split w0 w1 w2 n rest b sc cx cy : writes w0 sc -> writes w1 cx -> writes w2 cy -> (0 <= n <= INT_MAX)%Z ->
  read_calib split (tagged (w0 :: w1 :: w2 :: WInt n :: rest) b) =
  match fst (get_doubles (Z.to_nat n) (mk rest b (match rest with [] => negb b | _ => false end) false)) with
  | [] => UB
  | cells => bind (all_written cells) (fun coeffs => Ok {| k_scale := sc; k_cx := cx; k_cy := cy; k_coeffs := coeffs |})
  end.
Proof.
  intros W0 W1 W2 N. unfold read_calib, tagged, after_tag. cbn [cf_tag cf_rest f_words f_blank_end String.eqb Ascii.eqb Bool.eqb negb].
  rewrite (get_double_num w0 sc) by exact W0. rewrite (get_double_num w1 cx) by exact W1. rewrite (get_double_num w2 cy) by exact W2.
  rewrite get_int_num by (unfold INT_MIN; lia). replace (n <? 0)%Z with false by lia.
  destruct (get_doubles _ _) as [cells s]. cbn [fst]. destruct cells; [reflexivity|]. destruct (all_written _); reflexivity.
Qed.

Theorem calib_read split ws rest b sc cx cy coeffs : calibration_words ws sc cx cy coeffs -> coeffs <> [] ->
  read_calib split (tagged (ws ++ rest) b) = Ok {| k_scale := sc; k_cx := cx; k_cy := cy; k_coeffs := coeffs |}.
Proof.
  intros (w0 & w1 & w2 & wc & -> & W0 & W1 & W2 & WC & L) N. cbn [app]. rewrite (head_read _ _ _ _ _ _ _ sc cx cy) by (assumption || lia).
  rewrite Nat2Z.id, <- (same_length _ _ _ WC). destruct WC as [|w c wc coeffs W WC]; [congruence|].
  replace (match (w :: wc) ++ rest with [] => negb b | _ :: _ => false end) with false by reflexivity.
  rewrite (get_doubles_num (w :: wc) (c :: coeffs)) by (constructor; assumption). cbn [fst map]. change (Det c :: map Det coeffs) with (map Det (c :: coeffs)).
  rewrite all_written_det. reflexivity.
Qed.

Theorem calib_tag split f : cf_tag f <> Some "omnidirectional"%string -> read_calib split f = Throw.
Proof.
  intros H. unfold read_calib. destruct (cf_tag f) as [t|]; [|reflexivity]. destruct (String.eqb t "omnidirectional") eqn:E; [|reflexivity].
  apply String.eqb_eq in E. subst. congruence.
Qed.

(** Fewer words than announced *)
Theorem calib_short split ws b sc cx cy coeffs k : calibration_words ws sc cx cy coeffs -> k < length ws -> read_calib split (tagged (firstn k ws) b) = UB.
Proof.
  intros (w0 & w1 & w2 & wc & -> & W0 & W1 & W2 & WC & L) K. cbn [length] in K.
  assert (E : forall c w b e, get_double c (mk w b e true) = (c, mk w b e true)) by (intros; unfold get_double; cbn; rewrite orb_true_r; reflexivity).
  assert (I : forall w b e, get_int split (mk w b e true) = (None, mk w b e true)) by (intros; unfold get_int; cbn; rewrite orb_true_r; reflexivity).
  assert (Z0 : forall b, get_double Indet (mk [] b (negb b) false) = (Indet, mk [] b true true)) by (intros []; reflexivity).
  assert (Z1 : forall b, get_int split (mk [] b (negb b) false) = (None, mk [] b true true)) by (intros []; reflexivity).
  destruct k as [|[|[|[|k]]]]; cbn [firstn].
  - unfold read_calib, tagged, after_tag. cbn [cf_tag cf_rest f_words f_blank_end String.eqb Ascii.eqb Bool.eqb negb]. rewrite Z0, !E, I. reflexivity.
  - unfold read_calib, tagged, after_tag. cbn [cf_tag cf_rest f_words f_blank_end String.eqb Ascii.eqb Bool.eqb negb]. rewrite (get_double_num w0 sc) by exact W0. rewrite Z0, !E, I. reflexivity.
  - unfold read_calib, tagged, after_tag. cbn [cf_tag cf_rest f_words f_blank_end String.eqb Ascii.eqb Bool.eqb negb]. rewrite (get_double_num w0 sc) by exact W0. rewrite (get_double_num w1 cx) by exact W1. rewrite Z0, I. reflexivity.
  - unfold read_calib, tagged, after_tag. cbn [cf_tag cf_rest f_words f_blank_end String.eqb Ascii.eqb Bool.eqb negb].
    rewrite (get_double_num w0 sc) by exact W0. rewrite (get_double_num w1 cx) by exact W1. rewrite (get_double_num w2 cy) by exact W2. rewrite Z1. reflexivity.
  - rewrite (head_read _ _ _ _ _ _ _ sc cx cy) by (assumption || lia). rewrite Nat2Z.id, <- (same_length _ _ _ WC).
    assert (P : exists vs, Forall2 writes (firstn k wc) vs).
    { clear - WC. revert k. induction WC as [|w c wc cs W WC IH]; intros [|k]; cbn [firstn]; try (exists []; constructor). destruct (IH k) as (vs & V). exists (c :: vs). constructor; assumption. }
    destruct P as (vs & V). assert (LK : length (firstn k wc) < length wc) by (rewrite firstn_length; lia).
    assert (R : exists cells s, get_doubles (length wc) (mk (firstn k wc) b (match firstn k wc with [] => negb b | _ :: _ => false end) false) = (cells, s) /\ In Indet cells).
    { destruct (firstn k wc) as [|w ws] eqn:Q.
      - destruct (length wc) as [|n] eqn:LW; [cbn in LK; lia|]. exists (repeat Indet (S n)), (mk [] b true true). split; [|left; reflexivity]. destruct b; cbn [negb]; [apply get_doubles_end; reflexivity|apply get_doubles_eof].
      - exists (map Det vs ++ repeat Indet (length wc - length (w :: ws))), (mk [] b true true). split; [apply get_doubles_short; [exact V|exact LK|discriminate]|].
        apply in_or_app. right. destruct (length wc - length (w :: ws)) eqn:D; [lia|left; reflexivity]. }
    destruct R as (cells & s & -> & IN). cbn [fst]. destruct cells as [|c cells]; [contradiction|]. rewrite (all_written_indet _ IN). reflexivity.
Qed.

(** Word number k (0: the scale) is no number *)
Definition spoil (k : nat) (u : bool) (ws : list word) : list word := firstn k ws ++ WBad u :: skipn (S k) ws.

Lemma fail_double c s : s_fail s = true -> get_double c s = (c, s).
Proof. destruct s as [w b e f]. cbn. intros ->. unfold get_double. cbn. rewrite orb_true_r. reflexivity. Qed.
Lemma fail_int split s : s_fail s = true -> get_int split s = (None, s).
Proof. destruct s as [w b e f]. cbn. intros ->. unfold get_int. cbn. rewrite orb_true_r. reflexivity. Qed.
Lemma bad_double u rest b : exists s, get_double Indet (mk (WBad u :: rest) b false false) = (Det 0, s) /\ s_fail s = true.
Proof. unfold get_double. cbn [s_eof s_fail orb s_words]. destruct u; eexists; split; reflexivity. Qed.

Theorem calib_bad split ws rest b sc cx cy coeffs k u : calibration_words ws sc cx cy coeffs -> k + 1 < length ws -> read_calib split (tagged (spoil k u ws ++ rest) b) = UB.
Proof.
  intros (w0 & w1 & w2 & wc & -> & W0 & W1 & W2 & WC & L) K. cbn [length] in K. unfold spoil.
  destruct k as [|[|[|[|k]]]]; cbn [firstn].
  - cbn [skipn app]. unfold read_calib, tagged, after_tag. cbn [cf_tag cf_rest f_words f_blank_end String.eqb Ascii.eqb Bool.eqb negb].
    destruct (bad_double u (w1 :: w2 :: WInt (Z.of_nat (length coeffs)) :: wc ++ rest) b) as (s & -> & F). rewrite !(fail_double _ _ F), (fail_int _ _ F). reflexivity.
  - cbn [skipn app]. unfold read_calib, tagged, after_tag. cbn [cf_tag cf_rest f_words f_blank_end String.eqb Ascii.eqb Bool.eqb negb]. rewrite (get_double_num w0 sc) by exact W0.
    destruct (bad_double u (w2 :: WInt (Z.of_nat (length coeffs)) :: wc ++ rest) b) as (s & -> & F). rewrite !(fail_double _ _ F), (fail_int _ _ F). reflexivity.
  - cbn [skipn app]. unfold read_calib, tagged, after_tag. cbn [cf_tag cf_rest f_words f_blank_end String.eqb Ascii.eqb Bool.eqb negb]. rewrite (get_double_num w0 sc) by exact W0. rewrite (get_double_num w1 cx) by exact W1.
    destruct (bad_double u (WInt (Z.of_nat (length coeffs)) :: wc ++ rest) b) as (s & -> & F). rewrite (fail_int _ _ F). reflexivity.
  - cbn [skipn app]. unfold read_calib, tagged, after_tag. cbn [cf_tag cf_rest f_words f_blank_end String.eqb Ascii.eqb Bool.eqb negb]. rewrite (get_double_num w0 sc) by exact W0. rewrite (get_double_num w1 cx) by exact W1. rewrite (get_double_num w2 cy) by exact W2.
    unfold get_int. cbn [s_eof s_fail orb s_words]. destruct u; reflexivity.
  - match goal with |- context [skipn ?n (w0 :: w1 :: w2 :: ?x :: wc)] => change (skipn n (w0 :: w1 :: w2 :: x :: wc)) with (skipn (S k) wc) end.
    set (tl := skipn (S k) wc). cbn [app]. rewrite <- app_assoc. cbn [app]. rewrite (head_read _ _ _ _ _ _ _ sc cx cy) by (assumption || lia). rewrite Nat2Z.id, <- (same_length _ _ _ WC).
    assert (P : exists vs, Forall2 writes (firstn k wc) vs).
    { clear - WC. revert k. induction WC as [|w c wc cs W WC IH]; intros [|k]; cbn [firstn]; try (exists []; constructor). destruct (IH k) as (vs & V). exists (c :: vs). constructor; assumption. }
    destruct P as (vs & V). assert (LK : length (firstn k wc) = k) by (rewrite firstn_length; lia).
    assert (E0 : match firstn k wc ++ WBad u :: tl ++ rest with [] => negb b | _ :: _ => false end = false) by (destruct (firstn k wc); reflexivity). rewrite E0.
    replace (length wc) with (length (firstn k wc) + S (S (length wc - k - 2))) by lia. rewrite get_doubles_app, (get_doubles_num _ _ _ _ V).
    assert (E1 : match firstn k wc with [] => false | _ :: _ => match WBad u :: tl ++ rest with [] => negb b | _ :: _ => false end end = false) by (destruct (firstn k wc); reflexivity). rewrite E1.
    change (get_doubles (S (S (length wc - k - 2))) (mk (WBad u :: tl ++ rest) b false false)) with
      (let (c, s1) := get_double Indet (mk (WBad u :: tl ++ rest) b false false) in let (cs, s2) := get_doubles (S (length wc - k - 2)) s1 in (c :: cs, s2)).
    destruct (bad_double u (tl ++ rest) b) as (s & -> & F). destruct s as [w' b' e' f']. cbn in F. subst f'. rewrite get_doubles_fail. cbn [fst].
    assert (IN : In Indet (map Det vs ++ Det 0 :: repeat Indet (S (length wc - k - 2)))) by (apply in_or_app; right; right; left; reflexivity).
    destruct (map Det vs ++ _) as [|c cells]; [contradiction|]. rewrite (all_written_indet _ IN). reflexivity.
Qed.

(** the last coefficient no number: 0 is taken *)
Theorem calib_last split ws rest b sc cx cy coeffs c u : calibration_words ws sc cx cy (coeffs ++ [c]) ->
  read_calib split (tagged (spoil (length ws - 1) u ws ++ rest) b) = Ok {| k_scale := sc; k_cx := cx; k_cy := cy; k_coeffs := coeffs ++ [0%Q] |}.
Proof.
  intros (w0 & w1 & w2 & wc & -> & W0 & W1 & W2 & WC & L). unfold spoil.
  pose proof (same_length _ _ _ WC) as LC. rewrite app_length in LC. cbn [length] in LC. cbn [length]. replace (S (S (S (S (length wc)))) - 1) with (S (S (S (S (length wc - 1))))) by lia.
  cbn [firstn]. match goal with |- context [skipn ?n (w0 :: w1 :: w2 :: ?x :: wc)] => change (skipn n (w0 :: w1 :: w2 :: x :: wc)) with (skipn (S (length wc - 1)) wc) end. cbn [app]. rewrite (head_read _ _ _ _ _ _ _ sc cx cy) by (assumption || lia). rewrite Nat2Z.id, app_length. cbn [length].
  apply Forall2_app_inv_r in WC. destruct WC as (wa & wb & VA & VB & ->). inversion VB as [|w c' wb' ? V1 V2]. subst. inversion V2. subst. rewrite app_length in LC |- *. cbn [length] in LC |- *.
  replace (length wa + 1 - 1) with (length wa) by lia.
  rewrite firstn_app, Nat.sub_diag, firstn_all. cbn [firstn]. rewrite app_nil_r. rewrite <- app_assoc. cbn [app].
  assert (SK : skipn (S (length wa)) (wa ++ [w]) = []) by (apply skipn_all2; rewrite app_length; cbn; lia). rewrite SK. cbn [app].
  assert (E0 : match wa ++ WBad u :: rest with [] => negb b | _ :: _ => false end = false) by (destruct wa; reflexivity). rewrite E0.
  replace (length coeffs + 1) with (length wa + 1) by lia. rewrite get_doubles_app, (get_doubles_num _ _ _ _ VA).
  assert (E1 : match wa with [] => false | _ :: _ => match WBad u :: rest with [] => negb b | _ :: _ => false end end = false) by (destruct wa; reflexivity). rewrite E1.
  cbn [get_doubles]. destruct (bad_double u rest b) as (s & -> & F). cbn [fst]. change [Det 0] with (map Det [0%Q]). rewrite <- map_app.
  assert (NE : map Det (coeffs ++ [0%Q]) <> []) by (destruct coeffs; discriminate). destruct (map Det (coeffs ++ [0%Q])) eqn:Q; [congruence|]. rewrite <- Q, all_written_det. reflexivity.
Qed.

Theorem file_camera split samples fit w h ws rest b sc cx cy coeffs : calibration_words ws sc cx cy coeffs -> coeffs <> [] ->
  camera_from_file split samples fit w h (Some (tagged (ws ++ rest) b)) = new_camera samples fit (raw w h (Q2R sc) (P2 (Q2R cx) (Q2R cy)) (map Q2R coeffs)).
Proof. intros H N. unfold camera_from_file. rewrite (calib_read split ws rest b sc cx cy coeffs H N). reflexivity. Qed.

(** ** undistort *)
Open Scope R_scope.
Lemma int_part_bounds x : IZR (Int_part x) <= x < IZR (Int_part x) + 1.
Proof. destruct (base_Int_part x) as [A B]. lra. Qed.

Lemma trunc_range x n : (0 < n)%Z -> ((0 <= trunc x < n)%Z <-> -1 < x < IZR n).
Proof.
  intros N. unfold trunc. destruct (Rlt_dec x 0) as [L|L].
  - pose proof (int_part_bounds (- x)) as [A B]. split.
    + intros [H _]. assert (Int_part (- x) <= 0)%Z by lia. apply IZR_le in H0. split; [lra|]. apply Rlt_trans with 0; [exact L|apply (IZR_lt 0), N].
    + intros [H _]. assert (Int_part (- x) < 1)%Z by (apply lt_IZR; lra). assert (-1 < Int_part (- x))%Z by (apply lt_IZR; lra). lia.
  - pose proof (int_part_bounds x) as [A B]. split.
    + intros [H1 H2]. split; [lra|]. assert (Int_part x + 1 <= n)%Z by lia. apply IZR_le in H. rewrite plus_IZR in H. lra.
    + intros [_ H]. split; [assert (-1 < Int_part x)%Z by (apply lt_IZR; lra); lia|]. apply lt_IZR. lra.
Qed.

Lemma trunc_floor x : 0 <= x -> IZR (trunc x) <= x < IZR (trunc x) + 1.
Proof. intros H. unfold trunc. destruct (Rlt_dec x 0); [lra|apply int_part_bounds]. Qed.
Lemma trunc_edge x : -1 < x <= 0 -> trunc x = 0%Z.
Proof.
  intros [A B]. unfold trunc. destruct (Rlt_dec x 0) as [L|L].
  - pose proof (int_part_bounds (- x)). assert (Int_part (- x) < 1)%Z by (apply lt_IZR; lra). assert (-1 < Int_part (- x))%Z by (apply lt_IZR; lra). lia.
  - assert (x = 0) as -> by lra. pose proof (int_part_bounds 0). assert (Int_part 0 < 1)%Z by (apply lt_IZR; lra). assert (-1 < Int_part 0)%Z by (apply lt_IZR; lra). lia.
Qed.

Section Undistort.
Context {A : Type}.
Variables (c : CamModel.camera) (kinv : R -> R -> vec) (zero : A) (i : picture A).

Let o x y := map_ray c (kinv (IZR x) (IZR y)).
Lemma to_int_ok u : int_range u -> to_int u = Ok (trunc u).
Proof. intros [L H]. unfold to_int. destruct (Rlt_dec (-2147483649) u); [|lra]. destruct (Rlt_dec u 2147483648); [reflexivity|lra]. Qed.
Lemma to_int_ub u : ~ int_range u -> to_int u = UB.
Proof. intros N. unfold to_int, int_range in *. destruct (Rlt_dec (-2147483649) u); [|reflexivity]. destruct (Rlt_dec u 2147483648); [lra|reflexivity]. Qed.
Lemma int_range_dec u : {int_range u} + {~ int_range u}.
Proof. unfold int_range. destruct (Rlt_dec (-2147483649) u); [|right; lra]. destruct (Rlt_dec u 2147483648); [left|right]; lra. Qed.

Theorem undistort_defined y x : (int_range (px (o x y)) /\ int_range (py (o x y)) -> exists v, undistort_at c kinv zero i y x = Ok v) /\
  (~ (int_range (px (o x y)) /\ int_range (py (o x y))) -> undistort_at c kinv zero i y x = UB).
Proof.
  unfold undistort_at. fold (o x y). split.
  - intros [X Y]. rewrite (to_int_ok _ X), (to_int_ok _ Y). cbn [bind]. destruct (_ && _)%bool eqn:B; [|eexists; reflexivity]. unfold at_pix.
    repeat (apply andb_prop in B; destruct B as [B ?]). rewrite B, H, H0, H1. eexists. reflexivity.
  - intros N. destruct (int_range_dec (px (o x y))) as [X|X]; [|rewrite (to_int_ub _ X); reflexivity]. rewrite (to_int_ok _ X). cbn [bind].
    rewrite to_int_ub; [reflexivity|tauto].
Qed.

Hypothesis ROWS : (0 < rows i <= 2147483647)%Z.
Hypothesis COLS : (0 < cols i <= 2147483647)%Z.

Lemma inside_int u n : (0 < n <= 2147483647)%Z -> -1 < u < IZR n -> to_int u = Ok (trunc u) /\ (0 <= trunc u < n)%Z.
Proof.
  intros N [L H]. assert (T : (0 <= trunc u < n)%Z) by (apply trunc_range; [lia|lra]). split; [|exact T]. unfold to_int.
  destruct (Rlt_dec (-2147483649) u) as [|F]; [|lra]. destruct (Rlt_dec u 2147483648) as [|F]; [reflexivity|]. exfalso. assert (E : (n <= 2147483648)%Z) by lia. apply IZR_le in E. lra.
Qed.

Theorem undistort_shown y x : -1 < px (o x y) < IZR (cols i) -> -1 < py (o x y) < IZR (rows i) ->
  undistort_at c kinv zero i y x = Ok (pix i (trunc (py (o x y))) (trunc (px (o x y)))).
Proof.
  intros X Y. unfold undistort_at. fold (o x y). destruct (inside_int _ _ COLS X) as [-> TX]. destruct (inside_int _ _ ROWS Y) as [-> TY]. cbn [bind].
  unfold at_pix. assert (((0 <=? trunc (px (o x y))) && (trunc (px (o x y)) <? cols i) && (0 <=? trunc (py (o x y))) && (trunc (py (o x y)) <? rows i))%Z = true) as -> by lia.
  assert (((0 <=? trunc (py (o x y))) && (trunc (py (o x y)) <? rows i) && (0 <=? trunc (px (o x y))) && (trunc (px (o x y)) <? cols i))%Z = true) as -> by lia. reflexivity.
Qed.

Theorem undistort_black y x : int_range (px (o x y)) -> int_range (py (o x y)) ->
  ~ (-1 < px (o x y) < IZR (cols i) /\ -1 < py (o x y) < IZR (rows i)) -> undistort_at c kinv zero i y x = Ok zero.
Proof.
  intros X Y N. unfold undistort_at. fold (o x y). rewrite (to_int_ok _ X), (to_int_ok _ Y). cbn [bind].
  destruct (((0 <=? trunc (px (o x y))) && (trunc (px (o x y)) <? cols i) && (0 <=? trunc (py (o x y))) && (trunc (py (o x y)) <? rows i))%Z) eqn:B; [|reflexivity]. exfalso.
  apply N. split; apply trunc_range; lia.
Qed.
End Undistort.

(** ** The radius of an angle *)
Theorem radius_by_angle c ray a : 0 <= scale c -> 0 < sqrt (vx ray * vx ray + vy ray * vy ray) ->
  atan2 (sqrt (vx ray * vx ray + vy ray * vy ray)) (vz ray) = a ->
  sqrt ((px (map_ray c ray) - scale c * px (center c)) * (px (map_ray c ray) - scale c * px (center c)) +
        (py (map_ray c ray) - scale c * py (center c)) * (py (map_ray c ray) - scale c * py (center c))) = Rabs (getImgRadiusByAngle c a).
Proof.
  intros S H <-. unfold map_ray, getImgRadiusByAngle. cbn [px py]. set (hn := sqrt (vx ray * vx ray + vy ray * vy ray)) in *.
  destruct (Rlt_dec 0 hn) as [_|F]; [|lra]. set (r := calcMapPoly _ _).
  assert (N : (vx ray / hn) * (vx ray / hn) + (vy ray / hn) * (vy ray / hn) = 1).
  { assert (E : hn * hn = vx ray * vx ray + vy ray * vy ray) by (apply sqrt_sqrt; nra). field_simplify_eq; [|lra]. lra. }
  set (p := vx ray / hn) in *. set (q := vy ray / hn) in *.
  replace (_ + _) with ((scale c * r) * (scale c * r) * (p * p + q * q)) by ring. rewrite N, Rmult_1_r. apply sqrt_Rsqr_abs.
Qed.

Theorem rect_by_angle c a : calcMapPoly (mapPolyCoeffs c) a = maxRadius c -> maxRadius c <> 0 -> (0 <= width c <= 2147483647)%Z -> (0 <= height c <= 2147483647)%Z ->
  getRectByAngle c a = Ok (width c, height c).
Proof.
  intros E N W H. unfold getRectByAngle. rewrite E.
  assert (T : forall n, (0 <= n <= 2147483647)%Z -> to_int (maxRadius c * IZR n / maxRadius c) = Ok n).
  { intros n B. replace (maxRadius c * IZR n / maxRadius c) with (IZR n) by (field; exact N). destruct B as [B1 B2]. assert (B3 := B1). apply IZR_le in B1. apply IZR_le in B2. unfold to_int.
    destruct (Rlt_dec (-2147483649) (IZR n)); [|lra]. destruct (Rlt_dec (IZR n) 2147483648); [|lra]. pose proof (trunc_floor (IZR n) B1) as [A1 A2].
    apply le_IZR in A1. rewrite <- plus_IZR in A2. apply lt_IZR in A2. f_equal. lia. }
  rewrite !T by assumption. reflexivity.
Qed.

(** cases *)
Lemma calib_words_case : calibration_words [WReal (1 # 2); WInt 3; WInt 4; WInt 2; WInt 1; WReal (1 # 4)] (1 # 2) 3 4 [1%Q; (1 # 4)%Q].
Proof. exists (WReal (1 # 2)), (WInt 3), (WInt 4), [WInt 1; WReal (1 # 4)]. repeat split; try reflexivity; [repeat constructor|unfold INT_MAX; cbn; lia]. Qed.

Definition unit_camera : CamModel.camera :=
  {| width := 4; height := 4; unmapPolyDeg := 1; unmapPolyCoeffs := [1]; center := P2 0 0; scale := 1; maxRadius := 1; minZ := 0; maxAngle := 0; mapPolyCoeffs := [2] |}.
(** every ray off the axis goes two pixels from the centre *)
Lemma unit_maps x : 0 < x -> map_ray unit_camera (V3 (- x) 0 1) = P2 (-2) 0.
Proof.
  intros X. unfold map_ray, unit_camera. cbn [vx vy vz mapPolyCoeffs center px py scale]. replace (- x * - x + 0 * 0) with (x * x) by ring. rewrite sqrt_square by lra.
  destruct (Rlt_dec 0 x); [|lra]. unfold calcMapPoly. cbn. f_equal; field; lra.
Qed.
Definition edge_camera : CamModel.camera :=
  {| width := 4; height := 4; unmapPolyDeg := 1; unmapPolyCoeffs := [1]; center := P2 (3 / 2) 0; scale := 1; maxRadius := 1; minZ := 0; maxAngle := 0; mapPolyCoeffs := [2] |}.
Lemma edge_maps x : 0 < x -> map_ray edge_camera (V3 (- x) 0 1) = P2 (- (1 / 2)) 0.
Proof.
  intros X. unfold map_ray, edge_camera. cbn [vx vy vz mapPolyCoeffs center px py scale]. replace (- x * - x + 0 * 0) with (x * x) by ring. rewrite sqrt_square by lra.
  destruct (Rlt_dec 0 x); [|lra]. unfold calcMapPoly. cbn. f_equal; field; lra.
Qed.

(** a ray that meets the image plane half a pixel left of the image shows the first column *)
Theorem undistort_outside (A : Type) (zero : A) (p : Z -> Z -> A) : exists (c : CamModel.camera) (kinv : R -> R -> vec) (y x : Z),
  px (map_ray c (kinv (IZR x) (IZR y))) < 0 /\ undistort_at c kinv zero {| rows := 4; cols := 4; pix := p |} y x = Ok (p 0%Z 0%Z).
Proof.
  exists edge_camera, (fun x y => V3 (- x) 0 1), 1%Z, 1%Z. pose proof (edge_maps (IZR 1) ltac:(lra)) as M. split; [rewrite M; cbn; lra|].
  rewrite undistort_shown; cbn [rows cols]; try lia; rewrite M; cbn [px py pix]; try lra. rewrite !trunc_edge by lra. reflexivity.
Qed.
