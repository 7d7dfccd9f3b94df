From Coq Require Import List ZArith Bool Ascii String Lia Permutation Reals Lra Floats.SpecFloat QArith.QArith_base.
From Verif Require Import Outcome Dbl PlyModel PlySpec SnapshotModel SnapshotSpec SnapshotProofs DoubleModel DoubleSpec DoubleProofs.
Import ListNotations.
Close Scope Q_scope.
Open Scope Z_scope.

(** The snapshot with real doubles: nothing is assumed of their text. *)
Theorem snapshot (dexp : double -> double) qnormalize ps (ks : list (skf double)) cols f :
  clean f -> Forall (kf_ok ps qnormalize) ks -> NoDup (map (fun k => p_num (k_pre k)) ks) -> tracked_consistent ks ->
  exists f', save (print 18) opp dexp zero ps cols ks f = Ok f' /\
    forall order, Permutation order (fs_dirs f') -> exists m, load read opp is_infinite qnormalize ps f' order = Ok m /\ holds m ks.
Proof.
  exact (SnapshotProofs.round_trip double (print 18) read opp dexp zero is_infinite qnormalize (codec 18 ltac:(lia)) opp_opp ps f cols ks).
Qed.

Theorem same_text p x y : 17 <= p -> print p x = print p y -> x = y.
Proof. intros P E. pose proof (proj1 (codec p P x)) as A. pose proof (proj1 (codec p P y)) as B. rewrite E in A. congruence. Qed.

Definition fin (m : positive) (e : Z) (v : valid_binary 53 1024 (S754_finite false m e) = true) : double := exist _ (S754_finite false m e) v.
Theorem sixteen : exists x y : double, x <> y /\ print 16 x = print 16 y /\ string_of_list_ascii (print 16 x) = "1.1"%string.
Proof.
  exists (fin 4953959590107546 (-52) eq_refl), (fin 4953959590107547 (-52) eq_refl). split; [|split; vm_compute; reflexivity].
  intros E. apply (f_equal (@proj1_sig _ _)) in E. discriminate.
Qed.
Theorem fifteen : exists x y : double, x <> y /\ print 15 x = print 15 y /\ string_of_list_ascii (print 15 x) = "0.3"%string.
Proof.
  exists (fin 5404319552844595 (-54) eq_refl), (fin 5404319552844596 (-54) eq_refl). split; [|split; vm_compute; reflexivity].
  intros E. apply (f_equal (@proj1_sig _ _)) in E. discriminate.
Qed.
(** Two coordinates three millimetres apart a kilometre from the origin *)
Theorem six : exists a b : Q, (b - a == 3 # 1000)%Q /\ print_dbl 6 (Fin a) = print_dbl 6 (Fin b) /\ print_dbl 6 (Fin a) = lit "1000".
Proof. exists (1000001 # 1000)%Q, (1000004 # 1000)%Q. repeat split; vm_compute; reflexivity. Qed.

Theorem plain_words : fmt_ok (fun p => print_dbl (Z.max 1 p)).
Proof. intros p x. apply plain_dbl. lia. Qed.

(** ** Texts *)
Definition text (p : Z) (m : positive) (e : Z) : string := string_of_list_ascii (print_sf p (S754_finite true m e)).
Example texts : text 18 7205759403792794 (-56) = "-0.100000000000000006"%string /\ text 6 7205759403792794 (-56) = "-0.1"%string /\
  text 18 1 (-1074) = "-4.94065645841246544e-324"%string /\ text 18 9007199254740991 971 = "-1.79769313486231571e+308"%string /\
  text 6 8796093022208000 (-33) = "-1.024e+06"%string /\ text 6 8444249301319680 (-33) = "-983040"%string /\
  string_of_list_ascii (print_sf 18 (S754_infinity true)) = "-inf"%string.
Proof. vm_compute. repeat split. Qed.
Example reads : read_sf (lit "1e309") = None /\ read_sf (lit "-1.5E+3") = Some (S754_finite true 6597069766656000 (-42)) /\
  read_sf (lit "1e-400") = Some (S754_zero false) /\ read_sf (lit "abc") = None /\ read_sf (lit "nan") = Some S754_nan.
Proof. vm_compute. repeat split. Qed.
Example a_numeral : signed (lit "-2.5e+01") (-25).
Proof.
  right. exists (lit "2.5e+01"). split; [reflexivity|].
  replace (- -25)%R with (IZR (int_val (lit "2" ++ lit "5")) * ten (int_val (lit "01") - Z.of_nat (List.length (lit "5"))))%R.
  - change (lit "2.5e+01") with (lit "2" ++ "."%char :: lit "5" ++ lit "e+01"). apply numeral_frac; try discriminate; try (repeat constructor; cbn; lia).
    apply (exp_plus (lit "01")); [discriminate|repeat constructor; cbn; lia].
  - change (int_val (lit "2" ++ lit "5")) with 25. change (int_val (lit "01") - Z.of_nat (List.length (lit "5"))) with 0. unfold ten. cbn [powerRZ]. lra.
Qed.
(** A snapshot of one keyframe with doubles *)
Definition tenth : double := fin 7205759403792794 (-56) eq_refl.
Definition tiny : double := fin 1 (-1074) eq_refl.
Definition inf : double := exist _ (S754_infinity false) eq_refl.
Definition one_pkf (n : Z) : pkf double := {| p_num := n; p_pose := ((zero, zero, zero, tenth), (tenth, tiny, opp tenth)); p_light := (tiny, zero) |}.
Definition one_kf : skf double :=
  {| k_pre := one_pkf 3; k_pose := ((zero, zero, zero, tenth), (tenth, tiny, opp tenth)); k_light := (tenth, tenth);
     k_imm := [ {| i_p := (tenth, tiny); i_dirs := [(zero, zero, tenth)]; i_int := [tenth]; i_grad := [(tenth, tenth)]; i_gradn := [(tenth, zero)];
                   i_min := tenth; i_max := inf; i_depth := tenth; i_quality := opp tenth; i_energy := inf; i_stddev := inf; i_state := 0;
                   i_lastTraced := false; i_numTraced := 0; i_before := zero; i_level := 0; i_pyrChanged := None |} ];
     k_opt := [ {| o_p := (tiny, tenth); o_logInv := tenth; o_stddev := tiny; o_state := Some 0 |} ]; k_tracked := [one_pkf 4] |}.
Example one_kf_ok : clean fs_empty /\ Forall (kf_ok 1 (fun q => q)) [one_kf] /\ NoDup (map (fun k => p_num (k_pre k)) [one_kf]) /\ tracked_consistent [one_kf].
Proof.
  split; [split; [constructor|intros d []]|]. split; [|split].
  - constructor; [|constructor]. unfold kf_ok, pkf_ok, imm_ok, INT_MIN, INT_MAX. cbn [k_pre k_pose k_imm k_opt k_tracked one_kf one_pkf p_num p_pose fst i_state List.length].
    split; [split; [reflexivity|lia]|]. split; [reflexivity|]. split; [repeat constructor; cbn; lia|]. split; [repeat constructor; cbn; lia|]. cbn. lia.
  - repeat constructor; auto.
  - intros a b Ha Hb _. cbn [one_kf flat_map k_tracked app In] in Ha, Hb. destruct Ha as [<-|[]]. destruct Hb as [<-|[]]. reflexivity.
Qed.
