(** C110: the text of doubles *)
From Coq Require Import List ZArith Bool Ascii String Permutation Reals Floats.SpecFloat QArith.QArith_base QArith.Qreals.
From Verif Require Import Outcome Dbl PlyModel PlySpec SnapshotModel SnapshotSpec DoubleModel DoubleSpec DoubleProofs DoubleTop.
Import ListNotations.
Close Scope Q_scope.
Open Scope Z_scope.

(** Every double, also infinite ones and zeros of either sign, is read as it was written with 17 or more digits; the snapshots use 18. *)
Theorem C110_exact : forall p, 17 <= p -> codec_ok (print p) read.
Proof. exact codec. Qed.
Print Assumptions C110_exact.

(** So a snapshot with real doubles is read back as it was saved, with no assumption on their text. *)
Theorem C110_snapshot : forall (dexp : double -> double) qnormalize ps (ks : list (skf double)) cols f,
  clean f -> Forall (kf_ok ps qnormalize) ks -> NoDup (map (fun k => p_num (k_pre k)) ks) -> tracked_consistent ks ->
  exists f', save (print 18) opp dexp zero ps cols ks f = Ok f' /\
    forall order, Permutation order (fs_dirs f') -> exists m, load read opp is_infinite qnormalize ps f' order = Ok m /\ holds m ks.
Proof. exact snapshot. Qed.
Print Assumptions C110_snapshot.

Theorem C110_same_text : forall p x y, 17 <= p -> print p x = print p y -> x = y.
Proof. exact same_text. Qed.
Print Assumptions C110_same_text.

(** What is written is a numeral for the nearest number of that many digits. *)
Theorem C110_writing : forall p n d, 1 <= p -> 0 < n -> 0 < d -> exists v, numeral (general p n d) v /\ nearest_decimal p (IZR n / IZR d) v.
Proof. exact writing. Qed.
Print Assumptions C110_writing.

(** What is read is the nearest double; reading fails exactly above all of them. *)
Theorem C110_reading : forall w r, signed w r ->
  match read_sf w with
  | Some x => nearest_double r x
  | None => forall y, valid_binary 53 1024 y = true -> finite y = true -> (Rabs (real_of y) < Rabs r)%R
  end.
Proof. exact reading. Qed.
Print Assumptions C110_reading.

(** Coordinates of exported clouds: off by at most half a unit of the last digit, that is relatively by 5 * 10^-p. *)
Theorem C110_coordinate : forall p q, 1 <= p ->
  exists v, signed (print_dbl p (Fin q)) v /\ nearest_decimal p (Q2R q) v /\ (Rabs (v - Q2R q) <= / 2 * ten (1 - p) * Rabs (Q2R q))%R.
Proof. exact coordinate. Qed.
Print Assumptions C110_coordinate.

(** The text never breaks the lines of a PLY file. *)
Theorem C110_plain : fmt_ok (fun p => print_dbl (Z.max 1 p)).
Proof. exact plain_words. Qed.
Print Assumptions C110_plain.

(** Fewer digits lose doubles: 16, the 15 of the one-shot export, and the six of the streamed cloud, where points millimetres apart fall together. *)
Theorem C110_sixteen_refuted : exists x y : double, x <> y /\ print 16 x = print 16 y /\ string_of_list_ascii (print 16 x) = "1.1"%string.
Proof. exact sixteen. Qed.
Print Assumptions C110_sixteen_refuted.
Theorem C110_fifteen_refuted : exists x y : double, x <> y /\ print 15 x = print 15 y /\ string_of_list_ascii (print 15 x) = "0.3"%string.
Proof. exact fifteen. Qed.
Print Assumptions C110_fifteen_refuted.
Theorem C110_six_refuted : exists a b : Q, (b - a == 3 # 1000)%Q /\ print_dbl 6 (Fin a) = print_dbl 6 (Fin b) /\ print_dbl 6 (Fin a) = lit "1000".
Proof. exact six. Qed.
Print Assumptions C110_six_refuted.
