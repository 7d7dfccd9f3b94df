(** What a calibration file says. *)
From Coq Require Import Reals ZArith QArith String List Bool.
From Verif Require Import Outcome Dbl ReaderModel ReaderSpec CalModel.
Import ListNotations.

(** The words of a file with scale, centre, number of coefficients and coefficients. *)
Definition calibration_words (ws : list word) (sc cx cy : Q) (coeffs : list Q) : Prop :=
  exists w0 w1 w2 wc, ws = w0 :: w1 :: w2 :: WInt (Z.of_nat (List.length coeffs)) :: wc /\
    writes w0 sc /\ writes w1 cx /\ writes w2 cy /\ Forall2 writes wc coeffs /\ (Z.of_nat (List.length coeffs) <= INT_MAX)%Z.

Definition tagged (ws : list word) (blank : bool) : calfile :=
  {| cf_tag := Some "omnidirectional"%string; cf_rest := {| f_words := ws; f_blank_end := blank |} |}.

(** values an int conversion can take *)
Definition int_range (u : R) : Prop := (-2147483649 < u < 2147483648)%R.
