(** Words of the statements about the text of doubles (C110): which real number a numeral stands for,
    and which real number a double is. *)
From Coq Require Import List ZArith Bool Ascii Reals Floats.SpecFloat.
Import ListNotations.
Open Scope Z_scope.

Definition is_dig (c : ascii) : Prop := (48 <= nat_of_ascii c <= 57)%nat.
Definition int_val (l : list ascii) : Z := fold_left (fun a c => 10 * a + (Z.of_nat (nat_of_ascii c) - 48)) l 0.

(** 10^k for any integer k *)
Definition ten (k : Z) : R := powerRZ 10 k.

Inductive exp_text : list ascii -> Z -> Prop :=
| exp_none : exp_text [] 0
| exp_plus l : l <> [] -> Forall is_dig l -> exp_text ("e"%char :: "+"%char :: l) (int_val l)
| exp_minus l : l <> [] -> Forall is_dig l -> exp_text ("e"%char :: "-"%char :: l) (- int_val l).

(** A number without sign *)
Inductive numeral : list ascii -> R -> Prop :=
| numeral_int a t k : a <> [] -> Forall is_dig a -> exp_text t k -> numeral (a ++ t) (IZR (int_val a) * ten k)
| numeral_frac a b t k : a <> [] -> b <> [] -> Forall is_dig a -> Forall is_dig b -> exp_text t k ->
    numeral (a ++ "."%char :: b ++ t) (IZR (int_val (a ++ b)) * ten (k - Z.of_nat (length b))).

(** With sign *)
Definition signed (w : list ascii) (r : R) : Prop := numeral w r \/ exists w', w = "-"%char :: w' /\ numeral w' (- r).

(** The real number of a finite double: (-1)^s m 2^e *)
Definition real_of (x : spec_float) : R :=
  match x with
  | S754_finite s m e => ((if s then - IZR (Z.pos m) else IZR (Z.pos m)) * powerRZ 2 e)%R
  | _ => 0%R
  end.
Definition finite (x : spec_float) : bool := match x with S754_zero _ | S754_finite _ _ _ => true | _ => false end.

(** No number of [p] significant decimal digits is nearer to [r] than [v], which is one. *)
Definition has_digits (p : Z) (v : R) : Prop := exists m k, Z.abs m < 10 ^ p /\ v = (IZR m * ten k)%R.
Definition nearest_decimal (p : Z) (r v : R) : Prop :=
  has_digits p v /\ forall u, has_digits p u -> (Rabs (v - r) <= Rabs (u - r))%R.

(** No finite double is nearer to [r] than [x]. *)
Definition nearest_double (r : R) (x : spec_float) : Prop :=
  valid_binary 53 1024 x = true /\ finite x = true /\
  forall y, valid_binary 53 1024 y = true -> finite y = true -> (Rabs (real_of x - r) <= Rabs (real_of y - r))%R.
