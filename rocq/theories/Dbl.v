(** Doubles as far as comparisons and conversions to int are concerned: a finite value is an
    exact rational, the infinities and NaN are separate.  Rounding is not modelled here. *)
From Coq Require Import ZArith QArith.
From Verif Require Import Outcome.
Open Scope Z_scope.

Inductive dbl : Type :=
| Fin (q : Q)
| PInf
| NInf
| NaN.

(** IEEE-754 comparisons: false as soon as one side is NaN. *)
Definition dlt (a b : dbl) : bool :=
  match a, b with
  | Fin x, Fin y => Z.ltb (Qnum x * Zpos (Qden y)) (Qnum y * Zpos (Qden x))
  | Fin _, PInf => true
  | NInf, Fin _ => true
  | NInf, PInf => true
  | _, _ => false
  end.

Definition dle (a b : dbl) : bool :=
  match a, b with
  | Fin x, Fin y => Z.leb (Qnum x * Zpos (Qden y)) (Qnum y * Zpos (Qden x))
  | Fin _, PInf => true
  | NInf, Fin _ => true
  | NInf, PInf => true
  | PInf, PInf => true
  | NInf, NInf => true
  | _, _ => false
  end.

Definition INT_MAX : Z := 2147483647.
Definition INT_MIN : Z := -2147483648.

Definition in_int (z : Z) : bool := (INT_MIN <=? z) && (z <=? INT_MAX).

(** Truncation towards zero. *)
Definition qtrunc (q : Q) : Z := Z.quot (Qnum q) (Zpos (Qden q)).

(** Conversion double -> int: undefined behaviour when the truncated value does not fit. *)
Definition to_int (d : dbl) : outcome Z :=
  match d with
  | Fin q => if in_int (qtrunc q) then Ok (qtrunc q) else UB
  | _ => UB
  end.

(** An int converted to double is exact. *)
Definition of_int (z : Z) : dbl := Fin (inject_Z z).
