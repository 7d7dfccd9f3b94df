(** Arithmetic on [dbl]: exact on finite values, IEEE rules for infinities and NaN.  Zeros carry no
    sign; dividing by zero takes it as +0 (every use in the models says why). *)
From Coq Require Import ZArith QArith.
From Verif Require Import Dbl.
Open Scope Q_scope.

Definition dopp (a : dbl) : dbl :=
  match a with Fin x => Fin (- x) | PInf => NInf | NInf => PInf | NaN => NaN end.

Definition dadd (a b : dbl) : dbl :=
  match a, b with
  | Fin x, Fin y => Fin (x + y)
  | NaN, _ | _, NaN => NaN
  | PInf, NInf | NInf, PInf => NaN
  | PInf, _ | _, PInf => PInf
  | NInf, _ | _, NInf => NInf
  end.

Definition dsub (a b : dbl) : dbl := dadd a (dopp b).

(** The infinity with the sign of [x]; 0 * infinity and 0 / 0 are NaN. *)
Definition dinf (x : Q) : dbl :=
  match Qcompare x 0 with Gt => PInf | Lt => NInf | Eq => NaN end.

Definition dmul (a b : dbl) : dbl :=
  match a, b with
  | Fin x, Fin y => Fin (x * y)
  | NaN, _ | _, NaN => NaN
  | Fin x, PInf | PInf, Fin x => dinf x
  | Fin x, NInf | NInf, Fin x => dopp (dinf x)
  | PInf, PInf | NInf, NInf => PInf
  | PInf, NInf | NInf, PInf => NInf
  end.

Definition ddiv (a b : dbl) : dbl :=
  match a, b with
  | Fin x, Fin y => if Qeq_bool y 0 then dinf x else Fin (x / y)
  | NaN, _ | _, NaN => NaN
  | Fin _, PInf | Fin _, NInf => Fin 0
  | PInf, Fin y => if Qle_bool 0 y then PInf else NInf
  | NInf, Fin y => if Qle_bool 0 y then NInf else PInf
  | _, _ => NaN
  end.

Definition dfinite (a : dbl) : bool := match a with Fin _ => true | _ => false end.
Definition dnan (a : dbl) : bool := match a with NaN => true | _ => false end.
