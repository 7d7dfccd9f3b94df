(** What operator<< writes for a double and operator>> makes of it: the streams of
    source/system/serialization.cpp 7-23 (precision 18, boost's facets for numbers that are not finite),
    of source/util/util.cpp 51 (precision 15) and of source/util/PlyHolder.cpp 46 (precision 6, the default).
    The library functions are modelled by what the standards of C and C++ and glibc say: conversion to
    text as by printf("%.*g"), exactly rounded, ties to even, and conversion from text as by strtod,
    the nearest double, ties to even, a failure if there is none. *)
From Coq Require Import List ZArith Bool Ascii String Floats.SpecFloat.
From Verif Require Import Outcome Dbl PlyModel SnapshotModel.
Import ListNotations.
Open Scope Z_scope.

(** IEEE double, without the payload of NaN *)
Definition double : Type := { x : spec_float | valid_binary 53 1024 x = true }.

(** The integer nearest to n / d, d > 0, ties to even *)
Definition round_div (n d : Z) : Z :=
  let q := n / d in
  let r := n mod d in
  match 2 * r ?= d with Lt => q | Gt => q + 1 | Eq => if Z.even q then q else q + 1 end.

(** The number n / d divided by b^k *)
Definition down (b n d k : Z) : Z * Z := if 0 <=? k then (n, d * b ^ k) else (n * b ^ (- k), d).

(** Number of decimal digits of a positive integer *)
Definition ndig (z : Z) : Z := Z.of_nat (List.length (dec z)).

(** The decimal exponent of n / d: 10^X <= n / d < 10^(X+1) *)
Definition exp10 (n d : Z) : Z :=
  let k := ndig n - ndig d in
  let (n', d') := down 10 n d k in
  if d' <=? n' then k else k - 1.

(** Rounded to [p] significant digits: the digits as an integer and the exponent of the first *)
Definition significant (p n d : Z) : Z * Z :=
  let x := exp10 n d in
  let (n', d') := down 10 n d (x - p + 1) in
  let m := round_div n' d' in
  if m =? 10 ^ p then (10 ^ (p - 1), x + 1) else (m, x).

(** Zeros at the end are removed *)
Fixpoint strip (fuel : nat) (m : Z) : Z :=
  match fuel with O => m | S f => if m mod 10 =? 0 then strip f (m / 10) else m end.

Definition zeros (n : Z) : bytes := repeat "0"%char (Z.to_nat n).
Definition point_rest (r : bytes) : bytes := match r with [] => [] | _ => "."%char :: r end.

(** The styles of %g: [s] are the digits, [x] the exponent *)
Definition style_e (s : bytes) (x : Z) : bytes :=
  firstn 1 s ++ point_rest (skipn 1 s) ++ "e"%char :: (if x <? 0 then "-"%char else "+"%char) :: (if Z.abs x <? 10 then ["0"%char] else []) ++ dec (Z.abs x).
Definition style_f (s : bytes) (x : Z) : bytes :=
  if x <? 0 then lit "0." ++ zeros (- x - 1) ++ s
  else firstn (Z.to_nat (x + 1)) s ++ zeros (x + 1 - Z.of_nat (List.length s)) ++ point_rest (skipn (Z.to_nat (x + 1)) s).

(** %.{p}g of a positive number n / d *)
Definition general (p n d : Z) : bytes :=
  let (m, x) := significant p n d in
  let s := dec (strip (Z.to_nat p) m) in
  if (x <? -4) || (p <=? x) then style_e s x else style_f s x.

(** m * 2^e as a fraction *)
Definition frac (m e : Z) : Z * Z := down 2 m 1 (- e).

Definition minus (s : bool) : bytes := if s then ["-"%char] else [].
Definition print_sf (p : Z) (x : spec_float) : bytes :=
  match x with
  | S754_zero s => minus s ++ lit "0"
  | S754_infinity s => minus s ++ lit "inf"
  | S754_nan => lit "nan"
  | S754_finite s m e => let (n, d) := frac (Z.pos m) e in minus s ++ general p n d
  end.
Definition print (p : Z) (x : double) : bytes := print_sf p (proj1_sig x).

(** The same for the exact numbers of Dbl.v *)
Definition print_dbl (p : Z) (x : dbl) : bytes :=
  match x with
  | Fin q =>
      let n := QArith_base.Qnum q in
      if n =? 0 then lit "0" else minus (n <? 0) ++ general p (Z.abs n) (Z.pos (QArith_base.Qden q))
  | PInf => lit "inf"
  | NInf => lit "-inf"
  | NaN => lit "nan"
  end.

(** ** Reading *)

(** Digits with at most one point: their value as an integer, how many stand behind the point, how many there are,
    and what follows them *)
Fixpoint mantissa (dot : bool) (acc behind seen : Z) (w : bytes) : Z * Z * Z * bytes :=
  match w with
  | [] => (acc, behind, seen, [])
  | c :: w' =>
      match digit_of c with
      | Some v => mantissa dot (10 * acc + v) (if dot then behind + 1 else behind) (seen + 1) w'
      | None => if Ascii.eqb c "." && negb dot then mantissa true acc behind seen w' else (acc, behind, seen, w)
      end
  end.

(** An exponent with a sign or without *)
Definition exponent (w : bytes) : option Z :=
  match w with
  | [] => None
  | c :: w' =>
      if Ascii.eqb c "-" then match w' with [] => None | _ => option_map Z.opp (undec 0 w') end
      else if Ascii.eqb c "+" then match w' with [] => None | _ => undec 0 w' end
      else undec 0 w
  end.

(** A decimal number N * 10^K *)
Definition decimal (w : bytes) : option (Z * Z) :=
  let '(acc, behind, seen, rest) := mantissa false 0 0 0 w in
  if seen =? 0 then None
  else match rest with
  | [] => Some (acc, - behind)
  | c :: r => if Ascii.eqb c "e" || Ascii.eqb c "E" then option_map (fun k => (acc, k - behind)) (exponent r) else None
  end.

(** The binary exponent with which n / d is rounded *)
Definition exp2 (n d : Z) : Z :=
  let k := Z.log2 n - Z.log2 d in
  let (n', d') := down 2 n d k in
  Z.max (-1074) (if d' <=? n' then k - 52 else k - 53).

(** The nearest double; None: too large *)
Definition nearest (s : bool) (n d : Z) : option spec_float :=
  let e := exp2 n d in
  let (n', d') := down 2 n d e in
  let m := round_div n' d' in
  let (m, e) := if m =? 2 ^ 53 then (2 ^ 52, e + 1) else (m, e) in
  if 971 <? e then None
  else match m with Zpos m => Some (S754_finite s m e) | _ => Some (S754_zero s) end.

Definition is_word (w : bytes) (s : string) : bool := if list_eq_dec ascii_dec w (lit s) then true else false.
Definition read_abs (s : bool) (w : bytes) : option spec_float :=
  if is_word w "inf" then Some (S754_infinity s)
  else if is_word w "nan" then Some S754_nan
  else match decimal w with
  | None => None
  | Some (n, k) => if n =? 0 then Some (S754_zero s) else let (n', d') := down 10 n 1 (- k) in nearest s n' d'
  end.
Definition read_sf (w : bytes) : option spec_float :=
  match w with
  | [] => None
  | c :: w' => if Ascii.eqb c "-" then read_abs true w' else if Ascii.eqb c "+" then read_abs false w' else read_abs false w
  end.
Definition read (w : bytes) : option double :=
  match read_sf w with
  | None => None
  | Some x => match Bool.bool_dec (valid_binary 53 1024 x) true with left p => Some (exist _ x p) | right _ => None end
  end.

(** Negation *)
Definition opp_sf (x : spec_float) : spec_float :=
  match x with
  | S754_zero s => S754_zero (negb s)
  | S754_infinity s => S754_infinity (negb s)
  | S754_nan => S754_nan
  | S754_finite s m e => S754_finite (negb s) m e
  end.
Lemma opp_valid x : valid_binary 53 1024 x = true -> valid_binary 53 1024 (opp_sf x) = true.
Proof. destruct x; auto. Defined.
Definition opp (x : double) : double := exist _ (opp_sf (proj1_sig x)) (opp_valid _ (proj2_sig x)).
Definition zero : double := exist _ (S754_zero false) eq_refl.
Definition is_infinite (x : double) : bool := match proj1_sig x with S754_infinity false => true | _ => false end.
