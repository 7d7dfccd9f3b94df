(** What the drawings of depths show. *)
From Coq Require Import List ZArith QArith Bool.
From Verif Require Import Outcome Dbl DblArith UtilModel UtilSpec TraceModel EpiModel PlotModel.
Import ListNotations.

(** The pixel of a position, cut to whole numbers. *)
Definition pixel (p : pos) : Z * Z := (qtrunc (fst p), qtrunc (snd p)).

(** Positions far from the limits of int. *)
Definition near (p : pos) : Prop :=
  (-1000000000 <= fst p <= 1000000000 /\ -1000000000 <= snd p <= 1000000000)%Q.

(** [c] is the colour [k] with every channel cut to a whole number of a byte. *)
Definition cut (k c : scalar) : Prop :=
  exists b g r b' g' r', k = (Fin b, Fin g, Fin r) /\ c = (of_int b', of_int g', of_int r') /\
    (b' = qtrunc b /\ g' = qtrunc g /\ r' = qtrunc r /\ 0 <= b' <= 255 /\ 0 <= g' <= 255 /\ 0 <= r' <= 255)%Z.

(** The pixel at column x of row y. *)
Definition at_px (img : list (list px)) (x y : nat) : option px :=
  match nth_error img y with Some r => nth_error r x | None => None end.

(** An active point with a finite far bound. *)
Definition visible (p : ipoint) : bool :=
  match i_state p, i_max p with ACTIVE, PInf => false | ACTIVE, _ => true | _, _ => false end.
