(** Specifications for the pyramids. *)
From Coq Require Import ZArith QArith Reals List.
Import ListNotations.
Open Scope Z_scope.

(** The pixels (bx, by) of the 2^l x 2^l block belonging to the cell (x, y) of level l. *)
Definition in_block (l : Z) (x y bx by_ : Z) : Prop :=
  2 ^ l * x <= bx < 2 ^ l * (x + 1) /\ 2 ^ l * y <= by_ < 2 ^ l * (y + 1).

(** Sum of f over the integers of [a, a + n). *)
Fixpoint zsum (n : nat) (a : Z) (f : Z -> Z) : Z :=
  match n with O => 0 | S m => f a + zsum m (a + 1) f end.
Fixpoint xsum (n : nat) (a : Z) (f : Z -> R) : R :=
  match n with O => 0%R | S m => (f a + xsum m (a + 1) f)%R end.

(** Sums over the block of the cell (x, y) of level l. *)
Definition block_total (l : nat) (x y : Z) (f : Z -> Z -> Z) : Z :=
  let n := Nat.pow 2 l in
  zsum n (2 ^ Z.of_nat l * y) (fun j => zsum n (2 ^ Z.of_nat l * x) (fun i => f i j)).
Definition block_rtotal (l : nat) (x y : Z) (f : Z -> Z -> R) : R :=
  let n := Nat.pow 2 l in
  xsum n (2 ^ Z.of_nat l * y) (fun j => xsum n (2 ^ Z.of_nat l * x) (fun i => f i j)).

(** A coordinate lies in the pixel [x] when it is at least x and less than x + 1. *)
Definition in_pixel (q : Q) (x : Z) : Prop := (inject_Z x <= q /\ q < inject_Z (x + 1))%Q.

(** The point number [i] is the last one inside the pixel (x, y). *)
Definition last_in (points : list (Q * Q)) (x y : Z) (i : nat) : Prop :=
  (exists p, nth_error points i = Some p /\ in_pixel (fst p) x /\ in_pixel (snd p) y) /\
  forall j p, (i < j)%nat -> nth_error points j = Some p -> ~ (in_pixel (fst p) x /\ in_pixel (snd p) y).
Definition none_in (points : list (Q * Q)) (x y : Z) : Prop :=
  forall j p, nth_error points j = Some p -> ~ (in_pixel (fst p) x /\ in_pixel (snd p) y).

(** Every point is inside the image. *)
Definition inside (w h : Z) (p : Q * Q) : Prop :=
  (0 <= fst p /\ fst p < inject_Z w /\ 0 <= snd p /\ snd p < inject_Z h)%Q.

(** The weight and the depth the points leave in each pixel. *)
Definition deposited (points : list (Q * Q)) (ds ws : list R) (D W : Z -> Z -> R) : Prop :=
  forall x y,
    (none_in points x y -> W x y = 0%R) /\
    (forall i, last_in points x y i -> nth_error ds i = Some (D x y) /\ nth_error ws i = Some (W x y)).

(** The value of a cell: the weighted mean of its block, or -1 without weight. *)
Open Scope R_scope.
Definition cell_value (l : nat) (x y : Z) (D W : Z -> Z -> R) (v : R) : Prop :=
  (1 / 100000000 < Rabs (block_rtotal l x y W) ->
   v = block_rtotal l x y (fun i j => D i j * W i j) / block_rtotal l x y W) /\
  (Rabs (block_rtotal l x y W) <= 1 / 100000000 -> v = -1).
