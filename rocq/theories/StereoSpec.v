(** Specifications for two-view initialisation. *)
From Coq Require Import List ZArith QArith Bool Permutation Sorted.
Import ListNotations.

(** [l] is an interleaving of [a] and [b] that keeps both orders. *)
Inductive interleaving {A} : list A -> list A -> list A -> Prop :=
| il_nil : interleaving [] [] []
| il_left x a b l : interleaving a b l -> interleaving (x :: a) b (x :: l)
| il_right x a b l : interleaving a b l -> interleaving a (x :: b) (x :: l).

(** Euclidean distance of two image points above a threshold. *)
Definition farther_than (t : Q) (p q : Q * Q) : Prop :=
  (t < 0 \/ t * t < (fst p - fst q) * (fst p - fst q) + (snd p - snd q) * (snd p - snd q))%Q.

(** Correspondences (of [n]) agreeing with an essential matrix and in front of both cameras for a
    motion. *)
Definition consensus {E M} (inlierE : E -> nat -> bool) (front : M -> nat -> bool) (n : nat)
           (e : E) (m : M) : list nat :=
  filter (fun i => inlierE e i && front m i) (seq 0 n).

Definition support {E} (inlierE : E -> nat -> bool) (n : nat) (e : E) : nat :=
  length (filter (inlierE e) (seq 0 n)).

(** [e] is the first of the candidates with the largest support, and has support. *)
Definition first_best {E} (inlierE : E -> nat -> bool) (n : nat) (found : list E) (e : E) : Prop :=
  exists a b, found = a ++ e :: b /\ (0 < support inlierE n e)%nat /\
    (forall x, In x a -> (support inlierE n x < support inlierE n e)%nat) /\
    (forall x, In x b -> (support inlierE n x <= support inlierE n e)%nat).

(** The sample has two equal indices. *)
Definition has_repeat (l : list Z) : Prop := ~ NoDup l.

(** A stopping rule whose iteration numbers never exceed the maximum once the inlier ratio exceeds
    the initial threshold; [numbers k z]: [k] inliers ask for [z] iterations. *)
Definition stop_ok {T} (n : nat) (maxIter : Z) (q0 : T) (ratio : Z -> T) (gtb : T -> T -> bool)
           (numbers : Z -> Z -> Prop) : Prop :=
  (forall a b c, gtb a b = true -> gtb b c = true -> gtb a c = true) /\
  (forall k, (0 <= k <= Z.of_nat n)%Z -> gtb (ratio k) q0 = true ->
     exists z, numbers k z /\ (z <= maxIter)%Z).

(** A sample in increasing order. *)
Fixpoint increasing_Z (l : list Z) : Prop :=
  match l with
  | a :: ((b :: _) as l') => (a < b)%Z /\ increasing_Z l'
  | _ => True
  end.

(** Iteration [it] of the search, whose random sample is [draws it], evaluates the matrix [e]: the
    sample has no repetition and [e] is the best matrix found for the sorted sample. *)
Definition evaluates {E} (inlierE : E -> nat -> bool) (n : nat) (draws : nat -> list Z)
           (est : list Z -> list E) (it : nat) (e : E) : Prop :=
  exists h, Permutation (draws it) h /\ increasing_Z h /\ first_best inlierE n (est h) e.

(** Inliers of a motion: increasing indices of correspondences in front of both cameras. *)
Definition good_inliers {M} (front : M -> nat -> bool) (n : nat) (motion : M) (l : list nat)
  : Prop :=
  StronglySorted lt l /\ (forall i, In i l -> (i < n)%nat /\ front motion i = true).
