(** Specification vocabulary for pixel selection (C15, C16, C38). *)
From Coq Require Import List ZArith QArith Permutation.
From Verif Require Import PixelSelectorModel.
Import ListNotations.
Open Scope Z_scope.

(** The pixel (x, y) belongs to the square of side [s] with corner (j, i). *)
Definition in_block (i j s : Z) (p : Z * Z) : Prop :=
  j <= fst p < j + s /\ i <= snd p < i + s.

(** [m] is the mean of the entries of the block. *)
Definition sum_upto (n : Z) (f : Z -> Q) : Q :=
  fold_right (fun k acc => (f (Z.of_nat k) + acc)%Q) 0%Q (seq 0 (Z.to_nat n)).
Definition block_mean (g : image) (i j s : Z) (m : Q) : Prop :=
  (m * inject_Z (s * s) == sum_upto s (fun dy => sum_upto s (fun dx => im_at g (j + dx) (i + dy))))%Q.

(** [p] is a largest pixel of the block. *)
Definition block_max (g : image) (i j s : Z) (p : Z * Z) : Prop :=
  in_block i j s p /\
  forall q, in_block i j s q -> (im_at g (fst q) (snd q) <= im_at g (fst p) (snd p))%Q.

(** The blocks of side [s] examined: corners at multiples of [s], the block not touching the
    last row and column. *)
Definition block_of_grid (g : image) (s i j : Z) : Prop :=
  (exists a b, 0 <= a /\ 0 <= b /\ i = a * s /\ j = b * s) /\ i + s < im_rows g /\ j + s < im_cols g.

(** A genuine candidate of a layer: the largest pixel of a block, exceeding the block mean by
    more than the threshold. *)
Definition genuine (g : image) (s : Z) (thr : Q) (p : Z * Z) : Prop :=
  exists i j m, block_of_grid g s i j /\ block_max g i j s p /\ block_mean g i j s m /\
    (m + thr < im_at g (fst p) (snd p))%Q.

(** [kept] is what is left of [l] after dropping some elements, in any order. *)
Definition part_of {A} (kept l : list A) : Prop := exists dropped, Permutation l (kept ++ dropped).

(** Contract of cv::minMaxLoc. *)
Definition maxloc_ok (maxloc : image -> Z -> Z -> Z -> Z * Z) : Prop :=
  forall g i j s, 1 <= s -> let l := maxloc g i j s in block_max g i j s (j + fst l, i + snd l).

(** Contract of std::shuffle. *)
Definition shuffle_ok (sh : nat -> list (Z * Z) -> list (Z * Z)) : Prop :=
  forall n l, Permutation l (sh n l).
