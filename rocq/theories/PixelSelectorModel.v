(** Model of source/util/PixelSelector.cpp. *)
From Coq Require Import List ZArith QArith Bool.
From Verif Require Import Outcome Dbl.
Import ListNotations.
Open Scope Z_scope.
Open Scope outcome_scope.

(** A matrix of gradient norms (cv::Mat1d): [im_at x y] is row [y], column [x].  Entries are
    finite doubles taken as exact rationals. *)
Record image := { im_rows : Z; im_cols : Z; im_at : Z -> Z -> Q }.

(** Settings::PixelSelector, include/util/settings.h:28-43 (without the debug colours). *)
Record ps_settings := {
  initialBlock : Z;
  initialFound : Z;
  adaptTo : Q;
  thresholds : list Q
}.

(** settings.h:29-39, source/util/settings.cpp (default_gradThresholds = {20, 8, 5}). *)
Definition ps_default : ps_settings :=
  {| initialBlock := 25; initialFound := 1000; adaptTo := 11#10;
     thresholds := [20#1; 8#1; 5#1] |}.

(** The integers [0 .. n-1]. *)
Definition zrange (n : Z) : list Z := map Z.of_nat (seq 0 (Z.to_nat n)).

(** cv::sum over the block with top left corner (j, i) and side s, PixelSelector.cpp:30-32. *)
Definition block_sum (g : image) (i j s : Z) : Q :=
  fold_right (fun dy acc => fold_right (fun dx acc' => (im_at g (j + dx) (i + dy) + acc')%Q) acc (zrange s))
    0%Q (zrange s).

(** Strict comparison of rationals (double comparison of finite values). *)
Definition qltb (a b : Q) : bool := Z.ltb (Qnum a * Zpos (Qden b)) (Qnum b * Zpos (Qden a)).

Section Selector.
(** cv::minMaxLoc on the block (j, i, s): position of a maximum relative to the block corner,
    PixelSelector.cpp:35.  An arbitrary function; the theorems assume only that it returns a
    position of a maximal entry. *)
Variable maxloc : image -> Z -> Z -> Z -> Z * Z.
(** std::shuffle with the generator seeded per layer, PixelSelector.cpp:55-56: an arbitrary
    function; the theorems assume only that it returns a permutation. *)
Variable shuffle : nat -> list (Z * Z) -> list (Z * Z).

(** PixelSelector.cpp:30-37: one block.  [cv::Range(i, i + s)] with negative [s] is rejected by
    OpenCV with an exception; for [s = 0] the block is empty, the average is 0/0, the comparison
    is false and nothing is added. *)
Definition block_step (g : image) (s : Z) (thr : Q) (i j : Z) (acc : list (Z * Z))
  : outcome (list (Z * Z)) :=
  if s <? 0 then Throw
  else if s =? 0 then Ok acc
  else
    let avg := (block_sum g i j s / inject_Z (s * s))%Q in
    let loc := maxloc g i j s in
    let mx := im_at g (j + fst loc) (i + snd loc) in
    if qltb (avg + thr)%Q mx then Ok (acc ++ [(j + fst loc, i + snd loc)]) else Ok acc.

(** PixelSelector.cpp:29-38: the inner loop over columns. *)
Fixpoint layer_cols (fuel : nat) (g : image) (s : Z) (thr : Q) (i j : Z) (acc : list (Z * Z))
  : outcome (list (Z * Z)) :=
  if j + s <? im_cols g then
    match fuel with
    | O => NoFuel
    | S f => let* acc' := block_step g s thr i j acc in layer_cols f g s thr i (j + s) acc'
    end
  else Ok acc.

(** PixelSelector.cpp:26-39: [selectLayer], outer loop over rows.  [fuel0] bounds each inner
    loop.  Overflow of the loop variables is not modelled (rows, cols and block sizes are far
    below 2^30). *)
Fixpoint layer_rows (fuel0 fuel : nat) (g : image) (s : Z) (thr : Q) (i : Z) (acc : list (Z * Z))
  : outcome (list (Z * Z)) :=
  if i + s <? im_rows g then
    match fuel with
    | O => NoFuel
    | S f => let* acc' := layer_cols fuel0 g s thr i 0 acc in
             layer_rows fuel0 f g s thr (i + s) acc'
    end
  else Ok acc.

Definition select_layer (fuel : nat) (g : image) (s : Z) (thr : Q) : outcome (list (Z * Z)) :=
  layer_rows fuel fuel g s thr 0 [].

(** PixelSelector.cpp:52-59: all layers, layer [n] with block [(1 << n) * blockSize]. *)
Fixpoint layers (fuel : nat) (g : image) (block : Z) (n : nat) (ths : list Q)
  : outcome (list (list (Z * Z))) :=
  match ths with
  | [] => Ok []
  | thr :: ths' =>
      let* l := select_layer fuel g (2 ^ Z.of_nat n * block) thr in
      let* ls := layers fuel g block (S n) ths' in
      Ok (shuffle n l :: ls)
  end.

(** PixelSelector.cpp:61-65. *)
Definition total (ls : list (list (Z * Z))) : Z :=
  fold_right (fun l n => Z.of_nat (length l) + n) 0 ls.

(** std::vector::resize: cut, or extend with default points (0, 0). *)
Definition resize (n : nat) (l : list (Z * Z)) : list (Z * Z) :=
  firstn n l ++ repeat (0, 0) (n - length l).

(** PixelSelector.cpp:74-82: cutting down to the requested number. *)
Definition cut (ls : list (list (Z * Z))) (needed : Z) : outcome (list (list (Z * Z))) :=
  match ls with
  | [] => UB                                      (* pointsOverThres[0] of an empty vector *)
  | l0 :: rest =>
      if needed <? total ls then
        let rest' := map (fun l => resize (Z.to_nat (Z.of_nat (length l) * needed / total ls)) l) rest in
        let n0 := needed - total rest' in
        if n0 <? 0 then Throw                     (* resize to a huge size_t: length_error *)
        else Ok (resize (Z.to_nat n0) l0 :: rest')
      else Ok ls
  end.

(** PixelSelector.cpp:41-99: [selectInternal]; result: points and number found.
    [reserve(2 * pointsNeeded)] with a negative argument throws.  Debug drawing is left out. *)
Definition select_internal (fuel : nat) (s : ps_settings) (g : image) (needed block : Z)
  : outcome (list (Z * Z) * Z) :=
  match thresholds s with
  | [] => UB                                      (* pointsOverThres[LI - 1], LI = 0 *)
  | _ =>
      if needed <? 0 then Throw else
      let* ls := layers fuel g block 0 (thresholds s) in
      let* ls' := cut ls needed in
      Ok (concat ls', total ls)
  end.

(** State of a selector: lastBlockSize, lastPointsFound (PixelSelector.h:23-24). *)
Record ps_state := { lastBlock : Z; lastFound : Z }.

(** PixelSelector.cpp:11-14. *)
Definition ps_init (s : ps_settings) : ps_state :=
  {| lastBlock := initialBlock s; lastFound := initialFound s |}.

(** PixelSelector.cpp:20-22: [int(lastBlock * sqrt(lastFound / (needed * adaptTo)))] in exact
    arithmetic: the integer square root of floor(lastBlock^2 * lastFound / (needed * adaptTo)),
    with the sign of lastBlock.  A zero or negative divisor gives an infinity, NaN or the square
    root of a negative number: the conversion to int is undefined. *)
Definition adapted_block (s : ps_settings) (st : ps_state) (needed : Z) : outcome Z :=
  let den := (inject_Z needed * adaptTo s)%Q in
  if Qle_bool den 0 then UB
  else if lastFound st <? 0 then UB
  else
    let sq := (inject_Z (lastBlock st * lastBlock st * lastFound st) / den)%Q in
    let r := Z.sgn (lastBlock st) * Z.sqrt (Z.div (Qnum sq) (Zpos (Qden sq))) in
    if in_int r then Ok r else UB.

(** PixelSelector.cpp:16-24: [select]. *)
Definition select (fuel : nat) (s : ps_settings) (st : ps_state) (g : image) (needed : Z)
  : outcome (list (Z * Z) * ps_state) :=
  let* block := adapted_block s st needed in
  let* r := select_internal fuel s g needed block in
  Ok (fst r, {| lastBlock := block; lastFound := snd r |}).

End Selector.
