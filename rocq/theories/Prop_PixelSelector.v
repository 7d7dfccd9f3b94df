(** Property theorems C15, C16 and C64: pixel selection.  Statements only. *)
From Coq Require Import List ZArith QArith Lia Permutation.
From Verif Require Import Outcome Dbl PixelSelectorModel PixelSelectorSpec PixelSelectorProofs.
Import ListNotations.
Open Scope Z_scope.

(** C15. Whatever cv::minMaxLoc picks among equal maxima and whatever std::shuffle does, a call
    whose adapted block size is at least 1 returns normally.  [cands] lists, per layer and without
    repetition, one genuine pixel for exactly the blocks that have one.  The result consists of
    min(needed, found) points: a part of each layer's candidates plus [f] fillers (0,0), at most
    (number of layers - 2) of them and only if the finest layer is used up; if not more than
    needed were found the result is exactly the candidates. *)
Theorem C15_selection :
  forall maxloc shuffle fuel s st g needed block,
  maxloc_ok maxloc -> shuffle_ok shuffle ->
  thresholds s <> [] -> adapted_block s st needed = Ok block -> 1 <= block -> 0 <= needed ->
  (Z.to_nat (im_rows g) <= fuel)%nat -> (Z.to_nat (im_cols g) <= fuel)%nat ->
  exists res found cands kept f,
    select maxloc shuffle fuel s st g needed = Ok (res, {| lastBlock := block; lastFound := found |}) /\
    length cands = length (thresholds s) /\
    (forall k c thr, nth_error cands k = Some c -> nth_error (thresholds s) k = Some thr ->
       let side := 2 ^ Z.of_nat k * block in
       NoDup c /\ (forall p, In p c -> genuine g side thr p) /\
       (forall i j p q, block_of_grid g side i j -> in_block i j side p -> in_block i j side q ->
          In p c -> In q c -> p = q) /\
       (forall i j m p, block_of_grid g side i j -> block_mean g i j side m -> in_block i j side p ->
          (m + thr < im_at g (fst p) (snd p))%Q -> exists q, In q c /\ block_max g i j side q)) /\
    found = Z.of_nat (length (concat cands)) /\
    Z.of_nat (length res) = Z.min needed found /\
    Forall2 part_of kept cands /\
    Permutation res (concat kept ++ repeat (0, 0) f) /\
    (f <= length (thresholds s) - 2)%nat /\
    (0 < f -> exists k0 ks c0 cs, kept = k0 :: ks /\ cands = c0 :: cs /\ Permutation k0 c0)%nat /\
    (found <= needed -> f = 0%nat /\ Permutation res (concat cands)).
Proof. exact select_ok. Qed.
Print Assumptions C15_selection.

(** C15. Every returned point lies in the image (and not on its last row or column). *)
Theorem C15_inside :
  forall maxloc shuffle fuel s st g needed block,
  maxloc_ok maxloc -> shuffle_ok shuffle ->
  thresholds s <> [] -> adapted_block s st needed = Ok block -> 1 <= block -> 0 <= needed ->
  (Z.to_nat (im_rows g) <= fuel)%nat -> (Z.to_nat (im_cols g) <= fuel)%nat ->
  exists res st', select maxloc shuffle fuel s st g needed = Ok (res, st') /\
    forall p, In p res -> 0 <= fst p <= im_cols g - 2 /\ 0 <= snd p <= im_rows g - 2.
Proof. exact select_inside. Qed.
Print Assumptions C15_inside.

(** C15. "Every returned point is genuine" fails: with the default settings a filler is returned
    although it is no candidate of any layer. *)
Theorem C15_all_genuine_refuted :
  exists st, select first_max no_shuffle 10 ps_default {| lastBlock := 2; lastFound := 1 |} filler_image 2
    = Ok ([(0, 0); (1, 1)], st) /\ lastBlock st = 1 /\
  forall k thr, nth_error (thresholds ps_default) k = Some thr ->
  ~ genuine filler_image (2 ^ Z.of_nat k * 1) thr (0, 0).
Proof. exact (ex_intro _ _ (conj filler_case (conj eq_refl filler_not_genuine))). Qed.
Print Assumptions C15_all_genuine_refuted.

(** The two contracts are satisfiable. *)
Example C15_contracts : maxloc_ok first_max /\ shuffle_ok no_shuffle.
Proof. exact (conj first_max_ok no_shuffle_ok). Qed.

(** The adapted block size of a fresh selector asked for the default number of points. *)
Example C15_default_block : adapted_block ps_default (ps_init ps_default) 2000 = Ok 16.
Proof. vm_compute. reflexivity. Qed.

(** C64. Within a layer the pixels are distinct (part of C15_selection); over the whole result
    they need not be: one bright pixel is returned twice, once per layer. *)
Theorem C64_distinct_refuted :
  exists st, select first_max no_shuffle 10 ps_default {| lastBlock := 2; lastFound := 3 |} twice_image 2
    = Ok ([(1, 1); (1, 1)], st).
Proof. exact (ex_intro _ _ twice_case). Qed.
Print Assumptions C64_distinct_refuted.

(** C16. Termination is the Ok result of C15_selection for every fuel that covers the image
    sides.  Conversely: after one call on a uniform image the next call on any non-empty image
    never terminates (no fuel suffices). *)
Theorem C16_stuck_after_uniform_image :
  forall maxloc shuffle, maxloc_ok maxloc -> shuffle_ok shuffle ->
  forall s st needed1 needed2 g1 g2 c block fuel1,
  thresholds s <> [] -> Forall (fun t => 0 <= t)%Q (thresholds s) -> (0 < adaptTo s)%Q ->
  adapted_block s st needed1 = Ok block -> 1 <= block -> 0 <= needed1 -> 1 <= needed2 ->
  (forall x y, (im_at g1 x y == c)%Q) ->
  (Z.to_nat (im_rows g1) <= fuel1)%nat -> (Z.to_nat (im_cols g1) <= fuel1)%nat ->
  0 < im_rows g2 -> 0 < im_cols g2 ->
  exists st', select maxloc shuffle fuel1 s st g1 needed1 = Ok ([], st') /\
    forall fuel2, select maxloc shuffle fuel2 s st' g2 needed2 = NoFuel.
Proof. exact uniform_then_stuck. Qed.
Print Assumptions C16_stuck_after_uniform_image.

(** C16. Block size 0 never terminates, whatever the image. *)
Theorem C16_block_zero_diverges :
  forall maxloc shuffle fuel s g needed, thresholds s <> [] -> 0 <= needed ->
  0 < im_rows g -> 0 < im_cols g ->
  select_internal maxloc shuffle fuel s g needed 0 = NoFuel.
Proof. exact internal_zero. Qed.
Print Assumptions C16_block_zero_diverges.

(** The default settings meet the hypotheses of C16. *)
Example C16_default :
  thresholds ps_default <> [] /\ Forall (fun t => 0 <= t)%Q (thresholds ps_default) /\ (0 < adaptTo ps_default)%Q.
Proof. split; [discriminate|]. split; [repeat constructor; discriminate|reflexivity]. Qed.
