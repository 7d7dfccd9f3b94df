(** Helpers of util.cpp: C51, C52, C53. *)
From Coq Require Import ZArith QArith Ascii String List Bool Permutation Lia.
From Verif Require Import Outcome Dbl DblArith UtilModel UtilSpec UtilProofs.
Import ListNotations.
Open Scope Z_scope.

(** C51: an even number of levels. *)
Theorem C51_even : forall num resultW, 0 < num -> Z.even num = true ->
  exists up down, draw_leveled num resultW = Ok (up, down) /\ shows_all_levels num up down.
Proof. exact draw_leveled_shows. Qed.
Print Assumptions C51_even.

Example C51_even_witness : draw_leveled 6 1200 = Ok ([5; 4; 3], [2; 1; 0]).
Proof. vm_compute. reflexivity. Qed.

(** C51: an odd number of levels, one included, is undefined behaviour. *)
Theorem C51_odd_refuted : forall num resultW, 0 < num -> Z.odd num = true ->
  draw_leveled num resultW = UB.
Proof. exact draw_leveled_odd_ub. Qed.
Print Assumptions C51_odd_refuted.

Example C51_odd_witness : draw_leveled 5 1200 = UB.
Proof. vm_compute. reflexivity. Qed.

(** C52: the bounds are order statistics of the depths at the clamped indices. *)
Theorem C52_order_statistics : forall mul red blue cur depths a b,
  depths <> [] -> set_depth_col_bounds mul red blue cur depths = Ok (a, b) ->
  exists i j,
    quantile_index mul red (Z.of_nat (List.length depths)) = Ok i /\
    quantile_index mul blue (Z.of_nat (List.length depths)) = Ok j /\
    no_nan depths /\
    order_statistic (Z.to_nat i) depths a /\ order_statistic (Z.to_nat j) depths b.
Proof. exact bounds_ok. Qed.
Print Assumptions C52_order_statistics.

Theorem C52_index : forall mul part size i,
  0 < size -> quantile_index mul part size = Ok i ->
  0 <= i < size /\
  exists t, to_int (mul part size) = Ok t /\ i = Z.max 0 (Z.min t (size - 1)).
Proof. exact quantile_index_ok. Qed.
Print Assumptions C52_index.

(** C52: they do not depend on the order of the depths. *)
Theorem C52_any_order : forall mul red blue cur depths depths' a b,
  Permutation depths depths' -> depths <> [] ->
  set_depth_col_bounds mul red blue cur depths = Ok (a, b) ->
  exists a' b', set_depth_col_bounds mul red blue cur depths' = Ok (a', b') /\
                deq a a' /\ deq b b'.
Proof. exact bounds_permutation. Qed.
Print Assumptions C52_any_order.

(** C52: they are ordered when the two products are. *)
Theorem C52_ordered : forall mul red blue cur depths a b,
  (forall n, dleP (mul red n) (mul blue n)) ->
  depths <> [] -> set_depth_col_bounds mul red blue cur depths = Ok (a, b) -> dleP a b.
Proof. exact bounds_ordered. Qed.
Print Assumptions C52_ordered.

(** C52: the call is defined when no depth is NaN and the products fit in int. *)
Theorem C52_defined : forall mul red blue cur depths,
  no_nan depths ->
  (forall part, part = red \/ part = blue ->
     is_ok (to_int (mul part (Z.of_nat (List.length depths))))) ->
  is_ok (set_depth_col_bounds mul red blue cur depths).
Proof. exact bounds_total. Qed.
Print Assumptions C52_defined.

Example C52_witness :
  set_depth_col_bounds (fun p n => Fin (p * inject_Z n)) 0 (7 # 10) (Fin 0, Fin 1)
    [Fin 5; PInf; Fin 2; Fin 9] = Ok (Fin 2, Fin 9).
Proof. vm_compute. reflexivity. Qed.

(** C52: colours for different bounds. *)
Theorem C52_colour : forall d lo hi, ~ (lo == hi)%Q -> dnan d = false ->
  channels in_bounds (depth_col d (Fin lo) (Fin hi)) /\
  is_ok (draw_depth_pixel d (Fin lo) (Fin hi)).
Proof.
  exact (fun d lo hi H N => conj (depth_col_channels d lo hi H N) (draw_depth_pixel_ok d lo hi H)).
Qed.
Print Assumptions C52_colour.

(** C52: the lower bound is red, the upper one blue. *)
Theorem C52_colour_ends : forall lo hi, (lo < hi)%Q ->
  let '(b, g, r) := depth_col (Fin lo) (Fin lo) (Fin hi) in
  let '(b', g', r') := depth_col (Fin hi) (Fin lo) (Fin hi) in
  deq b (of_int 0) /\ deq g (of_int 0) /\ deq r (of_int 255) /\
  deq b' (of_int 255) /\ deq g' (of_int 0) /\ deq r' (of_int 0).
Proof. exact depth_col_ends. Qed.
Print Assumptions C52_colour_ends.

(** C52: with equal bounds the depth equal to them has no colour, and drawing it is undefined. *)
Theorem C52_equal_bounds_refuted : forall lo,
  depth_col (Fin lo) (Fin lo) (Fin lo) = (NaN, NaN, NaN) /\
  ((0 < lo)%Q -> draw_depth_pixel (Fin lo) (Fin lo) (Fin lo) = UB).
Proof. exact (fun lo => conj (depth_col_equal_bounds lo) (draw_depth_pixel_equal lo)). Qed.
Print Assumptions C52_equal_bounds_refuted.

(** C53: the path named by fileInDir. *)
Theorem C53_named : forall dir f, dir <> EmptyString -> f <> EmptyString -> no_slash f ->
  path_of (file_in_dir dir f) = (is_absolute dir, components dir ++ [f]).
Proof. exact file_in_dir_named. Qed.
Print Assumptions C53_named.

(** C53: also for names with directories in them. *)
Theorem C53_nested : forall dir f, dir <> EmptyString ->
  path_of (file_in_dir dir f) = (is_absolute dir, components dir ++ components f).
Proof. exact file_in_dir_path. Qed.
Print Assumptions C53_nested.

(** C53: the empty directory name ends up in the root directory. *)
Theorem C53_empty_refuted : forall f, f <> EmptyString -> no_slash f ->
  path_of (file_in_dir "" f) = (true, [f]).
Proof. exact file_in_dir_empty. Qed.
Print Assumptions C53_empty_refuted.

Example C53_witness :
  path_of (file_in_dir "out/run1/" "kf.txt") = (false, ["out"; "run1"; "kf.txt"]%string) /\
  path_of (file_in_dir "/" "kf.txt") = (true, ["kf.txt"%string]) /\
  path_of (file_in_dir "out" "kf.txt") = (false, ["out"; "kf.txt"]%string).
Proof. vm_compute. repeat split. Qed.
