(** Property theorems C11-C14 and C63: the distance map.  Statements only; proofs in
    DistanceMapProofs.v, vocabulary in DistanceMapSpec.v. *)
From Coq Require Import List ZArith QArith Bool Lia Permutation.
From Verif Require Import Outcome Dbl DistanceMapModel DistanceMapSpec DistanceMapProofs.
Import ListNotations.
Open Scope Z_scope.

(** C11. For every image size, limits and seed points that fall inside the reduced grid, the
    constructor terminates normally (with any fuel from the given bound on) and every cell
    holds the exact city-block distance to the nearest occupied cell, INT_MAX if none. *)
Theorem C11_distance_exact :
  forall W H s pts k fuel,
  1 <= W < 2^30 -> 1 <= H < 2^30 -> reduction W H s = Ok k -> 1 <= k ->
  (forall p, In p pts -> inside_image W H p -> inside_image (W / k * k) (H / k * k) p) ->
  (length pts + Z.to_nat (W / k) * Z.to_nat (H / k) <= fuel)%nat ->
  exists m, build fuel W H pts s = Ok m /\ dm_pyrDown m = k /\
    gw (dm_dist m) = W / k /\ gh (dm_dist m) = H / k /\
    forall x y, 0 <= x < W / k -> 0 <= y < H / k ->
      ((forall sx sy, ~ occupied W H k pts sx sy) -> gat (dm_dist m) x y = INT_MAX) /\
      ((exists sx sy, occupied W H k pts sx sy) ->
         nearest (occupied W H k pts) x y (gat (dm_dist m) x y)).
Proof. exact build_ok. Qed.
Print Assumptions C11_distance_exact.

(** The reduction factor exists and is a power of two for all limits >= 1. *)
Theorem C11_reduction_total :
  forall W H s, 1 <= W < 2^30 -> 1 <= H < 2^30 -> limits_ok s ->
  exists k, reduction W H s = Ok k /\ 1 <= k /\ pow2 k.
Proof. exact reduction_total. Qed.
Print Assumptions C11_reduction_total.

Example C11_example :
  exists m, build 30 4 5 [(Fin (7#2), Fin (1#2)); (Fin (1#2), Fin (9#2)); (NaN, PInf)] dm_default = Ok m /\
   map (fun y => map (fun x => gat (dm_dist m) x y) [0;1;2;3]) [0;1;2;3;4]
   = [[3;2;1;0];[3;3;2;1];[2;3;3;2];[1;2;3;3];[0;1;2;3]].
Proof. eexists. split; vm_compute; reflexivity. Qed.

(** C12. Farthest-first choice: distinct valid indices, exactly the requested number (or all
    candidates), and no left-out candidate is farther from the occupied cells than a chosen one,
    whatever rearrangement std::nth_element produces. *)
Theorem C12_choose_farthest_first :
  forall nth W H s k seeds fuel m cand need,
  nth_element_ok nth -> 1 <= W < 2^30 -> 1 <= H < 2^30 -> reduction W H s = Ok k -> 1 <= k ->
  (k | W) -> (k | H) -> build fuel W H seeds s = Ok m -> 0 <= need ->
  (forall p, In p cand -> inside_image W H p) ->
  exists res, choose nth m cand need = Ok res /\ NoDup res /\
    (forall i, In i res -> (i < length cand)%nat) /\
    Z.of_nat (length res) = Z.min need (Z.of_nat (length cand)) /\
    (forall i j pi pj xi yi xj yj di dj,
       In i res -> ~ In j res -> nth_error cand i = Some pi -> nth_error cand j = Some pj ->
       in_cell k pi xi yi -> in_cell k pj xj yj ->
       nearest (occupied W H k seeds) xi yi di -> nearest (occupied W H k seeds) xj yj dj ->
       dj <= di).
Proof. exact choose_farthest. Qed.
Print Assumptions C12_choose_farthest_first.

(** C12, arbitrary candidates (also outside the image, or not finite): whenever [choose] returns
    normally the indices are distinct and valid, at most the requested number, only of points
    that fall on the grid, exactly the requested number if an in-image candidate is left out, and
    farthest-first among the in-image candidates. *)
Theorem C12_choose_any_candidates :
  forall nth W H s k seeds fuel m cand need res,
  nth_element_ok nth -> 1 <= W < 2^30 -> 1 <= H < 2^30 -> reduction W H s = Ok k -> 1 <= k ->
  (k | W) -> (k | H) -> build fuel W H seeds s = Ok m -> 0 <= need ->
  choose nth m cand need = Ok res ->
  NoDup res /\ (Z.of_nat (length res) <= need) /\
  (forall i, In i res -> exists p, nth_error cand i = Some p /\ reaches_grid W H k p) /\
  ((exists j p, nth_error cand j = Some p /\ inside_image W H p /\ ~ In j res) ->
     Z.of_nat (length res) = need) /\
  (forall i j pi pj xi yi xj yj di dj,
       In i res -> ~ In j res -> nth_error cand i = Some pi -> nth_error cand j = Some pj ->
       inside_image W H pi -> inside_image W H pj ->
       in_cell k pi xi yi -> in_cell k pj xj yj ->
       nearest (occupied W H k seeds) xi yi di -> nearest (occupied W H k seeds) xj yj dj ->
       dj <= di).
Proof. exact choose_general. Qed.
Print Assumptions C12_choose_any_candidates.

(** A point slightly left of the image is chosen: "falls on the grid" is weaker than "in the
    image". *)
Theorem C12_only_in_image_refuted :
  exists m, build 10 8 8 [] dm_default = Ok m /\ ~ inside_image 8 8 (Fin (-1#2), Fin (1#2)) /\
  forall nth, nth_element_ok nth -> choose nth m [(Fin (-1#2), Fin (1#2))] 1 = Ok [0%nat].
Proof. exact choose_outside. Qed.
Print Assumptions C12_only_in_image_refuted.

(** The contract of nth_element is satisfiable, and a non-trivial choice. *)
Example C12_nth_exists : nth_element_ok (fun _ l => sort_desc l).
Proof. exact sort_nth_ok. Qed.
Example C12_example :
  exists m res, build 30 4 5 [(Fin (7#2), Fin (1#2))] dm_default = Ok m /\
   choose (fun _ l => sort_desc l) m
     [(Fin (3#1), Fin (1#1)); (Fin (0#1), Fin (4#1)); (Fin (1#1), Fin (0#1))] 2 = Ok res /\ res = [1; 2]%nat.
Proof. eexists. eexists. split; [vm_compute; reflexivity|]. split; vm_compute; reflexivity. Qed.

(** A negative request (possible when the optimised-point budget was lowered) is undefined. *)
Theorem C12_negative_request_refuted :
  forall nth m cand es need, choose_entries m 0 cand = Ok es -> need < 0 ->
  choose nth m cand need = UB.
Proof. exact choose_negative. Qed.
Print Assumptions C12_negative_request_refuted.

(** C13. Memory safety when the reduction factor divides both sides: no access outside the grid
    during construction (for any fuel) and during a choice among in-image candidates. *)
Theorem C13_build_safe :
  forall W H s pts k fuel,
  1 <= W < 2^30 -> 1 <= H < 2^30 -> reduction W H s = Ok k -> 1 <= k -> (k | W) -> (k | H) ->
  build fuel W H pts s = NoFuel \/ exists m, build fuel W H pts s = Ok m.
Proof. exact build_safe. Qed.
Print Assumptions C13_build_safe.

(** C13. Otherwise an in-image seed point can make the constructor write outside the grid, with
    the default limits, for every fuel. *)
Theorem C13_build_refuted :
  exists W H p, inside_image W H p /\ forall fuel, build fuel W H [p] dm_default = UB.
Proof. exact build_oob. Qed.
Print Assumptions C13_build_refuted.

(** C13. A candidate exactly on the right border makes [choose] read outside the grid. *)
Theorem C13_choose_refuted :
  exists W H m p, build 0 W H [] dm_default = Ok m /\
    p = (of_int W, of_int 0) /\ forall nth, choose nth m [p] 1 = UB.
Proof. exact choose_oob. Qed.
Print Assumptions C13_choose_refuted.

(** The hypotheses of C12 and C13 are met by the image size of the project's dataset. *)
Example C13_default_dataset : reduction 1920 1208 dm_default = Ok 4 /\ (4 | 1920) /\ (4 | 1208).
Proof. split; [vm_compute; reflexivity|]. split; [exists 480|exists 302]; reflexivity. Qed.

(** C14. clp2 *)
Theorem C14_clp2_least_power :
  forall x, 1 <= x <= 2^31 -> pow2 (clp2 x) /\ x <= clp2 x /\ forall p, pow2 p -> x <= p -> clp2 x <= p.
Proof. exact clp2_spec. Qed.
Print Assumptions C14_clp2_least_power.

Theorem C14_clp2_zero : clp2 0 = 0.
Proof. exact clp2_zero. Qed.
Print Assumptions C14_clp2_zero.

Theorem C14_clp2_wraps : forall x, 2^31 < x < 2^32 -> clp2 x = 0.
Proof. exact clp2_wraps. Qed.
Print Assumptions C14_clp2_wraps.

Example C14_example : clp2 5 = 8 /\ clp2 8 = 8 /\ clp2 (2^31) = 2^31.
Proof. vm_compute. auto. Qed.

(** C63. At least one side of the reduced grid respects its limit ... *)
Theorem C63_one_side_fits :
  forall W H s k mw mh,
  1 <= W < 2^30 -> 1 <= H < 2^30 -> 1 <= mw -> 1 <= mh ->
  s = {| maxWidth := inject_Z mw; maxHeight := inject_Z mh |} ->
  reduction W H s = Ok k -> W / k <= mw \/ H / k <= mh.
Proof. exact one_side_fits. Qed.
Print Assumptions C63_one_side_fits.

(** ... but not both: the minimum of the two factors is taken. *)
Theorem C63_both_sides_refuted :
  exists W H k, reduction W H dm_default = Ok k /\ 480 < W / k.
Proof. exact wide_map. Qed.
Print Assumptions C63_both_sides_refuted.
