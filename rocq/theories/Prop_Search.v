(** C89: the random search for the triangle. *)
From Coq Require Import ZArith QArith List Arith Reals Permutation.
From Verif Require Import Outcome DelModel DelSpec DelPlaneSpec DelThm DelExact DelExamples DelDiscSpec DelEnds2 DelLoop.
Import ListNotations.
Open Scope nat_scope.

(** C89: after every prefix of the insertions, from whatever edge the search has come to, some draws end it
    within twice as many rounds as there are points and one more, in the triangle around the point: so fair
    draws end it with probability one *)
Theorem C89_can_end : forall (P : Type) (pos : P -> pt) (g : geometry P), exact_sides pos g -> exact_circles pos g ->
  forall b0 b1 b2 (ch : choices) fuel order n m inv ind p,
  (forall i (l : list nat), l <> [] -> fst (ch i) l < length l) ->
  general_position pos g (b0 :: b1 :: b2 :: map snd order ++ [p]) ->
  Forall (fun p => inside (pos b0) (pos b1) (pos b2) (pos p)) (map snd order ++ [p]) ->
  insert_all g ch fuel order 0 (bounding b0 b1 b2) (fun _ => 0%Z) n = Ok (m, inv) ->
  forall fuel' cur, 2 * length order + 1 <= fuel' -> edge_of (makeVertex m p ind) cur ->
  exists coin t, walk g (makeVertex m p ind) p coin fuel' cur = Ok t /\
    inside (at_vertex pos m (TV m t 0)) (at_vertex pos m (TV m t 1)) (at_vertex pos m (TV m t 2)) (pos p).
Proof. exact @stage_ends. Qed.
Print Assumptions C89_can_end.

(** the whole constructor returns for some draws, whatever the orders of the sets and of the points *)
Theorem C89_constructor : forall (es em : Q) p l order (first : nat -> list nat -> nat) fuel,
  let d := maxDim p l in
  (forall i (s : list nat), s <> [] -> first i s < length s) ->
  Permutation order (map Z.of_nat (seq 0 (S (length l)))) ->
  general_position place (exact (es * d) (em * d)) (corner0 p l :: corner1 p l :: corner2 p l :: p :: l) ->
  2 * length l + 13 < fuel ->
  exists coins T, triangulate es em p l order (fun i => (first i, coins i)) fuel = Ok T.
Proof. exact triangulate_ends. Qed.
Print Assumptions C89_constructor.

(** but not for all draws: six points in general position for which the search, always turning to the second
    side when both are possible, goes round for ever *)
Theorem C89_always_refuted : exists p l order (ch : choices),
  let d := maxDim p l in
  (forall i (s : list nat), s <> [] -> fst (ch i) s < length s) /\
  Permutation order (map Z.of_nat (seq 0 (S (length l)))) /\
  general_position place (exact (eps * d) (eps * d)) (corner0 p l :: corner1 p l :: corner2 p l :: p :: l) /\
  forall fuel, triangulate eps eps p l order ch fuel = NoFuel.
Proof. exact (ex_intro _ (q 4 7) (ex_intro _ pc (ex_intro _ pc_order (ex_intro _ tails (conj tails_ok (conj pc_perm (conj pc_position search_circles))))))). Qed.
Print Assumptions C89_always_refuted.

Example C89_case : (forall i (s : list nat), s <> [] -> fst (tails i) s < length s) /\ Permutation pc_order (map Z.of_nat (seq 0 (S (length pc)))) /\
  general_position place (exact (eps * maxDim (q 4 7) pc) (eps * maxDim (q 4 7) pc)) (corner0 (q 4 7) pc :: corner1 (q 4 7) pc :: corner2 (q 4 7) pc :: q 4 7 :: pc).
Proof. exact (conj tails_ok (conj pc_perm pc_position)). Qed.
