(** C87, C88: the triangulation is Delaunay and does not depend on the order. *)
From Coq Require Import ZArith QArith List Arith Reals Permutation.
From Verif Require Import Outcome DelModel DelSpec DelPlaneSpec DelThm DelExact DelExamples DelDiscSpec DelFinal DelFinalEx.
Import ListNotations.
Open Scope nat_scope.

(** C87: for every geometry with exact side and circle tests, after every prefix of the insertions *)
Theorem C87_every_stage : forall (P : Type) (pos : P -> pt) (g : geometry P), exact_sides pos g -> exact_circles pos g ->
  forall b0 b1 b2 (ch : choices) fuel order n m inv,
  (forall i (l : list nat), l <> [] -> fst (ch i) l < length l) ->
  general_position pos g (b0 :: b1 :: b2 :: map snd order) ->
  Forall (fun p => inside (pos b0) (pos b1) (pos b2) (pos p)) (map snd order) ->
  insert_all g ch fuel order 0 (bounding b0 b1 b2) (fun _ => 0%Z) n = Ok (m, inv) ->
  empty_circles pos m /\ covers_hull pos m /\ has_empty pos m.
Proof. exact @stage_delaunay. Qed.
Print Assumptions C87_every_stage.

(** the tests of the code are so in exact arithmetic *)
Theorem C87_tests : forall e1 e2 : Q, exact_sides place (exact e1 e2) /\ exact_circles place (exact e1 e2).
Proof. exact (fun e1 e2 => conj (exact_ok e1 e2) (exact_circle e1 e2)). Qed.
Print Assumptions C87_tests.

(** the triangles returned by the constructor, in terms of the points given *)
Theorem C87_delaunay : forall (es em : Q) p l order ch fuel T,
  let d := maxDim p l in let m := t_mesh T in
  (forall i (s : list nat), s <> [] -> fst (ch i) s < length s) ->
  Permutation order (map Z.of_nat (seq 0 (S (length l)))) ->
  general_position place (exact (es * d) (em * d)) (corner0 p l :: corner1 p l :: corner2 p l :: p :: l) ->
  triangulate es em p l order ch fuel = Ok T ->
  (forall t q, In t (t_triangles T) -> In q (p :: l) ->
     ~ in_circle (place (POS m (TV m t 0))) (place (POS m (TV m t 1))) (place (POS m (TV m t 2))) (place q)) /\
  (forall x y z r, In x (p :: l) -> In y (p :: l) -> In z (p :: l) -> orient (place x) (place y) (place z) <> 0%R ->
     inside (place x) (place y) (place z) r -> exists t, In t (t_triangles T) /\ in_closed place m t r) /\
  (forall i j k x y z, nth_error (p :: l) i = Some x -> nth_error (p :: l) j = Some y -> nth_error (p :: l) k = Some z -> i <> j -> i <> k -> j <> k ->
     (forall h u, nth_error (p :: l) h = Some u -> h <> i -> h <> j -> h <> k -> ~ in_disc (place x) (place y) (place z) (place u)) ->
     exists t, In t (t_triangles T) /\ named m t i /\ named m t j /\ named m t k).
Proof. exact triangulate_delaunay. Qed.
Print Assumptions C87_delaunay.

Example C87_case : (forall i (s : list nat), s <> [] -> fst (ch0 i) s < length s) /\ Permutation [2; 0; 3; 1]%Z (map Z.of_nat (seq 0 4)) /\
  general_position place (exact (eps * maxDim (q 0 0) ps) (eps * maxDim (q 0 0) ps)) (corner0 (q 0 0) ps :: corner1 (q 0 0) ps :: corner2 (q 0 0) ps :: q 0 0 :: ps) /\
  triples_of (triangulate eps eps (q 0 0) ps [2; 0; 3; 1]%Z ch0 60) = Ok [(2, 1, 0); (2, 1, 3)]%Z.
Proof. exact (conj ch0_ok (conj ps_perm (conj ps_position (proj1 ps_runs)))). Qed.

(** C88: with no four points on a circle the triangles depend neither on the order nor on the draws *)
Theorem C88_unique : forall (es em : Q) p l order order' ch ch' fuel fuel' T T',
  let d := maxDim p l in
  (forall i (s : list nat), s <> [] -> fst (ch i) s < length s) -> (forall i (s : list nat), s <> [] -> fst (ch' i) s < length s) ->
  Permutation order (map Z.of_nat (seq 0 (S (length l)))) -> Permutation order' (map Z.of_nat (seq 0 (S (length l)))) ->
  general_position place (exact (es * d) (em * d)) (corner0 p l :: corner1 p l :: corner2 p l :: p :: l) ->
  (forall i j k h x y z u, nth_error (p :: l) i = Some x -> nth_error (p :: l) j = Some y -> nth_error (p :: l) k = Some z -> nth_error (p :: l) h = Some u ->
     NoDup [i; j; k; h] -> ~ exists o, dist2 o (place x) = dist2 o (place y) /\ dist2 o (place y) = dist2 o (place z) /\ dist2 o (place z) = dist2 o (place u)) ->
  triangulate es em p l order ch fuel = Ok T -> triangulate es em p l order' ch' fuel' = Ok T' ->
  forall t, In t (t_triangles T) -> exists t', In t' (t_triangles T') /\ forall i, named (t_mesh T) t i <-> named (t_mesh T') t' i.
Proof. exact triangulate_unique. Qed.
Print Assumptions C88_unique.

Example C88_case : (forall i j k h x y z u, nth_error (q 0 0 :: ps) i = Some x -> nth_error (q 0 0 :: ps) j = Some y -> nth_error (q 0 0 :: ps) k = Some z -> nth_error (q 0 0 :: ps) h = Some u ->
    NoDup [i; j; k; h] -> ~ exists o, dist2 o (place x) = dist2 o (place y) /\ dist2 o (place y) = dist2 o (place z) /\ dist2 o (place z) = dist2 o (place u)) /\
  triples_of (triangulate eps eps (q 0 0) ps [2; 0; 3; 1]%Z ch0 60) = Ok [(2, 1, 0); (2, 1, 3)]%Z /\
  triples_of (triangulate eps eps (q 0 0) ps [0; 1; 2; 3]%Z ch0 60) = Ok [(0, 1, 2); (1, 3, 2)]%Z.
Proof. exact (conj ps_cocircular ps_runs). Qed.
