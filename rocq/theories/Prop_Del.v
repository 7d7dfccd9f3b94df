(** C28-C30, C78: the planar triangulation. *)
From Coq Require Import ZArith QArith List Arith Reals Permutation.
From Verif Require Import Outcome DelModel DelSpec DelPlaneSpec DelThm DelExact DelExamples.
Import ListNotations.
Open Scope nat_scope.

(** C28: every mesh reached by putting points into triangles and inner edges and by flipping edges
    whose vertices apart are not joined yet is consistent, whatever the geometry *)
Theorem C28_history : forall (P : Type) (m : mesh P) n, history m n -> consistent m.
Proof. exact (fun P m n H => proj1 (history_ok m n H)). Qed.
Print Assumptions C28_history.

(** ... and none of these operations fails *)
Theorem C28_defined : forall (P : Type) (m : mesh P) n, history m n ->
  (forall p i t, tri_of m t -> exists m', divideTriangle (makeVertex m p i) t (nv m) = Ok m') /\
  (forall p i e, edge_of m e -> ET m e 1 <> None -> exists m', divideEdge (makeVertex m p i) e (nv m) = Ok m') /\
  (forall e, may_flip m e -> exists m', performFlip m e = Ok m').
Proof. exact @history_defined. Qed.
Print Assumptions C28_defined.

Example C28_case : exists m, history (P := point) m 1 /\ (exists e, edge_of m e /\ ET m e 1 <> None) /\ exists t, tri_of m t.
Proof. exact history_example. Qed.

(** a flip between vertices that are joined already makes a second edge between them *)
Theorem C28_flip_joined_refuted : forall (P : Type) (m : mesh P) e t0 t1 c d, consistent m -> edge_of m e ->
  ET m e 0 = Some t0 -> ET m e 1 = Some t1 ->
  corner m t0 c -> ~ end_of m e c -> corner m t1 d -> ~ end_of m e d -> joined m c d ->
  exists m' f f', performFlip m e = Ok m' /\ edge_of m' f /\ edge_of m' f' /\ f <> f' /\ joins m' f c d /\ joins m' f' c d.
Proof. exact @flip_joined. Qed.
Print Assumptions C28_flip_joined_refuted.

(** the constructor does so for three points on a vertical line *)
Theorem C28_collinear_refuted : exists T, triangulate eps eps (q 0 0) [q 0 1; q 0 2] [0; 1; 2]%Z ch0 50 = Ok T /\
  exists e e' u v, In e (t_edges T) /\ In e' (t_edges T) /\ e <> e' /\ joins (t_mesh T) e u v /\ joins (t_mesh T) e' u v.
Proof. exact vertical_double. Qed.
Print Assumptions C28_collinear_refuted.

(** and aborts for two points on a line with a bounding vertex and for two equal points *)
Theorem C28_diagonal_refuted : triangulate eps eps (q 1 1) [q 8 8] [0; 1]%Z ch0 50 = Abort.
Proof. exact diagonal_aborts. Qed.
Print Assumptions C28_diagonal_refuted.
Theorem C28_equal_refuted : triangulate eps eps (q 1 1) [q 1 1] [0; 1]%Z ch0 50 = Abort.
Proof. exact equal_aborts. Qed.
Print Assumptions C28_equal_refuted.

(** C29: no point dropped, any geometry and order *)
Theorem C29_index : forall (P : Type) (g : geometry P) b0 b1 b2 ch fuel order T,
  construct g b0 b1 b2 ch fuel order = Ok T ->
  Permutation (map fst order) (map Z.of_nat (seq 0 (length order))) -> nv (t_mesh T) = 3 + length order ->
  length (t_vertices T) = length order /\
  forall ind p, In (ind, p) order -> exists v, lookup (t_mesh T) (t_inv T) ind = Ok v /\
    nth_error (t_vertices T) (Z.to_nat ind) = Some v /\ POS (t_mesh T) v = p /\ IDX (t_mesh T) v = ind.
Proof. exact @index_ok. Qed.
Print Assumptions C29_index.

Example C29_case : vertices_of (triangulate eps eps (q 0 0) [q 7 1; q 3 8; q 4 3] [2; 0; 3; 1]%Z ch0 60) = Ok ([4; 6; 3; 5], 7).
Proof. exact (proj2 general_example). Qed.

(** a point dropped among l1, another one accepted later: some accepted index leads to no vertex *)
Theorem C29_dropped_refuted : forall (P : Type) (g : geometry P) b0 b1 b2 ch fuel l1 l2 m1 inv1 m inv n,
  insert_all g ch fuel l1 0 (bounding b0 b1 b2) (fun _ => 0%Z) n = Ok (m1, inv1) ->
  insert_all g ch fuel (l1 ++ l2) 0 (bounding b0 b1 b2) (fun _ => 0%Z) n = Ok (m, inv) ->
  NoDup (map fst (l1 ++ l2)) -> nv m1 < 3 + length l1 -> nv m1 < nv m ->
  exists ind v, In ind (map fst l2) /\ 3 <= v < nv m /\ IDX m v = ind /\ forall u, lookup m inv ind <> Ok u.
Proof. exact @index_dropped. Qed.
Print Assumptions C29_dropped_refuted.

Example C29_dropped_case : let g := exact (eps * 8) (eps * 8) in
  let B := bounding (q (-8) (-8)) (q 32 (-8)) (q (-8) 32) in
  let l1 := [(0%Z, q 0 0); (1%Z, q 0 0)] in let l2 := [(2%Z, q 7 1); (3%Z, q 3 8)] in
  match insert_all g ch0 50 l1 0 B (fun _ => 0%Z) 4, insert_all g ch0 50 (l1 ++ l2) 0 B (fun _ => 0%Z) 4 with
  | Ok (m1, _), Ok (m, _) => nv m1 < 3 + length l1 /\ nv m1 < nv m
  | _, _ => False
  end.
Proof. exact twice_run. Qed.

Theorem C29_wrong_vertex_refuted : exists T v,
  triangulate eps eps (q 0 0) [q 0 0; q 7 1; q 3 8] [0; 1; 2; 3]%Z ch0 50 = Ok T /\
  nth_error (t_vertices T) 2 = Some v /\ IDX (t_mesh T) v = 3%Z.
Proof. exact twice_wrong. Qed.
Print Assumptions C29_wrong_vertex_refuted.
Theorem C29_past_array_refuted : triangulate eps eps (q 0 0) [q 7 1; q 3 8; q 0 0] [0; 3; 1; 2]%Z ch0 50 = UB.
Proof. exact twice_past. Qed.
Print Assumptions C29_past_array_refuted.

(** C30 *)
Theorem C30_sizes : forall (P : Type) (m : mesh P) n, history m n -> sizes m n.
Proof. exact (fun P m n H => proj2 (history_ok m n H)). Qed.
Print Assumptions C30_sizes.

(** C78: points in general position: the constructor with exact arithmetic succeeds whenever the
    search for the triangles ends, for every order and all random draws *)
Theorem C78_general_position : forall (es em : Q) p l order ch fuel,
  let d := maxDim p l in
  (forall i (s : list nat), s <> [] -> fst (ch i) s < length s) ->
  Permutation order (map Z.of_nat (seq 0 (S (length l)))) ->
  general_position place (exact (es * d) (em * d)) (corner0 p l :: corner1 p l :: corner2 p l :: p :: l) ->
  triangulate es em p l order ch fuel = NoFuel \/
  exists T, triangulate es em p l order ch fuel = Ok T /\ consistent (t_mesh T) /\ sizes (t_mesh T) (S (length l)) /\
    planar place (t_mesh T) /\ fills place (t_mesh T) /\ length (t_vertices T) = S (length l) /\
    (forall i q, nth_error (p :: l) i = Some q -> exists v, lookup (t_mesh T) (t_inv T) (Z.of_nat i) = Ok v /\
       nth_error (t_vertices T) i = Some v /\ POS (t_mesh T) v = q /\ IDX (t_mesh T) v = Z.of_nat i) /\
    (NoDup (t_edges T) /\ forall e, In e (t_edges T) <-> edge_of (t_mesh T) e /\ forall v, end_of (t_mesh T) e v -> 3 <= v) /\
    (NoDup (t_triangles T) /\ forall t, In t (t_triangles T) <-> tri_of (t_mesh T) t /\ forall v, corner (t_mesh T) t v -> 3 <= v).
Proof. exact triangulate_ok. Qed.
Print Assumptions C78_general_position.

Example C78_case : exists T, triangulate eps eps (q 0 0) [q 7 1; q 3 8; q 4 3] [2; 0; 3; 1]%Z ch0 60 = Ok T /\
  consistent (t_mesh T) /\ planar place (t_mesh T) /\ fills place (t_mesh T).
Proof. exact general_run. Qed.

(** the same for every geometry whose side test is exact, after every prefix of the insertions *)
Theorem C78_every_stage : forall (P : Type) (g : geometry P) (pos : P -> pt), exact_sides pos g ->
  forall b0 b1 b2 (ch : choices) fuel order n,
  (forall i (l : list nat), l <> [] -> fst (ch i) l < length l) ->
  general_position pos g (b0 :: b1 :: b2 :: map snd order) ->
  Forall (fun p => inside (pos b0) (pos b1) (pos b2) (pos p)) (map snd order) ->
  insert_all g ch fuel order 0 (bounding b0 b1 b2) (fun _ => 0%Z) n = NoFuel \/
  exists m inv, insert_all g ch fuel order 0 (bounding b0 b1 b2) (fun _ => 0%Z) n = Ok (m, inv) /\
    consistent m /\ sizes m (length order) /\ planar pos m /\ fills pos m.
Proof. exact @prefix_ok. Qed.
Print Assumptions C78_every_stage.

(** once the triangle of the point is found the flips end *)
Theorem C78_flips_end : forall (P : Type) (g : geometry P) (pos : P -> pt), exact_sides pos g ->
  forall b0 b1 b2 (ch : choices) fuel order ind p m inv n fs coin fuel' t,
  (forall i (l : list nat), l <> [] -> fst (ch i) l < length l) -> (forall l : list nat, l <> [] -> fs l < length l) ->
  general_position pos g (b0 :: b1 :: b2 :: map snd (order ++ [(ind, p)])) ->
  Forall (fun p => inside (pos b0) (pos b1) (pos b2) (pos p)) (map snd (order ++ [(ind, p)])) ->
  insert_all g ch fuel order 0 (bounding b0 b1 b2) (fun _ => 0%Z) n = Ok (m, inv) ->
  enclosingTriangle g (makeVertex m p ind) p fs coin fuel' = Ok t -> 2 * length order + 11 < fuel' ->
  exists m', addPoint g (makeVertex m p ind) (nv m) fs coin fuel' = Ok (m', nv m).
Proof. exact @flips_end. Qed.
Print Assumptions C78_flips_end.
