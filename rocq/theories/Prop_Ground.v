(** C96: the planar terrain over the triangulation it builds. *)
From Coq Require Import ZArith QArith Qreals List Bool Arith Reals Permutation.
From Verif Require Import Outcome Pose GeomModel SectorModel SectorSpec SectorExamples DelModel DelSpec DelPlaneSpec DelThm DelExact DelExamples DelDiscSpec DelFinalEx.
From Verif Require Import GroundModel GroundSpec GroundProofs GroundMore GroundUnique GroundExamples.
Import ListNotations.
Open Scope nat_scope.

(** C96: whatever the draws, a query that ends either has no answer or answers with the linear
    interpolation of the absolute depths over a triangle of the triangulation that contains the point
    (or the point is within the tolerance of an edge); no index is out of range *)
Theorem C96_answer : forall (es em : Q) p l order ch fuel W solve units depths,
  let g := exact (es * maxDim p l) (em * maxDim p l) in let T := g_triang W in let m := t_mesh T in
  (forall i (s : list nat), s <> [] -> fst (ch i) s < length s) ->
  Permutation order (map Z.of_nat (seq 0 (S (length l)))) ->
  general_position place g (corner0 p l :: corner1 p l :: corner2 p l :: p :: l) ->
  affine_solver solve -> Forall (fun n => vnorm n = 1%R) units -> length units = S (length l) ->
  make_ground es em p l units depths order ch fuel = Ok W ->
  forall x first coin f, (forall s : list nat, s <> [] -> first s < length s) ->
  depth_at solve es em p l W x first coin f = NoFuel \/ depth_at solve es em p l W x first coin f = Ok None \/
  exists r t i j k, depth_at solve es em p l W x first coin f = Ok (Some r) /\ In t (t_triangles T) /\ named m t i /\ named m t j /\ named m t k /\
    linear (p :: l) depths i j k (place x) r /\ (on_edge g m x \/ in_points (p :: l) i j k (place x)).
Proof. exact answer. Qed.
Print Assumptions C96_answer.

(** C96: strictly inside the hull and not at an edge there is an answer, from the triangle containing
    the point *)
Theorem C96_inside : forall (es em : Q) p l order ch fuel W solve units depths,
  let g := exact (es * maxDim p l) (em * maxDim p l) in let T := g_triang W in let m := t_mesh T in
  (forall i (s : list nat), s <> [] -> fst (ch i) s < length s) ->
  Permutation order (map Z.of_nat (seq 0 (S (length l)))) ->
  general_position place g (corner0 p l :: corner1 p l :: corner2 p l :: p :: l) ->
  affine_solver solve -> Forall (fun n => vnorm n = 1%R) units -> length units = S (length l) ->
  make_ground es em p l units depths order ch fuel = Ok W ->
  forall x first coin f, (forall s : list nat, s <> [] -> first s < length s) ->
  (0 < es)%Q -> ~ on_edge g m x -> inside_hull (p :: l) (place x) ->
  depth_at solve es em p l W x first coin f = NoFuel \/
  exists r t i j k, depth_at solve es em p l W x first coin f = Ok (Some r) /\ In t (t_triangles T) /\ named m t i /\ named m t j /\ named m t k /\
    linear (p :: l) depths i j k (place x) r /\ in_points (p :: l) i j k (place x).
Proof. exact inside_answer. Qed.
Print Assumptions C96_inside.

(** C96: outside the hull and not at an edge there is none *)
Theorem C96_outside : forall (es em : Q) p l order ch fuel W solve units depths,
  let g := exact (es * maxDim p l) (em * maxDim p l) in let m := t_mesh (g_triang W) in
  (forall i (s : list nat), s <> [] -> fst (ch i) s < length s) ->
  Permutation order (map Z.of_nat (seq 0 (S (length l)))) ->
  general_position place g (corner0 p l :: corner1 p l :: corner2 p l :: p :: l) ->
  affine_solver solve -> Forall (fun n => vnorm n = 1%R) units -> length units = S (length l) ->
  make_ground es em p l units depths order ch fuel = Ok W ->
  forall x first coin f, (forall s : list nat, s <> [] -> first s < length s) ->
  ~ on_edge g m x -> ~ in_hull (p :: l) (place x) ->
  depth_at solve es em p l W x first coin f = NoFuel \/ depth_at solve es em p l W x first coin f = Ok None.
Proof. exact outside_answer. Qed.
Print Assumptions C96_outside.

(** C96: an answer lies between the bounds of the absolute depths *)
Theorem C96_range : forall (es em : Q) p l order ch fuel W solve units depths,
  let g := exact (es * maxDim p l) (em * maxDim p l) in let m := t_mesh (g_triang W) in
  (forall i (s : list nat), s <> [] -> fst (ch i) s < length s) ->
  Permutation order (map Z.of_nat (seq 0 (S (length l)))) ->
  general_position place g (corner0 p l :: corner1 p l :: corner2 p l :: p :: l) ->
  affine_solver solve -> Forall (fun n => vnorm n = 1%R) units -> length units = S (length l) ->
  make_ground es em p l units depths order ch fuel = Ok W ->
  forall x first coin f lo hi r, (forall s : list nat, s <> [] -> first s < length s) -> ~ on_edge g m x ->
  Forall (fun h => (lo <= Rabs h <= hi)%R) depths ->
  depth_at solve es em p l W x first coin f = Ok (Some r) -> (lo <= r <= hi)%R.
Proof. exact answer_range. Qed.
Print Assumptions C96_range.

(** C96: at a point given an answer is its absolute depth *)
Theorem C96_point : forall (es em : Q) p l order ch fuel W solve units depths,
  let g := exact (es * maxDim p l) (em * maxDim p l) in
  (forall i (s : list nat), s <> [] -> fst (ch i) s < length s) ->
  Permutation order (map Z.of_nat (seq 0 (S (length l)))) ->
  general_position place g (corner0 p l :: corner1 p l :: corner2 p l :: p :: l) ->
  affine_solver solve -> Forall (fun n => vnorm n = 1%R) units -> length units = S (length l) ->
  make_ground es em p l units depths order ch fuel = Ok W ->
  forall x i di first coin f, (forall s : list nat, s <> [] -> first s < length s) ->
  nth_error (p :: l) i = Some x -> nth_error depths i = Some di ->
  depth_at solve es em p l W x first coin f = NoFuel \/ depth_at solve es em p l W x first coin f = Ok None \/
  depth_at solve es em p l W x first coin f = Ok (Some (Rabs di)).
Proof. exact point_answer. Qed.
Print Assumptions C96_point.

(** C96, counterexample: at such a point the same query of the same terrain can answer once and not
    the next time *)
Theorem C96_repeat_refuted : exists W p l (x : point) solve first coin coin' f r,
  make_ground eps eps p l four_units four_depths plain_order ch0 60 = Ok W /\ In x (p :: l) /\ affine_solver solve /\
  (forall s : list nat, s <> [] -> first s < length s) /\
  depth_at solve eps eps p l W x first coin f = Ok (Some r) /\ depth_at solve eps eps p l W x first coin' f = Ok None.
Proof.
  exact (ex_intro _ four (ex_intro _ (q 0 0) (ex_intro _ ps (ex_intro _ (q 7 1) (ex_intro _ affine_through (ex_intro _ (take 0) (ex_intro _ (fun _ => true) (ex_intro _ (fun _ => false)
    (ex_intro _ 60 (ex_intro _ 2%R (conj four_made (conj (or_intror (or_introl eq_refl)) (conj affine_through_ok (conj (take_ok 0) asked_twice)))))))))))))).
Qed.
Print Assumptions C96_repeat_refuted.

(** C96: away from the edges, with no four points on a circle, the answer does not depend on the
    order of insertion, the draws and the solver *)
Theorem C96_unique : forall (es em : Q) p l units depths,
  let g := exact (es * maxDim p l) (em * maxDim p l) in
  (0 < es)%Q ->
  general_position place g (corner0 p l :: corner1 p l :: corner2 p l :: p :: l) ->
  (forall i j k h x y z u, nth_error (p :: l) i = Some x -> nth_error (p :: l) j = Some y -> nth_error (p :: l) k = Some z -> nth_error (p :: l) h = Some u ->
     NoDup [i; j; k; h] -> ~ exists o, dist2 o (place x) = dist2 o (place y) /\ dist2 o (place y) = dist2 o (place z) /\ dist2 o (place z) = dist2 o (place u)) ->
  Forall (fun n => vnorm n = 1%R) units -> length units = S (length l) ->
  forall order order' ch ch' fuel fuel' W W' solve solve' x first first' coin coin' f f' o o',
  (forall i (s : list nat), s <> [] -> fst (ch i) s < length s) -> (forall i (s : list nat), s <> [] -> fst (ch' i) s < length s) ->
  Permutation order (map Z.of_nat (seq 0 (S (length l)))) -> Permutation order' (map Z.of_nat (seq 0 (S (length l)))) ->
  affine_solver solve -> affine_solver solve' ->
  make_ground es em p l units depths order ch fuel = Ok W -> make_ground es em p l units depths order' ch' fuel' = Ok W' ->
  (forall s : list nat, s <> [] -> first s < length s) -> (forall s : list nat, s <> [] -> first' s < length s) ->
  ~ on_edge g (t_mesh (g_triang W)) x -> ~ on_edge g (t_mesh (g_triang W')) x ->
  depth_at solve es em p l W x first coin f = Ok o -> depth_at solve' es em p l W' x first' coin' f' = Ok o' -> o = o'.
Proof. exact same_answer. Qed.
Print Assumptions C96_unique.

(** C96: for some draws the query ends, if the point is on no line through two of the vertices *)
Theorem C96_can_end : forall (es em : Q) p l units depths order ch fuel W solve x first f,
  let d := maxDim p l in let g := exact (es * d) (em * d) in
  (forall i (s : list nat), s <> [] -> fst (ch i) s < length s) ->
  Permutation order (map Z.of_nat (seq 0 (S (length l)))) ->
  general_position place g (corner0 p l :: corner1 p l :: corner2 p l :: p :: l) ->
  affine_solver solve -> Forall (fun n => vnorm n = 1%R) units -> length units = S (length l) ->
  make_ground es em p l units depths order ch fuel = Ok W -> (forall s : list nat, s <> [] -> first s < length s) ->
  (forall i j a b, nth_error (corner0 p l :: corner1 p l :: corner2 p l :: p :: l) i = Some a -> nth_error (corner0 p l :: corner1 p l :: corner2 p l :: p :: l) j = Some b -> i <> j ->
     orient (place a) (place b) (place x) <> 0%R) ->
  2 * length l + 3 <= f -> exists coin o, depth_at solve es em p l W x first coin f = Ok o.
Proof. exact can_end. Qed.
Print Assumptions C96_can_end.

(** C96: hasInterpolatedDepth tells whether the query with the same draws answers, and is undefined
    exactly outside the bounding triangle, where the query has no answer *)
Theorem C96_has_depth : forall (es em : Q) p l units depths order ch fuel W solve x first coin f,
  let d := maxDim p l in let g := exact (es * d) (em * d) in
  (forall i (s : list nat), s <> [] -> fst (ch i) s < length s) ->
  Permutation order (map Z.of_nat (seq 0 (S (length l)))) ->
  general_position place g (corner0 p l :: corner1 p l :: corner2 p l :: p :: l) ->
  affine_solver solve -> Forall (fun n => vnorm n = 1%R) units -> length units = S (length l) ->
  make_ground es em p l units depths order ch fuel = Ok W -> (forall s : list nat, s <> [] -> first s < length s) ->
  (has_depth_at es em p l W x first coin f = UB <-> ~ within (place (corner0 p l)) (place (corner1 p l)) (place (corner2 p l)) (place x)) /\
  (has_depth_at es em p l W x first coin f = UB -> depth_at solve es em p l W x first coin f = Ok None) /\
  (has_depth_at es em p l W x first coin f = Ok true <-> exists r, depth_at solve es em p l W x first coin f = Ok (Some r)).
Proof. exact has_depth. Qed.
Print Assumptions C96_has_depth.

Example C96_case : make_ground eps eps (q 0 0) ps four_units four_depths plain_order ch0 60 = Ok four /\
  ~ on_edge (exact (eps * maxDim (q 0 0) ps) (eps * maxDim (q 0 0) ps)) (t_mesh (g_triang four)) (q 4 3) /\ inside_hull (q 0 0 :: ps) (place (q 4 3)) /\
  (forall s : list nat, s <> [] -> take 0 s < length s) /\ Forall (fun n => vnorm n = 1%R) four_units /\
  exists r, depth_at affine_through eps eps (q 0 0) ps four (q 4 3) (take 0) (fun _ => true) 60 = Ok (Some r).
Proof. exact (conj four_made (conj mid_away (conj mid_inside (conj (take_ok 0) (conj four_unit mid_answered))))). Qed.
