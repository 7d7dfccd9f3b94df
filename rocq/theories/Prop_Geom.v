(** C31-C34, C60, C71: plane predicates, curve interpolation, triangulation of two rays. *)
From Coq Require Import Reals ZArith List Bool Lra Lia.
From Verif Require Import Outcome Pose PoseProofs GeomModel GeomSpec GeomProofs GeomExamples.
Import ListNotations.
Open Scope R_scope.

(** ** C31 *)
Theorem C31_empty_circle : forall a b c d o, triangle a b c -> circumcenter o a b c ->
  (isABDelaunay a b c d = true <-> dist2 o a <= dist2 o d).
Proof. exact delaunay_circle. Qed.
Print Assumptions C31_empty_circle.

Theorem C31_circle_exists : forall a b c, triangle a b c -> exists o, circumcenter o a b c.
Proof. exact circumcenter_exists. Qed.
Print Assumptions C31_circle_exists.

(** The two transpositions generate every order of a, b and c. *)
Theorem C31_order : forall a b c d, triangle a b c ->
  isABDelaunay b a c d = isABDelaunay a b c d /\ isABDelaunay a c b d = isABDelaunay a b c d.
Proof. exact delaunay_order. Qed.
Print Assumptions C31_order.

Theorem C31_symmetric : forall a b c d, opposite a b c d ->
  isABDelaunay a b d c = isABDelaunay a b c d.
Proof. exact delaunay_symmetric. Qed.
Print Assumptions C31_symmetric.

(** Flipping an edge that fails the test, inside a strictly convex quadrilateral, gives an edge
    that passes it. *)
Theorem C31_flip : forall a b c d, opposite a b c d -> opposite c d a b ->
  isABDelaunay a b c d = false -> isABDelaunay c d a b = true.
Proof. exact flip_legal. Qed.
Print Assumptions C31_flip.

Example C31_case : triangle (P2 0 0) (P2 4 0) (P2 0 4) /\
  circumcenter (P2 2 2) (P2 0 0) (P2 4 0) (P2 0 4) /\
  isABDelaunay (P2 0 0) (P2 4 0) (P2 0 4) (P2 2 (-1)) = true /\
  isABDelaunay (P2 0 0) (P2 4 0) (P2 0 4) (P2 3 3) = false.
Proof.
  assert (T : triangle (P2 0 0) (P2 4 0) (P2 0 4)) by (unfold triangle, turn; cbn [px py]; lra).
  assert (O : circumcenter (P2 2 2) (P2 0 0) (P2 4 0) (P2 0 4)) by (unfold circumcenter, dist2; cbn [px py]; lra).
  split; [exact T|]. split; [exact O|]. split.
  - apply (C31_empty_circle _ _ _ _ _ T O). unfold dist2. cbn [px py]. lra.
  - destruct (isABDelaunay (P2 0 0) (P2 4 0) (P2 0 4) (P2 3 3)) eqn:E; [|reflexivity].
    apply (C31_empty_circle _ _ _ _ _ T O) in E. unfold dist2 in E. cbn [px py] in E. lra.
Qed.
Example C31_flip_case : opposite (P2 0 0) (P2 4 0) (P2 2 1) (P2 2 (-1)) /\
  opposite (P2 2 1) (P2 2 (-1)) (P2 0 0) (P2 4 0) /\
  isABDelaunay (P2 0 0) (P2 4 0) (P2 2 1) (P2 2 (-1)) = false.
Proof.
  split; [unfold opposite, turn; cbn [px py]; lra|]. split; [unfold opposite, turn; cbn [px py]; lra|].
  unfold isABDelaunay, Rleb. destruct (Rle_dec _ 0) as [H|H]; [|reflexivity].
  exfalso. unfold pdot, psub, cross2 in H. cbn [px py] in H. lra.
Qed.

(** ** C32 *)
Theorem C32_inside : forall a b c p, triangle a b c ->
  (isInsideTriangle a b c p = true <-> in_triangle a b c p).
Proof. exact inside_iff. Qed.
Print Assumptions C32_inside.

(** For three points on a line every point of the plane is accepted. *)
Theorem C32_degenerate_refuted : forall a b c p, ~ triangle a b c -> isInsideTriangle a b c p = true.
Proof. exact degenerate_inside. Qed.
Print Assumptions C32_degenerate_refuted.

Example C32_degenerate_case : ~ triangle (P2 0 0) (P2 1 0) (P2 2 0) /\
  ~ in_triangle (P2 0 0) (P2 1 0) (P2 2 0) (P2 0 5).
Proof.
  split; [unfold triangle, turn; cbn [px py]; lra|].
  intros (u & v & w & H). cbn [px py] in H. lra.
Qed.
Example C32_case : triangle (P2 0 0) (P2 0 2) (P2 2 0) /\ in_triangle (P2 0 0) (P2 0 2) (P2 2 0) (P2 1 1).
Proof.
  split; [unfold triangle, turn; cbn [px py]; lra|]. exists 0, (1/2), (1/2). cbn [px py]. lra.
Qed.

(** ** C33 *)
Theorem C33_sound : forall a b c d eps,
  doesABIntersectCD a b c d eps = true -> cross_properly a b c d.
Proof. exact intersect_sound. Qed.
Print Assumptions C33_sound.

(** Crossing segments are found if ab ascends and an end of cd is inside its box by the margin. *)
Theorem C33_found : forall a b c d eps,
  opposite a b c d -> opposite c d a b ->
  px a + eps < px c < px b - eps -> py a + eps < py c < py b - eps ->
  doesABIntersectCD a b c d eps = true.
Proof. exact intersect_complete. Qed.
Print Assumptions C33_found.

Theorem C33_second_segment : forall a b c d eps,
  doesABIntersectCD a b c d eps = doesABIntersectCD a b d c eps.
Proof. exact intersect_swap_cd. Qed.
Print Assumptions C33_second_segment.

Theorem C33_missed_refuted : exists a b c d,
  cross_properly a b c d /\ forall eps, 0 <= eps -> doesABIntersectCD a b c d eps = false.
Proof. exact crossing_missed_all. Qed.
Print Assumptions C33_missed_refuted.

Theorem C33_first_segment_refuted : exists a b c d eps, 0 < eps /\
  doesABIntersectCD a b c d eps = true /\ doesABIntersectCD b a c d eps = false.
Proof. exact crossing_order. Qed.
Print Assumptions C33_first_segment_refuted.

Example C33_case : opposite (P2 0 0) (P2 2 2) (P2 (1/2) 1) (P2 (3/2) (1/2)) /\
  opposite (P2 (1/2) 1) (P2 (3/2) (1/2)) (P2 0 0) (P2 2 2).
Proof. split; unfold opposite, turn; cbn [px py]; lra. Qed.

(** ** C34 *)
Theorem C34_polyline : forall points x p, (2 <= length points)%nat ->
  (approxOnCurve points x = Ok p <-> on_polyline points x p).
Proof. exact approx_iff. Qed.
Print Assumptions C34_polyline.

Theorem C34_total : forall points x, (2 <= length points)%nat ->
  exists p, approxOnCurve points x = Ok p /\ on_polyline points x p.
Proof. exact approx_value. Qed.
Print Assumptions C34_total.

Theorem C34_lipschitz : forall L points x y p q, steps_at_most L points ->
  approxOnCurve points x = Ok p -> approxOnCurve points y = Ok q ->
  distance_pt p q <= L * Rabs (x - y).
Proof. exact approx_lipschitz. Qed.
Print Assumptions C34_lipschitz.

Theorem C34_short : forall points x, (length points < 2)%nat -> approxOnCurve points x = Abort.
Proof. exact approx_short. Qed.
Print Assumptions C34_short.

Example C34_case :
  let pts := [P2 0 0; P2 3 0; P2 3 1] in
  on_polyline pts (3/2) (P2 3 (1/2)) /\ on_polyline pts (-1) (P2 (-3) 0) /\
  on_polyline pts 4 (P2 3 3) /\ on_polyline pts 1 (P2 3 0) /\ steps_at_most 3 pts.
Proof.
  cbv zeta. split; [|split; [|split; [|split]]].
  - exists 1%nat, (P2 3 0), (P2 3 1). cbn [nth_error INR length]. repeat split; try (left; lra); try (right; reflexivity).
    apply pt_eq; cbn [px py between]; lra.
  - exists 0%nat, (P2 0 0), (P2 3 0). cbn [nth_error INR length]. repeat split; try (left; lra); try (right; reflexivity).
    apply pt_eq; cbn [px py between]; lra.
  - exists 1%nat, (P2 3 0), (P2 3 1). cbn [nth_error INR length]. repeat split; try (left; lra); try (right; reflexivity).
    apply pt_eq; cbn [px py between]; lra.
  - exists 1%nat, (P2 3 0), (P2 3 1). cbn [nth_error INR length]. repeat split; try (left; lra); try (right; reflexivity).
    apply pt_eq; cbn [px py between]; lra.
  - intros i a b A B. assert (S9 : sqrt 9 = 3) by (replace 9 with (3 * 3) by lra; apply sqrt_square; lra).
    rewrite <- S9. unfold distance_pt, dist2.
    destruct i as [|[|[|i]]]; cbn in A, B; try discriminate; try (destruct i; discriminate);
      injection A as <-; injection B as <-; cbn [px py]; apply sqrt_le_1; lra.
Qed.

(** ** C60 *)
Theorem C60_exact : forall solve, least_squares_solver solve -> forall g r1 r2 X d1 d2,
  rigid g -> X = vscale d1 r1 -> act g X = vscale d2 r2 ->
  ~ parallel (rot (so3 g) r1) r2 -> triangulate solve g r1 r2 = (d1, d2).
Proof. exact triangulate_exact. Qed.
Print Assumptions C60_exact.

Theorem C60_closest : forall solve, least_squares_solver solve -> forall g r1 r2 d1 d2,
  let (e1, e2) := triangulate solve g r1 r2 in
  vnorm (vsub (act g (vscale e1 r1)) (vscale e2 r2)) <= vnorm (vsub (act g (vscale d1 r1)) (vscale d2 r2)).
Proof. exact triangulate_minimal. Qed.
Print Assumptions C60_closest.

Example C60_solver : least_squares_solver cramer.
Proof. exact cramer_ok. Qed.
Example C60_case :
  let g := SE qone (V3 1 0 0) in
  rigid g /\ act g (vscale 2 (V3 0 0 1)) = vscale 1 (V3 1 0 2) /\
  ~ parallel (rot (so3 g) (V3 0 0 1)) (V3 1 0 2).
Proof.
  cbv zeta. split; [apply rigid_id|]. unfold act. cbn [so3 tr]. rewrite !rot_one. split.
  - unfold vadd, vscale. cbn [vx vy vz]. f_equal; ring.
  - unfold parallel, cross, vzero. cbn [vx vy vz]. intros H. injection H as H1 H2 H3. lra.
Qed.

(** ** C71 *)
(** c and d on opposite sides of ab: the quadrilateral acbd is reported convex exactly when its
    diagonals ab and cd meet. *)
Theorem C71_convex : forall a b c d, opposite a b c d ->
  (isABCDConvex a c b d = true <-> exists p, on_segment a b p /\ on_segment c d p).
Proof. exact convex_iff. Qed.
Print Assumptions C71_convex.

Theorem C71_close : forall a b eps, 0 <= eps -> (areEqual a b eps = true <-> distance_pt a b < eps).
Proof. exact areEqual_iff. Qed.
Print Assumptions C71_close.

(** The points accepted as lying on a segment: a strip around the segment lengthened by eps. *)
Theorem C71_strip : forall a b p eps, a <> b -> 0 < eps ->
  (doesABcontain a b p eps = true <->
   exists t, - eps <= t <= distance_pt a b + eps /\
     let q := between a b (t / distance_pt a b) in
     pdot (psub p q) (psub b a) = 0 /\ distance_pt p q < eps).
Proof. exact contain_iff. Qed.
Print Assumptions C71_strip.

Theorem C71_segment_accepted : forall a b p eps, a <> b -> 0 < eps -> on_segment a b p ->
  doesABcontain a b p eps = true.
Proof. exact contain_segment. Qed.
Print Assumptions C71_segment_accepted.

Theorem C71_accepted_near : forall a b p eps, 0 < eps -> doesABcontain a b p eps = true ->
  exists q, on_segment a b q /\ distance_pt p q < sqrt 2 * eps.
Proof. exact contain_near. Qed.
Print Assumptions C71_accepted_near.

Example C71_case : opposite (P2 0 0) (P2 4 0) (P2 1 1) (P2 2 (-1)) /\
  isABCDConvex (P2 0 0) (P2 1 1) (P2 4 0) (P2 2 (-1)) = true /\
  isABCDConvex (P2 0 0) (P2 6 1) (P2 4 0) (P2 6 (-1)) = false.
Proof.
  assert (O : opposite (P2 0 0) (P2 4 0) (P2 1 1) (P2 2 (-1))) by (unfold opposite, turn; cbn [px py]; lra).
  split; [exact O|]. split.
  - apply (C71_convex _ _ _ _ O). exists (P2 (3/2) 0). split.
    + exists (3/8). split; [lra|]. apply pt_eq; cbn [px py between]; lra.
    + exists (1/2). split; [lra|]. apply pt_eq; cbn [px py between]; lra.
  - destruct (isABCDConvex (P2 0 0) (P2 6 1) (P2 4 0) (P2 6 (-1))) eqn:E; [|reflexivity].
    assert (O2 : opposite (P2 0 0) (P2 4 0) (P2 6 1) (P2 6 (-1))) by (unfold opposite, turn; cbn [px py]; lra).
    apply (C71_convex _ _ _ _ O2) in E. destruct E as (p & (t & T & P) & (s & S & Q)).
    rewrite P in Q. unfold between in Q. cbn [px py] in Q. injection Q as Q1 Q2. lra.
Qed.
Example C71_near_case : doesABcontain (P2 0 0) (P2 4 0) (P2 1 0) 1 = true.
Proof.
  apply contain_segment; [|lra|].
  - intros H. injection H. lra.
  - exists (1/4). split; [lra|]. apply pt_eq; cbn [px py between]; lra.
Qed.
