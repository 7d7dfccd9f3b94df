(** Proofs for GeomModel. *)
From Coq Require Import Reals ZArith List Bool Lra Lia Psatz.
From Verif Require Import Outcome Pose PoseProofs GeomModel GeomSpec.
Import ListNotations.
Open Scope R_scope.

Lemma Rleb_iff x y : Rleb x y = true <-> x <= y.
Proof. unfold Rleb. destruct (Rle_dec x y); split; intros; try congruence; try lra. Qed.
Lemma Rltb_iff x y : Rltb x y = true <-> x < y.
Proof. unfold Rltb. destruct (Rlt_dec x y); split; intros; try congruence; try lra. Qed.
Lemma Rleb_false x y : Rleb x y = false <-> y < x.
Proof. unfold Rleb. destruct (Rle_dec x y); split; intros; try congruence; try lra. Qed.
Lemma bool_iff a b : (a = true <-> b = true) -> a = b.
Proof. destruct a, b; intros [H1 H2]; auto; try (now discriminate H1); symmetry; auto. Qed.

Ltac pt_destruct :=
  repeat match goal with p : pt |- _ => destruct p as [? ?] end.
Ltac pt_unfold :=
  unfold turn, cross2, dist2, between, psub, padd, pscale, pdot in *; cbn [px py] in *.

Lemma sameSide_iff a b p q : isSameSide a b p q = true <-> 0 <= turn a b p * turn a b q.
Proof.
  unfold isSameSide. rewrite Rleb_iff.
  replace (cross2 (psub b a) (psub p a)) with (turn a b p) by (pt_unfold; ring).
  replace (cross2 (psub b a) (psub q a)) with (turn a b q) by (pt_unfold; ring). reflexivity.
Qed.
Lemma sameSide_false a b p q : isSameSide a b p q = false <-> opposite a b p q.
Proof.
  unfold opposite. destruct (isSameSide a b p q) eqn:E.
  - apply sameSide_iff in E. split; [discriminate|lra].
  - split; [|reflexivity]. intros _. apply Rnot_le_lt. intros H. apply sameSide_iff in H. congruence.
Qed.

Lemma prod_neg x y : x * y < 0 -> (0 < x /\ y < 0) \/ (x < 0 /\ 0 < y).
Proof.
  intros H. destruct (Rtotal_order x 0) as [X|[X|X]].
  - right. split; [exact X|]. nra.
  - subst. lra.
  - left. split; [exact X|]. nra.
Qed.

Lemma dist2_nonneg a b : 0 <= dist2 a b.
Proof.
  unfold dist2. pose proof (pow2_ge_0 (px a - px b)). pose proof (pow2_ge_0 (py a - py b)). lra.
Qed.

(** * Delaunay *)
Definition inc (a b c d : pt) : R :=
  let da := psub a d in let db := psub b d in let dc := psub c d in
  pdot da da * (px db * py dc - py db * px dc)
  - pdot db db * (px da * py dc - py da * px dc)
  + pdot dc dc * (px da * py db - py da * px db).

Lemma delaunay_iff a b c d : isABDelaunay a b c d = true <-> inc a b c d * turn a b c <= 0.
Proof.
  unfold isABDelaunay. rewrite Rleb_iff. fold (inc a b c d).
  replace (cross2 (psub b a) (psub c b)) with (turn a b c) by (pt_unfold; ring). reflexivity.
Qed.

Lemma pt_eq a b : px a = px b -> py a = py b -> a = b.
Proof. destruct a, b. cbn. intros -> ->. reflexivity. Qed.

Lemma dist2_pos a b : a <> b -> 0 < dist2 a b.
Proof.
  intros N. destruct (Req_dec (dist2 a b) 0) as [E|E]; [|pose proof (dist2_nonneg a b); lra].
  exfalso. apply N. unfold dist2 in E.
  pose proof (pow2_ge_0 (px a - px b)). pose proof (pow2_ge_0 (py a - py b)).
  assert (X : (px a - px b) ^ 2 = 0) by lra. assert (Y : (py a - py b) ^ 2 = 0) by lra.
  apply pt_eq.
  - destruct (Req_dec (px a - px b) 0); [lra|]. exfalso. revert X. apply pow_nonzero. assumption.
  - destruct (Req_dec (py a - py b) 0); [lra|]. exfalso. revert Y. apply pow_nonzero. assumption.
Qed.

Lemma inc_circle a b c d o :
  circumcenter o a b c -> inc a b c d = turn a b c * (dist2 o a - dist2 o d).
Proof.
  intros [H1 H2].
  assert (E : inc a b c d = dist2 o a * cross2 (psub b d) (psub c d)
                            - dist2 o b * cross2 (psub a d) (psub c d)
                            + dist2 o c * cross2 (psub a d) (psub b d)
                            - dist2 o d * turn a b c).
  { unfold inc. pt_unfold. ring. }
  rewrite E, <- H1, <- H2. set (r := dist2 o a). set (q := dist2 o d).
  pt_unfold. ring.
Qed.

Lemma delaunay_circle a b c d o : triangle a b c -> circumcenter o a b c ->
  (isABDelaunay a b c d = true <-> dist2 o a <= dist2 o d).
Proof.
  intros T O. rewrite delaunay_iff, (inc_circle a b c d o O). unfold triangle in T.
  set (t := turn a b c) in *. assert (0 < t * t) by nra.
  replace (t * (dist2 o a - dist2 o d) * t) with (t * t * (dist2 o a - dist2 o d)) by ring.
  split; intros; nra.
Qed.

Lemma circumcenter_exists a b c : triangle a b c -> exists o, circumcenter o a b c.
Proof.
  intros T. unfold triangle in T. set (t := turn a b c) in *.
  set (b1 := px b - px a). set (b2 := py b - py a). set (c1 := px c - px a). set (c2 := py c - py a).
  exists (P2 (px a + (c2 * (b1 ^ 2 + b2 ^ 2) - b2 * (c1 ^ 2 + c2 ^ 2)) / (2 * t))
             (py a + (b1 * (c1 ^ 2 + c2 ^ 2) - c1 * (b1 ^ 2 + b2 ^ 2)) / (2 * t))).
  assert (Et : t = b1 * c2 - b2 * c1) by (unfold t, turn; fold b1 b2 c1 c2; ring).
  assert (Eb : px b = px a + b1) by (unfold b1; ring). assert (Eb' : py b = py a + b2) by (unfold b2; ring).
  assert (Ec : px c = px a + c1) by (unfold c1; ring). assert (Ec' : py c = py a + c2) by (unfold c2; ring).
  clearbody b1 b2 c1 c2 t. unfold circumcenter, dist2. cbn [px py]. rewrite Eb, Eb', Ec, Ec'. subst t.
  split; field; exact T.
Qed.

Lemma circumcenter_perm o a b c :
  circumcenter o a b c -> circumcenter o b a c /\ circumcenter o a c b.
Proof. unfold circumcenter. intros [H1 H2]. repeat split; lra. Qed.
Lemma triangle_perm a b c : triangle a b c -> triangle b a c /\ triangle a c b.
Proof.
  unfold triangle. intros H. split; intros E; apply H; revert E; unfold turn; lra.
Qed.

Lemma delaunay_order a b c d : triangle a b c ->
  isABDelaunay b a c d = isABDelaunay a b c d /\ isABDelaunay a c b d = isABDelaunay a b c d.
Proof.
  intros T. destruct (circumcenter_exists a b c T) as [o O].
  destruct (circumcenter_perm _ _ _ _ O) as [O1 O2]. destruct (triangle_perm _ _ _ T) as [T1 T2].
  destruct O as [E1 E2].
  split; apply bool_iff.
  - rewrite (delaunay_circle b a c d o T1 O1), (delaunay_circle a b c d o T (conj E1 E2)).
    rewrite <- E1. reflexivity.
  - rewrite (delaunay_circle a c b d o T2 O2), (delaunay_circle a b c d o T (conj E1 E2)).
    reflexivity.
Qed.

Lemma inc_swap a b c d : inc a b d c = - inc a b c d.
Proof. unfold inc. pt_unfold. ring. Qed.
Lemma inc_flip a b c d : inc c d a b = inc a b c d.
Proof. unfold inc. pt_unfold. ring. Qed.

Lemma delaunay_symmetric a b c d : opposite a b c d ->
  isABDelaunay a b d c = isABDelaunay a b c d.
Proof.
  unfold opposite. intros H. apply bool_iff. rewrite !delaunay_iff, inc_swap.
  set (i := inc a b c d). set (x := turn a b c) in *. set (y := turn a b d) in *.
  clearbody i x y. destruct (prod_neg _ _ H) as [[X Y]|[X Y]]; split; intros K.
  - assert (i <= 0) by nra. nra.
  - assert (i <= 0) by nra. nra.
  - assert (0 <= i) by nra. nra.
  - assert (0 <= i) by nra. nra.
Qed.

(** After a flip the new edge is legal. *)
Lemma turn_sum a b c d :
  turn c d a - turn c d b = turn a b d - turn a b c.
Proof. unfold turn. ring. Qed.
Lemma flip_signs a b c d : opposite a b c d -> opposite c d a b ->
  turn a b c * turn c d a < 0.
Proof.
  unfold opposite. intros H1 H2. pose proof (turn_sum a b c d) as E.
  set (x := turn a b c) in *. set (y := turn a b d) in *.
  set (z := turn c d a) in *. set (w := turn c d b) in *. clearbody x y z w.
  destruct (prod_neg _ _ H1) as [[X Y]|[X Y]], (prod_neg _ _ H2) as [[Z W]|[Z W]]; try lra; nra.
Qed.

Lemma flip_legal a b c d : opposite a b c d -> opposite c d a b ->
  isABDelaunay a b c d = false -> isABDelaunay c d a b = true.
Proof.
  intros O1 O2 H. apply delaunay_iff. rewrite inc_flip.
  assert (K : 0 < inc a b c d * turn a b c).
  { apply Rnot_le_lt. intros K. apply delaunay_iff in K. congruence. }
  pose proof (flip_signs a b c d O1 O2) as S.
  set (i := inc a b c d) in *. set (x := turn a b c) in *. set (z := turn c d a) in *. clearbody i x z.
  destruct (prod_neg _ _ S) as [[X Z]|[X Z]]; [assert (0 < i) by nra; nra|].
  assert (i < 0) by nra. nra.
Qed.

(** * Point in triangle *)
Lemma inside_iff a b c p : triangle a b c ->
  (isInsideTriangle a b c p = true <-> in_triangle a b c p).
Proof.
  intros T. unfold isInsideTriangle. rewrite !andb_true_iff, !sameSide_iff. unfold triangle in T.
  assert (E1 : turn a c b = - turn a b c) by (unfold turn; ring).
  assert (E2 : turn b c a = turn a b c) by (unfold turn; ring).
  assert (E3 : turn a b p + turn b c p - turn a c p = turn a b c) by (unfold turn; ring).
  rewrite E1, E2. split.
  - intros [[H1 H2] H3]. set (t := turn a b c) in *.
    exists (turn b c p / t), (- turn a c p / t), (turn a b p / t).
    assert (P : forall x, 0 <= x * t -> 0 <= x / t).
    { intros x Hx. replace (x / t) with (x * t * / (t * t)) by (field; exact T).
      apply Rmult_le_pos; [exact Hx|]. left. apply Rinv_0_lt_compat. nra. }
    split; [apply P; nra|]. split; [apply P; nra|]. split; [apply P; nra|].
    split; [rewrite <- E3 in T |- *; field; rewrite E3; rewrite <- E3; exact T|].
    unfold t in *; clear t P H1 H2 H3 E1 E2 E3. unfold turn in *.
    split; field; exact T.
  - intros (u & v & w & U & V & W & S & X & Y).
    assert (Ec : turn a b p = w * turn a b c).
    { unfold turn. rewrite X, Y. replace u with (1 - v - w) by lra. ring. }
    assert (Ea : turn b c p = u * turn a b c).
    { unfold turn. rewrite X, Y. replace w with (1 - u - v) by lra. ring. }
    assert (Eb : turn a c p = - v * turn a b c).
    { unfold turn. rewrite X, Y. replace u with (1 - v - w) by lra. ring. }
    rewrite Ea, Eb, Ec. set (t := turn a b c) in *. clearbody t. assert (0 < t * t) by nra.
    repeat split; nra.
Qed.

Lemma degenerate_inside a b c p : ~ triangle a b c -> isInsideTriangle a b c p = true.
Proof.
  intros T. assert (T0 : turn a b c = 0).
  { destruct (Req_dec (turn a b c) 0); [assumption|contradiction]. }
  unfold isInsideTriangle. rewrite !andb_true_iff, !sameSide_iff.
  assert (E1 : turn a c b = - turn a b c) by (unfold turn; ring).
  assert (E2 : turn b c a = turn a b c) by (unfold turn; ring).
  rewrite E1, E2, T0. repeat split; lra.
Qed.

(** * Segments *)
Lemma on_line_turn a b t : turn a b (between a b t) = 0.
Proof. unfold turn, between. cbn [px py]. ring. Qed.
Lemma turn_between a b c d t : turn c d (between a b t) = turn c d a - t * (turn c d a - turn c d b).
Proof. unfold turn, between. cbn [px py]. ring. Qed.

Lemma crossing_point a b c d D : D = turn c d a - turn c d b -> D <> 0 ->
  between a b (turn c d a / D) = between c d (- turn a b c / D).
Proof.
  intros E N. assert (E' : D = turn a b d - turn a b c) by (rewrite E; apply turn_sum).
  apply pt_eq; unfold between; cbn [px py]; rewrite E in *; unfold turn in *; field; exact N.
Qed.

Lemma ratio_inside x y D : x * y < 0 -> D = x - y -> 0 < x / D < 1.
Proof.
  intros H ->. destruct (prod_neg _ _ H) as [[X Y]|[X Y]].
  - split; [apply Rdiv_lt_0_compat; lra|].
    apply (Rmult_lt_reg_r (x - y)); [lra|]. unfold Rdiv. rewrite Rmult_assoc, Rinv_l by lra. lra.
  - replace (x / (x - y)) with ((- x) / (y - x)) by (field; lra).
    split; [apply Rdiv_lt_0_compat; lra|].
    apply (Rmult_lt_reg_r (y - x)); [lra|]. unfold Rdiv. rewrite Rmult_assoc, Rinv_l by lra. lra.
Qed.

Lemma opposite_cross a b c d : opposite a b c d -> opposite c d a b -> cross_properly a b c d.
Proof.
  intros H1 H2. unfold opposite in *.
  set (D := turn c d a - turn c d b).
  assert (ED : D = turn a b d - turn a b c) by apply turn_sum.
  assert (N : D <> 0) by (destruct (prod_neg _ _ H1); lra).
  pose proof (crossing_point a b c d D eq_refl N) as X.
  assert (T1 : 0 < turn c d a / D < 1) by (apply (ratio_inside _ (turn c d b)); [exact H2|reflexivity]).
  assert (T2 : 0 < - turn a b c / D < 1).
  { apply (ratio_inside _ (- turn a b d)); [nra|lra]. }
  exists (between a b (turn c d a / D)). split; [|split].
  - eexists. split; [exact T1|reflexivity].
  - rewrite X. eexists. split; [exact T2|reflexivity].
  - intros q (t & _ & Q1) (s & _ & Q2).
    assert (Z : turn c d q = 0) by (rewrite Q2; apply on_line_turn).
    rewrite Q1, turn_between in Z. fold D in Z. rewrite Q1. f_equal.
    apply (Rmult_eq_reg_r D); [|exact N]. unfold Rdiv. rewrite Rmult_assoc, Rinv_l by exact N. lra.
Qed.

Lemma intersect_sound a b c d eps : doesABIntersectCD a b c d eps = true -> cross_properly a b c d.
Proof.
  unfold doesABIntersectCD. destruct (negb _) at 1; [discriminate|].
  rewrite andb_true_iff, !negb_true_iff, !sameSide_false. intros [H1 H2].
  apply opposite_cross; assumption.
Qed.

Lemma intersect_complete a b c d eps :
  opposite a b c d -> opposite c d a b ->
  px a + eps < px c < px b - eps -> py a + eps < py c < py b - eps ->
  doesABIntersectCD a b c d eps = true.
Proof.
  intros H1 H2 [X1 X2] [Y1 Y2]. unfold doesABIntersectCD.
  apply Rltb_iff in X1, X2, Y1, Y2. rewrite X1, X2, Y1, Y2. cbn.
  apply sameSide_false in H1, H2. rewrite H1, H2. reflexivity.
Qed.

Lemma intersect_swap_cd a b c d eps :
  doesABIntersectCD a b c d eps = doesABIntersectCD a b d c eps.
Proof.
  unfold doesABIntersectCD.
  assert (E1 : isSameSide a b c d = isSameSide a b d c)
    by (apply bool_iff; rewrite !sameSide_iff, (Rmult_comm (turn a b c)); reflexivity).
  assert (E2 : isSameSide c d a b = isSameSide d c a b).
  { apply bool_iff. rewrite !sameSide_iff.
    replace (turn d c a) with (- turn c d a) by (unfold turn; ring).
    replace (turn d c b) with (- turn c d b) by (unfold turn; ring).
    replace (- turn c d a * - turn c d b) with (turn c d a * turn c d b) by ring. reflexivity. }
  rewrite E1, E2. f_equal. f_equal.
  rewrite (orb_comm (Rltb (px a + eps) (px c) && _)), (orb_comm (Rltb (py a + eps) (py c) && _)).
  reflexivity.
Qed.

(** * Quadrilaterals *)
Lemma convex_iff a b c d : opposite a b c d ->
  (isABCDConvex a c b d = true <-> exists p, on_segment a b p /\ on_segment c d p).
Proof.
  intros O. unfold opposite in O. unfold isABCDConvex. rewrite !andb_true_iff, !sameSide_iff.
  set (D := turn c d a - turn c d b).
  assert (ED : D = turn a b d - turn a b c) by apply turn_sum.
  assert (N : D <> 0) by (destruct (prod_neg _ _ O); lra).
  assert (A1 : turn a c b = - turn a b c) by (unfold turn; ring).
  assert (A2 : turn a c d = turn c d a) by (unfold turn; ring).
  assert (A3 : turn c b a = - turn a b c) by (unfold turn; ring).
  assert (A4 : turn c b d = - turn c d b) by (unfold turn; ring).
  assert (A5 : turn b d a = turn a b d) by (unfold turn; ring).
  assert (A6 : turn b d c = - turn c d b) by (unfold turn; ring).
  assert (A7 : turn d a c = turn c d a) by (unfold turn; ring).
  assert (A8 : turn d a b = turn a b d) by (unfold turn; ring).
  rewrite A1, A2, A3, A4, A5, A6, A7, A8.
  pose proof (crossing_point a b c d D eq_refl N) as X.
  set (x := turn a b c) in *. set (y := turn a b d) in *. set (z := turn c d a) in *. set (w := turn c d b) in *.
  split.
  - intros [[[H1 H2] H3] H4].
    assert (B : 0 <= z / D <= 1).
    { destruct (prod_neg _ _ O) as [[P P']|[P P']].
      - assert (z <= 0) by nra. assert (0 <= w) by nra. assert (D < 0) by lra.
        replace (z / D) with ((- z) * / (- D)) by (field; lra).
        assert (0 < / (- D)) by (apply Rinv_0_lt_compat; lra). split; [nra|].
        apply (Rmult_le_reg_r (- D)); [lra|]. rewrite Rmult_assoc, Rinv_l by lra. unfold D. lra.
      - assert (0 <= z) by nra. assert (w <= 0) by nra.
        assert (0 < D) by lra. assert (0 < / D) by (apply Rinv_0_lt_compat; lra). unfold Rdiv. split; [nra|].
        apply (Rmult_le_reg_r D); [lra|]. rewrite Rmult_assoc, Rinv_l by lra. unfold D. lra. }
    assert (T2 : 0 < - x / D < 1) by (apply (ratio_inside _ (- y)); [nra|lra]).
    exists (between a b (z / D)). split; [eexists; split; [exact B|reflexivity]|].
    rewrite X. exists (- x / D). split; [lra|reflexivity].
  - intros (p & (t & Ht & P1) & (s & Hs & P2')).
    assert (Z : turn c d p = 0) by (rewrite P2'; apply on_line_turn).
    rewrite P1, turn_between in Z. fold z w D in Z.
    assert (Ez : z = t * D) by lra. assert (Ew : w = (t - 1) * D) by (unfold D in Ez |- *; lra).
    clearbody x y z w D. subst z w.
    destruct (prod_neg _ _ O) as [[P P']|[P P']].
    + assert (D < 0) by lra. assert (t * D <= 0) by nra. assert (0 <= (t - 1) * D) by nra.
      repeat split; nra.
    + assert (0 < D) by lra. assert (0 <= t * D) by nra. assert ((t - 1) * D <= 0) by nra.
      repeat split; nra.
Qed.

(** * Closeness *)
Lemma areEqual_iff a b eps : 0 <= eps -> (areEqual a b eps = true <-> distance_pt a b < eps).
Proof.
  intros E. unfold areEqual. rewrite Rltb_iff. unfold distance_pt.
  replace (pdot (psub a b) (psub a b)) with (dist2 a b) by (pt_unfold; ring).
  assert (P : 0 <= dist2 a b) by apply dist2_nonneg.
  split; intros H.
  - rewrite <- (sqrt_square eps) by exact E. apply sqrt_lt_1; [exact P|nra|exact H].
  - rewrite <- (sqrt_sqrt (dist2 a b)) by exact P. pose proof (sqrt_pos (dist2 a b)) as Q.
    apply Rmult_le_0_lt_compat; assumption.
Qed.

Lemma contain_iff a b p eps : a <> b -> 0 < eps ->
  (doesABcontain a b p eps = true <->
   exists t, - eps <= t <= distance_pt a b + eps /\
     let q := between a b (t / distance_pt a b) in
     pdot (psub p q) (psub b a) = 0 /\ distance_pt p q < eps).
Proof.
  intros NE EP. unfold doesABcontain. set (n := sqrt (pdot (psub b a) (psub b a))).
  assert (Q : 0 < pdot (psub b a) (psub b a)).
  { replace (pdot (psub b a) (psub b a)) with (dist2 a b) by (pt_unfold; ring).
    apply dist2_pos, NE. }
  assert (Nn : n = distance_pt a b).
  { unfold n, distance_pt. f_equal. pt_unfold. ring. }
  assert (P : 0 < n) by (apply sqrt_lt_R0; exact Q).
  assert (N2 : n * n = pdot (psub b a) (psub b a)) by (apply sqrt_sqrt; lra).
  destruct (Req_EM_T n 0); [lra|].
  rewrite !andb_true_iff, Rltb_iff, !Rleb_iff. rewrite <- Nn.
  set (u1 := / n * px (psub b a)). set (u2 := / n * py (psub b a)).
  assert (U : u1 * u1 + u2 * u2 = 1).
  { unfold u1, u2. unfold pdot in N2. transitivity (/ n * / n * (n * n)); [rewrite N2; ring|field; lra]. }
  assert (F : forall t, between a b (t / n) = P2 (px a + t * u1) (py a + t * u2)).
  { intros t. unfold between, u1, u2, psub. cbn [px py]. f_equal; field; lra. }
  assert (D : forall t, dist2 p (P2 (px a + t * u1) (py a + t * u2))
      = (pdot (psub p a) (P2 u2 (- u1))) ^ 2 + (pdot (P2 u1 u2) (psub p a) - t) ^ 2).
  { intros t. unfold dist2, pdot, psub. cbn [px py].
    set (q1 := px p - px a). set (q2 := py p - py a).
    replace (px p - (px a + t * u1)) with (q1 - t * u1) by (unfold q1; ring).
    replace (py p - (py a + t * u2)) with (q2 - t * u2) by (unfold q2; ring).
    transitivity ((q1 * q1 + q2 * q2) * (u1 * u1 + u2 * u2) - 2 * t * (u1 * q1 + u2 * q2) + t * t * (u1 * u1 + u2 * u2)).
    - rewrite U. transitivity (q1 * q1 + q2 * q2 - 2 * t * (u1 * q1 + u2 * q2) + t * t * (u1 * u1 + u2 * u2)); [ring|].
      rewrite U. ring.
    - replace (t * t * (u1 * u1 + u2 * u2)) with (t * t) by (rewrite U; ring). ring. }
  assert (O : forall t, pdot (psub p (P2 (px a + t * u1) (py a + t * u2))) (psub b a)
      = n * (pdot (P2 u1 u2) (psub p a) - t)).
  { intros t. assert (E1 : px (psub b a) = n * u1) by (unfold u1; field; lra).
    assert (E2 : py (psub b a) = n * u2) by (unfold u2; field; lra).
    unfold pdot at 1. rewrite E1, E2. unfold pdot, psub. cbn [px py].
    transitivity (n * (u1 * (px p - px a) + u2 * (py p - py a) - t * (u1 * u1 + u2 * u2))); [ring|].
    rewrite U. ring. }
  change (pscale (/ n) (psub b a)) with (P2 u1 u2). cbn [px py].
  set (h := pdot (psub p a) (P2 u2 (- u1))) in *. set (l := pdot (P2 u1 u2) (psub p a)) in *.
  assert (DD : forall t, l = t -> distance_pt p (P2 (px a + t * u1) (py a + t * u2)) = Rabs h).
  { intros t <-. unfold distance_pt. rewrite D.
    replace (h ^ 2 + (l - l) ^ 2) with (Rsqr h) by (unfold Rsqr; ring). apply sqrt_Rsqr_abs. }
  split.
  - intros [[H1 H2] H3]. exists l. split; [lra|]. rewrite F. cbv zeta. rewrite O, (DD l eq_refl).
    split; [ring|exact H1].
  - intros (t & Ht & H). rewrite F in H. cbv zeta in H. rewrite O in H. destruct H as [H1 H2].
    assert (E : l = t) by nra. rewrite (DD t E) in H2. subst t. repeat split; lra.
Qed.

(** Points of the segment, and how far the others can be. *)
Lemma contain_segment a b p eps : a <> b -> 0 < eps -> on_segment a b p ->
  doesABcontain a b p eps = true.
Proof.
  intros NE EP (t & Ht & ->). apply contain_iff; [exact NE|exact EP|].
  assert (P : 0 < distance_pt a b).
  { apply sqrt_lt_R0, dist2_pos, NE. }
  exists (t * distance_pt a b). split; [split; nra|].
  replace (t * distance_pt a b / distance_pt a b) with t by (field; lra). cbv zeta. split.
  - pt_unfold. ring.
  - unfold distance_pt. replace (dist2 _ _) with 0 by (unfold dist2; ring). rewrite sqrt_0. exact EP.
Qed.

Lemma contain_near a b p eps : 0 < eps -> doesABcontain a b p eps = true ->
  exists q, on_segment a b q /\ distance_pt p q < sqrt 2 * eps.
Proof.
  intros EP H.
  assert (NE : a <> b).
  { intros ->. unfold doesABcontain in H. replace (pdot (psub b b) (psub b b)) with 0 in H by (pt_unfold; ring).
    rewrite sqrt_0 in H. destruct (Req_EM_T 0 0); [discriminate|lra]. }
  apply contain_iff in H; [|exact NE|exact EP]. destruct H as (t & Ht & H). cbv zeta in H.
  destruct H as [O L].
  assert (P : 0 < distance_pt a b).
  { apply sqrt_lt_R0, dist2_pos, NE. }
  set (n := distance_pt a b) in *.
  assert (N2 : n * n = dist2 a b) by (apply sqrt_sqrt, dist2_nonneg).
  assert (Pyth : forall s, dist2 p (between a b (s / n)) = dist2 p (between a b (t / n)) + (t - s) * (t - s)).
  { intros s. replace (s / n) with (t / n + (s - t) / n) by (field; lra).
    set (k := t / n) in *. set (m := (s - t) / n).
    replace ((t - s) * (t - s)) with (m * m * (n * n)) by (unfold m; field; lra). rewrite N2.
    transitivity (dist2 p (between a b k) + m * m * dist2 a b - 2 * m * pdot (psub p (between a b k)) (psub b a)).
    - pt_unfold. ring.
    - rewrite O. ring. }
  assert (K : exists s, 0 <= s <= n /\ (t - s) * (t - s) <= eps * eps).
  { destruct (Rle_dec t 0) as [C|C]; [exists 0; split; nra|].
    destruct (Rle_dec t n) as [C'|C']; [exists t; split; nra|]. exists n. split; nra. }
  destruct K as (s & S1 & S2). exists (between a b (s / n)). split.
  - exists (s / n). split; [|reflexivity]. assert (0 < / n) by (apply Rinv_0_lt_compat; lra). unfold Rdiv. split; [nra|].
    apply (Rmult_le_reg_r n); [lra|]. rewrite Rmult_assoc, Rinv_l by lra. lra.
  - unfold distance_pt. rewrite Pyth.
    assert (G : dist2 p (between a b (t / n)) < eps * eps).
    { unfold distance_pt in L. rewrite <- (sqrt_sqrt (dist2 p (between a b (t / n)))) by apply dist2_nonneg.
      pose proof (sqrt_pos (dist2 p (between a b (t / n)))).
      apply Rmult_le_0_lt_compat; assumption. }
    replace (sqrt 2 * eps) with (sqrt (2 * (eps * eps))).
    + pose proof (dist2_nonneg p (between a b (t / n))). pose proof (Rle_0_sqr (t - s)) as SQ.
      unfold Rsqr in SQ. assert (0 < eps * eps) by nra. apply sqrt_lt_1; lra.
    + rewrite sqrt_mult by nra. rewrite sqrt_square by lra. reflexivity.
Qed.

(** * Curves *)
Lemma at_pt_nth points i p : nth_error points i = Some p -> at_pt points (Z.of_nat i) = Ok p.
Proof.
  intros H. unfold at_pt. destruct (Z.ltb_spec (Z.of_nat i) 0); [lia|].
  rewrite Nat2Z.id, H. reflexivity.
Qed.

Lemma nth_exists {A} (l : list A) i : (i < length l)%nat -> exists x, nth_error l i = Some x.
Proof.
  intros H. destruct (nth_error l i) eqn:E; [eauto|]. apply nth_error_None in E. lia.
Qed.

Lemma approx_value points x : (2 <= length points)%nat ->
  exists p, approxOnCurve points x = Ok p /\ on_polyline points x p.
Proof.
  intros L. unfold approxOnCurve. destruct (Z.ltb_spec (Z.of_nat (length points)) 2); [lia|].
  set (n := length points) in *.
  destruct (Rle_dec x 0) as [X|X].
  - destruct (nth_exists points 0) as [p0 H0]; [lia|]. destruct (nth_exists points 1) as [p1 H1]; [lia|].
    change 0%Z with (Z.of_nat 0). change 1%Z with (Z.of_nat 1).
    rewrite (at_pt_nth _ _ _ H0), (at_pt_nth _ _ _ H1). cbn [bind].
    eexists. split; [reflexivity|]. exists 0%nat, p0, p1. cbn [INR].
    split; [exact H0|]. split; [exact H1|]. split; [right; reflexivity|]. split; [left; lra|].
    apply pt_eq; pt_unfold; ring.
  - destruct (Rle_dec (IZR (Z.of_nat n)) (x + 1)) as [Y|Y].
    + destruct (nth_exists points (n - 1)) as [p1 H1]; [lia|].
      destruct (nth_exists points (n - 2)) as [p0 H0]; [lia|].
      replace (Z.of_nat n - 1)%Z with (Z.of_nat (n - 1)) by lia.
      replace (Z.of_nat n - 2)%Z with (Z.of_nat (n - 2)) by lia.
      rewrite (at_pt_nth _ _ _ H0), (at_pt_nth _ _ _ H1). cbn [bind].
      eexists. split; [reflexivity|]. exists (n - 2)%nat, p0, p1.
      assert (E : INR (n - 2) = IZR (Z.of_nat n) - 2).
      { rewrite minus_INR by lia. rewrite INR_IZR_INZ. cbn [INR]. lra. }
      split; [exact H0|]. split; [replace (S (n - 2)) with (n - 1)%nat by lia; exact H1|].
      split; [left; lra|]. split; [right; lia|]. rewrite E. apply pt_eq; pt_unfold; ring.
    + destruct (base_Int_part x) as [B1 B2]. set (k := Int_part x) in *.
      assert (K0 : (0 <= k)%Z).
      { destruct (Z.le_gt_cases 0 k) as [C|C]; [exact C|]. assert (K : (k <= -1)%Z) by lia.
        apply IZR_le in K. lra. }
      assert (K1 : (k + 1 < Z.of_nat n)%Z) by (apply lt_IZR; rewrite plus_IZR; lra).
      destruct (nth_exists points (Z.to_nat k)) as [p0 H0]; [lia|].
      destruct (nth_exists points (S (Z.to_nat k))) as [p1 H1]; [lia|].
      replace (k + 1)%Z with (Z.of_nat (S (Z.to_nat k))) by lia.
      rewrite (at_pt_nth _ _ _ H1).
      assert (A0 : at_pt points k = Ok p0).
      { rewrite <- (Z2Nat.id k K0). apply at_pt_nth. exact H0. }
      rewrite A0. cbn [bind].
      eexists. split; [reflexivity|]. exists (Z.to_nat k), p0, p1.
      assert (E : INR (Z.to_nat k) = IZR k) by (rewrite INR_IZR_INZ, Z2Nat.id; [reflexivity|exact K0]).
      rewrite E. split; [exact H0|]. split; [exact H1|]. split; [left; lra|]. split; [left; lra|].
      apply pt_eq; pt_unfold; ring.
Qed.

Lemma polyline_neighbours points x y p q i a b j c d :
  nth_error points i = Some a -> nth_error points (S i) = Some b ->
  (x <= INR i + 1 \/ S (S i) = length points) -> p = between a b (x - INR i) ->
  nth_error points j = Some c -> nth_error points (S j) = Some d ->
  (INR j <= y \/ j = 0%nat) -> q = between c d (y - INR j) ->
  (i < j)%nat -> y <= x -> x = INR i + 1 /\ y = x /\ j = S i /\ p = q.
Proof.
  intros A B U P C D V Q LT YX.
  assert (N : (S j < length points)%nat) by (apply nth_error_Some; congruence).
  destruct U as [U|U]; [|lia]. destruct V as [V|V]; [|lia].
  assert (J : INR j <= INR i + 1) by lra. rewrite <- S_INR in J. apply INR_le in J.
  assert (j = S i) by lia. subst j. rewrite S_INR in *. assert (x = INR i + 1) by lra. assert (y = x) by lra.
  subst x. subst y. split; [reflexivity|]. split; [reflexivity|]. split; [reflexivity|].
  assert (b = c) by congruence. subst c. rewrite P, Q. apply pt_eq; pt_unfold; ring.
Qed.

Lemma polyline_unique points x p q : on_polyline points x p -> on_polyline points x q -> p = q.
Proof.
  intros (i & a & b & A1 & A2 & A3 & A4 & A5) (j & c & d & B1 & B2 & B3 & B4 & B5).
  destruct (lt_eq_lt_dec i j) as [[C|C]|C].
  - eapply polyline_neighbours with (i := i) (j := j) (x := x) (y := x); eauto. lra.
  - subst j. assert (a = c) by congruence. assert (b = d) by congruence. subst. reflexivity.
  - symmetry. eapply polyline_neighbours with (i := j) (j := i) (x := x) (y := x); eauto. lra.
Qed.

Lemma approx_iff points x p : (2 <= length points)%nat ->
  (approxOnCurve points x = Ok p <-> on_polyline points x p).
Proof.
  intros L. destruct (approx_value points x L) as (q & E & H). split.
  - intros K. rewrite E in K. injection K as <-. exact H.
  - intros K. rewrite E. f_equal. eapply polyline_unique; eassumption.
Qed.

Lemma dist_triangle a b c : distance_pt a c <= distance_pt a b + distance_pt b c.
Proof.
  pose proof (Rgeom.triangle (px a) (py a) (px c) (py c) (px b) (py b)) as T.
  unfold dist_euc, Rsqr in T. unfold distance_pt, dist2.
  replace ((px a - px c) ^ 2 + (py a - py c) ^ 2) with ((px a - px c) * (px a - px c) + (py a - py c) * (py a - py c)) by ring.
  replace ((px a - px b) ^ 2 + (py a - py b) ^ 2) with ((px a - px b) * (px a - px b) + (py a - py b) * (py a - py b)) by ring.
  replace ((px b - px c) ^ 2 + (py b - py c) ^ 2) with ((px b - px c) * (px b - px c) + (py b - py c) * (py b - py c)) by ring.
  exact T.
Qed.
Lemma dist_between a b s t : distance_pt (between a b s) (between a b t) = Rabs (t - s) * distance_pt a b.
Proof.
  unfold distance_pt. replace (dist2 (between a b s) (between a b t)) with (Rsqr (t - s) * dist2 a b)
    by (unfold Rsqr; pt_unfold; ring).
  rewrite sqrt_mult by (try apply Rle_0_sqr; apply dist2_nonneg). rewrite sqrt_Rsqr_abs. reflexivity.
Qed.
Lemma dist_refl a : distance_pt a a = 0.
Proof. unfold distance_pt. replace (dist2 a a) with 0 by (unfold dist2; ring). apply sqrt_0. Qed.
Lemma dist_sym a b : distance_pt a b = distance_pt b a.
Proof. unfold distance_pt. f_equal. unfold dist2. ring. Qed.

Lemma polyline_lipschitz L points : steps_at_most L points ->
  forall k i j x y p q a b c d, (j = i + k)%nat -> x <= y ->
  nth_error points i = Some a -> nth_error points (S i) = Some b ->
  (x <= INR i + 1 \/ S (S i) = length points) -> p = between a b (x - INR i) ->
  nth_error points j = Some c -> nth_error points (S j) = Some d ->
  (INR j <= y \/ j = 0%nat) -> q = between c d (y - INR j) ->
  distance_pt p q <= L * (y - x).
Proof.
  intros S. induction k as [|k IH]; intros i j x y p q a b c d J XY A B U P C D V Q.
  - replace j with i in * by lia. assert (a = c) by congruence. assert (b = d) by congruence. subst c d.
    rewrite P, Q, dist_between. specialize (S i a b A B).
    replace (y - INR i - (x - INR i)) with (y - x) by ring. rewrite Rabs_right by lra. nra.
  - assert (N : (Datatypes.S j < length points)%nat) by (apply nth_error_Some; congruence).
    destruct U as [U|U]; [|lia].
    destruct (nth_exists points (Datatypes.S (Datatypes.S i))) as [e E]; [lia|].
    assert (V' : INR j <= y) by (destruct V; [assumption|lia]).
    assert (IJ : INR i + 1 <= INR j) by (rewrite <- S_INR; apply le_INR; lia).
    assert (H1 : distance_pt b q <= L * (y - (INR i + 1))).
    { apply (IH (Datatypes.S i) j (INR i + 1) y b q b e c d); try assumption; try lia; try lra.
      - left. rewrite S_INR. lra.
      - rewrite S_INR. apply pt_eq; pt_unfold; ring. }
    assert (H2 : distance_pt p b <= L * (INR i + 1 - x)).
    { replace b with (between a b 1) by (apply pt_eq; pt_unfold; ring). rewrite P.
      rewrite dist_between. specialize (S i a b A B). rewrite Rabs_right by lra.
      pose proof (sqrt_pos (dist2 a b)). fold (distance_pt a b) in *. nra. }
    pose proof (dist_triangle p b q). lra.
Qed.

Lemma approx_lipschitz L points x y p q : steps_at_most L points ->
  approxOnCurve points x = Ok p -> approxOnCurve points y = Ok q ->
  distance_pt p q <= L * Rabs (x - y).
Proof.
  intros S HP HQ.
  assert (LN : (2 <= length points)%nat).
  { unfold approxOnCurve in HP. destruct (Z.ltb_spec (Z.of_nat (length points)) 2); [discriminate|lia]. }
  apply approx_iff in HP; [|exact LN]. apply approx_iff in HQ; [|exact LN].
  assert (G : forall x y p q, x <= y -> on_polyline points x p -> on_polyline points y q ->
    distance_pt p q <= L * (y - x)).
  { clear x y p q HP HQ. intros x y p q XY HP HQ.
    destruct HP as (i & a & b & A1 & A2 & A3 & A4 & A5). destruct HQ as (j & c & d & B1 & B2 & B3 & B4 & B5).
    destruct (le_gt_dec i j) as [C|C].
    - apply (polyline_lipschitz L points S (j - i) i j x y p q a b c d); try assumption. lia.
    - destruct (polyline_neighbours points y x q p j c d i a b) as (E1 & E2 & E3 & E4); try assumption.
      rewrite E4, dist_refl, E2. lra. }
  destruct (Rle_dec x y) as [C|C].
  - rewrite Rabs_left1 by lra. replace (- (x - y)) with (y - x) by ring. apply G; assumption.
  - rewrite Rabs_right by lra. rewrite dist_sym. apply G; try assumption. lra.
Qed.

Lemma approx_short points x : (length points < 2)%nat -> approxOnCurve points x = Abort.
Proof.
  intros H. unfold approxOnCurve. destruct (Z.ltb_spec (Z.of_nat (length points)) 2); [reflexivity|lia].
Qed.

(** * Triangulation of two rays *)
Lemma dot_lin1 k a b : dot (vscale k a) b = k * dot a b.
Proof. destruct a, b. unfold dot, vscale. cbn. ring. Qed.
Lemma dot_add1 a b c : dot (vadd a b) c = dot a c + dot b c.
Proof. destruct a, b, c. unfold dot, vadd. cbn. ring. Qed.
Lemma dot_sub1 a b c : dot (vsub a b) c = dot a c - dot b c.
Proof. destruct a, b, c. unfold dot, vsub. cbn. ring. Qed.
Lemma dot_comm a b : dot a b = dot b a.
Proof. destruct a, b. unfold dot. cbn. ring. Qed.
Lemma lagrange u v : dot (cross u v) (cross u v) = dot u u * dot v v - dot u v * dot u v.
Proof. destruct u, v. unfold dot, cross. cbn. ring. Qed.

Lemma solver_minimal solve : least_squares_solver solve -> forall u v b x y,
  let (x0, y0) := solve u v b in
  vnorm (vsub (vadd (vscale x0 u) (vscale y0 v)) b) <= vnorm (vsub (vadd (vscale x u) (vscale y v)) b).
Proof.
  intros S u v b x y. specialize (S u v b). destruct (solve u v b) as [x0 y0]. cbv zeta in S.
  destruct S as [S1 S2]. set (r := vsub (vadd (vscale x0 u) (vscale y0 v)) b) in *.
  set (e := vadd (vscale (x - x0) u) (vscale (y - y0) v)).
  assert (E : vsub (vadd (vscale x u) (vscale y v)) b = vadd r e).
  { unfold r, e. destruct u, v, b. unfold vsub, vadd, vscale. cbn. f_equal; ring. }
  rewrite E. unfold vnorm. apply sqrt_le_1; [apply dot_self_nonneg|apply dot_self_nonneg|].
  assert (O : dot r e = 0).
  { rewrite dot_comm. unfold e. rewrite dot_add1, !dot_lin1, (dot_comm u), (dot_comm v), S1, S2. ring. }
  assert (X : dot (vadd r e) (vadd r e) = dot r r + 2 * dot r e + dot e e).
  { destruct r, e. unfold dot, vadd. cbn. ring. }
  rewrite X, O. pose proof (dot_self_nonneg e). lra.
Qed.

Lemma solver_exact solve : least_squares_solver solve -> forall u v b x y,
  cross u v <> vzero -> vadd (vscale x u) (vscale y v) = b -> solve u v b = (x, y).
Proof.
  intros S u v b x y NP E. specialize (S u v b). destruct (solve u v b) as [x0 y0]. cbv zeta in S.
  destruct S as [S1 S2]. rewrite <- E in *.
  assert (P : 0 < dot (cross u v) (cross u v)).
  { pose proof (dot_self_nonneg (cross u v)). destruct (Req_dec (dot (cross u v) (cross u v)) 0) as [Z|Z]; [|lra].
    exfalso. apply NP, vnorm_0. unfold vnorm. rewrite Z. apply sqrt_0. }
  rewrite lagrange in P.
  repeat rewrite ?dot_sub1, ?dot_add1, ?dot_lin1 in S1. repeat rewrite ?dot_sub1, ?dot_add1, ?dot_lin1 in S2.
  rewrite (dot_comm v u) in S1. set (uu := dot u u) in *. set (vv := dot v v) in *. set (uv := dot u v) in *.
  assert (D1 : (x0 - x) * (uu * vv - uv * uv) = 0).
  { transitivity ((x0 * uu + y0 * uv - (x * uu + y * uv)) * vv - (x0 * uv + y0 * vv - (x * uv + y * vv)) * uv); [ring|].
    rewrite S1, S2. ring. }
  assert (D2 : (y0 - y) * (uu * vv - uv * uv) = 0).
  { transitivity ((x0 * uv + y0 * vv - (x * uv + y * vv)) * uu - (x0 * uu + y0 * uv - (x * uu + y * uv)) * uv); [ring|].
    rewrite S1, S2. ring. }
  apply Rmult_integral in D1. apply Rmult_integral in D2. f_equal; lra.
Qed.

Lemma triangulate_exact solve : least_squares_solver solve -> forall g r1 r2 X d1 d2,
  rigid g -> X = vscale d1 r1 -> act g X = vscale d2 r2 ->
  ~ parallel (rot (so3 g) r1) r2 -> triangulate solve g r1 r2 = (d1, d2).
Proof.
  intros S g r1 r2 X d1 d2 G E1 E2 NP. unfold triangulate. apply solver_exact; [exact S| |].
  - intros C. apply NP. unfold parallel. set (u := rot (so3 g) r1) in *. clearbody u.
    destruct u as [a b c], r2 as [d e f]. unfold cross, vneg, vzero in *. cbn in *. injection C as C1 C2 C3. f_equal; lra.
  - subst X. unfold act in E2. rewrite rot_scale in E2. set (u := rot (so3 g) r1) in *. clearbody u.
    destruct g as [q [t1 t2 t3]]. cbn [tr] in *. destruct u as [a b c], r2 as [d e f].
    unfold vadd, vscale, vneg in *. cbn in *. injection E2 as C1 C2 C3. f_equal; lra.
Qed.

Lemma triangulate_minimal solve : least_squares_solver solve -> forall g r1 r2 d1 d2,
  let (e1, e2) := triangulate solve g r1 r2 in
  vnorm (vsub (act g (vscale e1 r1)) (vscale e2 r2)) <= vnorm (vsub (act g (vscale d1 r1)) (vscale d2 r2)).
Proof.
  intros S g r1 r2 d1 d2. unfold triangulate.
  pose proof (solver_minimal solve S (rot (so3 g) r1) (vneg r2) (vneg (tr g)) d1 d2) as M.
  destruct (solve (rot (so3 g) r1) (vneg r2) (vneg (tr g))) as [e1 e2].
  assert (R : forall x y, vsub (act g (vscale x r1)) (vscale y r2)
    = vsub (vadd (vscale x (rot (so3 g) r1)) (vscale y (vneg r2))) (vneg (tr g))).
  { intros x y. unfold act. rewrite rot_scale. set (u := rot (so3 g) r1). clearbody u.
    destruct g as [q [t1 t2 t3]]. cbn [tr] in *. destruct u as [a b c], r2 as [d e f].
    unfold vadd, vsub, vscale, vneg. cbn. f_equal; ring. }
  rewrite !R. exact M.
Qed.
