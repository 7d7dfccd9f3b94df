(** The triangles of a mesh as a planar complex; what the legality test decides. *)
From Coq Require Import ZArith List Bool Arith Lia Reals Lra Psatz.
From Verif Require Import Outcome DelModel DelSpec DelFields DelRewire DelFlip DelFlip2 DelDivide DelSplit DelHist DelPlaneSpec DelPlane DelGen DelRun DelRun2.
From Verif Require Import DelDiscSpec DelDisc DelWalk DelStar.
Import ListNotations.
Open Scope nat_scope.

Lemma complex_ext (K : tri3) X X' n : (forall u, u < n -> X' u = X u) -> complex K X n -> complex K X' n.
Proof.
  intros E H. assert (E3 : forall x y z, K x y z -> X' x = X x /\ X' y = X y /\ X' z = X z) by (intros x y z T; destruct (x_corner _ _ _ H _ _ _ T) as (A & B & C & _); auto).
  constructor; [exact (x_swap _ _ _ H)|exact (x_rot _ _ _ H)|exact (x_corner _ _ _ H)| | |exact (x_other _ _ _ H)|exact (x_vert _ _ _ H)| | |exact (x_three _ _ _ H)].
  - intros x y z A B C. rewrite !E by assumption. apply (x_gen _ _ _ H); assumption.
  - intros x y z x' y' z' q T T'. destruct (E3 _ _ _ T) as (-> & -> & ->). destruct (E3 _ _ _ T') as (-> & -> & ->). apply (x_planar _ _ _ H); assumption.
  - intros y z x u A B N C D. pose proof (x_three _ _ _ H). rewrite !E by lia. apply (x_side _ _ _ H); assumption.
  - intros a A. destruct (x_tip _ _ _ H a A) as (f & F & F1 & F2). pose proof (x_three _ _ _ H). exists f. split; [exact F|]. split; [rewrite E by lia; exact F1|]. intros u U. rewrite E by exact U. apply F2, U.
Qed.

Lemma delaunay_ext (K : tri3) X X' n : (forall u, u < n -> X' u = X u) -> complex K X n -> delaunay_on (all n) K X -> delaunay_on (all n) K X'.
Proof.
  intros E H [D1 D2]. unfold all in *. constructor.
  - intros x y z u T A B C D. rewrite !E by lia. apply D1; assumption.
  - intros a b c u T A B C D. destruct (x_corner _ _ _ H _ _ _ T) as (A' & _). rewrite !E by lia. apply D2; assumption.
Qed.

Lemma circle_dec a b c d : orient a b c <> 0%R -> in_circle a b c d \/ ~ in_circle a b c d.
Proof. intros O. destruct (plane_ex a b c O) as (l & L). rewrite (circle_lift l _ _ _ _ O L). destruct (Rlt_le_dec (sq d) (l d)) as [H|H]; [left; exact H|right; lra]. Qed.

Section Mesh.
Context {P : Type}.
Variable pos : P -> pt.
Variable g : geometry P.
Hypothesis SIDES : exact_sides pos g.
Implicit Types m : mesh P.

Notation AT := (at_vertex pos).
Notation good := (good pos g).

(** three vertices, in any order, with a triangle *)
Definition KM m (x y z : nat) : Prop := exists t, tri_of m t /\ perm3 (TV m t) x y z.

(** every vertex has a triangle; the inner vertices lie in the bounding triangle *)
Definition bounded m : Prop := (forall u, u < nv m -> VT m u <> []) /\ forall u, 3 <= u < nv m -> inside (AT m 0) (AT m 1) (AT m 2) (AT m u).

Lemma perm3_swap f x y z : perm3 f x y z -> perm3 f y x z.
Proof. unfold perm3. tauto. Qed.
Lemma perm3_rot f x y z : perm3 f x y z -> perm3 f y z x.
Proof. unfold perm3. tauto. Qed.

(** the edge between two triangles *)
Lemma tri_edge m t x y z : consistent m -> tri_of m t -> perm3 (TV m t) x y z -> x <> y -> exists e, edge_of m e /\ side m t e /\ beside m e t /\ joins m e x y.
Proof.
  intros C T PE N. destruct (c_sides _ C t x y T) as (e & S & J); [apply (perm3_in _ _ _ _ x PE); auto|apply (perm3_in _ _ _ _ y PE); auto|exact N|].
  destruct (c_side _ C t e T S) as [E B]. exists e. auto.
Qed.

Lemma perm3_distinct m t x y z : consistent m -> tri_of m t -> perm3 (TV m t) x y z -> x <> y /\ x <> z /\ y <> z.
Proof. intros C T PE. destruct (c_tri _ C t T) as (A & B & D). unfold perm3 in PE. decompose [or and] PE; subst; auto. Qed.

(** the third corner is known *)
Lemma perm3_third f x y z a b c : perm3 f x y z -> perm3 f a b c -> x <> y -> x <> z -> y <> z -> (x = a /\ y = b) \/ (x = b /\ y = a) -> z = c.
Proof. unfold perm3. intros H K N1 N2 N3 J. decompose [or and] H; clear H; decompose [or and] K; clear K; destruct J as [[J1 J2]|[J1 J2]]; congruence. Qed.

Lemma edge_pair m v x y w : consistent m -> KM m v x y -> KM m x y w -> w <> v ->
  exists e o0 o1 c d x00 x01 x10 x11, edge_of m e /\ joins m e x y /\ ET m e 0 = Some o0 /\ ET m e 1 = Some o1 /\ around m o0 e c x00 x01 /\ around m o1 e d x10 x11 /\
    ((v = c /\ w = d) \/ (v = d /\ w = c)).
Proof.
  intros C (t & T & PE) (s & S & PS) N. destruct (perm3_distinct m t v x y C T PE) as (D1 & D2 & D3). destruct (perm3_distinct m s x y w C S PS) as (_ & D4 & D5).
  destruct (tri_edge m t x y v C T (perm3_rot _ _ _ _ PE) D3) as (e & E & SE & BE & J). destruct (tri_edge m s x y w C S PS D3) as (e' & E' & SE' & BE' & J').
  assert (e' = e) by (apply (c_simple _ C e' e x y); assumption). subst e'.
  assert (TS : t <> s).
  { intros ->. assert (K : w = v \/ w = x \/ w = y) by (apply (perm3_in _ _ _ _ w PE), (perm3_in _ _ _ _ w PS); auto). destruct K as [K|[K|K]]; congruence. }
  assert (JJ : (x = EV m e 0 /\ y = EV m e 1) \/ (x = EV m e 1 /\ y = EV m e 0)) by (unfold joins in J; destruct J as [[]|[]]; auto).
  assert (TH : forall o z c y0 y1, around m o e c y0 y1 -> perm3 (TV m o) x y z -> x <> z -> y <> z -> z = c).
  { intros o z c y0 y1 A PZ N1 N2. apply (perm3_third _ _ _ _ _ _ _ PZ (a_corner _ _ _ _ _ _ A)); auto. }
  unfold beside in BE, BE'. destruct (c_outer _ C e E) as [(o0 & E0) _].
  destruct BE as [BE|BE], BE' as [BE'|BE'].
  - congruence.
  - destruct (around_ex m e t C E (or_introl BE)) as (c & x00 & x01 & A0). destruct (around_ex m e s C E (or_intror BE')) as (d & x10 & x11 & A1).
    exists e, t, s, c, d, x00, x01, x10, x11. repeat (split; [assumption|]). left. split; [apply (TH t v c _ _ A0 (perm3_rot _ _ _ _ PE)); congruence|apply (TH s w d _ _ A1 PS); congruence].
  - destruct (around_ex m e t C E (or_intror BE)) as (c & x00 & x01 & A0). destruct (around_ex m e s C E (or_introl BE')) as (d & x10 & x11 & A1).
    exists e, s, t, d, c, x10, x11, x00, x01. repeat (split; [assumption|]). right. split; [apply (TH t v c _ _ A0 (perm3_rot _ _ _ _ PE)); congruence|apply (TH s w d _ _ A1 PS); congruence].
  - congruence.
Qed.

Lemma bound_side0 m : 3 <= nv m -> general pos g m -> (forall u, 3 <= u < nv m -> inside (AT m 0) (AT m 1) (AT m 2) (AT m u)) -> forall y z x u, (y < 3 -> z < 3 -> y <> z -> x < nv m -> u < nv m -> x <> y -> x <> z -> u <> y -> u <> z ->
    (0 < orient (AT m y) (AT m z) (AT m x) * orient (AT m y) (AT m z) (AT m u))%R)%nat.
Proof.
  intros N3 G B. assert (O : orient (AT m 0) (AT m 1) (AT m 2) <> 0%R) by (apply (G 0 1); lia).
  assert (O1 : orient (AT m 1) (AT m 2) (AT m 0) <> 0%R) by (rewrite orient_rot; exact O). assert (O2 : orient (AT m 2) (AT m 0) (AT m 1) <> 0%R) by (rewrite orient_rot; exact O1).
  assert (BB : forall u, 3 <= u < nv m -> (0 < orient (AT m 1) (AT m 2) (AT m 0) * orient (AT m 1) (AT m 2) (AT m u) /\ 0 < orient (AT m 2) (AT m 0) (AT m 1) * orient (AT m 2) (AT m 0) (AT m u) /\
     0 < orient (AT m 0) (AT m 1) (AT m 2) * orient (AT m 0) (AT m 1) (AT m u))%R).
  { intros u U. specialize (B u U). apply inside_co in B; [|exact O]. destruct B as (B0 & B1 & B2). apply co_pos in B0, B1, B2. auto. }
  (* one orientation of each side *)
  assert (ONE : forall h y z, (orient (AT m y) (AT m z) (AT m h) <> 0)%R -> (forall u, 3 <= u < nv m -> (0 < orient (AT m y) (AT m z) (AT m h) * orient (AT m y) (AT m z) (AT m u))%R) ->
     (forall u, u < 3 -> u <> y -> u <> z -> u = h) -> forall x u, x < nv m -> u < nv m -> x <> y -> x <> z -> u <> y -> u <> z -> (0 < orient (AT m y) (AT m z) (AT m x) * orient (AT m y) (AT m z) (AT m u))%R).
  { intros h y z OH PS TH x u X U N1 N2 N4 N5. pose proof (sqr_pos _ OH) as SP.
    assert (W : forall w, w < nv m -> w <> y -> w <> z -> (0 < orient (AT m y) (AT m z) (AT m h) * orient (AT m y) (AT m z) (AT m w))%R).
    { intros w W M1 M2. destruct (le_lt_dec 3 w) as [L|L]; [apply PS; lia|]. rewrite (TH w L M1 M2). exact SP. }
    pose proof (W x X N1 N2) as WX. pose proof (W u U N4 N5) as WU. set (k := orient (AT m y) (AT m z) (AT m h)) in *. set (p := orient (AT m y) (AT m z) (AT m x)) in *. set (q := orient (AT m y) (AT m z) (AT m u)) in *.
    clearbody k p q. destruct (Rlt_le_dec 0 k); [assert (0 < p)%R by nra; assert (0 < q)%R by nra|assert (p < 0)%R by nra; assert (q < 0)%R by nra]; nra. }
  assert (FLIP : forall y z x u, (0 < orient (AT m y) (AT m z) (AT m x) * orient (AT m y) (AT m z) (AT m u) -> 0 < orient (AT m z) (AT m y) (AT m x) * orient (AT m z) (AT m y) (AT m u))%R).
  { intros y z x u H. rewrite (orient_swap (AT m y) (AT m z) (AT m x)), (orient_swap (AT m y) (AT m z) (AT m u)). lra. }
  intros y z x u Y Z N X U N1 N2 N4 N5.
  assert (CASES : (y = 1 /\ z = 2) \/ (y = 2 /\ z = 1) \/ (y = 2 /\ z = 0) \/ (y = 0 /\ z = 2) \/ (y = 0 /\ z = 1) \/ (y = 1 /\ z = 0)) by lia.
  destruct CASES as [[-> ->]|[[-> ->]|[[-> ->]|[[-> ->]|[[-> ->]|[-> ->]]]]]].
  - apply (ONE 0); auto; [intros; apply BB; assumption|lia].
  - apply FLIP. apply (ONE 0); auto; [intros; apply BB; assumption|lia].
  - apply (ONE 1); auto; [intros; apply BB; assumption|lia].
  - apply FLIP. apply (ONE 1); auto; [intros; apply BB; assumption|lia].
  - apply (ONE 2); auto; [intros; apply BB; assumption|lia].
  - apply FLIP. apply (ONE 2); auto; [intros; apply BB; assumption|lia].
Qed.
Lemma bound_side m : 3 <= nv m -> general pos g m -> bounded m -> forall y z x u, (y < 3 -> z < 3 -> y <> z -> x < nv m -> u < nv m -> x <> y -> x <> z -> u <> y -> u <> z ->
    (0 < orient (AT m y) (AT m z) (AT m x) * orient (AT m y) (AT m z) (AT m u))%R)%nat.
Proof. intros N3 G (_ & B). apply bound_side0; assumption. Qed.

Lemma bound_tip m : 3 <= nv m -> general pos g m -> bounded m -> forall a, (a < 3)%nat -> exists f, affine f /\ f (AT m a) = 1%R /\ forall u, (u < nv m)%nat -> u <> a -> (f (AT m u) < 1)%R.
Proof.
  intros N3 G (_ & B) a A. assert (O : orient (AT m 0) (AT m 1) (AT m 2) <> 0%R) by (apply (G 0 1); lia).
  assert (BB : forall u, 3 <= u < nv m -> (co (AT m 0) (AT m 1) (AT m 2) (AT m u) < 1 /\ co (AT m 1) (AT m 2) (AT m 0) (AT m u) < 1 /\ co (AT m 2) (AT m 0) (AT m 1) (AT m u) < 1)%R).
  { intros u U. specialize (B u U). apply inside_co in B; [|exact O]. pose proof (co_sum _ _ _ (AT m u) O). lra. }
  assert (O1 : orient (AT m 1) (AT m 2) (AT m 0) <> 0%R) by (rewrite orient_rot; exact O). assert (O2 : orient (AT m 2) (AT m 0) (AT m 1) <> 0%R) by (rewrite orient_rot; exact O1).
  assert (ONE : forall h y z, h < 3 -> (forall u, u < 3 -> u <> h -> u = y \/ u = z) -> orient (AT m h) (AT m y) (AT m z) <> 0%R -> (forall u, 3 <= u < nv m -> (co (AT m h) (AT m y) (AT m z) (AT m u) < 1)%R) ->
    exists f, affine f /\ f (AT m h) = 1%R /\ forall u, (u < nv m)%nat -> u <> h -> (f (AT m u) < 1)%R).
  { intros h y z H TH OH PH. exists (co (AT m h) (AT m y) (AT m z)). split; [apply co_affine|]. split; [apply co_self, OH|]. intros u U N.
    destruct (le_lt_dec 3 u) as [L|L]; [apply PH; lia|]. destruct (co_other (AT m h) (AT m y) (AT m z)) as [C1 C2]. destruct (TH u L N) as [-> | ->]; lra. }
  assert (CASES : a = 0 \/ a = 1 \/ a = 2) by lia. destruct CASES as [->|[->| ->]].
  - apply (ONE 0 1 2); [lia|lia|exact O|intros; apply BB; assumption].
  - apply (ONE 1 2 0); [lia|lia|exact O1|intros; apply BB; assumption].
  - apply (ONE 2 0 1); [lia|lia|exact O2|intros; apply BB; assumption].
Qed.

Lemma mesh_complex m : good m -> bounded m -> complex (KM m) (AT m) (nv m).
Proof.
  intros [C PL FI G BA] B. constructor.
  - intros x y z (t & T & PE). exists t. split; [exact T|apply perm3_swap, PE].
  - intros x y z (t & T & PE). exists t. split; [exact T|apply perm3_rot, PE].
  - intros x y z (t & T & PE). destruct (perm3_distinct m t x y z C T PE) as (D1 & D2 & D3).
    assert (K : forall w, w = x \/ w = y \/ w = z -> w < nv m) by (intros w W; apply (c_corners _ C t w T), (perm3_in _ _ _ _ w PE), W). auto 10.
  - intros x y z X Y Z N1 N2 N3. apply (proj2 (G x y X Y N1) z Z); congruence.
  - intros x y z x' y' z' q (t & T & PE) (s & S & PS) I I'. assert (t = s).
    { apply (PL t s q T S); [apply (perm_open pos m t _ _ _ q PE), I|apply (perm_open pos m s _ _ _ q PS), I']. }
    subst s. apply (perm3_in _ _ _ _ x' PE), (perm3_in _ _ _ _ x' PS). auto.
  - intros x y z (t & T & PE) IN. destruct (perm3_distinct m t x y z C T PE) as (D1 & D2 & D3). destruct (tri_edge m t x y z C T PE D1) as (e & E & S & BE & J).
    assert (OT : exists s, beside m e s /\ s <> t).
    { destruct (c_outer _ C e E) as [(o0 & E0) OUT]. destruct (ET m e 1) as [o1|] eqn:E1; [|exfalso; specialize (OUT eq_refl); unfold joins in J; lia].
      pose proof (c_two _ C e) as TW. destruct BE as [BE|BE]; [exists o1|exists o0]; (split; [unfold beside; auto|]); intros ->; apply (TW t E); split; congruence. }
    destruct OT as (s & BS & NS). destruct (around_ex m e s C E BS) as (w & y0 & y1 & A). pose proof (a_corner _ _ _ _ _ _ A) as PA.
    assert (PW : perm3 (TV m s) x y w) by (unfold joins in J; destruct J as [[J0 J1]|[J0 J1]]; rewrite J0, J1 in PA; [exact PA|apply perm3_swap, PA]).
    exists w. split; [|exists s; split; [apply (a_tri _ _ _ _ _ _ A)|exact PW]]. intros ->. apply NS. apply (c_distinct _ C s t (a_tri _ _ _ _ _ _ A) T).
    intros u U. apply (perm3_in _ _ _ _ u PE). apply (perm3_in _ _ _ _ u PW), U.
  - intros u U. destruct (VT m u) as [|t l] eqn:VU; [exfalso; apply (proj1 B u U VU)|]. assert (I : In t (VT m u)) by (rewrite VU; left; reflexivity).
    assert (T : tri_of m t) by (exists u; auto). apply (c_vertT _ C u t U T) in I. destruct (c_tri _ C t T) as (D1 & D2 & D3).
    destruct I as [<-|[<-|<-]]; [exists (TV m t 1), (TV m t 2)|exists (TV m t 0), (TV m t 2)|exists (TV m t 0), (TV m t 1)]; exists t; (split; [exact T|unfold perm3; tauto]).
  - apply bound_side; [apply (c_bound _ C)|exact G|exact B].
  - apply bound_tip; [apply (c_bound _ C)|exact G|exact B].
  - apply (c_bound _ C).
Qed.

(** ** The legality test *)
Lemma convex_crossed a c b d : crossed (pos a) (pos b) (pos c) (pos d) -> isABCDConvex g a c b d = true.
Proof.
  intros X. pose proof X as X'. apply crossed_co in X. destruct X as (O & C1 & C2 & C3).
  set (A := pos a) in *. set (B := pos b) in *. set (C := pos c) in *. set (D := pos d) in *.
  assert (F1 : (0 < orient A B C * orient B C D)%R) by (apply co_pos in C1; rewrite (orient_rot A B C) in C1; exact C1).
  assert (F2 : (0 < orient A B C * orient C A D)%R) by (apply co_pos in C2; rewrite (orient_rot B C A), (orient_rot A B C) in C2; exact C2).
  assert (F3 : (orient A B C * orient A B D < 0)%R) by (apply co_neg in C3; exact C3).
  unfold isABCDConvex. rewrite !andb_true_iff. repeat split; apply SIDES; fold A B C D.
  - replace (orient A C B) with (- orient A B C)%R by (unfold orient; ring). replace (orient A C D) with (- orient C A D)%R by (unfold orient; ring). lra.
  - replace (orient C B A) with (- orient A B C)%R by (unfold orient; ring). replace (orient C B D) with (- orient B C D)%R by (unfold orient; ring). lra.
  - replace (orient B D A) with (orient A B D)%R by (unfold orient; ring). replace (orient B D C) with (- orient B C D)%R by (unfold orient; ring).
    set (k := orient A B C) in *. set (p := orient B C D) in *. set (q := orient A B D) in *. clearbody k p q. destruct (Rlt_le_dec 0 k); [assert (0 < p)%R by nra; assert (q < 0)%R by nra|assert (p < 0)%R by nra; assert (0 < q)%R by nra]; nra.
  - replace (orient D A C) with (- orient C A D)%R by (unfold orient; ring). replace (orient D A B) with (orient A B D)%R by (unfold orient; ring).
    set (k := orient A B C) in *. set (p := orient C A D) in *. set (q := orient A B D) in *. clearbody k p q. destruct (Rlt_le_dec 0 k); [assert (0 < p)%R by nra; assert (q < 0)%R by nra|assert (p < 0)%R by nra; assert (0 < q)%R by nra]; nra.
Qed.

Section Test.
Hypothesis CIRC : exact_circles pos g.
Variables (m : mesh P) (e o0 o1 c d x00 x01 x10 x11 : nat).
Hypothesis (C : consistent m) (PL : planar pos m) (G : general pos g m) (E : edge_of m e) (E0 : ET m e 0 = Some o0) (E1 : ET m e 1 = Some o1).
Hypothesis (A0 : around m o0 e c x00 x01) (A1 : around m o1 e d x10 x11).
Hypothesis CD : 3 <= c \/ 3 <= d.
Let a := EV m e 0.
Let b := EV m e 1.

Lemma test_true : isEdgeLegal g m e = Ok true ->
  (3 <= a -> 3 <= b -> 3 <= c -> 3 <= d -> (orient (AT m a) (AT m b) (AT m c) * orient (AT m a) (AT m b) (AT m d) < 0)%R -> ~ in_circle (AT m a) (AT m b) (AT m c) (AT m d)) /\
  ((a < 3 <= b) \/ (b < 3 <= a) -> ~ crossed (AT m a) (AT m b) (AT m c) (AT m d)).
Proof.
  destruct (quad_distinct m e o0 o1 c d x00 x01 x10 x11 C E E0 E1 A0 A1) as (D1 & D2 & D3 & D4 & D5 & D6). destruct (quad_range m e o0 o1 c d x00 x01 x10 x11 C A0 A1) as (R1 & R2 & R3 & R4).
  fold a b in D1, D2, D3, D4, D5, R1, R2. unfold isEdgeLegal, isFromBoundingTri. rewrite E0, E1, (a_third _ _ _ _ _ _ A0), (a_third _ _ _ _ _ _ A1). cbn [bind]. fold a b.
  assert (O : orient (AT m a) (AT m b) (AT m c) <> 0%R) by (apply G; auto).
  intros H. split.
  - intros A B C3 D3' OP IC. apply Nat.ltb_ge in A, B, C3, D3'. rewrite A, B, C3, D3' in H. cbn [andb orb negb] in H. injection H as H.
    rewrite (convex_crossed (POS m a) (POS m c) (POS m b) (POS m d)) in H by (apply circle_crossed; assumption). cbn [negb orb] in H. rewrite (CIRC _ _ _ _ O) in H. exact (H IC).
  - intros AB X. assert (Q : (a <? 3) && (b <? 3) = false /\ (a <? 3) || (b <? 3) = true).
    { destruct AB as [[L1 L2]|[L1 L2]]; apply Nat.ltb_lt in L1; apply Nat.ltb_ge in L2; rewrite L1, L2; auto. }
    destruct Q as [Q1 Q2]. rewrite Q1, Q2 in H.
    assert (Q3 : ((c <? 3) || (d <? 3)) && negb (a <? 3) && negb (b <? 3) = false).
    { rewrite <- andb_assoc, <- negb_orb, Q2, andb_false_r. reflexivity. }
    rewrite Q3 in H. rewrite (convex_crossed (POS m a) (POS m c) (POS m b) (POS m d) X) in H. discriminate.
Qed.

Lemma test_false : isEdgeLegal g m e = Ok false ->
  (3 <= a \/ 3 <= b) /\ crossed (AT m a) (AT m b) (AT m c) (AT m d) /\ (3 <= a -> 3 <= b -> 3 <= c /\ 3 <= d /\ in_circle (AT m a) (AT m b) (AT m c) (AT m d)).
Proof.
  destruct (quad_distinct m e o0 o1 c d x00 x01 x10 x11 C E E0 E1 A0 A1) as (D1 & D2 & D3 & D4 & D5 & D6). destruct (quad_range m e o0 o1 c d x00 x01 x10 x11 C A0 A1) as (R1 & R2 & R3 & R4).
  fold a b in D1, D2, D3, D4, D5, R1, R2.
  pose proof (quad_crossed pos g SIDES m e o0 o1 c d x00 x01 x10 x11 C G E E0 E1 A0 A1) as QC. fold a b in QC.
  unfold isEdgeLegal, isFromBoundingTri. rewrite E0, E1, (a_third _ _ _ _ _ _ A0), (a_third _ _ _ _ _ _ A1). cbn [bind]. fold a b.
  assert (O : orient (AT m a) (AT m b) (AT m c) <> 0%R) by (apply G; auto).
  destruct ((a <? 3) && (b <? 3)) eqn:Q1; [discriminate|]. destruct (((c <? 3) || (d <? 3)) && negb (a <? 3) && negb (b <? 3)) eqn:Q2; [discriminate|].
  intros H. split; [apply andb_false_iff in Q1; destruct Q1 as [Q1|Q1]; apply Nat.ltb_ge in Q1; auto|].
  destruct ((a <? 3) || (b <? 3)) eqn:Q3.
  - injection H as H. apply negb_false_iff in H. split; [apply QC, H|]. intros L1 L2. apply Nat.ltb_ge in L1, L2. rewrite L1, L2 in Q3. discriminate.
  - injection H as H. apply orb_false_iff in H. destruct H as [H1 H2]. apply negb_false_iff in H1. split; [apply QC, H1|]. intros L1 L2. apply Nat.ltb_ge in L1, L2. rewrite L1, L2 in Q2.
    cbn [negb] in Q2. rewrite !andb_true_r in Q2. apply orb_false_iff in Q2. destruct Q2 as [Q2 Q4]. apply Nat.ltb_ge in Q2, Q4. split; [exact Q2|]. split; [exact Q4|].
    destruct (circle_dec (AT m a) (AT m b) (AT m c) (AT m d) O) as [I|I]; [exact I|]. rewrite (proj2 (CIRC _ _ _ _ O) I) in H2. discriminate.
Qed.
End Test.
End Mesh.
