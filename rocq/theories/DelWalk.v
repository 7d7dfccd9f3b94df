(** Planar complexes of triangles: straight walks. *)
From Coq Require Import Reals List Lra Psatz Lia Arith.
From Verif Require Import DelPlaneSpec DelPlane DelDiscSpec DelDisc.
Import ListNotations.
Open Scope R_scope.

(** ** Barycentric coordinates: the weight of a in the triangle a b c *)
Definition co (a b c q : pt) : R := orient q b c / orient a b c.

Lemma co_affine a b c : affine (co a b c).
Proof.
  destruct (affine_orient1 b c) as (A & B & C & H). exists (A / orient a b c), (B / orient a b c), (C / orient a b c). intros q. unfold co. rewrite H. unfold Rdiv. ring.
Qed.
Lemma orient_rot a b c : orient b c a = orient a b c.
Proof. unfold orient. ring. Qed.
Lemma orient_swap a b c : orient b a c = - orient a b c.
Proof. unfold orient. ring. Qed.
Lemma orient_flip a b c : orient a c b = - orient a b c.
Proof. unfold orient. ring. Qed.
Lemma co_swap a b c q : co a c b q = co a b c q.
Proof.
  unfold co. rewrite (orient_flip a b c), (orient_flip q b c). unfold Rdiv. destruct (Req_dec (orient a b c) 0) as [E|E]; [|field; exact E].
  rewrite E, Ropp_0. replace (orient q b c * / 0) with (- (- orient q b c * / 0)) by ring. pose proof Rinv_0 as Z || idtac. rewrite ?Rinv_0. ring.
Qed.
Lemma co_sum a b c q : orient a b c <> 0 -> co a b c q + co b c a q + co c a b q = 1.
Proof. intros O. unfold co. rewrite !(orient_rot a b c), (orient_rot b c a), !(orient_rot a b c). unfold orient in *. field. exact O. Qed.
Lemma co_mix a b c q : orient a b c <> 0 -> q = mix (co a b c q) a (co b c a q) b (co c a b q) c.
Proof.
  intros O. rewrite (bary a b c q O) at 1. unfold co. rewrite (orient_rot b c a), !(orient_rot a b c).
  replace (orient a q c) with (orient q c a) by (unfold orient; ring). replace (orient a b q) with (orient q a b) by (unfold orient; ring). reflexivity.
Qed.
Lemma co_self a b c : orient a b c <> 0 -> co a b c a = 1.
Proof. intros O. unfold co. field. exact O. Qed.
Lemma co_other a b c : co a b c b = 0 /\ co a b c c = 0.
Proof. unfold co. split; unfold orient, Rdiv; ring. Qed.
Lemma co_of a b c x y z q : orient a b c <> 0 -> x + y + z = 1 -> q = mix x a y b z c -> co a b c q = x /\ co b c a q = y /\ co c a b q = z.
Proof.
  intros O S ->. assert (O1 : orient b c a <> 0) by (rewrite orient_rot; exact O). assert (O2 : orient c a b <> 0) by (rewrite orient_rot; exact O1).
  rewrite !(affine_mix _ _ _ _ _ _ _ (co_affine _ _ _) S), !co_self by assumption.
  destruct (co_other a b c) as [-> ->]. destruct (co_other b c a) as [-> ->]. destruct (co_other c a b) as [-> ->]. lra.
Qed.
Lemma inside_co a b c q : orient a b c <> 0 -> (inside a b c q <-> 0 < co a b c q /\ 0 < co b c a q /\ 0 < co c a b q).
Proof.
  intros O. split.
  - intros (x & y & z & X & Y & Z & S & E). destruct (co_of a b c x y z q O S E) as (-> & -> & ->). auto.
  - intros (X & Y & Z). exists (co a b c q), (co b c a q), (co c a b q). pose proof (co_sum a b c q O). pose proof (co_mix a b c q O). auto.
Qed.
Lemma crossed_co a b c d : crossed a b c d <-> orient a b c <> 0 /\ 0 < co a b c d /\ 0 < co b c a d /\ co c a b d < 0.
Proof.
  split.
  - intros (O & x & y & z & X & Y & Z & S & E). split; [exact O|]. destruct (co_of a b c x y z d O S E) as (-> & -> & ->). auto.
  - intros (O & X & Y & Z). split; [exact O|]. exists (co a b c d), (co b c a d), (co c a b d). pose proof (co_sum a b c d O). pose proof (co_mix a b c d O). auto.
Qed.
Lemma co_pos a b c q : 0 < co a b c q <-> 0 < orient b c a * orient b c q.
Proof.
  unfold co. rewrite (orient_rot a b c), (orient_rot q b c). destruct (Req_dec (orient a b c) 0) as [E|E].
  - rewrite E. split; intros H; [|lra]. exfalso. unfold Rdiv in H. pose proof Rinv_0 as Z. rewrite Z in H. lra.
  - assert (S : 0 < orient a b c * orient a b c) by (apply sqr_pos, E).
    assert (Q : orient q b c / orient a b c = orient a b c * orient q b c * / (orient a b c * orient a b c)) by (field; exact E).
    rewrite Q. pose proof (Rinv_0_lt_compat _ S) as I. split; intros H; [|apply Rmult_lt_0_compat; assumption].
    replace (orient a b c * orient q b c) with (orient a b c * orient q b c * / (orient a b c * orient a b c) * (orient a b c * orient a b c)) by (field; exact E).
    apply Rmult_lt_0_compat; assumption.
Qed.
Lemma co_neg a b c q : co a b c q < 0 <-> orient b c a * orient b c q < 0.
Proof.
  unfold co. rewrite (orient_rot a b c), (orient_rot q b c). destruct (Req_dec (orient a b c) 0) as [E|E].
  - rewrite E. split; intros H; [|lra]. exfalso. unfold Rdiv in H. pose proof Rinv_0 as Z. rewrite Z in H. lra.
  - assert (S : 0 < orient a b c * orient a b c) by (apply sqr_pos, E).
    assert (Q : orient q b c / orient a b c = orient a b c * orient q b c * / (orient a b c * orient a b c)) by (field; exact E).
    rewrite Q. pose proof (Rinv_0_lt_compat _ S) as I. split; intros H; [|nra].
    replace (orient a b c * orient q b c) with (orient a b c * orient q b c * / (orient a b c * orient a b c) * (orient a b c * orient a b c)) by (field; exact E).
    nra.
Qed.
Lemma co_nonzero a b c q : orient a b c <> 0 -> orient b c q <> 0 -> co a b c q <> 0.
Proof. intros O N E. apply N. rewrite (orient_rot q b c). unfold co in E. replace (orient q b c) with (orient q b c / orient a b c * orient a b c) by (field; exact O). rewrite E. ring. Qed.

(** ** Small moves *)
Lemma nudge (F : list (pt -> R)) q w : Forall affine F -> exists e, 0 < e < 1 /\ forall d, 0 <= d <= e -> forall f, In f F -> 0 < f q -> 0 < f (toward q w d).
Proof.
  induction 1 as [|f F A _ (e & E & H)]; [exists (1/2); split; [lra|intros d _ f []]|].
  destruct (Rlt_le_dec 0 (f q)) as [P|P].
  - destruct (small (f q) (f w) P) as (k & K0 & K1 & S). exists (Rmin e k). assert (M := Rmin_l e k). assert (M' := Rmin_r e k).
    split; [split; [apply Rmin_glb_lt; lra|lra]|]. intros d D h [<-|I] Q; [rewrite affine_toward by exact A; apply S; lra|apply H; [lra|exact I|exact Q]].
  - exists e. split; [exact E|]. intros d D h [<-|I] Q; [lra|apply H; assumption].
Qed.

(** a point off finitely many lines through v *)
Lemma generic (v : pt) (us : list pt) : (forall u, In u us -> u <> v) -> forall F q, Forall affine F ->
  exists q', (forall f, In f F -> 0 < f q -> 0 < f q') /\ forall u, In u us -> orient q' v u <> 0.
Proof.
  induction us as [|u us IH]; intros D F q A; [exists q; split; [auto|intros u []]|].
  assert (HU : exists q1, (forall f, In f F -> 0 < f q -> 0 < f q1) /\ orient q1 v u <> 0).
  { destruct (Req_dec (orient q v u) 0) as [E|E]; [|exists q; auto].
    set (w := (fst q - (snd u - snd v), snd q + (fst u - fst v))).
    assert (W : orient w v u <> 0).
    { assert (N : 0 < dist2 u v).
      { unfold dist2. pose proof (sqr_nneg (fst u - fst v)) as N1. pose proof (sqr_nneg (snd u - snd v)) as N2.
        destruct (Req_dec (fst u - fst v) 0) as [P|P]; [|pose proof (sqr_pos _ P); lra]. destruct (Req_dec (snd u - snd v) 0) as [Q|Q]; [|pose proof (sqr_pos _ Q); lra].
        exfalso. apply (D u (or_introl eq_refl)). destruct u, v; cbn [fst snd] in *. f_equal; lra. }
      intros K. assert (Z : orient w v u = orient q v u + dist2 u v \/ orient w v u = orient q v u - dist2 u v).
      { unfold w, orient, dist2. cbn [fst snd]. (left; ring) || (right; ring). }
      destruct Z; lra. }
    destruct (nudge F q w A) as (e & (E0 & E1) & H). exists (toward q w e). split; [intros f I P; apply H; [lra|exact I|exact P]|].
    rewrite (affine_toward (fun p => orient p v u) q w e (affine_orient1 v u)), E. intros K. assert (e * orient w v u = 0) by lra. apply Rmult_integral in H0. destruct H0; [lra|contradiction]. }
  destruct HU as (q1 & H1 & N1).
  destruct (IH (fun u' I => D u' (or_intror I)) ((fun p => orient p v u) :: (fun p => -1 * orient p v u) :: F) q1) as (q2 & H2 & N2).
  { constructor; [apply affine_orient1|]. constructor; [apply affine_scale, affine_orient1|exact A]. }
  exists q2. split; [intros f I P; apply (H2 f (or_intror (or_intror I))), H1; assumption|].
  intros u' [<-|I]; [|apply N2, I]. intros E. destruct (Rtotal_order (orient q1 v u) 0) as [L|[L|L]]; [|contradiction|].
  - assert (0 < -1 * orient q2 v u); [apply (H2 (fun p => -1 * orient p v u)); [right; left; reflexivity|lra]|lra].
  - assert (0 < orient q2 v u); [apply (H2 (fun p => orient p v u)); [left; reflexivity|lra]|lra].
Qed.

(** the side through which a segment leaves a triangle *)
Lemma leave_pick b0 b1 b2 v0 v1 v2 : 0 < b0 -> 0 < b1 -> 0 < b2 -> v0 < 0 \/ v1 < 0 \/ v2 < 0 ->
  exists t, 0 < t < 1 /\ 0 <= (1 - t) * b0 + t * v0 /\ 0 <= (1 - t) * b1 + t * v1 /\ 0 <= (1 - t) * b2 + t * v2 /\
  ((v0 < 0 /\ (1 - t) * b0 + t * v0 = 0) \/ (v1 < 0 /\ (1 - t) * b1 + t * v1 = 0) \/ (v2 < 0 /\ (1 - t) * b2 + t * v2 = 0)).
Proof.
  intros B0 B1 B2.
  assert (ONE : forall b v, 0 < b -> v < 0 -> exists t, 0 < t < 1 /\ (1 - t) * b + t * v = 0).
  { intros b v B V. exists (b / (b - v)). assert (E : b / (b - v) * (b - v) = b) by (field; lra). split; [split|].
    - apply Rmult_lt_0_compat; [exact B|apply Rinv_0_lt_compat; lra].
    - nra.
    - field. lra. }
  assert (ADD : forall b c v w t, 0 < b -> 0 < c -> 0 < t < 1 -> v < 0 -> (1 - t) * b + t * v = 0 ->
     0 <= (1 - t) * c + t * w \/ (w < 0 /\ exists t', 0 < t' < t /\ (1 - t') * c + t' * w = 0 /\ 0 <= (1 - t') * b + t' * v)).
  { intros b c v w t B C T V E. destruct (Rle_lt_dec 0 ((1 - t) * c + t * w)) as [L|L]; [left; exact L|right].
    assert (W : w < 0) by nra. split; [exact W|]. destruct (ONE c w C W) as (t' & T' & E'). exists t'. assert (t' < t) by nra. split; [lra|]. split; [exact E'|]. nra. }
  assert (MONO : forall b v t t', 0 < b -> 0 < t < 1 -> 0 < t' < t -> 0 <= (1 - t) * b + t * v -> 0 <= (1 - t') * b + t' * v).
  { intros b v t t' B T T' L. destruct (Rle_lt_dec 0 v) as [V|V]; [assert (0 <= t' * v) by nra; assert (0 < (1 - t') * b) by nra; lra|nra]. }
  assert (GO : forall b0 b1 b2 v0 v1 v2, 0 < b0 -> 0 < b1 -> 0 < b2 -> v0 < 0 ->
    exists t, 0 < t < 1 /\ 0 <= (1 - t) * b0 + t * v0 /\ 0 <= (1 - t) * b1 + t * v1 /\ 0 <= (1 - t) * b2 + t * v2 /\
    ((v0 < 0 /\ (1 - t) * b0 + t * v0 = 0) \/ (v1 < 0 /\ (1 - t) * b1 + t * v1 = 0) \/ (v2 < 0 /\ (1 - t) * b2 + t * v2 = 0))).
  { clear b0 b1 b2 v0 v1 v2 B0 B1 B2. intros b0 b1 b2 v0 v1 v2 B0 B1 B2 V0. destruct (ONE b0 v0 B0 V0) as (t & T & E).
    destruct (ADD b0 b1 v0 v1 t B0 B1 T V0 E) as [L1|(V1 & t' & T' & E' & L')].
    - destruct (ADD b0 b2 v0 v2 t B0 B2 T V0 E) as [L2|(V2 & t' & T' & E' & L')].
      + exists t. repeat (split; [lra|]). left. auto.
      + exists t'. split; [lra|]. split; [exact L'|]. split; [apply (MONO _ _ t); assumption|]. split; [lra|]. auto.
    - assert (T1 : 0 < t' < 1) by lra. destruct (ADD b1 b2 v1 v2 t' B1 B2 T1 V1 E') as [L2|(V2 & s & S & E2 & L2)].
      + exists t'. repeat (split; [lra|]). auto.
      + exists s. split; [lra|]. split; [apply (MONO _ _ t'); assumption|]. split; [exact L2|]. split; [lra|]. auto. }
  intros [V|[V|V]].
  - apply GO; assumption.
  - destruct (GO b1 b0 b2 v1 v0 v2 B1 B0 B2 V) as (t & T & L1 & L0 & L2 & H). exists t. tauto.
  - destruct (GO b2 b0 b1 v2 v0 v1 B2 B0 B1 V) as (t & T & L2 & L0 & L1 & H). exists t. tauto.
Qed.

(** ** Complexes *)
Record complex (K : nat -> nat -> nat -> Prop) (X : nat -> pt) (n : nat) : Prop := {
  x_swap : forall x y z, K x y z -> K y x z;
  x_rot : forall x y z, K x y z -> K y z x;
  x_corner : forall x y z, K x y z -> (x < n /\ y < n /\ z < n /\ x <> y /\ x <> z /\ y <> z)%nat;
  x_gen : forall x y z, (x < n -> y < n -> z < n -> x <> y -> x <> z -> y <> z -> (orient (X x) (X y) (X z) <> 0)%R)%nat;
  x_planar : forall x y z x' y' z' q, K x y z -> K x' y' z' -> inside (X x) (X y) (X z) q -> inside (X x') (X y') (X z') q -> x' = x \/ x' = y \/ x' = z;
  x_other : forall x y z, K x y z -> (3 <= x \/ 3 <= y)%nat -> exists w, w <> z /\ K x y w;
  x_vert : forall u, (u < n)%nat -> exists y z, K u y z;
  x_side : forall y z x u, (y < 3 -> z < 3 -> y <> z -> x < n -> u < n -> x <> y -> x <> z -> u <> y -> u <> z ->
    (0 < orient (X y) (X z) (X x) * orient (X y) (X z) (X u))%R)%nat;
  x_tip : forall a, (a < 3)%nat -> exists f, affine f /\ f (X a) = 1 /\ forall u, (u < n)%nat -> u <> a -> f (X u) < 1;
  x_three : (3 <= n)%nat }.

Lemma toward_toward q v s d : toward (toward q v s) v d = toward q v (s + (1 - s) * d).
Proof. unfold toward. cbn [fst snd]. f_equal; ring. Qed.
Lemma toward_0 q v : toward q v 0 = q.
Proof. unfold toward. destruct q. cbn [fst snd]. f_equal; ring. Qed.
Lemma toward_1 q v : toward q v 1 = v.
Proof. unfold toward. destruct v. cbn [fst snd]. f_equal; ring. Qed.

Section Complex.
Context {K : nat -> nat -> nat -> Prop} {X : nat -> pt} {n : nat}.
Hypothesis (H : complex K X n).
Local Open Scope nat_scope.

Lemma x_area x y z : K x y z -> orient (X x) (X y) (X z) <> 0%R.
Proof. intros T. destruct (x_corner _ _ _ H _ _ _ T) as (A & B & C & D & E & F). apply (x_gen _ _ _ H); assumption. Qed.
Lemma x_swap2 x y z : K x y z -> K x z y.
Proof. intros T. apply (x_swap _ _ _ H), (x_rot _ _ _ H), (x_rot _ _ _ H), T. Qed.
Lemma x_rot2 x y z : K x y z -> K z x y.
Proof. intros T. apply (x_rot _ _ _ H), (x_rot _ _ _ H), T. Qed.

Lemma x_no_inside x y z u : K x y z -> u < n -> u <> x -> u <> y -> u <> z -> ~ inside (X x) (X y) (X z) (X u).
Proof.
  intros T U N0 N1 N2 I. destruct (x_vert _ _ _ H u U) as (y' & z' & T').
  set (c := mix (1/3) (X u) (1/3) (X y') (1/3) (X z')).
  destruct (inside_open _ _ _ (X u) c (x_area _ _ _ T) I) as (d & D0 & D1 & IN).
  assert (I' : inside (X u) (X y') (X z') (toward (X u) c d)).
  { exists (1 - d + d / 3)%R, (d / 3)%R, (d / 3)%R. repeat (split; [lra|]). unfold c, toward, mix. cbn [fst snd]. f_equal; field. }
  destruct (x_planar _ _ _ H x y z u y' z' (toward (X u) c d) T T' (IN d ltac:(lra)) I') as [E|[E|E]]; congruence.
Qed.

Lemma x_opposite x y z w : K x y z -> K x y w -> z <> w -> (orient (X x) (X y) (X z) * orient (X x) (X y) (X w) < 0)%R.
Proof.
  intros T T' N. pose proof (x_area _ _ _ T) as A. pose proof (x_area _ _ _ T') as A'.
  destruct (Rlt_le_dec (orient (X x) (X y) (X z) * orient (X x) (X y) (X w)) 0) as [L|L]; [exact L|exfalso].
  assert (L' : (0 < orient (X x) (X y) (X z) * orient (X x) (X y) (X w))%R).
  { destruct L as [L|L]; [exact L|]. symmetry in L. apply Rmult_integral in L. tauto. }
  assert (W : (0 < co (X w) (X x) (X y) (X z))%R) by (apply co_pos; lra).
  set (c := mix (1/2) (X x) (1/2) (X y) 0 (X z)).
  assert (Aw : orient (X w) (X x) (X y) <> 0%R) by (rewrite <- (orient_rot (X w)); exact A').
  assert (Ay : orient (X y) (X w) (X x) <> 0%R) by (rewrite <- (orient_rot (X y)); exact Aw).
  destruct (co_of (X x) (X y) (X w) (1/2) (1/2) 0 c A' ltac:(lra)) as (C1 & C2 & C3); [unfold c, mix; cbn [fst snd]; f_equal; ring|].
  destruct (small (1/2) (co (X x) (X y) (X w) (X z)) ltac:(lra)) as (k1 & P1 & Q1 & S1).
  destruct (small (1/2) (co (X y) (X w) (X x) (X z)) ltac:(lra)) as (k2 & P2 & Q2 & S2).
  set (e := Rmin k1 k2). assert (E1 := Rmin_l k1 k2). assert (E2 := Rmin_r k1 k2). fold e in E1, E2. assert (E0 : (0 < e)%R) by (apply Rmin_glb_lt; assumption).
  assert (I' : inside (X x) (X y) (X w) (toward c (X z) e)).
  { apply inside_co; [exact A'|]. rewrite !(affine_toward _ _ _ _ (co_affine _ _ _)), C1, C2, C3. specialize (S1 e ltac:(lra)). specialize (S2 e ltac:(lra)).
    split; [lra|]. split; [lra|]. rewrite Rmult_0_r, Rplus_0_l. apply Rmult_lt_0_compat; assumption. }
  assert (I : inside (X x) (X y) (X z) (toward c (X z) e)).
  { exists ((1 - e) / 2)%R, ((1 - e) / 2)%R, e. repeat (split; [lra|]). unfold c, toward, mix. cbn [fst snd]. f_equal; field. }
  destruct (x_corner _ _ _ H _ _ _ T') as (_ & _ & _ & _ & N1 & N2).
  destruct (x_planar _ _ _ H x y z w x y (toward c (X z) e) T (x_rot2 _ _ _ T') I) as [E|[E|E]]; [|congruence..].
  apply inside_rot, inside_rot, I'.
Qed.

(** ** The straight walk from q to the vertex v *)
Section Walk.
Variables (v : nat) (q : pt) (F : nat -> nat -> nat -> Prop).
Hypothesis (V : v < n) (Q : forall u, u < n -> u <> v -> orient q (X v) (X u) <> 0%R).
Hypothesis (F1 : forall x y z, F x y z -> F y x z) (F2 : forall x y z, F x y z -> F y z x).
Hypothesis (STEP : forall x y z w e, K x y z -> x <> v -> y <> v -> z <> v -> F x y z -> (0 < e < 1)%R ->
  co (X x) (X y) (X z) (toward q (X v) e) = 0%R -> (0 < co (X y) (X z) (X x) (toward q (X v) e))%R -> (0 < co (X z) (X x) (X y) (toward q (X v) e))%R ->
  (co (X x) (X y) (X z) (X v) < 0)%R -> K y z w -> w <> x -> w <> v /\ F w y z).

Let p (e : R) := toward q (X v) e.
Let ahead (e : R) (l : list (nat * nat * nat)) : Prop :=
  forall x y z e', K x y z -> (e <= e' < 1)%R -> inside (X x) (X y) (X z) (p e') -> In (x, y, z) l.

Lemma at_vertex_not e u : u < n -> u <> v -> (e < 1)%R -> p e <> X u.
Proof.
  intros U N E1 E. apply (Q u U N). assert (K' : orient (p e) (X v) (X u) = ((1 - e) * orient q (X v) (X u))%R).
  { unfold p, toward, orient. cbn [fst snd]. ring. }
  rewrite E in K'. replace (orient (X u) (X v) (X u)) with 0%R in K' by (unfold orient; ring). symmetry in K'. apply Rmult_integral in K'. destruct K'; [lra|assumption].
Qed.

Lemma walk_leave : forall N l, length l <= N ->
  (forall l' x y z e, length l' < length l -> K x y z -> x <> v -> y <> v -> z <> v -> F x y z -> (0 <= e < 1)%R -> inside (X x) (X y) (X z) (p e) -> ahead e l' -> False) ->
  forall x y z e t, K x y z -> x <> v -> y <> v -> z <> v -> F x y z -> (0 <= e < 1)%R -> inside (X x) (X y) (X z) (p e) -> ahead e l ->
  (0 < t < 1)%R -> (co (X x) (X y) (X z) (X v) < 0)%R ->
  ((1 - t) * co (X x) (X y) (X z) (p e) + t * co (X x) (X y) (X z) (X v) = 0)%R ->
  (0 <= (1 - t) * co (X y) (X z) (X x) (p e) + t * co (X y) (X z) (X x) (X v))%R ->
  (0 <= (1 - t) * co (X z) (X x) (X y) (p e) + t * co (X z) (X x) (X y) (X v))%R -> False.
Proof.
  intros N l LN IH x y z e t T NX NY NZ FT E I A TT VX E0 L1 L2.
  destruct (x_corner _ _ _ H _ _ _ T) as (BX & BY & BZ & D1 & D2 & D3). pose proof (x_area _ _ _ T) as O.
  set (s := (e + (1 - e) * t)%R). assert (S : (0 < s < 1 /\ e < s)%R) by (unfold s; nra).
  assert (PS : p s = toward (p e) (X v) t) by (unfold p, s; symmetry; apply toward_toward).
  assert (C0 : co (X x) (X y) (X z) (p s) = 0%R) by (rewrite PS, (affine_toward _ _ _ _ (co_affine _ _ _)); exact E0).
  assert (C1 : (0 <= co (X y) (X z) (X x) (p s))%R) by (rewrite PS, (affine_toward _ _ _ _ (co_affine _ _ _)); exact L1).
  assert (C2 : (0 <= co (X z) (X x) (X y) (p s))%R) by (rewrite PS, (affine_toward _ _ _ _ (co_affine _ _ _)); exact L2).
  pose proof (co_sum _ _ _ (p s) O) as SUM. pose proof (co_mix _ _ _ (p s) O) as MIX.
  assert (P1 : (0 < co (X y) (X z) (X x) (p s))%R).
  { destruct C1 as [C1|C1]; [exact C1|exfalso]. apply (at_vertex_not s z BZ NZ ltac:(lra)). rewrite MIX. rewrite C0, <- C1 in *.
    assert (co (X z) (X x) (X y) (p s) = 1)%R as -> by lra. unfold mix. destruct (X z). cbn [fst snd]. f_equal; ring. }
  assert (P2 : (0 < co (X z) (X x) (X y) (p s))%R).
  { destruct C2 as [C2|C2]; [exact C2|exfalso]. apply (at_vertex_not s y BY NY ltac:(lra)). rewrite MIX. rewrite C0, <- C2 in *.
    assert (co (X y) (X z) (X x) (p s) = 1)%R as -> by lra. unfold mix. destruct (X y). cbn [fst snd]. f_equal; ring. }
  assert (IN : 3 <= y \/ 3 <= z).
  { destruct (le_lt_dec 3 y) as [G|G]; [auto|]. destruct (le_lt_dec 3 z) as [G'|G']; [auto|exfalso].
    pose proof (x_side _ _ _ H y z x v G G' D3 BX V D1 D2 ltac:(congruence) ltac:(congruence)) as SS. apply co_neg in VX. lra. }
  destruct (x_other _ _ _ H y z x (x_rot _ _ _ H _ _ _ T) IN) as (w & WX & T').
  destruct (STEP x y z w s T NX NY NZ FT ltac:(lra) C0 P1 P2 VX T' WX) as [WV FW].
  destruct (x_corner _ _ _ H _ _ _ T') as (_ & _ & BW & _ & D4 & D5).
  pose proof (x_opposite y z x w (x_rot _ _ _ H _ _ _ T) T' ltac:(congruence)) as OP.
  pose proof (x_area _ _ _ (x_rot2 _ _ _ T')) as O'.
  assert (VW : (0 < co (X w) (X y) (X z) (X v))%R).
  { apply co_pos. apply co_neg in VX. set (a := orient (X y) (X z) (X x)) in *. set (b := orient (X y) (X z) (X w)) in *. set (c := orient (X y) (X z) (X v)) in *.
    assert (a <> 0)%R by (intros Z; rewrite Z in OP; lra). pose proof (sqr_pos a ltac:(assumption)). nra. }
  (* coordinates of p s in the next triangle *)
  assert (CY : co (X y) (X z) (X w) (p s) = co (X y) (X z) (X x) (p s) /\ co (X z) (X w) (X y) (p s) = co (X z) (X x) (X y) (p s) /\ co (X w) (X y) (X z) (p s) = 0%R).
  { destruct (co_of (X w) (X y) (X z) 0 (co (X y) (X z) (X x) (p s)) (co (X z) (X x) (X y) (p s)) (p s) O') as (Z1 & Z2 & Z3).
    - lra.
    - rewrite MIX at 1. rewrite C0. unfold mix. cbn [fst snd]. f_equal; ring.
    - auto. }
  destruct CY as (CY & CZ & CW).
  destruct (small _ (co (X y) (X z) (X w) (X v)) P1) as (k1 & K10 & K11 & S1). destruct (small _ (co (X z) (X w) (X y) (X v)) P2) as (k2 & K20 & K21 & S2).
  set (d := Rmin k1 k2). assert (M1 := Rmin_l k1 k2). assert (M2 := Rmin_r k1 k2). fold d in M1, M2. assert (M0 : (0 < d)%R) by (apply Rmin_glb_lt; assumption).
  set (s' := (s + (1 - s) * d)%R). assert (S' : (0 < s' < 1 /\ s < s')%R) by (unfold s'; nra).
  assert (PS' : p s' = toward (p s) (X v) d) by (unfold p, s'; symmetry; apply toward_toward).
  assert (I' : inside (X w) (X y) (X z) (p s')).
  { apply inside_co; [exact O'|]. rewrite PS', !(affine_toward _ _ _ _ (co_affine _ _ _)), CY, CZ, CW.
    split; [rewrite Rmult_0_r, Rplus_0_l; apply Rmult_lt_0_compat; assumption|]. split; [apply S1; lra|apply S2; lra]. }
  set (dec := fun a b : nat * nat * nat => match Nat.eq_dec (fst (fst a)) (fst (fst b)), Nat.eq_dec (snd (fst a)) (snd (fst b)), Nat.eq_dec (snd a) (snd b) with
    | left _, left _, left _ => true | _, _, _ => false end).
  assert (DEC : forall a b, dec a b = true <-> a = b).
  { intros [[a b] c] [[a' b'] c']. unfold dec. cbn [fst snd]. destruct (Nat.eq_dec a a'), (Nat.eq_dec b b'), (Nat.eq_dec c c'); split; intros K0; congruence. }
  apply (IH (filter (fun a => negb (dec (x, y, z) a)) l) w y z s'); [|apply x_rot2, T'|exact WV|exact NY|exact NZ|exact FW|lra|exact I'|].
  - assert (IL : In (x, y, z) l) by (apply (A x y z e); [exact T|lra|exact I]).
    clear - IL DEC. induction l as [|a l IHl]; [destruct IL|]. cbn [filter length]. destruct (dec (x, y, z) a) eqn:DA; cbn [negb].
    + assert (LE : length (filter (fun a => negb (dec (x, y, z) a)) l) <= length l) by (clear; induction l as [|b l IHl]; cbn; [lia|]; destruct (dec _ b); cbn; lia). lia.
    + cbn [length]. destruct IL as [IL|IL]; [symmetry in IL; apply DEC in IL; congruence|]. specialize (IHl IL). lia.
  - intros x' y' z' e' T2 E' I2. apply filter_In. split; [apply (A x' y' z' e' T2); [lra|exact I2]|].
    destruct (dec (x, y, z) (x', y', z')) eqn:DA; [exfalso|reflexivity]. apply DEC in DA. injection DA as <- <- <-.
    apply inside_co in I2; [|exact O]. destruct I2 as [I2 _].
    assert (PE : exists k, (0 <= k <= 1)%R /\ p e' = toward (p s) (X v) k).
    { exists ((e' - s) / (1 - s))%R. split; [|unfold p; rewrite toward_toward; f_equal; field; lra].
      split; [apply Rmult_le_pos; [lra|left; apply Rinv_0_lt_compat; lra]|]. apply Rmult_le_reg_r with (1 - s)%R; [lra|]. unfold Rdiv. rewrite Rmult_assoc, Rinv_l; lra. }
    destruct PE as (k & K0 & PE). rewrite PE, (affine_toward _ _ _ _ (co_affine _ _ _)), C0 in I2. nra.
Qed.

Lemma walk_from : forall N l x y z e, length l <= N -> K x y z -> x <> v -> y <> v -> z <> v -> F x y z -> (0 <= e < 1)%R -> inside (X x) (X y) (X z) (p e) -> ahead e l -> False.
Proof.
  induction N as [|N IH]; intros l x y z e LN T NX NY NZ FT E I A.
  { destruct l; [|cbn in LN; lia]. apply (A x y z e T ltac:(lra) I). }
  assert (IH' : forall l' x y z e, length l' < length l -> K x y z -> x <> v -> y <> v -> z <> v -> F x y z -> (0 <= e < 1)%R -> inside (X x) (X y) (X z) (p e) -> ahead e l' -> False).
  { intros l' x' y' z' e' LL. apply IH. lia. }
  pose proof (x_area _ _ _ T) as O. destruct (x_corner _ _ _ H _ _ _ T) as (BX & BY & BZ & D1 & D2 & D3).
  pose proof (x_no_inside _ _ _ v T V ltac:(congruence) ltac:(congruence) ltac:(congruence)) as NI. rewrite (inside_co _ _ _ _ O) in NI.
  pose proof I as I0. apply inside_co in I; [|exact O]. destruct I as (I1 & I2 & I3).
  assert (NZ0 : co (X x) (X y) (X z) (X v) <> 0%R) by (apply co_nonzero; [exact O|]; apply (x_gen _ _ _ H); congruence).
  assert (NZ1 : co (X y) (X z) (X x) (X v) <> 0%R) by (apply co_nonzero; [rewrite orient_rot; exact O|]; apply (x_gen _ _ _ H); congruence).
  assert (NZ2 : co (X z) (X x) (X y) (X v) <> 0%R) by (apply co_nonzero; [rewrite orient_rot, orient_rot; exact O|]; apply (x_gen _ _ _ H); congruence).
  assert (NEG : (co (X x) (X y) (X z) (X v) < 0 \/ co (X y) (X z) (X x) (X v) < 0 \/ co (X z) (X x) (X y) (X v) < 0)%R).
  { destruct (Rlt_le_dec (co (X x) (X y) (X z) (X v)) 0) as [L1|L1]; [auto|]. destruct (Rlt_le_dec (co (X y) (X z) (X x) (X v)) 0) as [L2|L2]; [auto|].
    destruct (Rlt_le_dec (co (X z) (X x) (X y) (X v)) 0) as [L3|L3]; [auto|]. exfalso. apply NI. lra. }
  destruct (leave_pick _ _ _ _ _ _ I1 I2 I3 NEG) as (t & TT & G1 & G2 & G3 & [(VN & Z)|[(VN & Z)|(VN & Z)]]).
  - apply (walk_leave (S N) l LN IH' x y z e t); assumption.
  - apply (walk_leave (S N) l LN IH' y z x e t); auto; [apply (x_rot _ _ _ H), T|apply inside_rot, I0].
  - apply (walk_leave (S N) l LN IH' z x y e t); auto; [apply x_rot2, T|apply inside_rot, inside_rot, I0].
Qed.

Lemma walk x y z : K x y z -> x <> v -> y <> v -> z <> v -> F x y z -> inside (X x) (X y) (X z) q -> False.
Proof.
  intros T NX NY NZ FT I. set (l := list_prod (list_prod (seq 0 n) (seq 0 n)) (seq 0 n)).
  apply (walk_from (length l) l x y z 0%R); [lia|assumption..|lra|unfold p; rewrite toward_0; exact I|].
  intros x' y' z' e' T' _ _. destruct (x_corner _ _ _ H _ _ _ T') as (B1 & B2 & B3 & _). unfold l. repeat (apply in_prod; [|apply in_seq; lia]). apply in_seq; lia.
Qed.
End Walk.
End Complex.
