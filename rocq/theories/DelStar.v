(** The triangles around a new vertex: when no edge opposite to it is illegal the triangulation is Delaunay. *)
From Coq Require Import Reals List Bool Lra Psatz Lia Arith.
From Verif Require Import DelPlaneSpec DelPlane DelDiscSpec DelDisc DelWalk.
Import ListNotations.
Open Scope nat_scope.

Definition tri3 := nat -> nat -> nat -> Prop.

(** the vertices in S: empty circles, and edges next to a bounding vertex are on the hull *)
Record delaunay_on (S : nat -> Prop) (K : tri3) (X : nat -> pt) : Prop := {
  d_circle : forall x y z u, K x y z -> S x -> S y -> S z -> S u -> u <> x -> u <> y -> u <> z -> ~ in_circle (X x) (X y) (X z) (X u);
  d_hull : forall a b c u, K a b c -> a < 3 -> S b -> S c -> S u -> u <> b -> u <> c -> (orient (X b) (X c) (X a) * orient (X b) (X c) (X u) < 0)%R }.

Definition all (n u : nat) : Prop := 3 <= u < n.
Definition old (n v u : nat) : Prop := 3 <= u < n /\ u <> v.

(** the triangles with the new vertex v, seen from the other vertices *)
Record star (K : tri3) (X : nat -> pt) (n v : nat) : Prop := {
  s_old : delaunay_on (old n v) K X;
  s_near : forall g d u, K v g d -> 3 <= g -> 3 <= d -> old n v u -> u <> g -> u <> d ->
    (0 < orient (X g) (X d) (X v) * orient (X g) (X d) (X u))%R -> ~ in_circle (X v) (X g) (X d) (X u);
  s_cone : forall g a u, K v g a -> 3 <= g -> a < 3 -> old n v u -> u <> g ->
    (0 < orient (X g) (X a) (X v) * orient (X g) (X a) (X u))%R -> ~ (0 < orient (X g) (X v) (X a) * orient (X g) (X v) (X u))%R }.

Definition legal3 (X : nat -> pt) (v g d w : nat) : Prop :=
  (3 <= g -> 3 <= d -> 3 <= w -> ~ in_circle (X v) (X g) (X d) (X w)) /\
  (g < 3 -> 3 <= d -> ~ crossed (X g) (X d) (X v) (X w)) /\ (3 <= g -> d < 3 -> ~ crossed (X g) (X d) (X v) (X w)).

Lemma prod_sign a b : (a <> 0 -> b <> 0 -> ~ 0 < a * b -> a * b < 0)%R.
Proof. intros A B N. destruct (Rtotal_order (a * b) 0) as [L|[L|L]]; [exact L| |contradiction]. apply Rmult_integral in L. tauto. Qed.

Section Final.
Context {K : tri3} {X : nat -> pt} {n v : nat}.
Hypothesis (H : complex K X n) (V : 3 <= v < n) (S : star K X n v).
Hypothesis (L : forall g d w, K v g d -> K g d w -> w <> v -> legal3 X v g d w).

Lemma tip_pos x y z w : y < 3 -> x < n -> z < n -> w < n -> x <> y -> z <> y -> w <> y -> orient (X x) (X y) (X z) <> 0%R ->
  (co (X x) (X y) (X z) (X w) < 0 -> co (X z) (X x) (X y) (X w) <> 0 -> 0 < co (X z) (X x) (X y) (X w))%R.
Proof.
  clear S L. intros Y BX BZ BW NX NZ NW O C NC. destruct (x_tip _ _ _ H y Y) as (f & A & F1 & F). pose proof (F x BX NX) as FX. pose proof (F z BZ NZ) as FZ. pose proof (F w BW NW) as FW.
  pose proof (co_sum _ _ _ (X w) O) as SM. pose proof (co_mix _ _ _ (X w) O) as MX.
  assert (E : f (X w) = (co (X x) (X y) (X z) (X w) * f (X x) + co (X y) (X z) (X x) (X w) * f (X y) + co (X z) (X x) (X y) (X w) * f (X z))%R).
  { rewrite MX at 1. apply affine_mix; assumption. }
  rewrite F1 in E. destruct (Rlt_le_dec 0 (co (X z) (X x) (X y) (X w))) as [G|G]; [exact G|exfalso]. nra.
Qed.

Lemma side_point x y z a b c q : x < 3 -> y < 3 -> x <> y -> z < n -> z <> x -> z <> y -> K a b c -> inside (X a) (X b) (X c) q ->
  (0 < orient (X x) (X y) (X z) * orient (X x) (X y) q)%R.
Proof.
  clear S L. intros BX BY N Z ZX ZY T (p & r & s & P & R & Q & SM & ->). destruct (x_corner _ _ _ H _ _ _ T) as (A & B & C & D1 & D2 & D3).
  rewrite (affine_mix _ _ _ _ _ _ _ (affine_orient _ _) SM).
  assert (W : forall u, u < n -> (0 <= orient (X x) (X y) (X z) * orient (X x) (X y) (X u))%R /\ (u <> x -> u <> y -> (0 < orient (X x) (X y) (X z) * orient (X x) (X y) (X u))%R)).
  { intros u U. assert (P0 : u <> x -> u <> y -> (0 < orient (X x) (X y) (X z) * orient (X x) (X y) (X u))%R) by (intros; apply (x_side _ _ _ H); assumption).
    split; [|exact P0]. destruct (Nat.eq_dec u x) as [->|N1]; [right; unfold orient; ring|]. destruct (Nat.eq_dec u y) as [->|N2]; [right; unfold orient; ring|]. left. auto. }
  destruct (W a A) as [A0 A1]. destruct (W b B) as [B0 B1]. destruct (W c C) as [C0 C1].
  assert (POS : ((0 < orient (X x) (X y) (X z) * orient (X x) (X y) (X a)) \/ (0 < orient (X x) (X y) (X z) * orient (X x) (X y) (X b)) \/ (0 < orient (X x) (X y) (X z) * orient (X x) (X y) (X c)))%R).
  { destruct (Nat.eq_dec a x) as [E1|E1]; [|destruct (Nat.eq_dec a y) as [E2|E2]; [|auto]]; (destruct (Nat.eq_dec b x) as [E3|E3]; [|destruct (Nat.eq_dec b y) as [E4|E4]; [|auto]]); try congruence;
      right; right; apply C1; congruence. }
  clear - P R Q A0 B0 C0 POS. set (k := orient (X x) (X y) (X z)) in *.
  replace (k * (p * orient (X x) (X y) (X a) + r * orient (X x) (X y) (X b) + s * orient (X x) (X y) (X c)))%R
    with (p * (k * orient (X x) (X y) (X a)) + r * (k * orient (X x) (X y) (X b)) + s * (k * orient (X x) (X y) (X c)))%R by ring.
  set (ka := (k * orient (X x) (X y) (X a))%R) in *. set (kb := (k * orient (X x) (X y) (X b))%R) in *. set (kc := (k * orient (X x) (X y) (X c))%R) in *. clearbody ka kb kc.
  assert (0 <= p * ka)%R by nra. assert (0 <= r * kb)%R by nra. assert (0 <= s * kc)%R by nra.
  destruct POS as [G|[G|G]]; [assert (0 < p * ka)%R by nra|assert (0 < r * kb)%R by nra|assert (0 < s * kc)%R by nra]; lra.
Qed.

(** the plane point of v differs from the others *)
Lemma apart u : u < n -> u <> v -> X u <> X v.
Proof.
  clear S L. intros U N E. assert (W : exists w, w < n /\ w <> u /\ w <> v).
  { destruct (Nat.eq_dec u 0) as [->|N0]; [exists 1|exists 0]; lia. }
  destruct W as (w & W & W1 & W2). apply (x_gen _ _ _ H u v w U ltac:(lia) W N ltac:(congruence) ltac:(congruence)). rewrite E. unfold orient. ring.
Qed.

Lemma generic_v F q : Forall affine F -> exists q', (forall f, In f F -> (0 < f q -> 0 < f q')%R) /\ forall u, u < n -> u <> v -> orient q' (X v) (X u) <> 0%R.
Proof.
  clear S L. intros A. destruct (generic (X v) (map X (filter (fun u => negb (u =? v)) (seq 0 n)))) with (F := F) (q := q) as (q' & F1 & N); [|exact A|].
  - intros p I. apply in_map_iff in I. destruct I as (u & <- & I). apply filter_In in I. destruct I as [I J]. apply in_seq in I. apply apart; [lia|]. intros ->. rewrite Nat.eqb_refl in J. discriminate.
  - exists q'. split; [exact F1|]. intros u U NU. apply N. apply in_map. apply filter_In. split; [apply in_seq; lia|]. apply negb_true_iff, Nat.eqb_neq, NU.
Qed.

(** ** An old hull edge: the new vertex lies on the inner side *)
Lemma hull_new a b c : K a b c -> a < 3 -> old n v b -> old n v c -> (orient (X b) (X c) (X a) * orient (X b) (X c) (X v) < 0)%R.
Proof.
  intros T A B C. destruct B as [B NB]. destruct C as [C NC]. destruct (x_corner _ _ _ H _ _ _ T) as (BA & BB & BC & D1 & D2 & D3).
  pose proof (x_area H _ _ _ T) as O. assert (O1 : orient (X b) (X c) (X a) <> 0%R) by (rewrite orient_rot; exact O).
  assert (OV : orient (X b) (X c) (X v) <> 0%R) by (apply (x_gen _ _ _ H); try lia; congruence).
  apply prod_sign; [exact O1|exact OV|]. intros POS.
  assert (VA : (0 < co (X a) (X b) (X c) (X v))%R) by (apply co_pos; exact POS).
  pose (fam := fun t : nat * nat * nat => fun p => (- orient (X (snd (fst t))) (X (snd t)) (X (fst (fst t))) * orient (X (snd (fst t))) (X (snd t)) p)%R).
  set (F := map fam (list_prod (list_prod (seq 0 n) (seq 0 n)) (seq 0 n))).
  assert (FA : Forall affine F).
  { unfold F. apply Forall_forall. intros f I. apply in_map_iff in I. destruct I as (t & <- & _). unfold fam. apply affine_scale, affine_orient. }
  set (mid := mix 0 (X a) (1/2) (X b) (1/2) (X c)).
  destruct (nudge F mid (X a) FA) as (e & E & NU). set (q1 := toward mid (X a) e).
  assert (I1 : inside (X a) (X b) (X c) q1).
  { exists e, ((1 - e) / 2)%R, ((1 - e) / 2)%R. repeat (split; [lra|]). unfold q1, mid, toward, mix. cbn [fst snd]. f_equal; field. }
  destruct (generic_v (co (X a) (X b) (X c) :: co (X b) (X c) (X a) :: co (X c) (X a) (X b) :: F) q1) as (q & QF & Q).
  { repeat (constructor; [apply co_affine|]). exact FA. }
  assert (I : inside (X a) (X b) (X c) q).
  { apply inside_co in I1; [|exact O]. apply inside_co; [exact O|]. destruct I1 as (J1 & J2 & J3). repeat split; apply QF; cbn [In]; auto. }
  assert (QA : (0 < co (X a) (X b) (X c) q)%R) by (apply inside_co in I; [apply I|exact O]).
  (* q is not beyond another hull edge *)
  assert (HULL : forall y z x, K y z x -> y < 3 -> old n v z -> old n v x -> (0 < co (X y) (X z) (X x) q)%R -> y = a /\ ((z = b /\ x = c) \/ (z = c /\ x = b))).
  { intros y z x T' Y ZO XO C0. destruct (x_corner _ _ _ H _ _ _ T') as (BY & BZ & BX & D4 & D5 & D6). apply co_pos in C0.
    assert (LOW : forall u, old n v u -> u <> z -> u <> x -> (orient (X z) (X x) (X y) * orient (X z) (X x) (X u) < 0)%R).
    { intros u U. apply (d_hull _ _ _ (s_old _ _ _ _ S) y z x u T' Y ZO XO U). }
    assert (ZERO : forall u, u = z \/ u = x -> (orient (X z) (X x) (X y) * orient (X z) (X x) (X u) = 0)%R) by (intros u [->| ->]; unfold orient; ring).
    assert (OTHER : forall w, K b c w -> w <> a -> (orient (X b) (X c) (X w) * orient (X b) (X c) q < 0)%R).
    { intros w TW NW. pose proof (x_opposite H b c w a TW (x_rot _ _ _ H _ _ _ T) NW) as OP. apply co_pos in QA. clear - OP QA. nra. }
    assert (HM : (orient (X z) (X x) (X y) * orient (X z) (X x) (X b) + orient (X z) (X x) (X y) * orient (X z) (X x) (X c) < 0)%R -> False).
    { intros G0. assert (HM : (0 < fam (y, z, x) mid)%R).
      { unfold fam, mid. cbn [fst snd]. rewrite (affine_mix _ _ _ _ _ _ _ (affine_orient _ _)) by lra. lra. }
      assert (IF : In (fam (y, z, x)) F) by (apply in_map; repeat (apply in_prod; [|apply in_seq; lia]); apply in_seq; lia).
      assert (G : (0 < fam (y, z, x) q)%R) by (apply QF; [cbn [In]; auto|]; apply NU; [lra|exact IF|exact HM]).
      unfold fam in G. cbn [fst snd] in G. lra. }
    destruct (Nat.eq_dec b z) as [Ebz|Nbz]; [|destruct (Nat.eq_dec b x) as [Ebx|Nbx]].
    - destruct (Nat.eq_dec c x) as [Ecx|Ncx].
      + subst z x. split; [|auto]. destruct (Nat.eq_dec y a) as [Q0|NY]; [exact Q0|exfalso]. pose proof (OTHER y (x_rot _ _ _ H _ _ _ T') NY). lra.
      + exfalso. apply HM. rewrite (ZERO b) by auto. pose proof (LOW c (conj C NC) ltac:(congruence) Ncx). lra.
    - destruct (Nat.eq_dec c z) as [Ecz|Ncz].
      + subst z x. split; [|auto]. destruct (Nat.eq_dec y a) as [Q0|NY]; [exact Q0|exfalso]. pose proof (OTHER y (x_swap _ _ _ H _ _ _ (x_rot _ _ _ H _ _ _ T')) NY) as G.
        rewrite (orient_swap (X b) (X c) (X y)), (orient_swap (X b) (X c) q) in C0. lra.
      + exfalso. apply HM. rewrite (ZERO b) by auto. pose proof (LOW c (conj C NC) Ncz ltac:(congruence)). lra.
    - exfalso. apply HM. pose proof (LOW b (conj B NB) Nbz Nbx). destruct (Nat.eq_dec c z) as [E1|N1]; [rewrite (ZERO c) by auto; lra|].
      destruct (Nat.eq_dec c x) as [E2|N2]; [rewrite (ZERO c) by auto; lra|]. pose proof (LOW c (conj C NC) N1 N2). lra. }
  apply (walk H v q (fun _ _ _ => True) ltac:(lia) Q) with (x := a) (y := b) (z := c); auto; [|lia].
  intros x y z w e' T1 NX NY NZ _ E' CX CY CZ CV T2 WX. split; [|exact Logic.I]. intros ->.
  destruct (x_corner _ _ _ H _ _ _ T1) as (BX & BY & BZ & D4 & D5 & D6). pose proof (x_area H _ _ _ T1) as O2.
  set (p := toward q (X v) e') in *.
  assert (PA : (0 < co (X a) (X b) (X c) p)%R) by (unfold p; rewrite (affine_toward _ _ _ _ (co_affine _ _ _)); nra).
  pose proof (co_sum _ _ _ p O2) as SM. pose proof (co_mix _ _ _ p O2) as MX.
  (* y and z are not both old points *)
  assert (OLD : ~ (3 <= y /\ 3 <= z)).
  { intros [Y Z]. apply co_pos in PA.
    assert (LOW : forall u, old n v u -> (orient (X b) (X c) (X a) * orient (X b) (X c) (X u) <= 0)%R).
    { intros u U. destruct (Nat.eq_dec u b) as [->|N1]; [right; unfold orient; ring|]. destruct (Nat.eq_dec u c) as [->|N2]; [right; unfold orient; ring|].
      left. apply (d_hull _ _ _ (s_old _ _ _ _ S) a b c u T A (conj B NB) (conj C NC) U N1 N2). }
    assert (GY := LOW y (conj (conj Y BY) NY)). assert (GZ := LOW z (conj (conj Z BZ) NZ)).
    rewrite MX, (affine_mix _ _ _ _ _ _ _ (affine_orient _ _)), CX in PA by lra. clear - PA GY GZ CY CZ.
    set (k := orient (X b) (X c) (X a)) in *. set (cy := co (X y) (X z) (X x) p) in *. set (cz := co (X z) (X x) (X y) p) in *.
    set (oy := orient (X b) (X c) (X y)) in *. set (oz := orient (X b) (X c) (X z)) in *. clearbody k cy cz oy oz.
    assert (cy * (k * oy) <= 0)%R by nra. assert (cz * (k * oz) <= 0)%R by nra. nra. }
  (* so one is a bounding vertex *)
  assert (ONE : forall y z, K x y z -> K y z v -> y <> v -> z <> v -> y < 3 -> 3 <= z -> co (X x) (X y) (X z) p = 0%R ->
     (0 < co (X y) (X z) (X x) p)%R -> (0 < co (X z) (X x) (X y) p)%R -> (co (X x) (X y) (X z) (X v) < 0)%R -> False).
  { clear y z NY NZ CX CY CZ CV T1 T2 WX BY BZ D4 D5 D6 O2 SM MX OLD. intros y z T1 T2 NY NZ Y Z CX CY CZ CV.
    destruct (x_corner _ _ _ H _ _ _ T1) as (_ & BY & BZ & D4 & D5 & D6). pose proof (x_area H _ _ _ T1) as O2.
    assert (Ozx : orient (X z) (X x) (X y) <> 0%R) by (rewrite orient_rot, orient_rot; exact O2). assert (Oyz : orient (X y) (X z) (X x) <> 0%R) by (rewrite orient_rot; exact O2).
    assert (N1 : co (X z) (X x) (X y) (X v) <> 0%R) by (apply co_nonzero; [exact Ozx|apply (x_gen _ _ _ H); lia || congruence]).
    assert (N2 : co (X y) (X z) (X x) (X v) <> 0%R) by (apply co_nonzero; [exact Oyz|apply (x_gen _ _ _ H); lia || congruence]).
    pose proof (tip_pos x y z v Y BX BZ ltac:(lia) ltac:(congruence) ltac:(congruence) ltac:(lia) O2 CV N1) as PZ.
    destruct (L y z x (x_rot2 H _ _ _ T2) (x_rot _ _ _ H _ _ _ T1) NX) as (_ & LG & _). apply (LG Y Z). apply crossed_sym, crossed_co.
    split; [exact Oyz|]. split; [|split; [exact PZ|exact CV]].
    destruct (Rlt_le_dec 0 (co (X y) (X z) (X x) (X v))) as [G|G]; [exact G|exfalso].
    assert (EQ : forall a0 b0 c0, co a0 b0 c0 p = ((1 - e') * co a0 b0 c0 q + e' * co a0 b0 c0 (X v))%R) by (intros; apply affine_toward, co_affine).
    rewrite EQ in CX, CY.
    assert (QY : (0 < co (X y) (X z) (X x) q)%R) by (clear - CY G E'; nra).
    assert (QX : (0 < co (X x) (X y) (X z) q)%R) by (clear - CX CV E'; nra).
    destruct (le_lt_dec 3 x) as [XX|XX].
    - destruct (HULL y z x (x_rot _ _ _ H _ _ _ T1) Y (conj (conj Z BZ) NZ) (conj (conj XX BX) NX) QY) as (-> & [[-> ->]|[-> ->]]); [lra|rewrite co_swap in G; lra].
    - assert (QZ : (0 < co (X z) (X x) (X y) q)%R) by (apply co_pos; apply (side_point x y z a b c q); auto).
      assert (IQ : inside (X x) (X y) (X z) q) by (apply inside_co; auto).
      assert (M1 := x_planar _ _ _ H a b c x y z q T T1 I IQ).
      assert (M2 := x_planar _ _ _ H a b c y z x q T (x_rot _ _ _ H _ _ _ T1) I (inside_rot _ _ _ _ IQ)). lia. }
  destruct (le_lt_dec 3 y) as [Y|Y].
  - apply (ONE z y); [apply (x_swap2 H), T1|apply (x_swap _ _ _ H), T2|assumption..| | |rewrite co_swap; exact CX|rewrite co_swap; exact CZ|rewrite co_swap; exact CY|rewrite co_swap; exact CV]; [|exact Y].
    destruct (le_lt_dec 3 z) as [Z|Z]; [exfalso; auto|exact Z].
  - destruct (le_lt_dec 3 z) as [Z|Z]; [apply (ONE y z); assumption|].
    pose proof (x_side _ _ _ H y z x v Y Z D6 BX ltac:(lia) D4 D5 ltac:(congruence) ltac:(congruence)) as SS. apply co_neg in CV. lra.
Qed.

(** ** An old circle: the new vertex is not inside *)
Lemma circle_new x y z : K x y z -> old n v x -> old n v y -> old n v z -> ~ in_circle (X x) (X y) (X z) (X v).
Proof.
  intros T OX OY OZ IC. pose proof (x_area H _ _ _ T) as O.
  destruct (generic_v [co (X x) (X y) (X z); co (X y) (X z) (X x); co (X z) (X x) (X y)] (mix (1/3) (X x) (1/3) (X y) (1/3) (X z))) as (q & QF & Q).
  { repeat (constructor; [apply co_affine|]). constructor. }
  assert (I : inside (X x) (X y) (X z) q).
  { apply inside_co; [exact O|]. assert (I1 : inside (X x) (X y) (X z) (mix (1/3) (X x) (1/3) (X y) (1/3) (X z))) by (exists (1/3)%R, (1/3)%R, (1/3)%R; repeat (split; [lra|]); reflexivity).
    apply inside_co in I1; [|exact O]. destruct I1 as (J1 & J2 & J3). repeat split; apply QF; cbn [In]; auto. }
  apply (walk H v q (fun x y z => old n v x /\ old n v y /\ old n v z /\ in_circle (X x) (X y) (X z) (X v)) ltac:(lia) Q) with (x := x) (y := y) (z := z); auto.
  - intros a b c (A & B & C & D). repeat (split; [assumption|]). apply circle_swap, D.
  - intros a b c (A & B & C & D). repeat (split; [assumption|]). apply circle_rot, D.
  - clear x y z T OX OY OZ IC O I QF. intros x y z w e T NX NY NZ (OX & OY & OZ & IC) E CX CY CZ CV T2 WX.
    apply co_neg in CV. destruct (x_corner _ _ _ H _ _ _ T2) as (_ & _ & BW & D1 & D2 & D3). pose proof (x_area H _ _ _ T) as O. pose proof (x_area H _ _ _ T2) as O2.
    pose proof (x_opposite H y z x w (x_rot _ _ _ H _ _ _ T) T2 ltac:(congruence)) as OP.
    assert (SAME : (0 < orient (X y) (X z) (X w) * orient (X y) (X z) (X v))%R).
    { set (a := orient (X y) (X z) (X x)) in *. set (b := orient (X y) (X z) (X w)) in *. set (c := orient (X y) (X z) (X v)) in *.
      assert (a <> 0)%R by (intros Z; rewrite Z in OP; lra). pose proof (sqr_pos a ltac:(assumption)). clear - OP CV H1. nra. }
    assert (WV : w <> v).
    { intros ->. destruct (L y z x (x_rot2 H _ _ _ T2) (x_rot _ _ _ H _ _ _ T) NX) as (LG & _). apply LG; [apply OY|apply OZ|apply OX|]. apply pencil_turn; assumption. }
    split; [exact WV|]. destruct (le_lt_dec 3 w) as [W|W].
    + assert (OW : old n v w) by (split; [lia|exact WV]). repeat (split; [assumption|]).
      apply circle_rot, circle_rot. apply (pencil_grow (X y) (X z) (X x)); [rewrite orient_rot; exact O| |exact IC|exact SAME].
      apply (d_circle _ _ _ (s_old _ _ _ _ S) x y z w T OX OY OZ OW); congruence.
    + exfalso. pose proof (hull_new w y z (x_rot2 H _ _ _ T2) W OY OZ). lra.
  - apply OX.
  - apply OY.
  - apply OZ.
Qed.

(** ** A new circle *)
Lemma circle_star g d u : K v g d -> 3 <= g -> 3 <= d -> old n v u -> u <> g -> u <> d -> ~ in_circle (X v) (X g) (X d) (X u).
Proof.
  intros T G D U N1 N2 IC. destruct (x_corner _ _ _ H _ _ _ T) as (BV & BG & BD & D1 & D2 & D3). destruct U as [U NU].
  assert (OU : orient (X g) (X d) (X u) <> 0%R) by (apply (x_gen _ _ _ H); lia || congruence). pose proof (x_area H _ _ _ (x_rot _ _ _ H _ _ _ T)) as OV.
  destruct (Rlt_le_dec 0 (orient (X g) (X d) (X v) * orient (X g) (X d) (X u))) as [P|P].
  { apply (s_near _ _ _ _ S g d u T G D (conj U NU) N1 N2 P IC). }
  assert (P' : (orient (X g) (X d) (X v) * orient (X g) (X d) (X u) < 0)%R) by (apply prod_sign; [assumption..|lra]).
  destruct (x_other _ _ _ H g d v (x_rot _ _ _ H _ _ _ T) (or_introl G)) as (w & WV & T'). destruct (x_corner _ _ _ H _ _ _ T') as (_ & _ & BW & _ & D4 & D5).
  pose proof (x_opposite H g d v w (x_rot _ _ _ H _ _ _ T) T' ltac:(congruence)) as OP.
  assert (SAME : (0 < orient (X g) (X d) (X w) * orient (X g) (X d) (X u))%R).
  { set (a := orient (X g) (X d) (X v)) in *. pose proof (sqr_pos a OV) as SP. clear - OP P' SP. nra. }
  assert (OG : old n v g) by (split; [lia|congruence]). assert (OD : old n v d) by (split; [lia|congruence]).
  destruct (le_lt_dec 3 w) as [W|W].
  - destruct (L g d w T T' WV) as (LG & _). specialize (LG G D W). destruct (Nat.eq_dec u w) as [->|NW]; [contradiction|].
    apply (d_circle _ _ _ (s_old _ _ _ _ S) g d w u T' OG OD); [split; [lia|exact WV]|split; assumption|assumption..|].
    apply (pencil_grow _ _ (X v)); assumption.
  - pose proof (d_hull _ _ _ (s_old _ _ _ _ S) w g d u (x_rot2 H _ _ _ T') W OG OD (conj U NU) N1 N2). lra.
Qed.

(** ** A new hull edge *)
Lemma hull_star g a u : K v g a -> 3 <= g -> a < 3 -> old n v u -> u <> g -> (orient (X v) (X g) (X a) * orient (X v) (X g) (X u) < 0)%R.
Proof.
  intros T G A (U & NU) UG. destruct (x_corner _ _ _ H _ _ _ T) as (BV & BG & BA & D1 & D2 & D3).
  pose proof (x_area H _ _ _ T) as O. assert (OU : orient (X v) (X g) (X u) <> 0%R) by (apply (x_gen _ _ _ H); lia || congruence).
  apply prod_sign; [exact O|exact OU|]. intros P.
  assert (OA : orient (X g) (X a) (X u) <> 0%R) by (apply (x_gen _ _ _ H); lia || congruence). pose proof (x_area H _ _ _ (x_rot _ _ _ H _ _ _ T)) as OV.
  destruct (Rlt_le_dec 0 (orient (X g) (X a) (X v) * orient (X g) (X a) (X u))) as [Q|Q].
  { apply (s_cone _ _ _ _ S g a u T G A (conj U NU) UG Q). rewrite (orient_swap (X v) (X g) (X a)), (orient_swap (X v) (X g) (X u)). lra. }
  assert (Q' : (orient (X g) (X a) (X v) * orient (X g) (X a) (X u) < 0)%R) by (apply prod_sign; [assumption..|lra]).
  destruct (x_other _ _ _ H g a v (x_rot _ _ _ H _ _ _ T) (or_introl G)) as (w & WV & T'). destruct (x_corner _ _ _ H _ _ _ T') as (_ & _ & BW & _ & D4 & D5).
  pose proof (x_opposite H g a v w (x_rot _ _ _ H _ _ _ T) T' ltac:(congruence)) as OP.
  destruct (L g a w T T' WV) as (_ & _ & LG). specialize (LG G A). rewrite crossed_co in LG.
  (* coordinates in the triangle v g a *)
  assert (WVN : (co (X v) (X g) (X a) (X w) < 0)%R) by (apply co_neg; exact OP).
  assert (OW : orient (X v) (X g) (X w) <> 0%R) by (apply (x_gen _ _ _ H); lia || congruence).
  assert (OGW : orient (X a) (X v) (X w) <> 0%R) by (apply (x_gen _ _ _ H); lia || congruence).
  assert (OAV : orient (X a) (X v) (X g) <> 0%R) by (rewrite orient_rot, orient_rot; exact O).
  assert (WG : (0 < co (X g) (X a) (X v) (X w))%R).
  { rewrite co_swap. apply (tip_pos v a g w A BV BG BW ltac:(congruence) ltac:(congruence) ltac:(congruence)); [rewrite orient_flip; lra|rewrite co_swap; exact WVN|].
    rewrite co_swap. apply co_nonzero; [exact OV|exact OGW]. }
  assert (WA : (co (X a) (X v) (X g) (X w) < 0)%R).
  { destruct (Rlt_le_dec (co (X a) (X v) (X g) (X w)) 0) as [G0|G0]; [exact G0|exfalso]. apply LG. split; [exact OV|]. split; [exact WG|]. split; [|exact WVN].
    destruct G0 as [G0|G0]; [exact G0|]. exfalso. apply (co_nonzero (X a) (X v) (X g) (X w) OAV OW). symmetry. exact G0. }
  assert (UA : (0 < co (X a) (X v) (X g) (X u))%R) by (apply co_pos; exact P).
  assert (UV : (co (X v) (X g) (X a) (X u) < 0)%R) by (apply co_neg; exact Q').
  assert (UW : u <> w) by (intros ->; lra).
  pose proof (co_sum _ _ _ (X w) O) as SW. pose proof (co_mix _ _ _ (X w) O) as MW. pose proof (co_sum _ _ _ (X u) O) as SU. pose proof (co_mix _ _ _ (X u) O) as MU.
  set (wv := co (X v) (X g) (X a) (X w)) in *. set (wa := co (X a) (X v) (X g) (X w)) in *. set (wg := co (X g) (X a) (X v) (X w)) in *.
  set (uv := co (X v) (X g) (X a) (X u)) in *. set (ua := co (X a) (X v) (X g) (X u)) in *. set (ug := co (X g) (X a) (X v) (X u)) in *.
  (* cross products at g *)
  assert (CWA : orient (X g) (X w) (X a) = (- wv * orient (X g) (X a) (X v))%R).
  { rewrite MW. assert (E : wg = (1 - wv - wa)%R) by lra. rewrite E. unfold mix, orient. cbn [fst snd]. ring. }
  assert (CWU : orient (X g) (X w) (X u) = ((wa * uv - wv * ua) * orient (X g) (X a) (X v))%R).
  { rewrite MW, MU. assert (E : wg = (1 - wv - wa)%R) by lra. assert (E' : ug = (1 - uv - ua)%R) by lra. rewrite E, E'. unfold mix, orient. cbn [fst snd]. ring. }
  assert (CAU : orient (X g) (X a) (X u) = (uv * orient (X g) (X a) (X v))%R).
  { rewrite MU. assert (E' : ug = (1 - uv - ua)%R) by lra. rewrite E'. unfold mix, orient. cbn [fst snd]. ring. }
  assert (CAW : orient (X g) (X a) (X w) = (wv * orient (X g) (X a) (X v))%R).
  { rewrite MW. assert (E' : wg = (1 - wv - wa)%R) by lra. rewrite E'. unfold mix, orient. cbn [fst snd]. ring. }
  set (k := orient (X g) (X a) (X v)) in *. clearbody wv wa wg uv ua ug. pose proof (sqr_pos k OV) as KK.
  destruct (le_lt_dec 3 w) as [W|W].
  - assert (OG0 : old n v g) by (split; [lia|congruence]). assert (OW0 : old n v w) by (split; [lia|congruence]).
    assert (HU := d_hull _ _ _ (s_old _ _ _ _ S) a g w u (x_swap _ _ _ H _ _ _ T') A OG0 OW0 (conj U NU) UG UW).
    rewrite CWA, CWU in HU. assert (0 < wa * uv - wv * ua)%R by (clear - WVN WA UA UV; nra). clear - HU H0 KK WVN. set (j := (wa * uv - wv * ua)%R) in *. clearbody j.
    replace (- wv * k * (j * k))%R with (- wv * j * (k * k))%R in HU by ring. assert (0 < - wv * j)%R by nra. nra.
  - apply (x_no_inside H g a w u T' ltac:(lia) UG ltac:(lia) UW). apply inside_co; [exact (x_area H _ _ _ T')|]. split; [|split].
    + apply co_pos. apply (x_side _ _ _ H); lia || congruence.
    + apply co_pos. rewrite (orient_swap (X g) (X w) (X a)), (orient_swap (X g) (X w) (X u)), CWA, CWU.
      assert (0 < wa * uv - wv * ua)%R by (clear - WVN WA UA UV; nra). clear - H0 KK WVN. set (j := (wa * uv - wv * ua)%R) in *. clearbody j.
      replace (- (- wv * k) * - (j * k))%R with (- wv * j * (k * k))%R by ring. apply Rmult_lt_0_compat; [nra|exact KK].
    + apply co_pos. rewrite CAU, CAW. replace (wv * k * (uv * k))%R with (wv * uv * (k * k))%R by ring. apply Rmult_lt_0_compat; [clear - WVN UV; nra|exact KK].
Qed.

Lemma star_final : delaunay_on (all n) K X.
Proof.
  constructor.
  - intros x y z u T [X0 X1] [Y0 Y1] [Z0 Z1] [U0 U1] N1 N2 N3.
    assert (OLD : forall w, 3 <= w -> w < n -> w <> v -> old n v w) by (intros; split; [lia|assumption]).
    destruct (Nat.eq_dec u v) as [->|NU].
    { apply circle_new; [exact T|apply OLD; auto..]. }
    destruct (Nat.eq_dec x v) as [->|NX]; [apply circle_star; auto|].
    destruct (Nat.eq_dec y v) as [->|NY]; [intros IC; apply (circle_star z x u); auto; [apply (x_rot _ _ _ H), T|apply circle_rot, IC]|].
    destruct (Nat.eq_dec z v) as [->|NZ]; [intros IC; apply (circle_star x y u); auto; [apply (x_rot2 H), T|apply circle_rot, circle_rot, IC]|].
    apply (d_circle _ _ _ (s_old _ _ _ _ S)); auto.
  - intros a b c u T A [B0 B1] [C0 C1] [U0 U1] N1 N2.
    assert (OLD : forall w, 3 <= w -> w < n -> w <> v -> old n v w) by (intros; split; [lia|assumption]).
    destruct (Nat.eq_dec u v) as [->|NU].
    { apply hull_new; auto. }
    destruct (Nat.eq_dec b v) as [->|NB]; [apply hull_star; auto; apply (x_rot _ _ _ H), T|].
    destruct (Nat.eq_dec c v) as [->|NC].
    { rewrite (orient_swap (X v) (X b) (X a)), (orient_swap (X v) (X b) (X u)). assert (G : (orient (X v) (X b) (X a) * orient (X v) (X b) (X u) < 0)%R); [|lra].
      apply hull_star; auto. apply (x_swap2 H), (x_rot2 H), T. }
    apply (d_hull _ _ _ (s_old _ _ _ _ S) a); auto.
Qed.
End Final.
