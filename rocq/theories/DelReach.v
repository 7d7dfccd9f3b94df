(** The straight walk from a triangle to the triangle of a point. *)
From Coq Require Import ZArith List Bool Arith Lia Reals Lra Psatz.
From Verif Require Import Outcome DelModel DelSpec DelFlip DelPlaneSpec DelPlane DelDiscSpec DelDisc DelWalk DelStar.
Import ListNotations.
Open Scope nat_scope.

Section Reach.
Context {K : tri3} {X : nat -> pt} {n : nat}.
Hypothesis (H : complex K X n).
(** the triangles by name *)
Variables (C : nat -> nat -> nat) (TS : list nat).
Hypothesis (HT : forall x y z, K x y z <-> exists t, In t TS /\ perm3 (C t) x y z).
(** the point sought *)
Variable r : pt.
Hypothesis (GEN : forall x y, x < n -> y < n -> x <> y -> orient (X x) (X y) r <> 0%R).
Hypothesis (BOX : forall y z x, y < 3 -> z < 3 -> y <> z -> x < n -> x <> y -> x <> z -> (0 < orient (X y) (X z) (X x) * orient (X y) (X z) r)%R).
(** triangles from which it is reached in so many steps *)
Variable E : nat -> tri3.
Hypothesis (E1 : forall k x y z, E k x y z -> E k y x z) (E2 : forall k x y z, E k x y z -> E k y z x).
Hypothesis (BASE : forall x y z, K x y z -> inside (X x) (X y) (X z) r -> E 0 x y z).
Hypothesis (STEP : forall k x y z w, K x y z -> (co (X x) (X y) (X z) r < 0)%R -> K y z w -> w <> x -> E k w y z -> E (S k) x y z).

Section From.
Variable q : pt.
Hypothesis (Q : forall u, u < n -> orient q r (X u) <> 0%R).
Let p (e : R) := toward q r e.
Let ahead (e : R) (l : list nat) : Prop :=
  forall t x y z e', In t TS -> perm3 (C t) x y z -> (e <= e' < 1)%R -> inside (X x) (X y) (X z) (p e') -> In t l.

Lemma not_vertex e u : u < n -> (e < 1)%R -> p e <> X u.
Proof using Q.
  intros U L EQ. apply (Q u U). assert (K' : orient (p e) r (X u) = ((1 - e) * orient q r (X u))%R).
  { unfold p, toward, orient. cbn [fst snd]. ring. }
  rewrite EQ in K'. replace (orient (X u) r (X u)) with 0%R in K' by (unfold orient; ring). symmetry in K'. apply Rmult_integral in K'. destruct K'; [lra|assumption].
Qed.

Lemma reach_leave l :
  (forall l' x y z e, length l' < length l -> K x y z -> (0 <= e < 1)%R -> inside (X x) (X y) (X z) (p e) -> ahead e l' -> exists k, k < length l' /\ E k x y z) ->
  forall x y z e t, K x y z -> (0 <= e < 1)%R -> inside (X x) (X y) (X z) (p e) -> ahead e l ->
  (0 < t < 1)%R -> (co (X x) (X y) (X z) r < 0)%R ->
  ((1 - t) * co (X x) (X y) (X z) (p e) + t * co (X x) (X y) (X z) r = 0)%R ->
  (0 <= (1 - t) * co (X y) (X z) (X x) (p e) + t * co (X y) (X z) (X x) r)%R ->
  (0 <= (1 - t) * co (X z) (X x) (X y) (p e) + t * co (X z) (X x) (X y) r)%R -> exists k, k < length l /\ E k x y z.
Proof using All.
  intros IH x y z e t T ER I A TT VX E0 L1 L2.
  destruct (x_corner _ _ _ H _ _ _ T) as (BX & BY & BZ & D1 & D2 & D3). pose proof (x_area H _ _ _ T) as O.
  set (s := (e + (1 - e) * t)%R). assert (S : (0 < s < 1 /\ e < s)%R) by (unfold s; nra).
  assert (PS : p s = toward (p e) r t) by (unfold p, s; symmetry; apply toward_toward).
  assert (C0 : co (X x) (X y) (X z) (p s) = 0%R) by (rewrite PS, (affine_toward _ _ _ _ (co_affine _ _ _)); exact E0).
  assert (C1 : (0 <= co (X y) (X z) (X x) (p s))%R) by (rewrite PS, (affine_toward _ _ _ _ (co_affine _ _ _)); exact L1).
  assert (C2 : (0 <= co (X z) (X x) (X y) (p s))%R) by (rewrite PS, (affine_toward _ _ _ _ (co_affine _ _ _)); exact L2).
  pose proof (co_sum _ _ _ (p s) O) as SUM. pose proof (co_mix _ _ _ (p s) O) as MIX.
  assert (P1 : (0 < co (X y) (X z) (X x) (p s))%R).
  { destruct C1 as [C1|C1]; [exact C1|exfalso]. apply (not_vertex s z BZ ltac:(lra)). rewrite MIX. rewrite C0, <- C1 in *.
    assert (co (X z) (X x) (X y) (p s) = 1)%R as -> by lra. unfold mix. destruct (X z). cbn [fst snd]. f_equal; ring. }
  assert (P2 : (0 < co (X z) (X x) (X y) (p s))%R).
  { destruct C2 as [C2|C2]; [exact C2|exfalso]. apply (not_vertex s y BY ltac:(lra)). rewrite MIX. rewrite C0, <- C2 in *.
    assert (co (X y) (X z) (X x) (p s) = 1)%R as -> by lra. unfold mix. destruct (X y). cbn [fst snd]. f_equal; ring. }
  assert (IN : 3 <= y \/ 3 <= z).
  { destruct (le_lt_dec 3 y) as [G|G]; [auto|]. destruct (le_lt_dec 3 z) as [G'|G']; [auto|exfalso].
    pose proof (BOX y z x G G' D3 BX D1 D2) as SS. apply co_neg in VX. lra. }
  destruct (x_other _ _ _ H y z x (x_rot _ _ _ H _ _ _ T) IN) as (w & WX & T').
  destruct (x_corner _ _ _ H _ _ _ T') as (_ & _ & BW & _ & D4 & D5).
  pose proof (x_opposite H y z x w (x_rot _ _ _ H _ _ _ T) T' ltac:(congruence)) as OP.
  pose proof (x_area H _ _ _ (x_rot2 H _ _ _ T')) as O'.
  assert (VW : (0 < co (X w) (X y) (X z) r)%R).
  { apply co_pos. apply co_neg in VX. set (a := orient (X y) (X z) (X x)) in *. set (b := orient (X y) (X z) (X w)) in *. set (c := orient (X y) (X z) r) in *.
    assert (a <> 0)%R by (intros Z; rewrite Z in OP; lra). pose proof (sqr_pos a ltac:(assumption)). clear - OP VX H1. nra. }
  (* coordinates of p s in the next triangle *)
  assert (CY : co (X y) (X z) (X w) (p s) = co (X y) (X z) (X x) (p s) /\ co (X z) (X w) (X y) (p s) = co (X z) (X x) (X y) (p s) /\ co (X w) (X y) (X z) (p s) = 0%R).
  { destruct (co_of (X w) (X y) (X z) 0 (co (X y) (X z) (X x) (p s)) (co (X z) (X x) (X y) (p s)) (p s) O') as (Z1 & Z2 & Z3).
    - lra.
    - rewrite MIX at 1. rewrite C0. unfold mix. cbn [fst snd]. f_equal; ring.
    - auto. }
  destruct CY as (CY & CZ & CW).
  destruct (small _ (co (X y) (X z) (X w) r) P1) as (k1 & K10 & K11 & S1). destruct (small _ (co (X z) (X w) (X y) r) P2) as (k2 & K20 & K21 & S2).
  set (d := Rmin k1 k2). assert (M1 := Rmin_l k1 k2). assert (M2 := Rmin_r k1 k2). fold d in M1, M2. assert (M0 : (0 < d)%R) by (apply Rmin_glb_lt; assumption).
  set (s' := (s + (1 - s) * d)%R). assert (S' : (0 < s' < 1 /\ s < s')%R) by (unfold s'; clear - S M0 M1 K11; nra).
  assert (PS' : p s' = toward (p s) r d) by (unfold p, s'; symmetry; apply toward_toward).
  assert (I' : inside (X w) (X y) (X z) (p s')).
  { apply inside_co; [exact O'|]. rewrite PS', !(affine_toward _ _ _ _ (co_affine _ _ _)), CY, CZ, CW.
    split; [rewrite Rmult_0_r, Rplus_0_l; apply Rmult_lt_0_compat; assumption|]. split; [apply S1; lra|apply S2; lra]. }
  pose proof (proj1 (HT _ _ _) T) as (t0 & T0 & PE0).
  assert (IL : In t0 l) by (apply (A t0 x y z e T0 PE0); [lra|exact I]).
  destruct (IH (filter (fun a => negb (t0 =? a)) l) w y z s') as (k & LK & EK); [|apply (x_rot2 H), T'|lra|exact I'| |].
  - clear - IL. induction l as [|a l IHl]; [destruct IL|]. cbn [filter length]. destruct (t0 =? a) eqn:DA; cbn [negb].
    + assert (LE : length (filter (fun a => negb (t0 =? a)) l) <= length l) by (clear; induction l as [|b l IHl]; cbn; [lia|]; destruct (t0 =? b); cbn; lia). lia.
    + cbn [length]. destruct IL as [IL|IL]; [subst; rewrite Nat.eqb_refl in DA; discriminate|]. specialize (IHl IL). lia.
  - intros t2 x' y' z' e' T2 PE2 E' I2. apply filter_In. split; [apply (A t2 x' y' z' e' T2 PE2); [lra|exact I2]|].
    destruct (t0 =? t2) eqn:DA; [exfalso|reflexivity]. apply Nat.eqb_eq in DA. subst t2.
    assert (I3 : inside (X x) (X y) (X z) (p e')).
    { clear - PE0 PE2 I2. assert (R1 := inside_rot _ _ _ _ I2). assert (R2 := inside_rot _ _ _ _ R1). assert (R3 := inside_swap _ _ _ _ I2). assert (R4 := inside_swap _ _ _ _ R1). assert (R5 := inside_swap _ _ _ _ R2).
      unfold perm3 in PE0, PE2. decompose [or and] PE0; decompose [or and] PE2; subst; assumption. }
    apply inside_co in I3; [|exact O]. destruct I3 as [I3 _].
    assert (PE : exists k, (0 <= k <= 1)%R /\ p e' = toward (p s) r k).
    { exists ((e' - s) / (1 - s))%R. split; [|unfold p; rewrite toward_toward; f_equal; field; lra].
      split; [apply Rmult_le_pos; [lra|left; apply Rinv_0_lt_compat; lra]|]. apply Rmult_le_reg_r with (1 - s)%R; [lra|]. unfold Rdiv. rewrite Rmult_assoc, Rinv_l; lra. }
    destruct PE as (k & K0 & PE). rewrite PE, (affine_toward _ _ _ _ (co_affine _ _ _)), C0 in I3. clear - I3 K0 VX. nra.
  - exists (Datatypes.S k). split.
    + assert (LF : length (filter (fun a => negb (t0 =? a)) l) < length l).
      { clear - IL. induction l as [|a l IHl]; [destruct IL|]. cbn [filter length]. destruct (t0 =? a) eqn:DA; cbn [negb].
        + assert (LE : length (filter (fun a => negb (t0 =? a)) l) <= length l) by (clear; induction l as [|b l IHl]; cbn; [lia|]; destruct (t0 =? b); cbn; lia). lia.
        + cbn [length]. destruct IL as [IL|IL]; [subst; rewrite Nat.eqb_refl in DA; discriminate|]. specialize (IHl IL). lia. }
      clear - LF LK. lia.
    + apply (STEP k x y z w T VX T' WX EK).
Qed.

Lemma reach_from : forall N l x y z e, length l <= N -> K x y z -> (0 <= e < 1)%R -> inside (X x) (X y) (X z) (p e) -> ahead e l -> exists k, k < length l /\ E k x y z.
Proof using All.
  induction N as [|N IH]; intros l x y z e LN T ER I A.
  { exfalso. destruct l; [|cbn in LN; lia]. pose proof (proj1 (HT _ _ _) T) as (t0 & T0 & PE0). apply (A t0 x y z e T0 PE0 ltac:(lra) I). }
  assert (IH' : forall l' x y z e, length l' < length l -> K x y z -> (0 <= e < 1)%R -> inside (X x) (X y) (X z) (p e) -> ahead e l' -> exists k, k < length l' /\ E k x y z).
  { intros l' x' y' z' e' LL. apply IH. lia. }
  pose proof (x_area H _ _ _ T) as O. destruct (x_corner _ _ _ H _ _ _ T) as (BX & BY & BZ & D1 & D2 & D3).
  pose proof I as I0. apply inside_co in I; [|exact O]. destruct I as (I1 & I2 & I3).
  assert (O1 : orient (X y) (X z) (X x) <> 0%R) by (rewrite orient_rot; exact O). assert (O2 : orient (X z) (X x) (X y) <> 0%R) by (rewrite orient_rot; exact O1).
  assert (NZ0 : co (X x) (X y) (X z) r <> 0%R) by (apply co_nonzero; [exact O|apply GEN; congruence]).
  assert (NZ1 : co (X y) (X z) (X x) r <> 0%R) by (apply co_nonzero; [exact O1|apply GEN; congruence]).
  assert (NZ2 : co (X z) (X x) (X y) r <> 0%R) by (apply co_nonzero; [exact O2|apply GEN; congruence]).
  destruct (Rlt_le_dec (co (X x) (X y) (X z) r) 0) as [L1|L1]; [|destruct (Rlt_le_dec (co (X y) (X z) (X x) r) 0) as [L2|L2]; [|destruct (Rlt_le_dec (co (X z) (X x) (X y) r) 0) as [L3|L3]]].
  4: { exists 0. split; [|apply BASE; [exact T|]; apply inside_co; [exact O|]; lra].
    pose proof (proj1 (HT _ _ _) T) as (t0 & T0 & PE0). pose proof (A t0 x y z e T0 PE0 ltac:(lra) I0) as IL. clear - IL. destruct l; [destruct IL|cbn; lia]. }
  all: match goal with _ => assert (NEG : (co (X x) (X y) (X z) r < 0 \/ co (X y) (X z) (X x) r < 0 \/ co (X z) (X x) (X y) r < 0)%R) by auto end;
    destruct (leave_pick _ _ _ _ _ _ I1 I2 I3 NEG) as (t & TT & G1 & G2 & G3 & [(VN & Z)|[(VN & Z)|(VN & Z)]]);
    [apply (reach_leave l IH' x y z e t); assumption
    |destruct (reach_leave l IH' y z x e t) as (k & LK & EK); auto; [apply (x_rot _ _ _ H), T|apply inside_rot, I0|exists k; auto]
    |destruct (reach_leave l IH' z x y e t) as (k & LK & EK); auto; [apply (x_rot2 H), T|apply inside_rot, inside_rot, I0|exists k; auto]].
Qed.
End From.

Lemma reach x y z : K x y z -> exists k, k < length TS /\ E k x y z.
Proof using All.
  intros T. pose proof (x_area H _ _ _ T) as O.
  destruct (generic r (map X (seq 0 n))) with (F := [co (X x) (X y) (X z); co (X y) (X z) (X x); co (X z) (X x) (X y)]) (q := mix (1/3) (X x) (1/3) (X y) (1/3) (X z)) as (q & QF & QG).
  - intros u I. apply in_map_iff in I. destruct I as (w & <- & I). apply in_seq in I. intros EQ. pose proof (x_three _ _ _ H) as N3.
    assert (W : exists v, v < n /\ w <> v) by (destruct (Nat.eq_dec w 0); [exists 1|exists 0]; lia). destruct W as (v & V1 & V2). apply (GEN w v); [lia|exact V1|exact V2|]. rewrite EQ. unfold orient. ring.
  - repeat (constructor; [apply co_affine|]). constructor.
  - assert (I : inside (X x) (X y) (X z) q).
    { assert (I0 : inside (X x) (X y) (X z) (mix (1/3) (X x) (1/3) (X y) (1/3) (X z))) by (exists (1/3)%R, (1/3)%R, (1/3)%R; repeat (split; [lra|]); reflexivity).
      apply inside_co in I0; [|exact O]. destruct I0 as (J1 & J2 & J3). apply inside_co; [exact O|]. repeat split; apply QF; cbn [In]; auto. }
    refine (reach_from q _ (length TS) TS x y z 0%R (le_n _) T _ _ _).
    + intros u U. apply QG. apply in_map, in_seq. lia.
    + lra.
    + rewrite toward_0. exact I.
    + intros t x' y' z' e' IT _ _ _. exact IT.
Qed.
End Reach.
