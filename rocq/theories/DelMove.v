(** The triangles around a new vertex: dividing a triangle and flipping an illegal edge. *)
From Coq Require Import Reals List Bool Lra Psatz Lia Arith.
From Verif Require Import DelPlaneSpec DelPlane DelDiscSpec DelDisc DelWalk DelStar.
Import ListNotations.
Open Scope nat_scope.

Section Coordinates.
Local Open Scope R_scope.
Context {a b c : pt}.
Hypothesis (O : orient a b c <> 0).

Lemma co_bc q : orient b c q = co a b c q * orient a b c.
Proof. rewrite (orient_rot q b c). unfold co. field. exact O. Qed.
Lemma co_cross p q : orient a p q = (co b c a p * co c a b q - co c a b p * co b c a q) * orient a b c.
Proof.
  pose proof (co_sum _ _ _ p O) as SP. pose proof (co_mix _ _ _ p O) as MP. pose proof (co_sum _ _ _ q O) as SQ. pose proof (co_mix _ _ _ q O) as MQ.
  set (pa := co a b c p) in *. set (pb := co b c a p) in *. set (pc := co c a b p) in *. set (qa := co a b c q) in *. set (qb := co b c a q) in *. set (qc := co c a b q) in *.
  clearbody pa pb pc qa qb qc. assert (E : pa = 1 - pb - pc) by lra. assert (E' : qa = 1 - qb - qc) by lra. rewrite MP, MQ, E, E'. unfold mix, orient. cbn [fst snd]. ring.
Qed.
Lemma rot_ok : orient b c a <> 0.
Proof. rewrite orient_rot. exact O. Qed.
End Coordinates.

Lemma scaled x y k : (k <> 0 -> (0 < x * k * (y * k) <-> 0 < x * y))%R.
Proof.
  intros N. pose proof (sqr_pos k N) as P. replace (x * k * (y * k))%R with (x * y * (k * k))%R by ring. set (j := (k * k)%R) in *. set (i := (x * y)%R). clearbody i j. split; intros H; nra.
Qed.
Lemma scaled_neg x y k : (k <> 0 -> (x * k * (y * k) < 0 <-> x * y < 0))%R.
Proof.
  intros N. pose proof (sqr_pos k N) as P. replace (x * k * (y * k))%R with (x * y * (k * k))%R by ring. set (j := (k * k)%R) in *. set (i := (x * y)%R). clearbody i j. split; intros H; nra.
Qed.
Lemma circle_self a b c : ~ in_circle a b c c.
Proof. intros (o & A & B & C). lra. Qed.

Lemma frame a b c : orient a b c <> 0%R -> exists k (ca cb cc : pt -> R), (k <> 0 /\
  (forall p, orient b c p = ca p * k) /\ (forall p, orient c a p = cb p * k) /\ (forall p, orient a b p = cc p * k) /\
  (forall p q, orient a p q = (cb p * cc q - cc p * cb q) * k) /\ (forall p q, orient b p q = (cc p * ca q - ca p * cc q) * k) /\ (forall p q, orient c p q = (ca p * cb q - cb p * ca q) * k) /\
  (forall p, ca p = co a b c p /\ cb p = co b c a p /\ cc p = co c a b p) /\ (forall p, ca p + cb p + cc p = 1))%R.
Proof.
  intros O. exists (orient a b c), (co a b c), (co b c a), (co c a b). pose proof (rot_ok O) as O1. pose proof (rot_ok O1) as O2. assert (E1 := orient_rot a b c). assert (E2 := orient_rot b c a).
  split; [exact O|]. split; [exact (co_bc O)|]. split; [intros p; rewrite (co_bc O1), E1; reflexivity|]. split; [intros p; rewrite (co_bc O2), E2, E1; reflexivity|].
  split; [exact (co_cross O)|]. split; [intros p q; rewrite (co_cross O1), E1; reflexivity|]. split; [intros p q; rewrite (co_cross O2), E2, E1; reflexivity|].
  split; [auto|]. intros p. apply co_sum, O.
Qed.

Ltac by_frame F := rewrite <- F; unfold orient; ring.

(** ** A flip *)
Section Flip.
Context {K : tri3} {X : nat -> pt} {n v g d w : nat}.
Hypothesis (H : complex K X n) (V : 3 <= v < n) (S : star K X n v).
Hypothesis (T1 : K v g d) (T2 : K g d w) (WV : w <> v) (C : crossed (X g) (X d) (X v) (X w)).
Hypothesis (G1 : 3 <= g \/ 3 <= d) (G2 : 3 <= g -> 3 <= d -> 3 <= w /\ in_circle (X v) (X g) (X d) (X w)).

Lemma flip_near u : 3 <= g -> 3 <= w -> old n v u -> u <> g -> u <> w -> (0 < orient (X g) (X w) (X v) * orient (X g) (X w) (X u))%R -> ~ in_circle (X v) (X g) (X w) (X u).
Proof using All.
  intros G W U N1 N2 P. pose proof (x_area H _ _ _ T1) as O. destruct (x_corner _ _ _ H _ _ _ T1) as (BV & BG & BD & D1 & D2 & D3). destruct (x_corner _ _ _ H _ _ _ T2) as (_ & _ & BW & _ & D4 & D5).
  pose proof (x_opposite H g d v w (x_rot _ _ _ H _ _ _ T1) T2 ltac:(congruence)) as OP.
  assert (OG : old n v g) by (split; [lia|congruence]). assert (OW : old n v w) by (split; [lia|congruence]).
  destruct (le_lt_dec 3 d) as [D|D].
  - assert (OD : old n v d) by (split; [lia|congruence]). destruct (G2 G D) as [_ IC]. apply pencil_turn in IC; [|exact OP].
    apply (pencil_keep _ _ (X d)); [exact (x_area H _ _ _ (x_swap2 H _ _ _ T2))|apply circle_swap, IC| |exact P].
    destruct (Nat.eq_dec u d) as [->|ND]; [apply circle_self|]. apply (d_circle _ _ _ (s_old _ _ _ _ S)); auto. apply (x_swap2 H), T2.
  - exfalso. pose proof (d_hull _ _ _ (s_old _ _ _ _ S) d g w u (x_swap _ _ _ H _ _ _ T2) D OG OW U N1 N2) as HU.
    apply crossed_co in C. destruct C as (_ & C1 & C2 & C3).
    destruct (frame _ _ _ O) as (k & cv & cg & cd & KN & F1 & F2 & F3 & F4 & F5 & F6 & E & SM). destruct (E (X w)) as (E1 & E2 & E3). rewrite <- E1 in C3. rewrite <- E2 in C1. rewrite <- E3 in C2.
    assert (A1 : orient (X g) (X w) (X v) = (cd (X w) * k)%R) by by_frame F3. assert (A2 : orient (X g) (X w) (X d) = (- cv (X w) * k)%R) by (rewrite Ropp_mult_distr_l_reverse; by_frame F1).
    rewrite A1, F5, scaled in P by exact KN. rewrite A2, F5, scaled_neg in HU by exact KN. clear - P HU C1 C2 C3. set (j := (cd (X w) * cv (X u) - cv (X w) * cd (X u))%R) in *. clearbody j. nra.
Qed.

Lemma flip_cone1 u : g < 3 -> 3 <= w -> old n v u -> u <> w -> (0 < orient (X w) (X g) (X v) * orient (X w) (X g) (X u))%R -> ~ (0 < orient (X w) (X v) (X g) * orient (X w) (X v) (X u))%R.
Proof using All.
  intros G W U N1 P P'. pose proof (x_area H _ _ _ T1) as O. destruct (x_corner _ _ _ H _ _ _ T1) as (BV & BG & BD & D1 & D2 & D3). destruct (x_corner _ _ _ H _ _ _ T2) as (_ & _ & BW & _ & D4 & D5).
  assert (D : 3 <= d) by lia. assert (OD : old n v d) by (split; [lia|congruence]). assert (OW : old n v w) by (split; [lia|congruence]).
  apply crossed_co in C. destruct C as (_ & C1 & C2 & C3).
  destruct (frame _ _ _ O) as (k & cv & cg & cd & KN & F1 & F2 & F3 & F4 & F5 & F6 & E & SM). destruct (E (X w)) as (E1 & E2 & E3). rewrite <- E1 in C3. rewrite <- E2 in C1. rewrite <- E3 in C2.
  assert (A1 : orient (X w) (X g) (X v) = (- cd (X w) * k)%R) by (rewrite Ropp_mult_distr_l_reverse; by_frame F3).
  assert (A2 : orient (X w) (X g) (X u) = (- (cd (X w) * cv (X u) - cv (X w) * cd (X u)) * k)%R) by (rewrite Ropp_mult_distr_l_reverse; by_frame F5).
  assert (A3 : orient (X w) (X v) (X g) = (cd (X w) * k)%R) by by_frame F3.
  assert (A4 : orient (X w) (X v) (X u) = (- (cg (X w) * cd (X u) - cd (X w) * cg (X u)) * k)%R) by (rewrite Ropp_mult_distr_l_reverse; by_frame F4).
  rewrite A1, A2, scaled in P by exact KN. rewrite A3, A4, scaled in P' by exact KN.
  assert (Q1 : (cv (X w) * cd (X u) < cd (X w) * cv (X u))%R) by (clear - P C2; nra). assert (Q2 : (cg (X w) * cd (X u) < cd (X w) * cg (X u))%R) by (clear - P' C2; nra).
  destruct (Nat.eq_dec u d) as [->|ND].
  - destruct (E (X d)) as (_ & E5 & E6). assert (Z1 : cg (X d) = 0%R) by (rewrite E5; apply co_other). assert (Z2 : cd (X d) = 1%R) by (rewrite E6; apply co_self; apply (rot_ok (rot_ok O))). rewrite Z1, Z2 in Q2. lra.
  - pose proof (d_hull _ _ _ (s_old _ _ _ _ S) g d w u T2 G OD OW U ND N1) as HU.
    assert (A5 : orient (X d) (X w) (X g) = (cv (X w) * k)%R) by by_frame F1. rewrite A5, F6, scaled_neg in HU by exact KN.
    assert (Q3 : (cg (X w) * cv (X u) < cv (X w) * cg (X u))%R) by (clear - HU C3; nra). clear - Q1 Q2 Q3 C1 C2 C3.
    set (a := cv (X w)) in *. set (b := cg (X w)) in *. set (c := cd (X w)) in *. set (p := cv (X u)) in *. set (q := cg (X u)) in *. set (r := cd (X u)) in *. clearbody a b c p q r.
    assert (b * (a * r) < b * (c * p))%R by nra. assert (- a * (b * r) < - a * (c * q))%R by nra. assert (c * (b * p) < c * (a * q))%R by nra. lra.
Qed.

Lemma flip_cone2 u : 3 <= g -> w < 3 -> old n v u -> u <> g -> (0 < orient (X g) (X w) (X v) * orient (X g) (X w) (X u))%R -> ~ (0 < orient (X g) (X v) (X w) * orient (X g) (X v) (X u))%R.
Proof using All.
  intros G W (U & NU) N1 P P'. pose proof (x_area H _ _ _ T1) as O. destruct (x_corner _ _ _ H _ _ _ T1) as (BV & BG & BD & D1 & D2 & D3). destruct (x_corner _ _ _ H _ _ _ T2) as (_ & _ & BW & _ & D4 & D5).
  assert (D : d < 3) by (destruct (le_lt_dec 3 d) as [D|D]; [destruct (G2 G D); lia|exact D]).
  pose proof (x_side _ _ _ H d w g u D W D5 BG ltac:(lia) D3 D4 ltac:(lia) ltac:(lia)) as SD.
  assert (OU : orient (X g) (X d) (X u) <> 0%R) by (apply (x_gen _ _ _ H); lia || congruence).
  apply crossed_co in C. destruct C as (_ & C1 & C2 & C3). pose proof (s_cone _ _ _ _ S g d u T1 G D (conj U NU) N1) as SC.
  destruct (frame _ _ _ O) as (k & cv & cg & cd & KN & F1 & F2 & F3 & F4 & F5 & F6 & E & SM). destruct (E (X w)) as (E1 & E2 & E3). rewrite <- E1 in C3. rewrite <- E2 in C1. rewrite <- E3 in C2.
  assert (A1 : orient (X g) (X w) (X v) = (cd (X w) * k)%R) by by_frame F3. rewrite A1, F5, scaled in P by exact KN.
  assert (A2 : orient (X g) (X v) (X w) = (- cd (X w) * k)%R) by (rewrite Ropp_mult_distr_l_reverse; by_frame F3).
  assert (A3 : orient (X g) (X v) (X u) = (- cd (X u) * k)%R) by (rewrite Ropp_mult_distr_l_reverse; by_frame F3).
  rewrite A2, A3, scaled in P' by exact KN. assert (Q1 : (0 < cd (X u))%R) by (clear - P' C2; nra). assert (Q2 : (0 < cd (X w) * cv (X u) - cv (X w) * cd (X u))%R) by (clear - P C2; nra).
  assert (CVV : cv (X v) = 1%R) by (destruct (E (X v)) as (-> & _); apply co_self, O). assert (CDD : cd (X d) = 1%R) by (destruct (E (X d)) as (_ & _ & ->); apply co_self; apply (rot_ok (rot_ok O))).
  assert (A4 : orient (X g) (X v) (X d) = (- cd (X d) * k)%R) by (rewrite Ropp_mult_distr_l_reverse; by_frame F3).
  rewrite !F1, scaled, A4, A3, scaled, CVV, CDD in SC by exact KN. rewrite F1 in OU.
  destruct (Rtotal_order (cv (X u)) 0) as [L|[L|L]]; [|rewrite L in OU; lra|apply SC; lra].
  apply (x_no_inside H g d w u T2 ltac:(lia) N1 ltac:(lia) ltac:(lia)). apply inside_co; [exact (x_area H _ _ _ T2)|]. split; [apply co_pos; exact SD|]. split; apply co_pos.
  - assert (A5 : orient (X w) (X g) (X d) = (cv (X w) * k)%R) by by_frame F1.
    assert (A6 : orient (X w) (X g) (X u) = (- (cd (X w) * cv (X u) - cv (X w) * cd (X u)) * k)%R) by (rewrite Ropp_mult_distr_l_reverse; by_frame F5).
    rewrite A5, A6. apply scaled; [exact KN|]. clear - Q2 C3. nra.
  - rewrite !F1. apply scaled; [exact KN|]. clear - L C3. nra.
Qed.
End Flip.

Lemma star_flip (K K' : tri3) X n v g d w : complex K X n -> 3 <= v < n -> star K X n v -> K v g d -> K g d w -> w <> v -> crossed (X g) (X d) (X v) (X w) ->
  3 <= g \/ 3 <= d -> (3 <= g -> 3 <= d -> 3 <= w /\ in_circle (X v) (X g) (X d) (X w)) ->
  (forall x y z, K' x y z -> x <> v -> y <> v -> z <> v -> K x y z) ->
  (forall x y, K' v x y -> K v x y \/ (x = w /\ (y = g \/ y = d)) \/ (y = w /\ (x = g \/ x = d))) -> star K' X n v.
Proof.
  intros H V S T1 T2 WV C G1 G2 K1 K2. pose proof (x_swap2 H _ _ _ T1) as T1'. pose proof (x_swap _ _ _ H _ _ _ T2) as T2'.
  assert (C' : crossed (X d) (X g) (X v) (X w)) by (apply crossed_swap, C). assert (G1' : 3 <= d \/ 3 <= g) by tauto.
  assert (G2' : 3 <= d -> 3 <= g -> 3 <= w /\ in_circle (X v) (X d) (X g) (X w)) by (intros A B; destruct (G2 B A) as [P Q]; split; [exact P|apply circle_swap, circle_rot, circle_rot, Q || apply circle_swap, circle_rot, Q]).
  assert (NEAR : forall x u, x = g \/ x = d -> 3 <= x -> 3 <= w -> old n v u -> u <> x -> u <> w -> (0 < orient (X x) (X w) (X v) * orient (X x) (X w) (X u))%R -> ~ in_circle (X v) (X x) (X w) (X u)).
  { intros x u [-> | ->]; [apply (flip_near H V S T1 T2 WV C G1 G2)|apply (flip_near H V S T1' T2' WV C' G1' G2')]. }
  constructor.
  - constructor.
    + intros x y z u T OX OY OZ. apply (d_circle _ _ _ (s_old _ _ _ _ S)); auto. apply K1; [exact T|apply OX|apply OY|apply OZ].
    + intros a b c u T A OB OC. apply (d_hull _ _ _ (s_old _ _ _ _ S)); auto. apply K1; [exact T|lia|apply OB|apply OC].
  - intros x y u T BX BY OU N1 N2 P. destruct (K2 x y T) as [T'|[(-> & E)|(-> & E)]].
    + apply (s_near _ _ _ _ S); assumption.
    + intros IC. apply (NEAR y u E BY BX OU N2 N1); [|apply circle_swap, circle_rot, circle_rot, IC || apply circle_swap, circle_rot, IC].
      rewrite (orient_swap (X w) (X y) (X v)), (orient_swap (X w) (X y) (X u)). lra.
    + apply NEAR; assumption.
  - intros x a u T BX A OU N P. destruct (K2 x a T) as [T'|[(-> & [-> | ->])|(-> & [-> | ->])]].
    + apply (s_cone _ _ _ _ S); assumption.
    + apply (flip_cone1 H V S T1 T2 WV C G1 G2); assumption.
    + apply (flip_cone1 H V S T1' T2' WV C' G1' G2'); assumption.
    + apply (flip_cone2 H V S T1 T2 WV C G1 G2); assumption.
    + apply (flip_cone2 H V S T1' T2' WV C' G1' G2'); assumption.
Qed.

(** ** Dividing a triangle *)
Section Divide.
Context {K K' : tri3} {X : nat -> pt} {v : nat}.
Hypothesis (H : complex K X v) (V : 3 <= v) (DEL : delaunay_on (all v) K X).
Hypothesis (K1 : forall x y z, K' x y z -> x <> v -> y <> v -> z <> v -> K x y z).
Hypothesis (K2 : forall x y, K' v x y -> exists z, K x y z /\ inside (X x) (X y) (X z) (X v)).

Lemma star_divide : star K' X (S v) v.
Proof.
  assert (OLD : forall u, old (S v) v u -> all v u) by (unfold old, all; intros; lia).
  constructor.
  - constructor.
    + intros x y z u T OX OY OZ OU. apply (d_circle _ _ _ DEL); auto. apply K1; [exact T|apply OX|apply OY|apply OZ].
    + intros a b c u T A OB OC OU. apply (d_hull _ _ _ DEL); auto. apply K1; [exact T|lia|apply OB|apply OC].
  - intros x y u T BX BY OU N1 N2 P. destruct (K2 x y T) as (z & TZ & I). pose proof (x_area H _ _ _ TZ) as O. destruct (x_corner _ _ _ H _ _ _ TZ) as (RX & RY & RZ & D1 & D2 & D3).
    destruct (le_lt_dec 3 z) as [Z|Z].
    + apply (pencil_keep _ _ (X z)); [exact O|apply inside_circle; assumption| |exact P]. destruct (Nat.eq_dec u z) as [->|NZ]; [apply circle_self|].
      apply (d_circle _ _ _ DEL); auto; unfold all; lia.
    + exfalso. pose proof (d_hull _ _ _ DEL z x y u (x_rot2 H _ _ _ TZ) Z ltac:(unfold all; lia) ltac:(unfold all; lia) (OLD _ OU) N1 N2) as HU.
      apply inside_co in I; [|exact O]. destruct I as (I1 & I2 & I3). apply co_pos in I3. clear - P HU I3. set (a := orient (X x) (X y) (X z)) in *. assert (NA : (a <> 0)%R) by (intros E; rewrite E in I3; lra). pose proof (sqr_pos a NA). nra.
  - intros x a u T BX A OU N P P'. destruct (K2 x a T) as (z & TZ & I). pose proof (x_area H _ _ _ TZ) as O. destruct (x_corner _ _ _ H _ _ _ TZ) as (RX & RY & RZ & D1 & D2 & D3).
    apply inside_co in I; [|exact O]. destruct I as (I1 & I2 & I3). pose proof (OLD _ OU) as AU. destruct AU as [AU1 AU2].
    destruct (frame _ _ _ O) as (k & cx & ca & cz & KN & F1 & F2 & F3 & F4 & F5 & F6 & E & SM). destruct (E (X v)) as (E1 & E2 & E3). rewrite <- E1 in I1. rewrite <- E2 in I2. rewrite <- E3 in I3.
    rewrite !F3, scaled in P by exact KN. assert (Q1 : (0 < cz (X u))%R) by (clear - P I3; nra).
    assert (A1 : orient (X x) (X v) (X a) = (- cz (X v) * k)%R) by (rewrite Ropp_mult_distr_l_reverse; by_frame F3). rewrite A1, F4, scaled in P' by exact KN.
    assert (Q2 : (0 < ca (X u))%R) by (clear - P' I2 I3 Q1; assert (0 < cz (X v) * ca (X u) - ca (X v) * cz (X u))%R by nra; assert (0 < ca (X v) * cz (X u))%R by nra; nra).
    destruct (le_lt_dec 3 z) as [Z|Z].
    + destruct (Nat.eq_dec u z) as [->|NZ].
      { destruct (E (X z)) as (_ & E5 & _). rewrite E5 in Q2. destruct (co_other (X a) (X z) (X x)) as [Y _]. lra. }
      pose proof (d_hull _ _ _ DEL a x z u (x_swap _ _ _ H _ _ _ TZ) A ltac:(unfold all; lia) ltac:(unfold all; lia) (conj AU1 AU2) N NZ) as HU.
      rewrite (orient_swap (X z) (X x) (X a)), (orient_swap (X z) (X x) (X u)), !F2 in HU. assert (CAA : ca (X a) = 1%R) by (destruct (E (X a)) as (_ & -> & _); apply co_self; apply (rot_ok O)).
      rewrite CAA in HU. replace (- (1 * k) * - (ca (X u) * k))%R with (1 * k * (ca (X u) * k))%R in HU by ring. rewrite scaled_neg in HU by exact KN. lra.
    + apply (x_no_inside H x a z u TZ AU2 N ltac:(lia) ltac:(lia)). apply inside_co; [exact O|]. split; [|destruct (E (X u)) as (_ & <- & <-); auto].
      apply co_pos. apply (x_side _ _ _ H); lia || congruence.
Qed.
End Divide.
