(** Geometry of circles: the lifted plane of a triangle. *)
From Coq Require Import Reals List Lra Psatz Lia.
From Verif Require Import DelPlaneSpec DelPlane DelDiscSpec.
Import ListNotations.
Open Scope R_scope.

(** ** Affine functions *)
Definition affine (f : pt -> R) : Prop := exists A B C, forall q, f q = A * fst q + B * snd q + C.

Lemma affine_toward f r w d : affine f -> f (toward r w d) = (1 - d) * f r + d * f w.
Proof. intros (A & B & C & H). rewrite !H. unfold toward. cbn [fst snd]. ring. Qed.
Lemma affine_mix f x a y b z c : affine f -> x + y + z = 1 -> f (mix x a y b z c) = x * f a + y * f b + z * f c.
Proof. intros (A & B & C & H) S. rewrite !H. unfold mix. cbn [fst snd]. replace z with (1 - x - y) by lra. ring. Qed.
Lemma affine_orient b c : affine (fun q => orient b c q).
Proof. exists (- (snd c - snd b)), (fst c - fst b), (- (fst c - fst b) * snd b + (snd c - snd b) * fst b). intros q. unfold orient. ring. Qed.
Lemma affine_scale k f : affine f -> affine (fun q => k * f q).
Proof. intros (A & B & C & H). exists (k * A), (k * B), (k * C). intros q. rewrite H. ring. Qed.
Lemma affine_minus f h : affine f -> affine h -> affine (fun q => f q - h q).
Proof. intros (A & B & C & H) (A' & B' & C' & H'). exists (A - A'), (B - B'), (C - C'). intros q. rewrite H, H'. ring. Qed.
Lemma affine_orient1 b c : affine (fun q => orient q b c).
Proof. destruct (affine_orient b c) as (A & B & C & H). exists A, B, C. intros q. rewrite <- H. unfold orient. ring. Qed.

(** an affine function that vanishes at two points *)
Lemma affine_line f g d v q : affine f -> f g = 0 -> f d = 0 -> f q * orient g d v = f v * orient g d q.
Proof.
  intros (A & B & C & H) G D. rewrite H in *. assert (E : C = - A * fst g - B * snd g) by lra. subst C.
  assert (D' : A * (fst d - fst g) + B * (snd d - snd g) = 0) by lra. rewrite (H v). unfold orient.
  set (k := fst d - fst g) in *. set (l := snd d - snd g) in *.
  assert (K : (A * k + B * l) * ((fst q - fst g) * (snd v - snd g) - (fst v - fst g) * (snd q - snd g)) = 0) by (rewrite D'; ring).
  lra || nra.
Qed.

Lemma sqr_pos x : x <> 0 -> 0 < x * x.
Proof. exact (Rsqr_pos_lt x). Qed.
Lemma sqr_nneg x : 0 <= x * x.
Proof. exact (Rle_0_sqr x). Qed.
Lemma dist2_nneg p q : 0 <= dist2 p q.
Proof. unfold dist2. pose proof (sqr_nneg (fst p - fst q)). pose proof (sqr_nneg (snd p - snd q)). lra. Qed.

Lemma affine_zero f a b c q : affine f -> orient a b c <> 0 -> f a = 0 -> f b = 0 -> f c = 0 -> f q = 0.
Proof.
  intros F O A B C. pose proof (affine_line f a b c q F A B) as H. rewrite C in H. rewrite Rmult_0_l in H.
  apply Rmult_integral in H. tauto.
Qed.

Lemma cmp_same f g d v q : affine f -> f g = 0 -> f d = 0 -> 0 < orient g d v * orient g d q ->
  (0 < f v -> 0 < f q) /\ (0 <= f v -> 0 <= f q).
Proof.
  intros F G D S. pose proof (affine_line f g d v q F G D) as H. set (x := orient g d v) in *. set (y := orient g d q) in *.
  assert (X : x <> 0) by (intros E; rewrite E in S; lra).
  assert (E : f q = f v * (x * y) * / (x * x)) by (replace (f v * (x * y) * / (x * x)) with ((f v * y) * / x) by (field; exact X); rewrite <- H; field; exact X).
  assert (I : 0 < / (x * x)) by (apply Rinv_0_lt_compat, sqr_pos, X).
  rewrite E. split; intros K.
  - apply Rmult_lt_0_compat; [apply Rmult_lt_0_compat; assumption|exact I].
  - apply Rmult_le_pos; [apply Rmult_le_pos; lra|lra].
Qed.
Lemma cmp_opp f g d v q : affine f -> f g = 0 -> f d = 0 -> orient g d v * orient g d q < 0 ->
  (0 < f v -> f q < 0) /\ (0 <= f v -> f q <= 0).
Proof.
  intros F G D S. pose proof (affine_line f g d v q F G D) as H. set (x := orient g d v) in *. set (y := orient g d q) in *.
  assert (X : x <> 0) by (intros E; rewrite E in S; lra).
  assert (E : f q = - (f v * (- (x * y)) * / (x * x))) by (replace (- (f v * (- (x * y)) * / (x * x))) with ((f v * y) * / x) by (field; exact X); rewrite <- H; field; exact X).
  assert (I : 0 < / (x * x)) by (apply Rinv_0_lt_compat, sqr_pos, X).
  rewrite E. split; intros K.
  - assert (0 < f v * (- (x * y)) * / (x * x)); [|lra]. apply Rmult_lt_0_compat; [apply Rmult_lt_0_compat; lra|exact I].
  - assert (0 <= f v * (- (x * y)) * / (x * x)); [|lra]. apply Rmult_le_pos; [apply Rmult_le_pos; lra|lra].
Qed.

(** ** The lifted plane *)
Definition sq (p : pt) : R := fst p * fst p + snd p * snd p.
Definition plane (l : pt -> R) (a b c : pt) : Prop := affine l /\ l a = sq a /\ l b = sq b /\ l c = sq c.

Lemma plane_ex a b c : orient a b c <> 0 -> exists l, plane l a b c.
Proof.
  intros O. set (l := fun q => / orient a b c * (sq a * orient q b c + sq b * orient a q c + sq c * orient a b q)).
  assert (L : affine l).
  { apply affine_scale. destruct (affine_orient1 b c) as (A0 & B0 & C0 & H0). destruct (affine_orient a b) as (A2 & B2 & C2 & H2).
    destruct (affine_orient c a) as (A1 & B1 & C1 & H1).
    exists (sq a * A0 + sq b * A1 + sq c * A2), (sq a * B0 + sq b * B1 + sq c * B2), (sq a * C0 + sq b * C1 + sq c * C2).
    intros q. replace (orient a q c) with (orient c a q) by (unfold orient; ring). rewrite H0, H1, H2. ring. }
  exists l. split; [exact L|]. unfold l, orient in *. repeat split; field; exact O.
Qed.

Lemma plane_unique l l' a b c q : orient a b c <> 0 -> plane l a b c -> plane l' a b c -> l q = l' q.
Proof.
  intros O (L & A & B & C) (L' & A' & B' & C'). pose proof (affine_zero _ a b c q (affine_minus _ _ L L') O) as H. cbv beta in H.
  assert (l q - l' q = 0) by (apply H; lra). lra.
Qed.

Lemma plane_rot l a b c : plane l a b c -> plane l b c a.
Proof. unfold plane. tauto. Qed.
Lemma plane_swap l a b c : plane l a b c -> plane l b a c.
Proof. unfold plane. tauto. Qed.

Lemma circle_lift l a b c d : orient a b c <> 0 -> plane l a b c -> (in_circle a b c d <-> sq d < l d).
Proof.
  intros O L. split.
  - intros (o & E1 & E2 & H). set (l' := fun q => sq q - dist2 o q + dist2 o a).
    assert (L' : plane l' a b c).
    { split; [exists (2 * fst o), (2 * snd o), (dist2 o a - sq o); intros q; unfold l', sq, dist2; ring|]. unfold l'. lra. }
    rewrite (plane_unique _ _ _ _ _ d O L L'). unfold l'. lra.
  - intros H. destruct L as ((A & B & C & L) & LA & LB & LC). set (o := (A / 2, B / 2)). exists o.
    assert (D : forall q, dist2 o q = sq q - l q + C + sq o) by (intros q; rewrite L; unfold dist2, sq, o; cbn [fst snd]; field).
    rewrite !D. lra.
Qed.

Lemma circle_swap a b c d : in_circle a b c d -> in_circle b a c d.
Proof. intros (o & A & B & H). exists o. lra. Qed.
Lemma circle_rot a b c d : in_circle a b c d -> in_circle b c a d.
Proof. intros (o & A & B & H). exists o. lra. Qed.

Lemma inside_circle a b c d : orient a b c <> 0 -> inside a b c d -> in_circle a b c d.
Proof.
  intros O (x & y & z & X & Y & Z & S & ->). destruct (plane_ex a b c O) as (l & L). apply (circle_lift l _ _ _ _ O L).
  destruct L as (LA & A & B & C). rewrite (affine_mix _ _ _ _ _ _ _ LA S), A, B, C.
  assert (E : x * sq a + y * sq b + z * sq c - sq (mix x a y b z c) = x * y * dist2 a b + x * z * dist2 a c + y * z * dist2 b c).
  { replace z with (1 - x - y) by lra. unfold sq, mix, dist2. cbn [fst snd]. ring. }
  assert (D : 0 < dist2 a b).
  { unfold dist2. pose proof (sqr_nneg (fst a - fst b)) as N1. pose proof (sqr_nneg (snd a - snd b)) as N2.
    destruct (Req_dec (fst a - fst b) 0) as [P|P]; [|pose proof (sqr_pos _ P); lra].
    destruct (Req_dec (snd a - snd b) 0) as [Q|Q]; [|pose proof (sqr_pos _ Q); lra].
    exfalso. apply O. unfold orient. replace (fst b - fst a) with 0 by lra. replace (snd b - snd a) with 0 by lra. ring. }
  assert (D1 : 0 <= dist2 a c) by apply dist2_nneg. assert (D2 : 0 <= dist2 b c) by apply dist2_nneg.
  assert (0 < x * y * dist2 a b) by (apply Rmult_lt_0_compat; [apply Rmult_lt_0_compat; assumption|exact D]).
  assert (0 <= x * z * dist2 a c) by (apply Rmult_le_pos; [nra|exact D1]). assert (0 <= y * z * dist2 b c) by (apply Rmult_le_pos; [nra|exact D2]). lra.
Qed.

(** beyond ab and inside the circle: the quadrangle is convex *)
Lemma circle_crossed a b c d : orient a b c <> 0 -> in_circle a b c d -> orient a b c * orient a b d < 0 -> crossed a b c d.
Proof.
  intros O I S. split; [exact O|]. destruct (plane_ex a b c O) as (l & L). apply (circle_lift l _ _ _ _ O L) in I. destruct L as (LA & A & B & C).
  set (x := orient d b c / orient a b c). set (y := orient a d c / orient a b c). set (z := orient a b d / orient a b c).
  assert (SUM : x + y + z = 1) by apply (bary_sum a b c d O). assert (E : d = mix x a y b z c) by apply (bary a b c d O).
  assert (Z : z < 0).
  { assert (K : z * (orient a b c * orient a b c) = orient a b c * orient a b d) by (unfold z; field; exact O).
    pose proof (sqr_pos _ O). nra. }
  exists x, y, z. clearbody x y z. rewrite E in I. rewrite (affine_mix _ _ _ _ _ _ _ LA SUM), A, B, C in I.
  split; [|split; [|auto]].
  - destruct (Rlt_le_dec 0 x) as [X|X]; [exact X|exfalso].
    assert (Q : sq (mix x a y b z c) - (x * sq a + y * sq b + z * sq c) = dist2 (mix x a y b z c) b - x * dist2 a b - z * dist2 c b).
    { replace y with (1 - x - z) by lra. unfold sq, mix, dist2. cbn [fst snd]. ring. }
    assert (0 <= dist2 (mix x a y b z c) b) by apply dist2_nneg. assert (0 <= dist2 a b) by apply dist2_nneg. assert (0 <= dist2 c b) by apply dist2_nneg. nra.
  - destruct (Rlt_le_dec 0 y) as [X|X]; [exact X|exfalso].
    assert (Q : sq (mix x a y b z c) - (x * sq a + y * sq b + z * sq c) = dist2 (mix x a y b z c) a - y * dist2 b a - z * dist2 c a).
    { replace x with (1 - y - z) by lra. unfold sq, mix, dist2. cbn [fst snd]. ring. }
    assert (0 <= dist2 (mix x a y b z c) a) by apply dist2_nneg. assert (0 <= dist2 b a) by apply dist2_nneg. assert (0 <= dist2 c a) by apply dist2_nneg. nra.
Qed.

(** the same triangle side, three comparisons of circles through g and d *)
(* v inside the circle of g d x, u on the side of v, u not inside the circle of g d x: u not inside the circle of v g d *)
Lemma pencil_keep g d x v u : orient g d x <> 0 -> in_circle g d x v -> ~ in_circle g d x u -> 0 < orient g d v * orient g d u -> ~ in_circle v g d u.
Proof.
  intros O I N S J. assert (O' : orient v g d <> 0) by (intros E; replace (orient v g d) with (orient g d v) in E by (unfold orient; ring); rewrite E in S; lra).
  destruct (plane_ex _ _ _ O) as (l & L). destruct (plane_ex _ _ _ O') as (k & K).
  apply (circle_lift l _ _ _ _ O L) in I. rewrite (circle_lift l _ _ _ _ O L) in N. apply (circle_lift k _ _ _ _ O' K) in J.
  destruct L as (LA & G & D & X), K as (KA & V & G' & D').
  destruct (cmp_same _ g d v u (affine_minus _ _ LA KA)) as [H _]; [lra|lra|exact S|]. assert (0 < l u - k u) by (apply H; lra). lra.
Qed.
(* w not inside the circle of v g d, u beyond gd on the side of w, u inside the circle of v g d: u inside the circle of g d w *)
Lemma pencil_grow g d v w u : orient g d v <> 0 -> ~ in_circle v g d w -> in_circle v g d u -> 0 < orient g d w * orient g d u -> in_circle g d w u.
Proof.
  intros O N I S. assert (O' : orient v g d <> 0) by (intros E; apply O; rewrite <- E; unfold orient; ring).
  assert (O2 : orient g d w <> 0) by (intros E; rewrite E in S; lra).
  destruct (plane_ex _ _ _ O2) as (l & L). destruct (plane_ex _ _ _ O') as (k & K).
  apply (circle_lift l _ _ _ _ O2 L). rewrite (circle_lift k _ _ _ _ O' K) in N. apply (circle_lift k _ _ _ _ O' K) in I.
  destruct L as (LA & G & D & X), K as (KA & V & G' & D').
  destruct (cmp_same _ g d w u (affine_minus _ _ LA KA)) as [_ H]; [lra|lra|exact S|]. assert (0 <= l u - k u) by (apply H; lra). lra.
Qed.
(* v inside the circle of x y z beyond yz: x inside the circle of v y z *)
Lemma pencil_turn x y z v : orient y z x * orient y z v < 0 -> in_circle x y z v -> in_circle v y z x.
Proof.
  intros S I. assert (O : orient x y z <> 0) by (intros E; replace (orient y z x) with (orient x y z) in S by (unfold orient; ring); rewrite E in S; lra).
  assert (O' : orient v y z <> 0) by (intros E; replace (orient y z v) with (orient v y z) in S by (unfold orient; ring); rewrite E in S; lra).
  destruct (plane_ex _ _ _ O) as (l & L). destruct (plane_ex _ _ _ O') as (k & K).
  apply (circle_lift l _ _ _ _ O L) in I. apply (circle_lift k _ _ _ _ O' K).
  destruct L as (LA & X & Y & Z), K as (KA & V & Y' & Z').
  destruct (cmp_opp _ y z v x (affine_minus _ _ LA KA)) as [H _]; [lra|lra|lra|]. assert (l x - k x < 0) by (apply H; lra). lra.
Qed.
