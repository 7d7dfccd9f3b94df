(** Triangles in the plane: flips and divisions do not make triangles overlap. *)
From Coq Require Import Reals Lra Psatz.
From Verif Require Import DelPlaneSpec.
Open Scope R_scope.

Definition toward (r w : pt) (d : R) : pt := ((1 - d) * fst r + d * fst w, (1 - d) * snd r + d * snd w).

Ltac coords := unfold mix, toward, orient in *; repeat match goal with [ p : pt |- _ ] => destruct p as [? ?] end; cbn [fst snd] in *.

Lemma mix_swap x a y b z c : mix x a y b z c = mix y b x a z c.
Proof. coords. f_equal; ring. Qed.
Lemma mix_rot x a y b z c : mix x a y b z c = mix y b z c x a.
Proof. coords. f_equal; ring. Qed.

Lemma inside_swap a b c q : inside a b c q -> inside b a c q.
Proof. intros (x & y & z & X & Y & Z & S & ->). exists y, x, z. repeat (split; [assumption || lra|]). apply mix_swap. Qed.
Lemma inside_rot a b c q : inside a b c q -> inside b c a q.
Proof. intros (x & y & z & X & Y & Z & S & ->). exists y, z, x. repeat (split; [assumption || lra|]). apply mix_rot. Qed.
Lemma within_swap a b c q : within a b c q -> within b a c q.
Proof. intros (x & y & z & X & Y & Z & S & ->). exists y, x, z. repeat (split; [assumption || lra|]). apply mix_swap. Qed.
Lemma within_rot a b c q : within a b c q -> within b c a q.
Proof. intros (x & y & z & X & Y & Z & S & ->). exists y, z, x. repeat (split; [assumption || lra|]). apply mix_rot. Qed.

Lemma bary a b c q : orient a b c <> 0 ->
  q = mix (orient q b c / orient a b c) a (orient a q c / orient a b c) b (orient a b q / orient a b c) c.
Proof. intros O. coords. f_equal; field; exact O. Qed.
Lemma bary_sum a b c q : orient a b c <> 0 ->
  orient q b c / orient a b c + orient a q c / orient a b c + orient a b q / orient a b c = 1.
Proof. intros O. coords. field. exact O. Qed.

Lemma bary_ex a b c q : orient a b c <> 0 -> exists x y z, x + y + z = 1 /\ q = mix x a y b z c.
Proof. intros O. eexists _, _, _. split; [apply (bary_sum a b c q O)|apply (bary a b c q O)]. Qed.

(** weights are unique *)
Lemma bary_unique a b c x y z x' y' z' : orient a b c <> 0 -> x + y + z = 1 -> x' + y' + z' = 1 ->
  mix x a y b z c = mix x' a y' b z' c -> x = x' /\ y = y' /\ z = z'.
Proof.
  intros O S S' E. assert (Z : z = 1 - x - y) by lra. assert (Z' : z' = 1 - x' - y') by lra. subst z z'.
  destruct a as [a0 a1], b as [b0 b1], c as [c0 c1]. unfold mix, orient in *. cbn [fst snd] in *. injection E as E1 E2.
  assert (H1 : (x - x') * (a0 - c0) + (y - y') * (b0 - c0) = 0) by lra.
  assert (H2 : (x - x') * (a1 - c1) + (y - y') * (b1 - c1) = 0) by lra.
  assert (X : x = x').
  { apply Rminus_diag_uniq. apply (Rmult_eq_reg_r ((b0 - a0) * (c1 - a1) - (b1 - a1) * (c0 - a0))); [|exact O].
    transitivity (((x - x') * (a0 - c0) + (y - y') * (b0 - c0)) * (b1 - c1) - ((x - x') * (a1 - c1) + (y - y') * (b1 - c1)) * (b0 - c0)); [ring|].
    rewrite H1, H2. ring. }
  assert (Y : y = y').
  { apply Rminus_diag_uniq. apply (Rmult_eq_reg_r ((b0 - a0) * (c1 - a1) - (b1 - a1) * (c0 - a0))); [|exact O].
    transitivity (((x - x') * (a1 - c1) + (y - y') * (b1 - c1)) * (a0 - c0) - ((x - x') * (a0 - c0) + (y - y') * (b0 - c0)) * (a1 - c1)); [ring|].
    rewrite H1, H2. ring. }
  lra.
Qed.

Lemma small x w : 0 < x -> exists d, 0 < d /\ d < 1 /\ forall e, 0 <= e <= d -> 0 < (1 - e) * x + e * w.
Proof.
  intros X. pose proof (Rabs_pos w) as A. pose proof (Rle_abs (- w)) as B. rewrite Rabs_Ropp in B.
  exists (x / (2 * (x + Rabs w + x))). assert (D : 0 < 2 * (x + Rabs w + x)) by lra.
  assert (Q : x / (2 * (x + Rabs w + x)) * (2 * (x + Rabs w + x)) = x) by (field; lra).
  split; [apply Rdiv_lt_0_compat; lra|]. split; [apply (Rmult_lt_reg_r (2 * (x + Rabs w + x))); lra|].
  intros e [E0 E1]. assert (e * (2 * (x + Rabs w + x)) <= x) by (eapply Rle_trans; [apply Rmult_le_compat_r; [left; exact D|exact E1]|right; exact Q]).
  assert (0 <= e * (w + Rabs w)) by (apply Rmult_le_pos; lra). nra.
Qed.

(** an inner point may be moved a little in any direction *)
Lemma inside_open a b c r w : orient a b c <> 0 -> inside a b c r ->
  exists d, 0 < d /\ d < 1 /\ forall e, 0 <= e <= d -> inside a b c (toward r w e).
Proof.
  intros O (x & y & z & X & Y & Z & S & ->). destruct (bary_ex a b c w O) as (p & q & s & T & ->).
  destruct (small x p X) as (d1 & A1 & B1 & H1). destruct (small y q Y) as (d2 & A2 & B2 & H2). destruct (small z s Z) as (d3 & A3 & B3 & H3).
  exists (Rmin d1 (Rmin d2 d3)). split; [repeat apply Rmin_pos; assumption|].
  pose proof (Rmin_l d1 (Rmin d2 d3)). pose proof (Rmin_r d1 (Rmin d2 d3)). pose proof (Rmin_l d2 d3). pose proof (Rmin_r d2 d3).
  split; [lra|]. intros e E. exists ((1 - e) * x + e * p), ((1 - e) * y + e * q), ((1 - e) * z + e * s).
  split; [apply H1; lra|]. split; [apply H2; lra|]. split; [apply H3; lra|]. split.
  - transitivity ((1 - e) * (x + y + z) + e * (p + q + s)); [ring|rewrite S, T; ring].
  - coords. f_equal; ring.
Qed.

(** ** A convex quadrangle with the diagonals ab and cd *)
Definition crossed (a b c d : pt) : Prop :=
  orient a b c <> 0 /\ exists x y z, 0 < x /\ 0 < y /\ z < 0 /\ x + y + z = 1 /\ d = mix x a y b z c.

Lemma crossed_sym a b c d : crossed a b c d -> crossed a b d c.
Proof.
  intros (O & x & y & z & X & Y & Z & S & ->). split.
  - assert (E : orient a b (mix x a y b z c) = z * orient a b c).
    { assert (x = 1 - y - z) by lra. subst x. coords. ring. }
    rewrite E. apply Rmult_integral_contrapositive. split; [lra|exact O].
  - exists (x / - z), (y / - z), (1 / z). split; [apply Rdiv_lt_0_compat; lra|]. split; [apply Rdiv_lt_0_compat; lra|].
    split; [|split].
    + unfold Rdiv. rewrite Rmult_1_l. apply Rinv_lt_0_compat, Z.
    + assert (x = 1 - y - z) by lra. subst x. field. lra.
    + coords. f_equal; field; lra.
Qed.

Lemma crossed_swap a b c d : crossed a b c d -> crossed b a c d.
Proof.
  intros (O & x & y & z & X & Y & Z & S & ->). split.
  - intros E. apply O. replace (orient a b c) with (- orient b a c) by (coords; ring). rewrite E. ring.
  - exists y, x, z. repeat (split; [assumption || lra|]). apply mix_swap.
Qed.

(** a triangle at the other diagonal overlaps the first triangle *)
Lemma crossed_overlap a b c d w : crossed a b c d -> exists r, inside a b c r /\ inside c d w r.
Proof.
  intros (O & x & y & z & X & Y & Z & S & ->).
  destruct (small 1 z Rlt_0_1) as (e & E0 & E1 & H). specialize (H e (conj (Rlt_le _ _ E0) (Rle_refl _))).
  destruct (inside_open a b c (toward c (mix x a y b z c) e) w O) as (f & F0 & F1 & G).
  - exists (e * x), (e * y), ((1 - e) * 1 + e * z). split; [apply Rmult_lt_0_compat; assumption|]. split; [apply Rmult_lt_0_compat; assumption|].
    split; [exact H|]. split; [transitivity (1 - e + e * (x + y + z)); [ring|rewrite S; ring]|]. coords. f_equal; ring.
  - exists (toward (toward c (mix x a y b z c) e) w f). split; [apply G; lra|].
    exists ((1 - f) * (1 - e)), ((1 - f) * e), f.
    split; [apply Rmult_lt_0_compat; lra|]. split; [apply Rmult_lt_0_compat; lra|]. split; [exact F0|]. split; [ring|]. coords. f_equal; ring.
Qed.

(** the new triangles lie in the old ones *)
Lemma crossed_new a b c d r : crossed a b c d -> inside c d a r ->
  inside a b d r \/ forall e, 0 < e < 1 -> inside a b c (toward r c e).
Proof.
  intros (O & x & y & z & X & Y & Z & S & ->) (p & q & s & P0 & Q0 & S0 & T & ->).
  destruct (Rlt_le_dec (p + q * z) 0) as [K|K].
  - left. exists (s + p * (x / - z)), (p * (y / - z)), (q + p * / z).
    assert (I : 0 < - z) by lra.
    split; [apply Rplus_lt_0_compat; [exact S0|apply Rmult_lt_0_compat; [exact P0|apply Rdiv_lt_0_compat; lra]]|].
    split; [apply Rmult_lt_0_compat; [exact P0|apply Rdiv_lt_0_compat; lra]|].
    split.
    { apply (Rmult_lt_reg_r (- z)); [exact I|]. replace ((q + p * / z) * - z) with (- (p + q * z)) by (field; lra). lra. }
    split.
    { assert (x = 1 - y - z) by lra. subst x. replace p with (1 - q - s) by lra. field. lra. }
    coords. f_equal; field; lra.
  - right. intros e E. exists ((1 - e) * (s + q * x)), ((1 - e) * (q * y)), ((1 - e) * (p + q * z) + e).
    assert (0 < q * x) by (apply Rmult_lt_0_compat; assumption). assert (0 < q * y) by (apply Rmult_lt_0_compat; assumption).
    split; [apply Rmult_lt_0_compat; lra|]. split; [apply Rmult_lt_0_compat; lra|].
    split; [assert (0 <= (1 - e) * (p + q * z)) by (apply Rmult_le_pos; lra); lra|].
    split; [transitivity ((1 - e) * (p + s + q * (x + y + z)) + e); [ring|rewrite S; replace (p + s + q * 1) with 1 by lra; ring]|].
    coords. f_equal; ring.
Qed.

Lemma crossed_apart a b c d r : crossed a b c d -> inside c d a r -> inside c d b r -> False.
Proof.
  intros (O & x & y & z & X & Y & Z & S & ->) (p & q & s & P0 & Q0 & S0 & T & ->) (p' & q' & s' & P0' & Q0' & S0' & T' & E).
  assert (E' : mix (s + q * x) a (q * y) b (p + q * z) c = mix (q' * x) a (s' + q' * y) b (p' + q' * z) c).
  { transitivity (mix p c q (mix x a y b z c) s a); [coords; f_equal; ring|]. rewrite E. coords. f_equal; ring. }
  apply bary_unique in E'; [|exact O|..].
  - destruct E' as (E1 & E2 & _). assert (q' * x > q * x) by lra. assert (q * y > q' * y) by lra.
    assert (q' > q) by nra. nra.
  - transitivity (p + s + q * (x + y + z)); [ring|rewrite S; lra].
  - transitivity (p' + s' + q' * (x + y + z)); [ring|rewrite S; lra].
Qed.

(** ... and cover them *)
Lemma crossed_cover a b c d q : crossed a b c d -> within a b c q -> within c d a q \/ within c d b q.
Proof.
  intros (O & x & y & z & X & Y & Z & S & ->) (p & r & s & P0 & R0 & S0 & T & ->).
  destruct (Rle_lt_dec (p * y) (r * x)) as [K|K].
  - right. exists (s - p / x * z), (p / x), (r - p / x * y). assert (0 <= p / x) by (apply Rmult_le_pos; [exact P0|left; apply Rinv_0_lt_compat, X]).
    assert (Q : p / x * x = p) by (field; lra).
    split; [assert (0 <= p / x * - z) by (apply Rmult_le_pos; lra); lra|]. split; [assumption|].
    split. { apply (Rmult_le_reg_r x); [exact X|]. replace ((r - p / x * y) * x) with (r * x - p * y) by (field; lra). lra. }
    split; [transitivity (s + r + p / x * (1 - y - z)); [ring|]; replace (1 - y - z) with x by lra; lra|].
    coords. f_equal; field; lra.
  - left. exists (s - r / y * z), (r / y), (p - r / y * x). assert (0 <= r / y) by (apply Rmult_le_pos; [exact R0|left; apply Rinv_0_lt_compat, Y]).
    assert (Q : r / y * y = r) by (field; lra).
    split; [assert (0 <= r / y * - z) by (apply Rmult_le_pos; lra); lra|]. split; [assumption|].
    split. { apply (Rmult_le_reg_r y); [exact Y|]. replace ((p - r / y * x) * y) with (p * y - r * x) by (field; lra). lra. }
    split; [transitivity (s + p + r / y * (1 - x - z)); [ring|]; replace (1 - x - z) with y by lra; lra|].
    coords. f_equal; field; lra.
Qed.

(** ** A triangle divided at an inner point *)
Lemma divided_part a b c p r : inside a b c p -> inside a b p r -> inside a b c r.
Proof.
  intros (x & y & z & X & Y & Z & S & ->) (p' & q & s & P0 & Q0 & S0 & T & ->).
  exists (p' + s * x), (q + s * y), (s * z).
  assert (0 < s * x) by (apply Rmult_lt_0_compat; assumption). assert (0 < s * y) by (apply Rmult_lt_0_compat; assumption).
  split; [lra|]. split; [lra|]. split; [apply Rmult_lt_0_compat; assumption|]. split; [transitivity (p' + q + s * (x + y + z)); [ring|rewrite S; lra]|].
  coords. f_equal; ring.
Qed.

Lemma divided_apart a b c p r : orient a b c <> 0 -> inside a b c p -> inside a b p r -> inside b c p r -> False.
Proof.
  intros O (x & y & z & X & Y & Z & S & ->) (p' & q & s & P0 & Q0 & S0 & T & ->) (p2 & q2 & s2 & P2 & Q2 & S2 & T2 & E).
  assert (E' : mix (p' + s * x) a (q + s * y) b (s * z) c = mix (s2 * x) a (p2 + s2 * y) b (q2 + s2 * z) c).
  { transitivity (mix p' a q b s (mix x a y b z c)); [coords; f_equal; ring|]. rewrite E. coords. f_equal; ring. }
  apply bary_unique in E'; [|exact O|..].
  - destruct E' as (E1 & _ & E3). assert (s2 * x > s * x) by lra. assert (s * z > s2 * z) by lra.
    assert (s2 > s) by nra. nra.
  - transitivity (p' + q + s * (x + y + z)); [ring|rewrite S; lra].
  - transitivity (p2 + q2 + s2 * (x + y + z)); [ring|rewrite S; lra].
Qed.

Lemma divided_least x a y b z c p r s : 0 < x -> 0 < y -> 0 < z -> x + y + z = 1 -> 0 <= p -> 0 <= r -> 0 <= s -> p + r + s = 1 ->
  s * x <= p * z -> s * y <= r * z -> within a b (mix x a y b z c) (mix p a r b s c).
Proof.
  intros X Y Z S P0 R0 S0 T K1 K2. exists (p - s / z * x), (r - s / z * y), (s / z).
  assert (Q : s / z * z = s) by (field; lra).
  split. { apply (Rmult_le_reg_r z); [exact Z|]. replace ((p - s / z * x) * z) with (p * z - s * x) by (field; lra). lra. }
  split. { apply (Rmult_le_reg_r z); [exact Z|]. replace ((r - s / z * y) * z) with (r * z - s * y) by (field; lra). lra. }
  split; [apply Rmult_le_pos; [exact S0|left; apply Rinv_0_lt_compat, Z]|].
  split; [transitivity (p + r + s / z * (1 - x - y)); [ring|]; replace (1 - x - y) with z by lra; lra|].
  coords. f_equal; field; lra.
Qed.

Lemma divided_cover a b c p q : inside a b c p -> within a b c q -> within a b p q \/ within b c p q \/ within c a p q.
Proof.
  intros (x & y & z & X & Y & Z & S & ->) (u & v & w & U & V & W & T & ->).
  assert (D : (w * x <= u * z /\ w * y <= v * z) \/ (u * y <= v * x /\ u * z <= w * x) \/ (v * z <= w * y /\ v * x <= u * y)).
  { destruct (Rle_lt_dec (w * x) (u * z)) as [A|A].
    - destruct (Rle_lt_dec (w * y) (v * z)) as [B|B]; [left; auto|]. right; right. split; [lra|].
      apply Rnot_lt_le. intros C. assert (u * y * z < v * x * z) by (apply Rmult_lt_compat_r; lra).
      assert (v * z * x < w * y * x) by (apply Rmult_lt_compat_r; lra). assert (w * x * y <= u * z * y) by (apply Rmult_le_compat_r; lra). lra.
    - destruct (Rle_lt_dec (u * y) (v * x)) as [B|B]; [right; left; split; lra|]. right; right. split; [|lra].
      apply Rnot_lt_le. intros C. assert (v * x * z < u * y * z) by (apply Rmult_lt_compat_r; lra).
      assert (w * y * x < v * z * x) by (apply Rmult_lt_compat_r; lra). assert (u * z * y < w * x * y) by (apply Rmult_lt_compat_r; lra). lra. }
  destruct D as [[A B]|[[A B]|[A B]]].
  - left. apply divided_least; assumption.
  - right; left. rewrite (mix_rot x a), (mix_rot u a). apply divided_least; lra.
  - right; right. rewrite <- (mix_rot z c x a y b), <- (mix_rot w c u a v b). apply divided_least; lra.
Qed.
