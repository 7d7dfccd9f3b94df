(** The triangles between points of the user cover their convex hull. *)
From Coq Require Import ZArith List Bool Arith Lia Reals Lra Psatz.
From Verif Require Import Outcome DelModel DelSpec DelFields DelRewire DelFlip DelFlip2 DelDivide DelSplit DelHist DelPlaneSpec DelPlane DelGen DelRun DelRun2.
From Verif Require Import DelDiscSpec DelDisc DelWalk DelStar DelMove DelMesh DelLegal.
Import ListNotations.
Open Scope nat_scope.

Section Cover.
Context {K : tri3} {X : nat -> pt} {n : nat}.
Hypothesis (H : complex K X n) (D : delaunay_on (all n) K X).
Variables (x y z : nat).
Hypothesis (UX : all n x) (UY : all n y) (UZ : all n z) (O : orient (X x) (X y) (X z) <> 0%R).

Lemma triple_distinct : x <> y /\ x <> z /\ y <> z.
Proof using O. clear - O. repeat split; intros ->; apply O; unfold orient; ring. Qed.

(** a point of the hull is beyond no edge of a bounding vertex *)
Lemma hull_side a b c p : K a b c -> a < 3 -> all n b -> all n c -> inside (X x) (X y) (X z) p -> (orient (X b) (X c) (X a) * orient (X b) (X c) p < 0)%R.
Proof using All.
  intros T A B C (r & s & t & R & S & T0 & SM & ->). rewrite (affine_mix _ _ _ _ _ _ _ (affine_orient _ _) SM).
  destruct (x_corner _ _ _ H _ _ _ T) as (_ & _ & _ & _ & _ & BC). destruct triple_distinct as (N1 & N2 & N3).
  assert (W : forall u, all n u -> (orient (X b) (X c) (X a) * orient (X b) (X c) (X u) <= 0)%R /\ (u <> b -> u <> c -> orient (X b) (X c) (X a) * orient (X b) (X c) (X u) < 0)%R).
  { intros u U. assert (P0 : u <> b -> u <> c -> (orient (X b) (X c) (X a) * orient (X b) (X c) (X u) < 0)%R) by (intros; apply (d_hull _ _ _ D a b c u); assumption).
    split; [|exact P0]. destruct (Nat.eq_dec u b) as [->|M1]; [right; unfold orient; ring|]. destruct (Nat.eq_dec u c) as [->|M2]; [right; unfold orient; ring|]. left. auto. }
  destruct (W x UX) as [X0 X1]. destruct (W y UY) as [Y0 Y1]. destruct (W z UZ) as [Z0 Z1]. set (k := orient (X b) (X c) (X a)) in *.
  assert (POS : (k * orient (X b) (X c) (X x) < 0 \/ k * orient (X b) (X c) (X y) < 0 \/ k * orient (X b) (X c) (X z) < 0)%R).
  { destruct (Nat.eq_dec x b) as [E1|E1]; [|destruct (Nat.eq_dec x c) as [E2|E2]; [|auto]]; (destruct (Nat.eq_dec y b) as [E3|E3]; [|destruct (Nat.eq_dec y c) as [E4|E4]; [|auto]]); try congruence;
      right; right; apply Z1; congruence. }
  clear - R S T0 X0 Y0 Z0 POS. replace (k * (r * orient (X b) (X c) (X x) + s * orient (X b) (X c) (X y) + t * orient (X b) (X c) (X z)))%R
    with (r * (k * orient (X b) (X c) (X x)) + s * (k * orient (X b) (X c) (X y)) + t * (k * orient (X b) (X c) (X z)))%R by ring.
  set (ka := (k * orient (X b) (X c) (X x))%R) in *. set (kb := (k * orient (X b) (X c) (X y))%R) in *. set (kc := (k * orient (X b) (X c) (X z))%R) in *. clearbody ka kb kc.
  assert (r * ka <= 0)%R by nra. assert (s * kb <= 0)%R by nra. assert (t * kc <= 0)%R by nra.
  destruct POS as [G|[G|G]]; [assert (r * ka < 0)%R by nra|assert (s * kb < 0)%R by nra|assert (t * kc < 0)%R by nra]; lra.
Qed.

(** a triangle with two bounding vertices does not meet the hull *)
Lemma two_bound a a' b q : K a a' b -> a < 3 -> a' < 3 -> 3 <= b -> inside (X a) (X a') (X b) q -> inside (X x) (X y) (X z) q -> False.
Proof using All.
  intros T A A' B I J. destruct triple_distinct as (N1 & N2 & N3). destruct (x_corner _ _ _ H _ _ _ T) as (RA & RA' & RB & _). assert (UB : all n b) by (unfold all; lia).
  assert (EU : exists u, (u = x \/ u = y \/ u = z) /\ u <> b) by (destruct (Nat.eq_dec x b) as [->|N]; [exists y|exists x]; auto).
  destruct EU as (u & EU & NU). assert (UU : all n u) by (destruct EU as [->|[->| ->]]; assumption).
  pose proof (x_area H _ _ _ T) as OT.
  destruct (generic_v H UU [co (X a) (X a') (X b); co (X a') (X b) (X a); co (X b) (X a) (X a'); co (X x) (X y) (X z); co (X y) (X z) (X x); co (X z) (X x) (X y)] q) as (p & PF & PG).
  { repeat (constructor; [apply co_affine|]). constructor. }
  apply inside_co in I; [|exact OT]. apply inside_co in J; [|exact O]. destruct I as (I1 & I2 & I3). destruct J as (J1 & J2 & J3).
  assert (I : inside (X a) (X a') (X b) p) by (apply inside_co; [exact OT|]; repeat split; apply PF; cbn [In]; auto 10).
  assert (J : inside (X x) (X y) (X z) p) by (apply inside_co; [exact O|]; repeat split; apply PF; cbn [In]; auto 10).
  assert (SEG : forall e, (0 < e < 1)%R -> inside (X x) (X y) (X z) (toward p (X u) e)).
  { intros e E. clear - J EU E O. apply inside_co in J; [|exact O]. destruct J as (J1 & J2 & J3). apply inside_co; [exact O|]. rewrite !(affine_toward _ _ _ _ (co_affine _ _ _)).
    assert (O1 := rot_ok O). assert (O2 := rot_ok O1).
    assert (Z : (0 <= co (X x) (X y) (X z) (X u) /\ 0 <= co (X y) (X z) (X x) (X u) /\ 0 <= co (X z) (X x) (X y) (X u))%R).
    { destruct (co_other (X x) (X y) (X z)) as [C1 C2]. destruct (co_other (X y) (X z) (X x)) as [C3 C4]. destruct (co_other (X z) (X x) (X y)) as [C5 C6].
      pose proof (co_self _ _ _ O) as S1. pose proof (co_self _ _ _ O1) as S2. pose proof (co_self _ _ _ O2) as S3. destruct EU as [->|[->| ->]]; lra. }
    repeat split; nra. }
  apply (walk H u p (fun s t r => (s = b /\ t < 3 /\ r < 3) \/ (t = b /\ s < 3 /\ r < 3) \/ (r = b /\ s < 3 /\ t < 3))) with (x := a) (y := a') (z := b); try assumption; try (exact (proj2 UU)); try (clear - UU A A' NU; unfold all in UU; lia); auto.
  clear a a' T A A' I RA RA' OT PF I1 I2 I3. intros s t r w e T NS NT NR F E CS CT CR CU T' NW.
  destruct (x_corner _ _ _ H _ _ _ T) as (BS & BT & BR & D1 & D2 & D3). destruct (x_corner _ _ _ H _ _ _ T') as (_ & _ & BW & _ & D4 & D5). pose proof (x_area H _ _ _ T) as OT. pose proof (x_area H _ _ _ T') as OT'.
  set (m := toward p (X u) e) in *.
  (* the point on the side t r that is left *)
  assert (M : m = mix 0 (X s) (co (X t) (X r) (X s) m) (X t) (co (X r) (X s) (X t) m) (X r)) by (rewrite <- CS; apply co_mix, OT).
  pose proof (co_sum _ _ _ m OT) as SM. rewrite CS in SM.
  assert (NOSIDE : ~ (t < 3 /\ r < 3)).
  { intros [T3 R3]. apply co_neg in CU. pose proof (x_side _ _ _ H t r s u T3 R3 D3 BS ltac:(unfold all in UU; lia) D1 D2 ltac:(congruence) ltac:(congruence)). lra. }
  assert (INNER : 3 <= w -> False).
  { intros W. assert (UW : all n w) by (unfold all; lia). specialize (SEG e E). fold m in SEG.
    destruct F as [F|[(-> & S3 & R3)|(-> & S3 & T3)]]; [apply NOSIDE, F| |].
    - (* bounding r, edge b w *)
      pose proof (hull_side r b w m (x_swap _ _ _ H _ _ _ T') R3 UB UW SEG) as HS. rewrite M in HS. rewrite (affine_mix _ _ _ _ _ _ _ (affine_orient _ _)) in HS by lra.
      replace (orient (X b) (X w) (X b)) with 0%R in HS by (unfold orient; ring). assert (OW : orient (X b) (X w) (X r) <> 0%R) by (rewrite orient_flip; lra). pose proof (sqr_pos _ OW). clear - HS CR H0. nra.
    - pose proof (hull_side t b w m T' T3 UB UW SEG) as HS. rewrite M in HS. rewrite (affine_mix _ _ _ _ _ _ _ (affine_orient _ _)) in HS by lra.
      replace (orient (X b) (X w) (X b)) with 0%R in HS by (unfold orient; ring). assert (OW : orient (X b) (X w) (X t) <> 0%R) by (rewrite orient_rot; exact OT'). pose proof (sqr_pos _ OW). clear - HS CT H0. nra. }
  destruct (le_lt_dec 3 w) as [W|W]; [destruct (INNER W)|]. split; [clear - UU W; unfold all in UU; lia|].
  destruct F as [F|[(-> & S3 & R3)|(-> & S3 & T3)]]; [destruct (NOSIDE (proj2 F))|auto|auto].
Qed.

Lemma cover a b c q : K a b c -> within (X a) (X b) (X c) q -> inside (X x) (X y) (X z) q -> 3 <= a /\ 3 <= b /\ 3 <= c.
Proof using All.
  intros T IW IN. pose proof (x_area H _ _ _ T) as OT. destruct (x_corner _ _ _ H _ _ _ T) as (RA & RB & RC & D1 & D2 & D3).
  (* one bounding vertex *)
  assert (ONE : forall a b c, K a b c -> within (X a) (X b) (X c) q -> a < 3 -> 3 <= b -> 3 <= c -> False).
  { clear a b c T IW OT RA RB RC D1 D2 D3. intros a b c T (r & s & t & R & S & T0 & SM & E) A B C. destruct (x_corner _ _ _ H _ _ _ T) as (RA & RB & RC & _).
    pose proof (hull_side a b c q T A ltac:(unfold all; lia) ltac:(unfold all; lia) IN) as HS. rewrite E, (affine_mix _ _ _ _ _ _ _ (affine_orient _ _) SM) in HS.
    replace (orient (X b) (X c) (X b)) with 0%R in HS by (unfold orient; ring). replace (orient (X b) (X c) (X c)) with 0%R in HS by (unfold orient; ring).
    set (k := orient (X b) (X c) (X a)) in *. clearbody k. clear - HS R. assert (0 <= r * (k * k))%R by (apply Rmult_le_pos; [exact R|nra]). lra. }
  assert (TWO : forall a a' b, K a a' b -> within (X a) (X a') (X b) q -> a < 3 -> a' < 3 -> 3 <= b -> False).
  { clear a b c T IW OT RA RB RC D1 D2 D3 ONE. intros a a' b T (r & s & t & R & S & T0 & SM & E) A A' B.
    destruct (inside_open _ _ _ q (mix (1/3) (X a) (1/3) (X a') (1/3) (X b)) O IN) as (d & D0 & D1 & G).
    apply (two_bound a a' b (toward q (mix (1/3) (X a) (1/3) (X a') (1/3) (X b)) d)); auto; [|apply G; lra].
    exists ((1 - d) * r + d * (1/3))%R, ((1 - d) * s + d * (1/3))%R, ((1 - d) * t + d * (1/3))%R. clear - R S T0 SM E D0 D1.
    assert (0 <= (1 - d) * r)%R by (apply Rmult_le_pos; lra). assert (0 <= (1 - d) * s)%R by (apply Rmult_le_pos; lra). assert (0 <= (1 - d) * t)%R by (apply Rmult_le_pos; lra).
    split; [lra|]. split; [lra|]. split; [lra|]. split; [transitivity ((1 - d) * (r + s + t) + d)%R; [lra|rewrite SM; ring]|]. rewrite E. unfold toward, mix. cbn [fst snd]. f_equal; ring. }
  assert (THREE : a < 3 -> b < 3 -> c < 3 -> False).
  { intros A B C. apply (x_no_inside H a b c x T); [clear - A B C UX; unfold all in UX; lia..|]. assert (N : x <> a /\ x <> b /\ x <> c) by (clear - A B C UX; unfold all in UX; lia). destruct N as (NA & NB & NC). assert (UN : x < n) by apply UX.
    apply inside_co; [exact OT|]. repeat split; apply co_pos; apply (x_side _ _ _ H); auto. }
  destruct (le_lt_dec 3 a) as [A|A]; destruct (le_lt_dec 3 b) as [B|B]; destruct (le_lt_dec 3 c) as [C|C]; auto; exfalso.
  - apply (ONE c a b); [apply (x_rot2 H), T|apply within_rot, within_rot, IW|assumption..].
  - apply (ONE b c a); [apply (x_rot _ _ _ H), T|apply within_rot, IW|assumption..].
  - apply (TWO b c a); [apply (x_rot _ _ _ H), T|apply within_rot, IW|assumption..].
  - apply (ONE a b c); assumption.
  - apply (TWO c a b); [apply (x_rot2 H), T|apply within_rot, within_rot, IW|assumption..].
  - apply (TWO a b c); assumption.
  - auto.
Qed.
End Cover.
