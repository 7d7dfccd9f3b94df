(** Points in general position: the mesh stays planar. *)
From Coq Require Import ZArith List Bool Arith Lia Reals Lra Psatz.
From Verif Require Import Outcome DelModel DelSpec DelFields DelRewire DelFlip DelFlip2 DelDivide DelSplit DelHist DelPlaneSpec DelPlane.
Import ListNotations.
Open Scope nat_scope.

Section Gen.
Context {P : Type}.
Variable pos : P -> pt.
Variable g : geometry P.
Hypothesis SIDES : exact_sides pos g.
Implicit Types m : mesh P.

Notation AT := (at_vertex pos).
Notation OPEN := (in_open pos).
Notation CLOSED := (in_closed pos).

(** the vertices of the mesh are in general position *)
Definition general m : Prop :=
  forall u v, u < nv m -> v < nv m -> u <> v -> g_equal g (POS m u) (POS m v) = false /\
  forall w, w < nv m -> w <> u -> w <> v -> orient (AT m u) (AT m v) (AT m w) <> 0%R /\ g_onSegment g (POS m u) (POS m v) (POS m w) = false.

Lemma perm_open m t x y z q : perm3 (TV m t) x y z -> (OPEN m t q <-> inside (AT m x) (AT m y) (AT m z) q).
Proof.
  unfold in_open. intros H. unfold perm3 in H.
  decompose [or and] H; clear H; repeat match goal with [ H : TV m t _ = _ |- _ ] => rewrite H; clear H end; split; intros H; auto using inside_swap, inside_rot.
Qed.
Lemma perm_closed m t x y z q : perm3 (TV m t) x y z -> (CLOSED m t q <-> within (AT m x) (AT m y) (AT m z) q).
Proof.
  unfold in_closed. intros H. unfold perm3 in H.
  decompose [or and] H; clear H; repeat match goal with [ H : TV m t _ = _ |- _ ] => rewrite H; clear H end; split; intros H; auto using within_swap, within_rot.
Qed.

(** ** The tests of the code *)
Lemma same_strict a b p q : orient (pos a) (pos b) (pos p) <> 0%R -> orient (pos a) (pos b) (pos q) <> 0%R -> g_sameSide g a b p q = true ->
  (0 < orient (pos a) (pos b) (pos p) * orient (pos a) (pos b) (pos q))%R.
Proof.
  intros A B H. apply SIDES in H. destruct H as [H|H]; [exact H|]. exfalso. symmetry in H. apply Rmult_integral in H. tauto.
Qed.

Lemma quot_pos x y : (y <> 0 -> 0 < x * y -> 0 < x / y)%R.
Proof.
  intros Y H. replace (x / y)%R with ((x * y) * (/ y * / y))%R by (field; exact Y). apply Rmult_lt_0_compat; [exact H|].
  assert (/ y <> 0)%R by (apply Rinv_neq_0_compat, Y). nra.
Qed.

Lemma inside_test a b c p : orient (pos a) (pos b) (pos c) <> 0%R -> orient (pos a) (pos b) (pos p) <> 0%R ->
  orient (pos a) (pos c) (pos p) <> 0%R -> orient (pos b) (pos c) (pos p) <> 0%R ->
  isInsideTriangle g a b c p = true -> inside (pos a) (pos b) (pos c) (pos p).
Proof.
  intros O O1 O2 O3 H. unfold isInsideTriangle in H. apply andb_true_iff in H. destruct H as [H H3]. apply andb_true_iff in H. destruct H as [H1 H2].
  assert (E2 : orient (pos a) (pos c) (pos b) = (- orient (pos a) (pos b) (pos c))%R) by (unfold orient; ring).
  assert (E3 : orient (pos b) (pos c) (pos a) = orient (pos a) (pos b) (pos c)) by (unfold orient; ring).
  apply same_strict in H1; [|assumption..]. apply same_strict in H2; [|assumption|rewrite E2; lra]. apply same_strict in H3; [|assumption|rewrite E3; assumption].
  rewrite E2 in H2. rewrite E3 in H3.
  exists (orient (pos p) (pos b) (pos c) / orient (pos a) (pos b) (pos c))%R, (orient (pos a) (pos p) (pos c) / orient (pos a) (pos b) (pos c))%R,
    (orient (pos a) (pos b) (pos p) / orient (pos a) (pos b) (pos c))%R.
  split. { apply quot_pos; [exact O|]. replace (orient (pos p) (pos b) (pos c)) with (orient (pos b) (pos c) (pos p)) by (unfold orient; ring). exact H3. }
  split. { apply quot_pos; [exact O|]. replace (orient (pos a) (pos p) (pos c)) with (- orient (pos a) (pos c) (pos p))%R by (unfold orient; ring). lra. }
  split. { apply quot_pos; [exact O|exact H1]. }
  split; [apply bary_sum, O|apply bary, O].
Qed.

Lemma convex_test a c b d : orient (pos a) (pos b) (pos c) <> 0%R -> orient (pos a) (pos b) (pos d) <> 0%R ->
  orient (pos a) (pos c) (pos d) <> 0%R -> orient (pos b) (pos c) (pos d) <> 0%R ->
  isABCDConvex g a c b d = true -> crossed (pos a) (pos b) (pos c) (pos d).
Proof.
  intros O O1 O2 O3 H. unfold isABCDConvex in H. apply andb_true_iff in H. destruct H as [H H4]. apply andb_true_iff in H. destruct H as [H _].
  apply andb_true_iff in H. destruct H as [H1 H2].
  assert (E1 : orient (pos a) (pos c) (pos b) = (- orient (pos a) (pos b) (pos c))%R) by (unfold orient; ring).
  assert (E2 : orient (pos c) (pos b) (pos a) = (- orient (pos a) (pos b) (pos c))%R) by (unfold orient; ring).
  assert (E3 : orient (pos c) (pos b) (pos d) = (- orient (pos b) (pos c) (pos d))%R) by (unfold orient; ring).
  assert (E4 : orient (pos d) (pos a) (pos c) = orient (pos a) (pos c) (pos d)) by (unfold orient; ring).
  assert (E5 : orient (pos d) (pos a) (pos b) = orient (pos a) (pos b) (pos d)) by (unfold orient; ring).
  apply same_strict in H1; [|rewrite E1; lra|assumption]. apply same_strict in H2; [|rewrite E2; lra|rewrite E3; lra].
  apply same_strict in H4; [|rewrite E4; assumption|rewrite E5; assumption].
  rewrite E1 in H1. rewrite E2, E3 in H2. rewrite E4, E5 in H4. split; [exact O|].
  exists (orient (pos d) (pos b) (pos c) / orient (pos a) (pos b) (pos c))%R, (orient (pos a) (pos d) (pos c) / orient (pos a) (pos b) (pos c))%R,
    (orient (pos a) (pos b) (pos d) / orient (pos a) (pos b) (pos c))%R.
  split. { apply quot_pos; [exact O|]. replace (orient (pos d) (pos b) (pos c)) with (orient (pos b) (pos c) (pos d)) by (unfold orient; ring). lra. }
  split. { apply quot_pos; [exact O|]. replace (orient (pos a) (pos d) (pos c)) with (- orient (pos a) (pos c) (pos d))%R by (unfold orient; ring). lra. }
  split.
  { replace (orient (pos a) (pos b) (pos d) / orient (pos a) (pos b) (pos c))%R with (- ((- orient (pos a) (pos b) (pos d)) / orient (pos a) (pos b) (pos c)))%R by (field; exact O).
    apply Ropp_lt_gt_0_contravar, quot_pos; [exact O|].
    (* H1: -O * K > 0, H4: K * L > 0, so O and L have opposite signs *)
    set (K := orient (pos a) (pos c) (pos d)) in *. set (L := orient (pos a) (pos b) (pos d)) in *. set (Q := orient (pos a) (pos b) (pos c)) in *.
    destruct (Rlt_le_dec 0 K) as [HK|HK].
    - assert (Q < 0)%R by nra. assert (0 < L)%R by nra. nra.
    - assert (K < 0)%R by lra. assert (0 < Q)%R by nra. assert (L < 0)%R by nra. nra. }
  split; [apply bary_sum, O|apply bary, O].
Qed.

(** ** The diagonal of a convex quadrangle is not an edge yet *)
Section Quad.
Variables (m : mesh P) (e o0 o1 c d x00 x01 x10 x11 : nat).
Hypothesis (C : consistent m) (PL : planar pos m) (G : general m) (E : edge_of m e) (E0 : ET m e 0 = Some o0) (E1 : ET m e 1 = Some o1).
Hypothesis (A0 : around m o0 e c x00 x01) (A1 : around m o1 e d x10 x11).
Let a := EV m e 0.
Let b := EV m e 1.

Lemma quad_distinct : a <> b /\ a <> c /\ a <> d /\ b <> c /\ b <> d /\ c <> d.
Proof.
  pose proof (a_c0 _ _ _ _ _ _ A0). pose proof (a_c1 _ _ _ _ _ _ A0). pose proof (a_c0 _ _ _ _ _ _ A1). pose proof (a_c1 _ _ _ _ _ _ A1).
  pose proof (c_edge _ C e E). pose proof (apart_distinct m e o0 o1 c d x00 x01 x10 x11 C E E0 E1 A0 A1) as H4. unfold a, b. repeat split; congruence.
Qed.
Lemma quad_range : a < nv m /\ b < nv m /\ c < nv m /\ d < nv m.
Proof.
  assert (H0 : forall w, corner m o0 w -> w < nv m) by (intros w; apply (c_corners _ C), (a_tri _ _ _ _ _ _ A0)).
  assert (H1 : forall w, corner m o1 w -> w < nv m) by (intros w; apply (c_corners _ C), (a_tri _ _ _ _ _ _ A1)).
  pose proof (fun v => perm3_in _ _ _ _ v (a_corner _ _ _ _ _ _ A0)) as K0. pose proof (fun v => perm3_in _ _ _ _ v (a_corner _ _ _ _ _ _ A1)) as K1.
  unfold corner in H0, H1. repeat split; [apply H0, K0|apply H0, K0|apply H0, K0|apply H1, K1]; unfold a, b; auto.
Qed.

Lemma quad_crossed : isABCDConvex g (POS m a) (POS m c) (POS m b) (POS m d) = true -> crossed (AT m a) (AT m b) (AT m c) (AT m d).
Proof.
  intros H. destruct quad_distinct as (D1 & D2 & D3 & D4 & D5 & D6). destruct quad_range as (R1 & R2 & R3 & R4).
  apply convex_test; [..|exact H]; apply G; auto.
Qed.

Lemma quad_unjoined : crossed (AT m a) (AT m b) (AT m c) (AT m d) -> ~ joined m c d.
Proof.
  intros X (y & Y & J). destruct quad_distinct as (D1 & D2 & D3 & D4 & D5 & D6).
  destruct (c_outer _ C y Y) as [(t & T) _]. destruct (around_ex m y t C Y (or_introl T)) as (w & s0 & s1 & AW).
  assert (PW : perm3 (TV m t) c d w).
  { pose proof (a_corner _ _ _ _ _ _ AW) as H. destruct J as [[J0 J1]|[J0 J1]]; rewrite J0, J1 in H; unfold perm3 in *; tauto. }
  destruct (crossed_overlap _ _ _ _ (AT m w) X) as (r & I0 & I1).
  assert (t = o0).
  { apply (PL t o0 r); [apply (a_tri _ _ _ _ _ _ AW)|apply (a_tri _ _ _ _ _ _ A0)|apply (perm_open m t _ _ _ r PW), I1|].
    apply (perm_open m o0 _ _ _ r (a_corner _ _ _ _ _ _ A0)), I0. }
  subst t. assert (K : d = a \/ d = b \/ d = c).
  { apply (perm3_in _ _ _ _ d (a_corner _ _ _ _ _ _ A0)). apply (perm3_in _ _ _ _ d PW). auto. }
  destruct K as [K|[K|K]]; congruence.
Qed.

(** ** After a flip *)
Variable m' : mesh P.
Hypothesis (X : crossed (AT m a) (AT m b) (AT m c) (AT m d)) (F : flipped m e o0 o1 c d x00 x01 x10 x11 m').
Hypothesis (W : rewired m m' [e] [o0; o1] [ne m] [nt m; nt m + 1]).

Lemma flip_at v : AT m' v = AT m v.
Proof. unfold at_vertex. rewrite (f_POS _ _ _ _ _ _ _ _ _ _ _ F). reflexivity. Qed.
Lemma flip_old_open t q : tri_of m t -> (OPEN m' t q <-> OPEN m t q).
Proof. intros T. unfold in_open. rewrite !flip_at. destruct (w_TV _ _ _ _ _ _ W t T) as (-> & -> & ->). reflexivity. Qed.
Lemma flip_old_closed t q : tri_of m t -> (CLOSED m' t q <-> CLOSED m t q).
Proof. intros T. unfold in_closed. rewrite !flip_at. destruct (w_TV _ _ _ _ _ _ W t T) as (-> & -> & ->). reflexivity. Qed.
Lemma flip_new0 q : OPEN m' (nt m) q <-> inside (AT m c) (AT m d) (AT m a) q.
Proof. unfold in_open. rewrite !flip_at. destruct (f_TV0 _ _ _ _ _ _ _ _ _ _ _ F) as (-> & -> & ->). reflexivity. Qed.
Lemma flip_new1 q : OPEN m' (nt m + 1) q <-> inside (AT m c) (AT m d) (AT m b) q.
Proof. unfold in_open. rewrite !flip_at. destruct (f_TV1 _ _ _ _ _ _ _ _ _ _ _ F) as (-> & -> & ->). reflexivity. Qed.

Lemma open_triangle t q w : tri_of m t -> OPEN m t q -> exists k, (0 < k /\ k < 1 /\ forall f, 0 <= f <= k -> OPEN m t (toward q w f))%R.
Proof.
  intros T H. apply inside_open; [|exact H]. destruct (c_tri _ C t T) as (N1 & N2 & N3).
  apply G; [apply (c_corners _ C t _ T); left; reflexivity|apply (c_corners _ C t _ T); right; left; reflexivity|exact N1|
    apply (c_corners _ C t _ T); right; right; reflexivity|congruence|congruence].
Qed.

(** a new triangle does not meet a triangle other than the two old ones *)
Lemma flip_meets t q : tri_of m t -> OPEN m t q -> inside (AT m c) (AT m d) (AT m a) q \/ inside (AT m c) (AT m d) (AT m b) q -> t = o0 \/ t = o1.
Proof.
  intros T HQ HN.
  assert (O0 : forall r, OPEN m t r -> inside (AT m a) (AT m b) (AT m c) r -> t = o0).
  { intros r R1 R2. apply (PL t o0 r T (a_tri _ _ _ _ _ _ A0) R1). apply (perm_open m o0 _ _ _ r (a_corner _ _ _ _ _ _ A0)), R2. }
  assert (O1 : forall r, OPEN m t r -> inside (AT m a) (AT m b) (AT m d) r -> t = o1).
  { intros r R1 R2. apply (PL t o1 r T (a_tri _ _ _ _ _ _ A1) R1). apply (perm_open m o1 _ _ _ r (a_corner _ _ _ _ _ _ A1)), R2. }
  assert (K : inside (AT m a) (AT m b) (AT m d) q \/ forall f, (0 < f < 1)%R -> inside (AT m a) (AT m b) (AT m c) (toward q (AT m c) f)).
  { destruct HN as [HN|HN]; [apply crossed_new; assumption|].
    destruct (crossed_new _ _ _ _ q (crossed_swap _ _ _ _ X) HN) as [K|K]; [left; apply inside_swap, K|right; intros f Hf; apply inside_swap, K, Hf]. }
  destruct K as [K|K]; [right; apply (O1 q HQ K)|left].
  destruct (open_triangle t q (AT m c) T HQ) as (k & K0 & K1 & H). apply (O0 (toward q (AT m c) k)); [apply H; lra|apply K; lra].
Qed.

Lemma flip_planar : planar pos m'.
Proof.
  assert (S : forall t, tri_of m' t -> (tri_of m t /\ t <> o0 /\ t <> o1) \/ t = nt m \/ t = nt m + 1).
  { intros t T. apply (rw_tri _ _ _ _ _ _ W) in T. cbn [In] in T. destruct T as [[T N]|[<-|[<-|[]]]]; auto. left. split; [exact T|]. split; intros ->; apply N; auto. }
  intros t t' q T T' H H'. apply S in T. apply S in T'.
  destruct T as [(T & N0 & N1)|[->| ->]], T' as [(T' & N0' & N1')|[->| ->]]; try reflexivity.
  - rewrite flip_old_open in H, H' by assumption. apply (PL t t' q); assumption.
  - rewrite flip_old_open in H by assumption. rewrite flip_new0 in H'. destruct (flip_meets t q T H (or_introl H')); contradiction.
  - rewrite flip_old_open in H by assumption. rewrite flip_new1 in H'. destruct (flip_meets t q T H (or_intror H')); contradiction.
  - rewrite flip_old_open in H' by assumption. rewrite flip_new0 in H. destruct (flip_meets t' q T' H' (or_introl H)); contradiction.
  - rewrite flip_new0 in H. rewrite flip_new1 in H'. exfalso. apply (crossed_apart _ _ _ _ q X H H').
  - rewrite flip_old_open in H' by assumption. rewrite flip_new1 in H. destruct (flip_meets t' q T' H' (or_intror H)); contradiction.
  - rewrite flip_new0 in H'. rewrite flip_new1 in H. exfalso. apply (crossed_apart _ _ _ _ q X H' H).
Qed.

Lemma flip_fills : fills pos m -> fills pos m'.
Proof.
  intros FI q Q. rewrite !flip_at in Q. destruct (FI q Q) as (t & T & H).
  assert (S0 : tri_of m' (nt m)) by (apply (rw_tri _ _ _ _ _ _ W); right; left; reflexivity).
  assert (S1 : tri_of m' (nt m + 1)) by (apply (rw_tri _ _ _ _ _ _ W); right; right; left; reflexivity).
  assert (N : within (AT m c) (AT m d) (AT m a) q \/ within (AT m c) (AT m d) (AT m b) q -> exists t, tri_of m' t /\ CLOSED m' t q).
  { intros [K|K]; [exists (nt m)|exists (nt m + 1)]; (split; [assumption|]); unfold in_closed; rewrite !flip_at;
      [destruct (f_TV0 _ _ _ _ _ _ _ _ _ _ _ F) as (-> & -> & ->)|destruct (f_TV1 _ _ _ _ _ _ _ _ _ _ _ F) as (-> & -> & ->)]; exact K. }
  destruct (Nat.eq_dec t o0) as [->|N0]; [|destruct (Nat.eq_dec t o1) as [->|N1]].
  - apply N. apply crossed_cover; [exact X|]. apply (perm_closed m o0 _ _ _ q (a_corner _ _ _ _ _ _ A0)), H.
  - apply N. assert (K : within (AT m d) (AT m c) (AT m a) q \/ within (AT m d) (AT m c) (AT m b) q).
    { apply crossed_cover; [apply crossed_sym, X|]. apply (perm_closed m o1 _ _ _ q (a_corner _ _ _ _ _ _ A1)), H. }
    destruct K as [K|K]; [left|right]; apply within_swap, K.
  - exists t. split; [apply (rw_tri _ _ _ _ _ _ W); left; split; [exact T|]; cbn; intuition congruence|]. apply flip_old_closed; assumption.
Qed.

Lemma flip_general : general m'.
Proof.
  intros u v. rewrite (w_nv _ _ _ _ _ _ W). unfold at_vertex. rewrite (f_POS _ _ _ _ _ _ _ _ _ _ _ F). apply G.
Qed.
End Quad.

(** ** After a division *)
Section Div.
Variables (m m' : mesh P) (t v : nat) (x : nat -> nat).
Hypothesis (C : consistent m) (PL : planar pos m) (G : general m) (FR : fresh m v) (O : opposite m t x) (D : divided m t v x m').
Hypothesis (W : rewired m m' [] [t] [ne m + 0; ne m + 1; ne m + 2] [nt m + 0; nt m + 1; nt m + 2]).
Hypothesis (IN : OPEN m t (AT m v)).

Lemma div_at u : AT m' u = AT m u.
Proof. unfold at_vertex. rewrite (d_POS _ _ _ _ _ D). reflexivity. Qed.
Lemma div_old_open s q : tri_of m s -> (OPEN m' s q <-> OPEN m s q).
Proof. intros T. unfold in_open. rewrite !div_at. destruct (w_TV _ _ _ _ _ _ W s T) as (-> & -> & ->). reflexivity. Qed.
Lemma div_old_closed s q : tri_of m s -> (CLOSED m' s q <-> CLOSED m s q).
Proof. intros T. unfold in_closed. rewrite !div_at. destruct (w_TV _ _ _ _ _ _ W s T) as (-> & -> & ->). reflexivity. Qed.
Lemma div_new i q : i < 3 -> (OPEN m' (nt m + i) q <-> inside (AT m (TV m t ((i + 1) mod 3))) (AT m (TV m t ((i + 2) mod 3))) (AT m v) q).
Proof. intros I. unfold in_open. rewrite !div_at. destruct (d_TVn _ _ _ _ _ D i I) as (-> & -> & ->). reflexivity. Qed.
Lemma div_newc i q : i < 3 -> (CLOSED m' (nt m + i) q <-> within (AT m (TV m t ((i + 1) mod 3))) (AT m (TV m t ((i + 2) mod 3))) (AT m v) q).
Proof. intros I. unfold in_closed. rewrite !div_at. destruct (d_TVn _ _ _ _ _ D i I) as (-> & -> & ->). reflexivity. Qed.

Lemma div_area : orient (AT m (TV m t 0)) (AT m (TV m t 1)) (AT m (TV m t 2)) <> 0%R.
Proof.
  pose proof (p_tri _ _ _ O) as T. destruct (c_tri _ C t T) as (N1 & N2 & N3).
  apply G; [apply (c_corners _ C t _ T); left; reflexivity|apply (c_corners _ C t _ T); right; left; reflexivity|exact N1|
    apply (c_corners _ C t _ T); right; right; reflexivity|congruence|congruence].
Qed.

Lemma div_inside i : i < 3 -> inside (AT m (TV m t ((i + 1) mod 3))) (AT m (TV m t ((i + 2) mod 3))) (AT m (TV m t i)) (AT m v).
Proof. intros I. unfold in_open in IN. each3 i I; cbn [Nat.modulo Nat.divmod Nat.add fst snd Nat.sub]; auto using inside_rot. Qed.

Lemma div_part i q : i < 3 -> OPEN m' (nt m + i) q -> OPEN m t q.
Proof.
  intros I H. apply div_new in H; [|exact I]. pose proof (divided_part _ _ _ _ _ (div_inside i I) H) as K. unfold in_open.
  each3 i I; cbn [Nat.modulo Nat.divmod Nat.add fst snd Nat.sub] in K; auto using inside_rot.
Qed.

Lemma div_apart i j q : i < 3 -> j < 3 -> OPEN m' (nt m + i) q -> OPEN m' (nt m + j) q -> i = j.
Proof.
  assert (ST : forall i q, i < 3 -> OPEN m' (nt m + i) q -> OPEN m' (nt m + (i + 1) mod 3) q -> False).
  { intros h r I H H'. rewrite div_new in H by exact I. rewrite div_new in H' by (apply Nat.mod_upper_bound; lia).
    pose proof div_area as AR. pose proof (div_inside h I) as IV.
    assert (AR' : orient (AT m (TV m t ((h + 1) mod 3))) (AT m (TV m t ((h + 2) mod 3))) (AT m (TV m t h)) <> 0%R).
    { intros Z. apply AR. rewrite <- Z. each3 h I; cbn [Nat.modulo Nat.divmod Nat.add fst snd Nat.sub]; unfold orient; ring. }
    apply (divided_apart _ _ _ _ r AR' IV H). each3 h I; cbn [Nat.modulo Nat.divmod Nat.add fst snd Nat.sub] in H' |- *; exact H'. }
  intros I J H H'. destruct (Nat.eq_dec i j) as [Q|N]; [exact Q|exfalso].
  each3 i I; each3 j J; try congruence.
  - apply (ST 0 q); [lia|exact H|exact H'].
  - apply (ST 2 q); [lia|exact H'|exact H].
  - apply (ST 0 q); [lia|exact H'|exact H].
  - apply (ST 1 q); [lia|exact H|exact H'].
  - apply (ST 2 q); [lia|exact H|exact H'].
  - apply (ST 1 q); [lia|exact H'|exact H].
Qed.

Lemma div_planar : planar pos m'.
Proof.
  assert (S : forall s, tri_of m' s -> (tri_of m s /\ s <> t) \/ exists i, i < 3 /\ s = nt m + i).
  { intros s T. apply (rw_tri _ _ _ _ _ _ W) in T. cbn [In] in T. destruct T as [[T N]|[<-|[<-|[<-|[]]]]]; [left|right; exists 0; auto|right; exists 1; auto|right; exists 2; auto].
    split; [exact T|]. intros ->. apply N. auto. }
  intros s s' q T T' H H'. apply S in T. apply S in T'.
  destruct T as [(T & N)|(i & I & ->)], T' as [(T' & N')|(j & J & ->)].
  - rewrite div_old_open in H, H' by assumption. apply (PL s s' q); assumption.
  - rewrite div_old_open in H by assumption. exfalso. apply N. apply (PL s t q); [exact T|apply (p_tri _ _ _ O)|exact H|apply (div_part j q J H')].
  - rewrite div_old_open in H' by assumption. exfalso. apply N'. apply (PL s' t q); [exact T'|apply (p_tri _ _ _ O)|exact H'|apply (div_part i q I H)].
  - f_equal. apply (div_apart i j q I J H H').
Qed.

Lemma div_fills : fills pos m -> fills pos m'.
Proof.
  intros FI q Q. rewrite !div_at in Q. destruct (FI q Q) as (s & T & H). destruct (Nat.eq_dec s t) as [->|N].
  - assert (K : exists i, i < 3 /\ CLOSED m' (nt m + i) q).
    { destruct (divided_cover _ _ _ _ q IN H) as [K|[K|K]]; [exists 2|exists 0|exists 1]; (split; [lia|]); apply div_newc; try lia; exact K. }
    destruct K as (i & I & K). exists (nt m + i). split; [|exact K]. apply (rw_tri _ _ _ _ _ _ W). right. each3 i I; cbn; auto.
  - exists s. split; [apply (rw_tri _ _ _ _ _ _ W); left; split; [exact T|]; cbn; intuition congruence|]. apply div_old_closed; assumption.
Qed.

Lemma div_general : general m'.
Proof. intros u w. rewrite (w_nv _ _ _ _ _ _ W). unfold at_vertex. rewrite (d_POS _ _ _ _ _ D). apply G. Qed.
End Div.
End Gen.
