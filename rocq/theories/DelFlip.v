(** performFlip keeps a mesh consistent. *)
From Coq Require Import ZArith List Bool Arith Lia.
From Verif Require Import Outcome DelModel DelSpec DelFields DelRewire.
Import ListNotations.
Open Scope nat_scope.

Definition perm3 (f : nat -> nat) (x y z : nat) : Prop :=
  (f 0 = x /\ f 1 = y /\ f 2 = z) \/ (f 0 = x /\ f 1 = z /\ f 2 = y) \/ (f 0 = y /\ f 1 = x /\ f 2 = z) \/
  (f 0 = y /\ f 1 = z /\ f 2 = x) \/ (f 0 = z /\ f 1 = x /\ f 2 = y) \/ (f 0 = z /\ f 1 = y /\ f 2 = x).

Lemma perm3_of (f : nat -> nat) x y z : x <> y -> x <> z -> y <> z ->
  (f 0 = x \/ f 1 = x \/ f 2 = x) -> (f 0 = y \/ f 1 = y \/ f 2 = y) -> (f 0 = z \/ f 1 = z \/ f 2 = z) -> perm3 f x y z.
Proof.
  intros A B C H0 H1 H2. unfold perm3.
  destruct H0 as [H0|[H0|H0]], H1 as [H1|[H1|H1]], H2 as [H2|[H2|H2]]; try (exfalso; (apply A + apply B + apply C); congruence); tauto.
Qed.

Lemma perm3_in (f : nat -> nat) x y z v : perm3 f x y z -> ((f 0 = v \/ f 1 = v \/ f 2 = v) <-> v = x \/ v = y \/ v = z).
Proof. intros H. unfold perm3 in H. decompose [or and] H; subst; intuition congruence. Qed.

Section Flip.
Context {P : Type}.
Implicit Types m : mesh P.

Lemma joins_ends m e u v w : joins m e u v -> (end_of m e w <-> w = u \/ w = v).
Proof. unfold joins, end_of. intros [[<- <-]|[<- <-]]; intuition congruence. Qed.
Lemma joins_sym m e u v : joins m e u v -> joins m e v u.
Proof. unfold joins. tauto. Qed.

(** the triangle t at the edge e: its third vertex c and its sides x0 (at the first end) and x1 *)
Record around m (t e c x0 x1 : nat) : Prop := {
  a_tri : tri_of m t;
  a_corner : perm3 (TV m t) (EV m e 0) (EV m e 1) c;
  a_c0 : c <> EV m e 0; a_c1 : c <> EV m e 1;
  a_side : perm3 (TE m t) e x0 x1;
  a_e0 : e <> x0; a_e1 : e <> x1; a_01 : x0 <> x1;
  a_edge0 : edge_of m x0; a_edge1 : edge_of m x1;
  a_join0 : joins m x0 (EV m e 0) c; a_join1 : joins m x1 (EV m e 1) c;
  a_third : findThirdVert m (Some t) e = Ok c }.

Lemma third_ok m t e a b c : perm3 (TV m t) a b c -> EV m e 0 = a -> EV m e 1 = b -> c <> a -> c <> b -> side m t e ->
  findThirdVert m (Some t) e = Ok c.
Proof.
  intros H EA EB CA CB S. unfold findThirdVert.
  assert ((TE m t 0 =? e) || (TE m t 1 =? e) || (TE m t 2 =? e) = true) as ->.
  { unfold side in S. destruct S as [<-|[<-|<-]]; rewrite Nat.eqb_refl, ?orb_true_r; reflexivity. }
  cbn [find]. rewrite EA, EB.
  assert (FA : forall x, negb (a =? a) && x = false) by (intros; rewrite Nat.eqb_refl; reflexivity).
  assert (FB : forall x, x && negb (b =? b) = false) by (intros; rewrite Nat.eqb_refl, andb_false_r; reflexivity).
  assert (FC : negb (c =? a) && negb (c =? b) = true).
  { apply Nat.eqb_neq in CA, CB. rewrite CA, CB. reflexivity. }
  unfold perm3 in H. decompose [or and] H; clear H; repeat match goal with [ H : TV m t _ = _ |- _ ] => rewrite H; clear H end;
    rewrite ?FA, ?FB, ?FC; reflexivity.
Qed.

Lemma around_ex m e t : consistent m -> edge_of m e -> beside m e t -> exists c x0 x1, around m t e c x0 x1.
Proof.
  intros C E B. destruct (c_beside _ C e t E B) as [T S].
  set (a := EV m e 0). set (b := EV m e 1).
  assert (AB : a <> b) by apply (c_edge _ C e E).
  assert (CA : corner m t a) by (apply (c_inner _ C t e a T S); left; reflexivity).
  assert (CB : corner m t b) by (apply (c_inner _ C t e b T S); right; reflexivity).
  assert (exists c, corner m t c /\ c <> a /\ c <> b) as (c & CC & NA & NB).
  { destruct (c_tri _ C t T) as (D1 & D2 & D3). unfold corner in CA, CB |- *.
    destruct CA as [HA|[HA|HA]], CB as [HB|[HB|HB]]; try (exfalso; congruence).
    - exists (TV m t 2). repeat split; auto; congruence.
    - exists (TV m t 1). repeat split; auto; congruence.
    - exists (TV m t 2). repeat split; auto; congruence.
    - exists (TV m t 0). repeat split; auto; congruence.
    - exists (TV m t 1). repeat split; auto; congruence.
    - exists (TV m t 0). repeat split; auto; congruence. }
  destruct (c_sides _ C t a c T CA CC (not_eq_sym NA)) as (x0 & S0 & J0).
  destruct (c_sides _ C t b c T CB CC (not_eq_sym NB)) as (x1 & S1 & J1).
  assert (e <> x0). { intros <-. assert (end_of m e c) by (apply (joins_ends m e a c c J0); auto). unfold end_of in *. fold a b in H. destruct H; congruence. }
  assert (e <> x1). { intros <-. assert (end_of m e c) by (apply (joins_ends m e b c c J1); auto). unfold end_of in *. fold a b in H0. destruct H0; congruence. }
  assert (x0 <> x1). { intros <-. assert (X : end_of m x0 b) by (apply (joins_ends m x0 b c b J1); auto). apply (joins_ends m x0 a c b J0) in X. destruct X; congruence. }
  assert (PC : perm3 (TV m t) a b c) by (apply perm3_of; auto).
  exists c, x0, x1. constructor; auto.
  - apply perm3_of; auto.
  - apply (c_side _ C t x0 T S0).
  - apply (c_side _ C t x1 T S1).
  - apply (third_ok m t e a b c); auto.
Qed.

(** giving one place of an edge to another triangle *)
Definition rep m (x o n : nat) : mesh P := setET m x (if oeqb (ET m x 0) o then 0 else 1) (Some n).

Lemma oeqb_iff (a : option nat) b : oeqb a b = true <-> a = Some b.
Proof. destruct a as [x|]; cbn; [rewrite Nat.eqb_eq; split; congruence|split; discriminate]. Qed.

Lemma rep_other m x o n y k : y <> x -> ET (rep m x o n) y k = ET m y k.
Proof. intros H. unfold rep. cbn. apply upd2_row, H. Qed.

Lemma rep_cases m x o n : beside m x o ->
  (ET m x 0 = Some o /\ ET (rep m x o n) x 0 = Some n /\ ET (rep m x o n) x 1 = ET m x 1) \/
  (ET m x 0 <> Some o /\ ET m x 1 = Some o /\ ET (rep m x o n) x 0 = ET m x 0 /\ ET (rep m x o n) x 1 = Some n).
Proof.
  intros B. unfold rep. destruct (oeqb (ET m x 0) o) eqn:E.
  - left. apply oeqb_iff in E. split; [exact E|]. cbn. split; [apply upd2_same|apply upd2_col; discriminate].
  - right. assert (N : ET m x 0 <> Some o) by (intros H; apply oeqb_iff in H; congruence). split; [exact N|].
    destruct B as [B|B]; [contradiction|]. split; [exact B|]. cbn. split; [apply upd2_col; discriminate|apply upd2_same].
Qed.

Lemma rep_beside m x o n t : beside m x o -> ~ (ET m x 0 = Some o /\ ET m x 1 = Some o) -> n <> o ->
  (beside (rep m x o n) x t <-> (beside m x t /\ t <> o) \/ t = n).
Proof.
  intros B N NO. unfold beside at 1. destruct (rep_cases m x o n B) as [(A1 & -> & ->)|(A1 & A2 & -> & ->)]; unfold beside.
  - split.
    + intros [H|H]; [right; congruence|left]. split; [auto|]. intros ->. auto.
    + intros [[[H|H] Q]|H]; [exfalso; congruence|right; exact H|left; congruence].
  - split.
    + intros [H|H]; [left|right; congruence]. split; [auto|]. intros ->. auto.
    + intros [[[H|H] Q]|H]; [left; exact H|exfalso; congruence|right; congruence].
Qed.

(** lines 148-158 for one old triangle *)
Lemma flip_sides_spec m e o a n0 k x0 x1 :
  perm3 (TE m o) e x0 x1 -> e <> x0 -> e <> x1 -> x0 <> x1 ->
  isIncidentE m a x0 = true -> isIncidentE m a x1 = false -> o <> n0 -> o <> n0 + 1 -> k < 2 ->
  let m' := for3 (flip_sides e o a n0 k) m in
  nv m' = nv m /\ ne m' = ne m /\ nt m' = nt m /\ EV m' = EV m /\ TV m' = TV m /\ VE m' = VE m /\ VT m' = VT m /\ POS m' = POS m /\ IDX m' = IDX m /\
  (forall y j, ET m' y j = ET (rep (rep m x0 o n0) x1 o (n0 + 1)) y j) /\
  (forall t j, TE m' t j = if (t =? n0) && (j =? k) then x0 else if (t =? n0 + 1) && (j =? k) then x1 else TE m t j).
Proof.
  intros H E0 E1 E01 I0 I1 O0 O1 K m'. unfold m', for3, flip_sides at 1.
  assert (STEP : forall m i, TE m o i = e -> flip_sides e o a n0 k m i = m).
  { intros q i Q. unfold flip_sides. rewrite Q, Nat.eqb_refl. reflexivity. }
  assert (STEP0 : forall m i, TE m o i = x0 -> isIncidentE m a x0 = true -> flip_sides e o a n0 k m i = setTE (rep m x0 o n0) n0 k x0).
  { intros q i Q Q2. unfold flip_sides. rewrite Q. destruct (x0 =? e) eqn:X; [apply Nat.eqb_eq in X; congruence|]. rewrite Q2, Nat.add_0_r. reflexivity. }
  assert (STEP1 : forall m i, TE m o i = x1 -> isIncidentE m a x1 = false -> flip_sides e o a n0 k m i = setTE (rep m x1 o (n0 + 1)) (n0 + 1) k x1).
  { intros q i Q Q2. unfold flip_sides. rewrite Q. destruct (x1 =? e) eqn:X; [apply Nat.eqb_eq in X; congruence|]. rewrite Q2. reflexivity. }
  change (flip_sides e o a n0 k m 0) with (flip_sides e o a n0 k m 0).
  assert (KEEP0 : forall j, TE (setTE (rep m x0 o n0) n0 k x0) o j = TE m o j) by (intros j; cbn; apply upd2_row, O0).
  assert (KEEP1 : forall j, TE (setTE (rep m x1 o (n0 + 1)) (n0 + 1) k x1) o j = TE m o j) by (intros j; cbn; apply upd2_row, O1).
  assert (KI1 : isIncidentE (setTE (rep m x0 o n0) n0 k x0) a x1 = false) by exact I1.
  assert (KI0 : isIncidentE (setTE (rep m x1 o (n0 + 1)) (n0 + 1) k x1) a x0 = true) by exact I0.
  assert (RES : forall q, q = setTE (rep (setTE (rep m x0 o n0) n0 k x0) x1 o (n0 + 1)) (n0 + 1) k x1 \/
                          q = setTE (rep (setTE (rep m x1 o (n0 + 1)) (n0 + 1) k x1) x0 o n0) n0 k x0 ->
    nv q = nv m /\ ne q = ne m /\ nt q = nt m /\ EV q = EV m /\ TV q = TV m /\ VE q = VE m /\ VT q = VT m /\ POS q = POS m /\ IDX q = IDX m /\
    (forall y j, ET q y j = ET (rep (rep m x0 o n0) x1 o (n0 + 1)) y j) /\
    (forall t j, TE q t j = if (t =? n0) && (j =? k) then x0 else if (t =? n0 + 1) && (j =? k) then x1 else TE m t j)).
  { intros q [->| ->]; (split; [reflexivity|]); (split; [reflexivity|]); (split; [reflexivity|]); (split; [reflexivity|]); (split; [reflexivity|]);
      (split; [reflexivity|]); (split; [reflexivity|]); (split; [reflexivity|]); (split; [reflexivity|]); split.
    - reflexivity.
    - intros t j. cbn. unfold upd2. destruct (t =? n0) eqn:T0; destruct (t =? n0 + 1) eqn:T1; destruct (j =? k); try reflexivity.
      apply Nat.eqb_eq in T0, T1. lia.
    - intros y j. cbn [ET setTE]. destruct (Nat.eq_dec y x0) as [->|Y0].
      + rewrite (rep_other (rep m x0 o n0) x1) by congruence.
        unfold rep. cbn. rewrite (upd2_row _ x1 _ _ x0) by congruence. unfold upd2. destruct ((x0 =? x0) && (j =? _)); [reflexivity|].
        assert (x0 =? x1 = false) as -> by (apply Nat.eqb_neq; exact E01). reflexivity.
      + rewrite rep_other by exact Y0. cbn [ET setTE]. destruct (Nat.eq_dec y x1) as [->|Y1].
        * unfold rep. cbn. rewrite (upd2_row _ x0 _ _ x1 0) by congruence. unfold upd2.
          destruct ((x1 =? x1) && (j =? _)); [reflexivity|]. assert (x1 =? x0 = false) as -> by (apply Nat.eqb_neq; congruence). reflexivity.
        * rewrite !rep_other by assumption. reflexivity.
    - intros t j. cbn. unfold upd2. destruct (t =? n0) eqn:T0; destruct (t =? n0 + 1) eqn:T1; destruct (j =? k); reflexivity. }
  fold (flip_sides e o a n0 k m 0). apply RES. unfold perm3 in H. decompose [or and] H; clear H.
  - rewrite (STEP m 0), (STEP0 m 1), (STEP1 _ 2); auto; try (rewrite KEEP0; assumption).
  - rewrite (STEP m 0), (STEP1 m 1), (STEP0 _ 2); auto; try (rewrite KEEP1; assumption).
  - rewrite (STEP0 m 0), (STEP _ 1), (STEP1 _ 2); auto; try (rewrite KEEP0; assumption).
  - rewrite (STEP0 m 0), (STEP1 _ 1), (STEP _ 2); auto; try (rewrite KEEP0; assumption). cbn. rewrite upd2_row by exact O1. rewrite upd2_row by exact O0. assumption.
  - rewrite (STEP1 m 0), (STEP _ 1), (STEP0 _ 2); auto; try (rewrite KEEP1; assumption).
  - rewrite (STEP1 m 0), (STEP0 _ 1), (STEP _ 2); auto; try (rewrite KEEP1; assumption). cbn. rewrite upd2_row by exact O0. rewrite upd2_row by exact O1. assumption.
Qed.

Lemma rep_ext m1 m2 x o n N : x < N -> (forall y j, y < N -> ET m1 y j = ET m2 y j) ->
  forall y j, y < N -> ET (rep m1 x o n) y j = ET (rep m2 x o n) y j.
Proof. intros X H y j Y. unfold rep. cbn. unfold upd2. rewrite (H x 0 X), (H y j Y). reflexivity. Qed.

Record flipped m (e o0 o1 c d x00 x01 x10 x11 : nat) (m' : mesh P) : Prop := {
  f_nv : nv m' = nv m; f_ne : ne m' = ne m + 1; f_nt : nt m' = nt m + 2; f_POS : POS m' = POS m; f_IDX : IDX m' = IDX m;
  f_EV : forall x k, x < ne m -> EV m' x k = EV m x k;
  f_EVn : EV m' (ne m) 0 = c /\ EV m' (ne m) 1 = d;
  f_TV : forall t k, t < nt m -> TV m' t k = TV m t k;
  f_TV0 : TV m' (nt m) 0 = c /\ TV m' (nt m) 1 = d /\ TV m' (nt m) 2 = EV m e 0;
  f_TV1 : TV m' (nt m + 1) 0 = c /\ TV m' (nt m + 1) 1 = d /\ TV m' (nt m + 1) 2 = EV m e 1;
  f_TE : forall t k, t < nt m -> TE m' t k = TE m t k;
  f_TE0 : TE m' (nt m) 0 = x00 /\ TE m' (nt m) 1 = x10 /\ TE m' (nt m) 2 = ne m;
  f_TE1 : TE m' (nt m + 1) 0 = x01 /\ TE m' (nt m + 1) 1 = x11 /\ TE m' (nt m + 1) 2 = ne m;
  f_ET : forall y k, y < ne m ->
    ET m' y k = ET (rep (rep (rep (rep m x00 o0 (nt m)) x01 o0 (nt m + 1)) x10 o1 (nt m)) x11 o1 (nt m + 1)) y k;
  f_ETn : ET m' (ne m) 0 = Some (nt m) /\ ET m' (ne m) 1 = Some (nt m + 1);
  f_setE : forall u, NoDup (VE m u) -> NoDup (VE m' u);
  f_setT : forall u, NoDup (VT m u) -> NoDup (VT m' u);
  f_VE : forall u x, In x (VE m' u) <-> (In x (VE m u) /\ ~ (x = e /\ (u = EV m e 0 \/ u = EV m e 1))) \/ (x = ne m /\ (u = c \/ u = d));
  f_VT : forall u t, In t (VT m' u) <->
    (In t (VT m u) /\ ~ ((u = EV m e 0 \/ u = EV m e 1) /\ (t = o0 \/ t = o1)) /\ ~ (u = c /\ t = o0) /\ ~ (u = d /\ t = o1)) \/
    (t = nt m /\ (u = c \/ u = d \/ u = EV m e 0)) \/ (t = nt m + 1 /\ (u = c \/ u = d \/ u = EV m e 1)) }.

Lemma inc_true m v x : end_of m x v -> isIncidentE m v x = true.
Proof. unfold isIncidentE. intros [->| ->]; rewrite Nat.eqb_refl, ?orb_true_r; reflexivity. Qed.
Lemma inc_false m v x : ~ end_of m x v -> isIncidentE m v x = false.
Proof. intros H. unfold isIncidentE. apply orb_false_iff. split; apply Nat.eqb_neq; intros E; apply H; [left|right]; exact E. Qed.

Lemma side_not m x b c a : joins m x b c -> a <> b -> a <> c -> ~ end_of m x a.
Proof. intros J A B E. apply (joins_ends m x b c a J) in E. destruct E; congruence. Qed.

Lemma flip_computes m e o0 o1 c d x00 x01 x10 x11 : consistent m -> edge_of m e ->
  ET m e 0 = Some o0 -> ET m e 1 = Some o1 ->
  around m o0 e c x00 x01 -> around m o1 e d x10 x11 ->
  exists m', performFlip m e = Ok m' /\ flipped m e o0 o1 c d x00 x01 x10 x11 m'.
Proof.
  intros C E E0 E1 A0 A1. unfold performFlip. rewrite E0, E1, (a_third _ _ _ _ _ _ A0), (a_third _ _ _ _ _ _ A1). cbn [bind].
  eexists. split; [reflexivity|]. cbn [sel Nat.eqb].
  set (a := EV m e 0). set (b := EV m e 1). set (f := ne m). set (n0 := nt m).
  assert (AB : a <> b) by apply (c_edge _ C e E).
  assert (RO0 : o0 < n0) by (apply (c_rangeT _ C), (a_tri _ _ _ _ _ _ A0)).
  assert (RO1 : o1 < n0) by (apply (c_rangeT _ C), (a_tri _ _ _ _ _ _ A1)).
  assert (R00 : x00 < f) by (apply (c_rangeE _ C), (a_edge0 _ _ _ _ _ _ A0)).
  assert (R01 : x01 < f) by (apply (c_rangeE _ C), (a_edge1 _ _ _ _ _ _ A0)).
  assert (R10 : x10 < f) by (apply (c_rangeE _ C), (a_edge0 _ _ _ _ _ _ A1)).
  assert (R11 : x11 < f) by (apply (c_rangeE _ C), (a_edge1 _ _ _ _ _ _ A1)).
  set (m3 := for2 (fun m1 k => setET m1 f k (Some (n0 + k))) (for2 (fun m1 k => setEV m1 f k (sel c d k)) (makeTriangles (makeEdges m 1) 2))).
  assert (F3 : nv m3 = nv m /\ ne m3 = f + 1 /\ nt m3 = n0 + 2 /\ POS m3 = POS m /\ IDX m3 = IDX m /\ TV m3 = TV m /\ TE m3 = TE m /\ VE m3 = VE m /\ VT m3 = VT m).
  { repeat split; reflexivity. }
  assert (F3E : (forall x k, x < f -> EV m3 x k = EV m x k) /\ EV m3 f 0 = c /\ EV m3 f 1 = d /\
                (forall x k, x < f -> ET m3 x k = ET m x k) /\ ET m3 f 0 = Some n0 /\ ET m3 f 1 = Some (n0 + 1)).
  { unfold m3, for2. cbn. unfold upd2. rewrite !Nat.eqb_refl. cbn. rewrite Nat.add_0_r. repeat split.
    - intros x k X. assert (x =? f = false) as -> by (apply Nat.eqb_neq; lia). reflexivity.
    - intros x k X. assert (x =? f = false) as -> by (apply Nat.eqb_neq; lia). reflexivity. }
  clearbody m3. destruct F3 as (G1 & G2 & G3 & G4 & G5 & G6 & G7 & G8 & G9). destruct F3E as (G10 & G11 & G12 & G13 & G14 & G15).
  assert (INC : forall (q : mesh P) x v, EV q = EV m3 -> x < f -> (isIncidentE q v x = true <-> end_of m x v)).
  { intros q x v HQ X. unfold isIncidentE, end_of. rewrite HQ, !G10 by exact X. rewrite orb_true_iff, !Nat.eqb_eq. tauto. }
  assert (INCF : forall (q : mesh P) x v, EV q = EV m3 -> x < f -> ~ end_of m x v -> isIncidentE q v x = false).
  { intros q x v HQ X H. destruct (isIncidentE q v x) eqn:I; [|reflexivity]. exfalso. apply H, (INC q x v HQ X), I. }
  change (for2 (fun m1 k => for3 (flip_sides e (sel o0 o1 k) a n0 k) m1) m3) with (for3 (flip_sides e o1 a n0 1) (for3 (flip_sides e o0 a n0 0) m3)).
  destruct (flip_sides_spec m3 e o0 a n0 0 x00 x01) as (K1 & K2 & K3 & K4 & K5 & K6 & K7 & K8 & K9 & K10 & K11);
    [rewrite G7; apply (a_side _ _ _ _ _ _ A0)|apply (a_e0 _ _ _ _ _ _ A0)|apply (a_e1 _ _ _ _ _ _ A0)|apply (a_01 _ _ _ _ _ _ A0)| | |lia|lia|lia|].
  { apply INC; [reflexivity|exact R00|]. apply (joins_ends m x00 a c a (a_join0 _ _ _ _ _ _ A0)). auto. }
  { apply INCF; [reflexivity|exact R01|]. apply (side_not m x01 b c a (a_join1 _ _ _ _ _ _ A0)); [exact AB|]. apply not_eq_sym, (a_c0 _ _ _ _ _ _ A0). }
  set (m4 := for3 (flip_sides e o0 a n0 0) m3) in *. clearbody m4.
  destruct (flip_sides_spec m4 e o1 a n0 1 x10 x11) as (L1 & L2 & L3 & L4 & L5 & L6 & L7 & L8 & L9 & L10 & L11).
  { assert (forall j, TE m4 o1 j = TE m o1 j).
    { intros j. rewrite K11, G7. assert (o1 =? n0 = false) as -> by (apply Nat.eqb_neq; lia). assert (o1 =? n0 + 1 = false) as -> by (apply Nat.eqb_neq; lia). reflexivity. }
    unfold perm3. rewrite !H. apply (a_side _ _ _ _ _ _ A1). }
  { apply (a_e0 _ _ _ _ _ _ A1). } { apply (a_e1 _ _ _ _ _ _ A1). } { apply (a_01 _ _ _ _ _ _ A1). }
  { apply INC; [exact K4|exact R10|]. apply (joins_ends m x10 a d a (a_join0 _ _ _ _ _ _ A1)). auto. }
  { apply INCF; [exact K4|exact R11|]. apply (side_not m x11 b d a (a_join1 _ _ _ _ _ _ A1)); [exact AB|]. apply not_eq_sym, (a_c0 _ _ _ _ _ _ A1). }
  { lia. } { lia. } { lia. }
  set (m5 := for3 (flip_sides e o1 a n0 1) m4) in *. clearbody m5.
  assert (TE5 : forall t j, TE m5 t j = if (t =? n0) && (j =? 1) then x10 else if (t =? n0 + 1) && (j =? 1) then x11 else
    if (t =? n0) && (j =? 0) then x00 else if (t =? n0 + 1) && (j =? 0) then x01 else TE m t j).
  { intros t j. rewrite L11, K11, G7. reflexivity. }
  assert (ET5 : forall y k, y < f -> ET m5 y k = ET (rep (rep (rep (rep m x00 o0 n0) x01 o0 (n0 + 1)) x10 o1 n0) x11 o1 (n0 + 1)) y k).
  { intros y k Y. rewrite L10. apply (rep_ext _ _ x11 o1 (n0 + 1) f); [exact R11| |exact Y].
    intros y1 k1 Y1. apply (rep_ext _ _ x10 o1 n0 f); [exact R10| |exact Y1].
    intros y2 k2 Y2. rewrite K10. apply (rep_ext _ _ x01 o0 (n0 + 1) f); [exact R01| |exact Y2].
    intros y3 k3 Y3. apply (rep_ext _ _ x00 o0 n0 f); [exact R00| |exact Y3]. exact G13. }
  assert (ETN : ET m5 f 0 = Some n0 /\ ET m5 f 1 = Some (n0 + 1)).
  { rewrite !L10, !rep_other, !K10, !rep_other by lia. auto. }
  assert (EV5 : EV m5 = EV m3) by congruence. assert (TV5 : TV m5 = TV m) by congruence.
  assert (VE5 : VE m5 = VE m) by congruence. assert (VT5 : VT m5 = VT m) by congruence.
  assert (NV5 : nv m5 = nv m) by congruence. assert (NE5 : ne m5 = f + 1) by congruence. assert (NT5 : nt m5 = n0 + 2) by congruence.
  assert (P5 : POS m5 = POS m) by congruence. assert (I5 : IDX m5 = IDX m) by congruence.
  clear K1 K2 K3 K4 K5 K6 K7 K8 K9 K10 K11 L1 L2 L3 L4 L5 L6 L7 L8 L9 L10 L11.
  unfold for2. constructor; fold a b f n0.
  - exact NV5.
  - exact NE5.
  - exact NT5.
  - exact P5.
  - exact I5.
  - intros x k X. cbn. rewrite EV5. apply G10, X.
  - cbn. rewrite EV5. split; assumption.
  - intros t k T. cbn. unfold upd2. rewrite TV5. assert (t =? n0 + 0 = false) as -> by (apply Nat.eqb_neq; lia).
    assert (t =? n0 + 1 = false) as -> by (apply Nat.eqb_neq; lia). reflexivity.
  - cbn. unfold upd2. rewrite !Nat.add_0_r, !Nat.eqb_refl. cbn. assert (n0 =? n0 + 1 = false) as -> by (apply Nat.eqb_neq; lia). repeat split.
  - cbn. unfold upd2. rewrite !Nat.add_0_r, !Nat.eqb_refl. cbn. assert (n0 + 1 =? n0 = false) as -> by (apply Nat.eqb_neq; lia). repeat split.
  - intros t k T. cbn. unfold upd2. rewrite TE5. rewrite Nat.add_0_r. assert (t =? n0 = false) as -> by (apply Nat.eqb_neq; lia).
    assert (t =? n0 + 1 = false) as -> by (apply Nat.eqb_neq; lia). reflexivity.
  - cbn. unfold upd2. rewrite !TE5, !Nat.add_0_r, !Nat.eqb_refl. cbn. assert (n0 =? n0 + 1 = false) as -> by (apply Nat.eqb_neq; lia). repeat split.
  - cbn. unfold upd2. rewrite !TE5, !Nat.add_0_r, !Nat.eqb_refl. cbn. assert (n0 + 1 =? n0 = false) as -> by (apply Nat.eqb_neq; lia). repeat split.
  - intros y k Y. cbn. apply ET5, Y.
  - cbn. exact ETN.
  - intros u U. rewrite <- VE5 in U. nodup_sets. exact U.
  - intros u U. rewrite <- VT5 in U. nodup_sets. exact U.
  - intros u x. autorewrite with mesh. rewrite VE5. cbn [sel Nat.eqb]. tauto.
  - intros u t. autorewrite with mesh. rewrite VT5. cbn [sel Nat.eqb]. rewrite Nat.add_0_r.
    assert (n0 <> o0 /\ n0 <> o1 /\ n0 + 1 <> o0 /\ n0 + 1 <> o1) as (Q1 & Q2 & Q3 & Q4) by lia. split.
    + intros [[A B]|[[A B]|[[A B]|[[A B]|[[A B]|(N1 & N2 & [[A B]|(N3 & N4 & N5 & N6 & _ & _ & _ & _ & I)])]]]]].
      * right; right; auto.
      * right; left; auto.
      * right; right; auto.
      * right; left; auto.
      * right; right; auto.
      * right; left; auto.
      * left. split; [exact I|]. split; [|split; assumption].
        intros [[A|A] [B|B]]; [apply N4|apply N3|apply N2|apply N1]; auto.
    + intros [(I & N1 & N2 & N3)|[[T U]|[T U]]].
      * assert (M1 : ~ (u = a /\ t = o0)) by (intros [A B]; apply N1; auto). assert (M2 : ~ (u = a /\ t = o1)) by (intros [A B]; apply N1; auto).
        assert (M3 : ~ (u = b /\ t = o0)) by (intros [A B]; apply N1; auto). assert (M4 : ~ (u = b /\ t = o1)) by (intros [A B]; apply N1; auto).
        clear - I N2 N3 M1 M2 M3 M4. repeat right. repeat (split; [assumption|]). right. repeat (split; [assumption|]). exact I.
      * destruct U as [U|[U|U]]; [right; right; right; left; auto|right; left; auto|]. right. right. right. right. right.
        split; [intros [_ W]; congruence|]. split; [intros [_ W]; congruence|]. left. auto.
      * destruct U as [U|[U|U]]; [right; right; left; auto|left; auto|right; right; right; right; left; auto].
Qed.
End Flip.
