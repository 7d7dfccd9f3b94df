(** performFlip keeps a mesh consistent: the obligations of a replacement. *)
From Coq Require Import ZArith List Bool Arith Lia.
From Verif Require Import Outcome DelModel DelSpec DelFields DelRewire DelFlip.
Import ListNotations.
Open Scope nat_scope.

Lemma perm3_distinct (f : nat -> nat) x y z : x <> y -> x <> z -> y <> z -> perm3 f x y z -> f 0 <> f 1 /\ f 0 <> f 2 /\ f 1 <> f 2.
Proof. intros A B C H. unfold perm3 in H. decompose [or and] H; subst; repeat split; congruence. Qed.

Section Flip2.
Context {P : Type}.
Implicit Types m : mesh P.

(** a triangle given by its corners and the sides joining them *)
Lemma tri_ok m t p q r spq spr sqr : perm3 (TV m t) p q r -> perm3 (TE m t) spq spr sqr -> p <> q -> p <> r -> q <> r ->
  joins m spq p q -> joins m spr p r -> joins m sqr q r ->
  (TV m t 0 <> TV m t 1 /\ TV m t 0 <> TV m t 2 /\ TV m t 1 <> TV m t 2) /\
  (TE m t 0 <> TE m t 1 /\ TE m t 0 <> TE m t 2 /\ TE m t 1 <> TE m t 2) /\
  (forall u v, corner m t u -> corner m t v -> u <> v -> exists e, side m t e /\ joins m e u v) /\
  (forall e v, side m t e -> end_of m e v -> corner m t v).
Proof.
  intros HV HE PQ PR QR J1 J2 J3.
  assert (spq <> spr). { intros <-. pose proof (proj1 (joins_ends m spq p q r J1) (proj2 (joins_ends m spq p r r J2) (or_intror eq_refl))). destruct H; congruence. }
  assert (spq <> sqr). { intros <-. pose proof (proj1 (joins_ends m spq p q r J1) (proj2 (joins_ends m spq q r r J3) (or_intror eq_refl))). destruct H0; congruence. }
  assert (spr <> sqr). { intros <-. pose proof (proj1 (joins_ends m spr p r q J2) (proj2 (joins_ends m spr q r q J3) (or_introl eq_refl))). destruct H1; congruence. }
  split; [apply (perm3_distinct _ p q r); assumption|]. split; [apply (perm3_distinct _ spq spr sqr); assumption|].
  assert (CO : forall v, corner m t v <-> v = p \/ v = q \/ v = r) by (intros v; apply (perm3_in _ p q r v HV)).
  assert (SI : forall e, side m t e <-> e = spq \/ e = spr \/ e = sqr) by (intros v; apply (perm3_in _ spq spr sqr v HE)).
  split.
  - intros u v U V N. apply CO in U, V.
    destruct U as [->|[->| ->]], V as [->|[->| ->]]; try (exfalso; congruence).
    + exists spq. rewrite SI. auto.
    + exists spr. rewrite SI. auto.
    + exists spq. rewrite SI. split; auto. apply joins_sym, J1.
    + exists sqr. rewrite SI. auto.
    + exists spr. rewrite SI. split; auto. apply joins_sym, J2.
    + exists sqr. rewrite SI. split; auto. apply joins_sym, J3.
  - intros e v S E. apply CO. apply SI in S. destruct S as [->|[->| ->]].
    + apply (joins_ends _ _ _ _ _ J1) in E. destruct E; auto.
    + apply (joins_ends _ _ _ _ _ J2) in E. destruct E; auto.
    + apply (joins_ends _ _ _ _ _ J3) in E. destruct E; auto.
Qed.

(** edges that stay: in R x o n the edge x passes from the removed triangle o to the new one n *)
Lemma relink m m' (dE dT nT : list nat) (R : nat -> nat -> nat -> Prop) : consistent m ->
  (forall t, In t nT -> nt m <= t) ->
  (forall x o n, R x o n -> beside m x o /\ In o dT /\ In n nT) ->
  (forall x o n o' n', R x o n -> R x o' n' -> o = o' /\ n = n') ->
  (forall x, edge_of m x -> ~ In x dE -> (exists o n, R x o n /\ forall k, ET m' x k = ET (rep m x o n) x k) \/
                                        ((forall o n, ~ R x o n) /\ forall k, ET m' x k = ET m x k)) ->
  (forall x o, edge_of m x -> ~ In x dE -> In o dT -> beside m x o -> exists n, R x o n) ->
  (forall x t, edge_of m x -> ~ In x dE -> In t nT -> (side m' t x <-> exists o, R x o t)) ->
  (forall x t, edge_of m x -> ~ In x dE -> (beside m' x t <-> (beside m x t /\ ~ In t dT) \/ (In t nT /\ side m' t x))) /\
  (forall x t, edge_of m x -> ~ In x dE -> ~ (ET m' x 0 = Some t /\ ET m' x 1 = Some t)) /\
  (forall x, edge_of m x -> ~ In x dE -> exists t, ET m' x 0 = Some t) /\
  (forall x, edge_of m x -> ~ In x dE -> ET m' x 1 = None -> ET m x 1 = None).
Proof.
  intros C FR H1 H2 H3 H4 H5.
  assert (NEW : forall n, In n nT -> ~ tri_of m n). { intros n N T. apply FR in N. apply (c_rangeT _ C) in T. lia. }
  assert (NB : forall x n, edge_of m x -> In n nT -> ~ beside m x n). { intros x n E N B. apply (NEW n N), (c_beside _ C x n E B). }
  split; [|split; [|split]].
  - intros x t E D. destruct (H3 x E D) as [(o & n & HR & HE)|[HR HE]].
    + destruct (H1 _ _ _ HR) as (B & OD & NN).
      assert (NO : n <> o). { intros ->. exact (NB x o E NN B). }
      assert (EQ : beside m' x t <-> beside (rep m x o n) x t) by (unfold beside; rewrite !HE; tauto).
      rewrite EQ, (rep_beside m x o n t B (c_two _ C x o E) NO). split.
      * intros [[BT TO]| ->].
        -- left. split; [exact BT|]. intros DT. destruct (H4 x t E D DT BT) as (n' & R'). apply TO. apply (H2 _ _ _ _ _ R' HR).
        -- right. split; [exact NN|]. apply H5; auto. exists o. exact HR.
      * intros [[BT TD]|[TN SD]].
        -- left. split; [exact BT|]. intros ->. contradiction.
        -- right. apply (H5 x t E D TN) in SD. destruct SD as (o' & R'). apply (H2 _ _ _ _ _ R' HR).
    + assert (EQ : beside m' x t <-> beside m x t) by (unfold beside; rewrite !HE; tauto). rewrite EQ. split.
      * intros B. left. split; [exact B|]. intros DT. destruct (H4 x t E D DT B) as (n & R'). exact (HR _ _ R').
      * intros [[B _]|[TN SD]]; [exact B|]. exfalso. apply (H5 x t E D TN) in SD. destruct SD as (o & R'). exact (HR _ _ R').
  - intros x t E D [A B]. destruct (H3 x E D) as [(o & n & HR & HE)|[HR HE]].
    + destruct (H1 _ _ _ HR) as (BO & OD & NN). rewrite HE in A, B.
      destruct (rep_cases m x o n BO) as [(_ & Q1 & Q2)|(_ & _ & Q1 & Q2)].
      * apply (NB x n E NN). right. congruence.
      * apply (NB x n E NN). left. congruence.
    + rewrite HE in A, B. exact (c_two _ C x t E (conj A B)).
  - intros x E D. destruct (c_outer _ C x E) as [(t & T) _]. destruct (H3 x E D) as [(o & n & HR & HE)|[HR HE]].
    + destruct (H1 _ _ _ HR) as (BO & OD & NN). rewrite HE. destruct (rep_cases m x o n BO) as [(_ & Q1 & Q2)|(_ & _ & Q1 & Q2)]; rewrite Q1; eauto.
    + exists t. rewrite HE. exact T.
  - intros x E D. destruct (H3 x E D) as [(o & n & HR & HE)|[HR HE]].
    + destruct (H1 _ _ _ HR) as (BO & OD & NN). rewrite HE. destruct (rep_cases m x o n BO) as [(_ & Q1 & Q2)|(_ & _ & Q1 & Q2)]; rewrite Q2; congruence.
    + rewrite HE. auto.
Qed.

Lemma rep_row m1 m2 x o n : (forall k, ET m1 x k = ET m2 x k) -> forall k, ET (rep m1 x o n) x k = ET (rep m2 x o n) x k.
Proof. intros H k. unfold rep. cbn. unfold upd2. rewrite !H. reflexivity. Qed.

Section Result.
Variables (m m' : mesh P) (e o0 o1 c d x00 x01 x10 x11 : nat).
Hypothesis C : consistent m.
Hypothesis E : edge_of m e.
Hypothesis E0 : ET m e 0 = Some o0.
Hypothesis E1 : ET m e 1 = Some o1.
Hypothesis A0 : around m o0 e c x00 x01.
Hypothesis A1 : around m o1 e d x10 x11.

Lemma two_tri : o0 <> o1.
Proof. intros H. apply (c_two _ C e o0 E). split; congruence. Qed.

Lemma apart_distinct : c <> d.
Proof.
  intros H. apply two_tri. apply (c_distinct _ C); [apply A0|apply A1|]. intros v V.
  apply (perm3_in _ _ _ _ v (a_corner _ _ _ _ _ _ A0)) in V. apply (perm3_in _ _ _ _ v (a_corner _ _ _ _ _ _ A1)). rewrite <- H. exact V.
Qed.

Lemma quad_sides : x00 <> x01 /\ x00 <> x10 /\ x00 <> x11 /\ x01 <> x10 /\ x01 <> x11 /\ x10 <> x11.
Proof.
  pose proof apart_distinct as CD. pose proof (c_edge _ C e E) as AB.
  pose proof (a_join0 _ _ _ _ _ _ A0) as J00. pose proof (a_join1 _ _ _ _ _ _ A0) as J01.
  pose proof (a_join0 _ _ _ _ _ _ A1) as J10. pose proof (a_join1 _ _ _ _ _ _ A1) as J11.
  pose proof (a_c0 _ _ _ _ _ _ A0). pose proof (a_c1 _ _ _ _ _ _ A0). pose proof (a_c0 _ _ _ _ _ _ A1). pose proof (a_c1 _ _ _ _ _ _ A1).
  assert (NC : forall x u, joins m x u d -> c <> u -> ~ end_of m x c).
  { intros x u J N Q. apply (joins_ends _ _ _ _ _ J) in Q. destruct Q; congruence. }
  assert (HC : forall x u, joins m x u c -> end_of m x c). { intros x u J. apply (joins_ends _ _ _ _ _ J). auto. }
  split; [exact (a_01 _ _ _ _ _ _ A0)|]. split; [intros Q; apply (NC x10 (EV m e 0) J10 H); rewrite <- Q; eauto|].
  split; [intros Q; apply (NC x11 (EV m e 1) J11 H0); rewrite <- Q; eauto|].
  split; [intros Q; apply (NC x10 (EV m e 0) J10 H); rewrite <- Q; eauto|].
  split; [intros Q; apply (NC x11 (EV m e 1) J11 H0); rewrite <- Q; eauto|]. exact (a_01 _ _ _ _ _ _ A1).
Qed.

Lemma quad_beside : beside m x00 o0 /\ beside m x01 o0 /\ beside m x10 o1 /\ beside m x11 o1.
Proof.
  assert (S0 : forall x, side m o0 x <-> x = e \/ x = x00 \/ x = x01) by (intros x; apply (perm3_in _ _ _ _ _ (a_side _ _ _ _ _ _ A0))).
  assert (S1 : forall x, side m o1 x <-> x = e \/ x = x10 \/ x = x11) by (intros x; apply (perm3_in _ _ _ _ _ (a_side _ _ _ _ _ _ A1))).
  split; [apply (c_side _ C o0 x00 (a_tri _ _ _ _ _ _ A0)); apply S0; auto|].
  split; [apply (c_side _ C o0 x01 (a_tri _ _ _ _ _ _ A0)); apply S0; auto|].
  split; [apply (c_side _ C o1 x10 (a_tri _ _ _ _ _ _ A1)); apply S1; auto|].
  apply (c_side _ C o1 x11 (a_tri _ _ _ _ _ _ A1)); apply S1; auto.
Qed.

Hypothesis NJ : ~ joined m c d.
Hypothesis F : flipped m e o0 o1 c d x00 x01 x10 x11 m'.

Let R (x o n : nat) : Prop :=
  (x = x00 /\ o = o0 /\ n = nt m) \/ (x = x01 /\ o = o0 /\ n = nt m + 1) \/
  (x = x10 /\ o = o1 /\ n = nt m) \/ (x = x11 /\ o = o1 /\ n = nt m + 1).

Lemma flip_rewired : rewired m m' [e] [o0; o1] [ne m] [nt m; nt m + 1].
Proof.
  pose proof two_tri as OO. pose proof apart_distinct as CD. pose proof quad_sides as (D1 & D2 & D3 & D4 & D5 & D6).
  pose proof quad_beside as (B1 & B2 & B3 & B4).
  assert (AB : EV m e 0 <> EV m e 1) by apply (c_edge _ C e E).
  pose proof (a_c0 _ _ _ _ _ _ A0) as CA. pose proof (a_c1 _ _ _ _ _ _ A0) as CB.
  pose proof (a_c0 _ _ _ _ _ _ A1) as DA. pose proof (a_c1 _ _ _ _ _ _ A1) as DB.
  assert (S0 : forall x, side m o0 x <-> x = e \/ x = x00 \/ x = x01) by (intros x; apply (perm3_in _ _ _ _ _ (a_side _ _ _ _ _ _ A0))).
  assert (S1 : forall x, side m o1 x <-> x = e \/ x = x10 \/ x = x11) by (intros x; apply (perm3_in _ _ _ _ _ (a_side _ _ _ _ _ _ A1))).
  assert (C0 : forall x, corner m o0 x <-> x = EV m e 0 \/ x = EV m e 1 \/ x = c) by (intros x; apply (perm3_in _ _ _ _ _ (a_corner _ _ _ _ _ _ A0))).
  assert (C1 : forall x, corner m o1 x <-> x = EV m e 0 \/ x = EV m e 1 \/ x = d) by (intros x; apply (perm3_in _ _ _ _ _ (a_corner _ _ _ _ _ _ A1))).
  pose proof (a_tri _ _ _ _ _ _ A0) as T0. pose proof (a_tri _ _ _ _ _ _ A1) as T1.
  pose proof (a_edge0 _ _ _ _ _ _ A0) as L0. pose proof (a_edge1 _ _ _ _ _ _ A0) as L1.
  pose proof (a_edge0 _ _ _ _ _ _ A1) as L2. pose proof (a_edge1 _ _ _ _ _ _ A1) as L3.
  assert (VC : c < nv m) by (apply (c_corners _ C o0 c T0), C0; auto).
  assert (VD : d < nv m) by (apply (c_corners _ C o1 d T1), C1; auto).
  assert (VA : EV m e 0 < nv m) by (apply (c_corners _ C o1 _ T1), C1; auto).
  assert (VB : EV m e 1 < nv m) by (apply (c_corners _ C o1 _ T1), C1; auto).
  pose proof (f_TE0 _ _ _ _ _ _ _ _ _ _ _ F) as TE0. pose proof (f_TE1 _ _ _ _ _ _ _ _ _ _ _ F) as TE1.
  pose proof (f_TV0 _ _ _ _ _ _ _ _ _ _ _ F) as TV0. pose proof (f_TV1 _ _ _ _ _ _ _ _ _ _ _ F) as TV1.
  pose proof (f_EVn _ _ _ _ _ _ _ _ _ _ _ F) as EVn.
  assert (OEV : forall x k, edge_of m x -> EV m' x k = EV m x k) by (intros x k X; apply (f_EV _ _ _ _ _ _ _ _ _ _ _ F), (c_rangeE _ C x X)).
  assert (OJ : forall x u v, edge_of m x -> (joins m' x u v <-> joins m x u v)) by (intros x u v X; unfold joins; rewrite !OEV by exact X; tauto).
  assert (JN : joins m' (ne m) c d) by (left; exact EVn).
  assert (N0 : forall x, side m' (nt m) x <-> x = x00 \/ x = x10 \/ x = ne m).
  { intros x. unfold side. destruct TE0 as (-> & -> & ->). intuition congruence. }
  assert (N1 : forall x, side m' (nt m + 1) x <-> x = x01 \/ x = x11 \/ x = ne m).
  { intros x. unfold side. destruct TE1 as (-> & -> & ->). intuition congruence. }
  assert (K0 : forall v, corner m' (nt m) v <-> v = c \/ v = d \/ v = EV m e 0).
  { intros x. unfold corner. destruct TV0 as (-> & -> & ->). intuition congruence. }
  assert (K1 : forall v, corner m' (nt m + 1) v <-> v = c \/ v = d \/ v = EV m e 1).
  { intros x. unfold corner. destruct TV1 as (-> & -> & ->). intuition congruence. }
  assert (ROW : forall x, edge_of m x -> (exists o n, R x o n /\ forall k, ET m' x k = ET (rep m x o n) x k) \/
                                         ((forall o n, ~ R x o n) /\ forall k, ET m' x k = ET m x k)).
  { intros x X. pose proof (fun k => f_ET _ _ _ _ _ _ _ _ _ _ _ F x k (c_rangeE _ C x X)) as H. unfold R.
    destruct (Nat.eq_dec x x00) as [->|X0].
    { left. exists o0, (nt m). split; [auto|]. intros k. rewrite H. rewrite !rep_other by congruence. reflexivity. }
    destruct (Nat.eq_dec x x01) as [->|X1].
    { left. exists o0, (nt m + 1). split; [auto|]. intros k. rewrite H, !(rep_other (rep _ _ _ _)) by congruence.
      rewrite (rep_row _ m); [reflexivity|]. intros j. rewrite !rep_other by congruence. reflexivity. }
    destruct (Nat.eq_dec x x10) as [->|X2].
    { left. exists o1, (nt m). split; [auto 8|]. intros k. rewrite H, (rep_other _ x11) by congruence.
      rewrite (rep_row _ m); [reflexivity|]. intros j. rewrite !rep_other by congruence. reflexivity. }
    destruct (Nat.eq_dec x x11) as [->|X3].
    { left. exists o1, (nt m + 1). split; [auto 8|]. intros k. rewrite H.
      rewrite (rep_row _ m); [reflexivity|]. intros j. rewrite !rep_other by congruence. reflexivity. }
    right. split; [intros o n Q; decompose [or and] Q; congruence|]. intros k. rewrite H, !rep_other by congruence. reflexivity. }
  destruct (relink m m' [e] [o0; o1] [nt m; nt m + 1] R C) as (Q1 & Q2 & Q3 & Q4).
  { intros t [<-|[<-|[]]]; lia. }
  { intros x o n HR. unfold R in HR. cbn. decompose [or and] HR; subst; (split; [assumption|]); split; auto. }
  { intros x o n o' n' HR HR'. unfold R in HR, HR'. decompose [or and] HR; decompose [or and] HR'; subst; try (exfalso; congruence); auto. }
  { intros x X _. apply ROW, X. }
  { intros x o X NE OD B. assert (x <> e) by (intros ->; apply NE; left; reflexivity). apply (c_beside _ C x o X) in B. destruct B as [_ B].
    destruct OD as [<-|[<-|[]]].
    - apply S0 in B. destruct B as [B|[B|B]]; [congruence|exists (nt m)|exists (nt m + 1)]; unfold R; auto.
    - apply S1 in B. destruct B as [B|[B|B]]; [congruence|exists (nt m)|exists (nt m + 1)]; unfold R; auto 8. }
  { intros x t X NE TN. assert (x <> ne m) by (apply (c_rangeE _ C) in X; lia). assert (nt m <> nt m + 1) by lia. destruct TN as [<-|[<-|[]]].
    - rewrite N0. unfold R. split; [intros [->|[->|Q]]; [exists o0; auto 8|exists o1; auto 8|congruence]|]. intros (o & HR). unfold R in HR. decompose [or and] HR; subst; auto; congruence.
    - rewrite N1. unfold R. split; [intros [->|[->|Q]]; [exists o0; auto|exists o1; auto 8|congruence]|]. intros (o & HR). unfold R in HR. decompose [or and] HR; subst; auto; congruence. }
  constructor.
  - apply (f_nv _ _ _ _ _ _ _ _ _ _ _ F).
  - rewrite (f_ne _ _ _ _ _ _ _ _ _ _ _ F). lia.
  - rewrite (f_nt _ _ _ _ _ _ _ _ _ _ _ F). lia.
  - repeat constructor. intros [].
  - repeat constructor; [intros [H|[]]; lia|intros []].
  - repeat constructor. intros [].
  - repeat constructor; [intros [H|[]]; congruence|intros []].
  - intros x [<-|[]]. exact E.
  - intros t [<-|[<-|[]]]; assumption.
  - intros x [<-|[]]. rewrite (f_ne _ _ _ _ _ _ _ _ _ _ _ F). lia.
  - intros x [<-|[<-|[]]]; rewrite (f_nt _ _ _ _ _ _ _ _ _ _ _ F); lia.
  - intros x X. split; apply OEV, X.
  - intros t T. apply (c_rangeT _ C) in T. split; [|split]; apply (f_TV _ _ _ _ _ _ _ _ _ _ _ F), T.
  - intros t T. apply (c_rangeT _ C) in T. split; [|split]; apply (f_TE _ _ _ _ _ _ _ _ _ _ _ F), T.
  - apply (f_setE _ _ _ _ _ _ _ _ _ _ _ F).
  - apply (f_setT _ _ _ _ _ _ _ _ _ _ _ F).
  - intros u x U. rewrite (f_VE _ _ _ _ _ _ _ _ _ _ _ F). split.
    + intros [[I N]|[-> Q]].
      * left. split; [exact I|]. intros [<-|[]]. apply N. split; [reflexivity|].
        assert (end_of m e u) by (apply (c_vertE _ C u e U E), I). destruct H; auto.
      * right. split; [left; reflexivity|]. apply (joins_ends _ _ _ _ _ JN), Q.
    + intros [[I N]|[[<-|[]] Q]].
      * left. split; [exact I|]. intros [-> _]. apply N. left. reflexivity.
      * right. split; [reflexivity|]. apply (joins_ends _ _ _ _ _ JN), Q.
  - intros u t U. rewrite (f_VT _ _ _ _ _ _ _ _ _ _ _ F). split.
    + intros [(I & M1 & M2 & M3)|[[-> Q]|[-> Q]]].
      * left. split; [exact I|]. intros [<-|[<-|[]]].
        -- apply (c_vertT _ C u o0 U T0), C0 in I. destruct I as [I|[I|I]]; [apply M1; auto|apply M1; auto|apply M2; auto].
        -- apply (c_vertT _ C u o1 U T1), C1 in I. destruct I as [I|[I|I]]; [apply M1; auto|apply M1; auto|apply M3; auto].
      * right. split; [left; reflexivity|]. apply K0. exact Q.
      * right. split; [right; left; reflexivity|]. apply K1. exact Q.
    + intros [[I N]|[[<-|[<-|[]]] Q]].
      * left. split; [exact I|]. split; [|split].
        -- intros [_ [->| ->]]; apply N; [left|right; left]; reflexivity.
        -- intros [_ ->]. apply N. left. reflexivity.
        -- intros [_ ->]. apply N. right. left. reflexivity.
      * right. left. split; [reflexivity|]. apply K0, Q.
      * right. right. split; [reflexivity|]. apply K1, Q.
  - exact Q1.
  - exact Q2.
  - exact Q3.
  - exact Q4.
  - intros x [<-|[]]. destruct EVn as [-> ->]. split; [exact VC|]. split; [exact VD|]. split; [exact CD|].
    destruct (f_ETn _ _ _ _ _ _ _ _ _ _ _ F) as [Z0 Z1]. exists (nt m), (nt m + 1). split; [exact Z0|]. split; [exact Z1|]. split; [lia|].
    intros t. split; [intros [[<-|[<-|[]]] _]; auto|]. intros [->| ->].
    + split; [left; reflexivity|]. apply N0. auto.
    + split; [right; left; reflexivity|]. apply N1. auto.
  - intros x t [<-|[]] B. destruct B as [B|B]; [left|right; left]; congruence.
  - intros t [<-|[<-|[]]].
    + destruct (tri_ok m' (nt m) c d (EV m e 0) (ne m) x00 x10) as (G1 & G2 & G3 & G4); auto.
      { unfold perm3. destruct TV0 as (-> & -> & ->). auto. }
      { unfold perm3. destruct TE0 as (-> & -> & ->). auto 7. }
      { apply OJ; [exact L0|]. apply joins_sym, (a_join0 _ _ _ _ _ _ A0). }
      { apply OJ; [exact L2|]. apply joins_sym, (a_join0 _ _ _ _ _ _ A1). }
      split; [intros v V; apply K0 in V; destruct V as [->|[->| ->]]; assumption|]. split; [exact G1|]. split; [exact G2|]. split; [|split; [exact G3|exact G4]].
      intros x X. apply N0 in X. destruct X as [->|[->| ->]]; [right|right|left; left; reflexivity].
      * split; [exact L0|]. intros [Q|[]]. exact (a_e0 _ _ _ _ _ _ A0 Q).
      * split; [exact L2|]. intros [Q|[]]. exact (a_e0 _ _ _ _ _ _ A1 Q).
    + destruct (tri_ok m' (nt m + 1) c d (EV m e 1) (ne m) x01 x11) as (G1 & G2 & G3 & G4); auto.
      { unfold perm3. destruct TV1 as (-> & -> & ->). auto. }
      { unfold perm3. destruct TE1 as (-> & -> & ->). auto 7. }
      { apply OJ; [exact L1|]. apply joins_sym, (a_join1 _ _ _ _ _ _ A0). }
      { apply OJ; [exact L3|]. apply joins_sym, (a_join1 _ _ _ _ _ _ A1). }
      split; [intros v V; apply K1 in V; destruct V as [->|[->| ->]]; assumption|]. split; [exact G1|]. split; [exact G2|]. split; [|split; [exact G3|exact G4]].
      intros x X. apply N1 in X. destruct X as [->|[->| ->]]; [right|right|left; left; reflexivity].
      * split; [exact L1|]. intros [Q|[]]. exact (a_e1 _ _ _ _ _ _ A0 Q).
      * split; [exact L3|]. intros [Q|[]]. exact (a_e1 _ _ _ _ _ _ A1 Q).
  - intros x y u v [<-|[]] [[<-|[]]|[Y N]] J1 J2; [reflexivity|]. exfalso. apply NJ. apply OJ in J2; [|exact Y].
    exists y. split; [exact Y|]. destruct EVn as [Z0 Z1]. unfold joins in J1. rewrite Z0, Z1 in J1. destruct J1 as [[-> ->]|[-> ->]]; [exact J2|apply joins_sym, J2].
  - intros t s TN SN H.
    assert (OLD : tri_of m s -> ~ (forall v, v = c \/ v = d -> corner m' s v)).
    { intros S Q. assert (OC : forall v, corner m' s v <-> corner m s v).
      { intros v. unfold corner. pose proof (c_rangeT _ C s S). rewrite !(f_TV _ _ _ _ _ _ _ _ _ _ _ F) by assumption. tauto. }
      destruct (c_sides _ C s c d S) as (x & SX & JX); [apply OC, Q; auto|apply OC, Q; auto|exact CD|].
      apply NJ. exists x. split; [apply (c_side _ C s x S SX)|exact JX]. }
    destruct TN as [<-|[<-|[]]].
    + destruct SN as [[<-|[<-|[]]]|[S N]]; [reflexivity| |].
      * exfalso. assert (X : corner m' (nt m + 1) (EV m e 0)) by (apply H, K0; auto). apply K1 in X. destruct X as [X|[X|X]]; congruence.
      * exfalso. apply (OLD S). intros v V. apply H, K0. tauto.
    + destruct SN as [[<-|[<-|[]]]|[S N]]; [|reflexivity|].
      * exfalso. assert (X : corner m' (nt m) (EV m e 1)) by (apply H, K1; auto). apply K0 in X. destruct X as [X|[X|X]]; congruence.
      * exfalso. apply (OLD S). intros v V. apply H, K1. tauto.
Qed.
End Result.

(** the edge e may be flipped: it has two triangles and their other vertices are not joined *)
Definition flippable m (e : nat) : Prop := edge_of m e /\ exists o0 o1 c d, ET m e 0 = Some o0 /\ ET m e 1 = Some o1 /\
  findThirdVert m (Some o0) e = Ok c /\ findThirdVert m (Some o1) e = Ok d /\ ~ joined m c d.

Lemma flip_ok m e : consistent m -> flippable m e -> exists m' o0 o1 c d x00 x01 x10 x11,
  performFlip m e = Ok m' /\ ET m e 0 = Some o0 /\ ET m e 1 = Some o1 /\ around m o0 e c x00 x01 /\ around m o1 e d x10 x11 /\ ~ joined m c d /\
  flipped m e o0 o1 c d x00 x01 x10 x11 m' /\ rewired m m' [e] [o0; o1] [ne m] [nt m; nt m + 1].
Proof.
  intros C (E & o0 & o1 & c & d & E0 & E1 & T0 & T1 & NJ).
  destruct (around_ex m e o0 C E (or_introl E0)) as (c' & x00 & x01 & A0).
  destruct (around_ex m e o1 C E (or_intror E1)) as (d' & x10 & x11 & A1).
  assert (c' = c) by (pose proof (a_third _ _ _ _ _ _ A0); congruence). assert (d' = d) by (pose proof (a_third _ _ _ _ _ _ A1); congruence). subst c' d'.
  destruct (flip_computes m e o0 o1 c d x00 x01 x10 x11 C E E0 E1 A0 A1) as (m' & H & F).
  exists m', o0, o1, c, d, x00, x01, x10, x11. repeat (split; [assumption|]).
  apply (flip_rewired m m' e o0 o1 c d x00 x01 x10 x11); assumption.
Qed.
End Flip2.
