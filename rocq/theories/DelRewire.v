(** Replacing a part of a consistent mesh by another part with the same border. *)
From Coq Require Import ZArith List Bool Arith Lia.
From Verif Require Import DelModel DelSpec DelFields.
Import ListNotations.

Lemma three_in (a0 a1 a2 b0 b1 b2 : nat) : a0 <> a1 -> a0 <> a2 -> a1 <> a2 ->
  (b0 = a0 \/ b1 = a0 \/ b2 = a0) -> (b0 = a1 \/ b1 = a1 \/ b2 = a1) -> (b0 = a2 \/ b1 = a2 \/ b2 = a2) ->
  forall v, b0 = v \/ b1 = v \/ b2 = v -> a0 = v \/ a1 = v \/ a2 = v.
Proof.
  intros D1 D2 D3 H0 H1 H2 v V.
  destruct H0 as [H0|[H0|H0]], H1 as [H1|[H1|H1]], H2 as [H2|[H2|H2]]; subst; try (exfalso; (apply D1 + apply D2 + apply D3); congruence);
  destruct V as [V|[V|V]]; subst; tauto.
Qed.

Section Rewire.
Context {P : Type}.
Variables (m m' : mesh P) (dE dT nE nT : list nat).

(** what the replacement must satisfy: dE, dT are the removed edges and triangles, nE, nT the new ones *)
Record rewired : Prop := {
  w_nv : nv m' = nv m;
  w_ne : ne m <= ne m'; w_nt : nt m <= nt m';
  w_ndE : NoDup nE; w_ndT : NoDup nT; w_ddE : NoDup dE; w_ddT : NoDup dT;
  w_dE : forall x, In x dE -> edge_of m x;
  w_dT : forall t, In t dT -> tri_of m t;
  w_nE : forall x, In x nE -> ne m <= x < ne m';
  w_nT : forall t, In t nT -> nt m <= t < nt m';
  w_EV : forall x, edge_of m x -> EV m' x 0 = EV m x 0 /\ EV m' x 1 = EV m x 1;
  w_TV : forall t, tri_of m t -> TV m' t 0 = TV m t 0 /\ TV m' t 1 = TV m t 1 /\ TV m' t 2 = TV m t 2;
  w_TE : forall t, tri_of m t -> TE m' t 0 = TE m t 0 /\ TE m' t 1 = TE m t 1 /\ TE m' t 2 = TE m t 2;
  w_setE : forall u, NoDup (VE m u) -> NoDup (VE m' u);
  w_setT : forall u, NoDup (VT m u) -> NoDup (VT m' u);
  w_VE : forall u x, u < nv m -> (In x (VE m' u) <-> (In x (VE m u) /\ ~ In x dE) \/ (In x nE /\ end_of m' x u));
  w_VT : forall u t, u < nv m -> (In t (VT m' u) <-> (In t (VT m u) /\ ~ In t dT) \/ (In t nT /\ corner m' t u));
  w_beside : forall x t, edge_of m x -> ~ In x dE -> (beside m' x t <-> (beside m x t /\ ~ In t dT) \/ (In t nT /\ side m' t x));
  w_two : forall x t, edge_of m x -> ~ In x dE -> ~ (ET m' x 0 = Some t /\ ET m' x 1 = Some t);
  w_first : forall x, edge_of m x -> ~ In x dE -> exists t, ET m' x 0 = Some t;
  w_second : forall x, edge_of m x -> ~ In x dE -> ET m' x 1 = None -> ET m x 1 = None;
  w_newE : forall x, In x nE -> EV m' x 0 < nv m /\ EV m' x 1 < nv m /\ EV m' x 0 <> EV m' x 1 /\
      exists t0 t1, ET m' x 0 = Some t0 /\ ET m' x 1 = Some t1 /\ t0 <> t1 /\ forall t, In t nT /\ side m' t x <-> t = t0 \/ t = t1;
  w_oldside : forall x t, In x dE -> beside m x t -> In t dT;
  w_newT : forall t, In t nT -> (forall v, corner m' t v -> v < nv m) /\
      (TV m' t 0 <> TV m' t 1 /\ TV m' t 0 <> TV m' t 2 /\ TV m' t 1 <> TV m' t 2) /\
      (TE m' t 0 <> TE m' t 1 /\ TE m' t 0 <> TE m' t 2 /\ TE m' t 1 <> TE m' t 2) /\
      (forall e, side m' t e -> In e nE \/ (edge_of m e /\ ~ In e dE)) /\
      (forall u v, corner m' t u -> corner m' t v -> u <> v -> exists e, side m' t e /\ joins m' e u v) /\
      (forall e v, side m' t e -> end_of m' e v -> corner m' t v);
  w_simple : forall x y u v, In x nE -> (In y nE \/ (edge_of m y /\ ~ In y dE)) -> joins m' x u v -> joins m' y u v -> y = x;
  w_distinct : forall t s, In t nT -> (In s nT \/ (tri_of m s /\ ~ In s dT)) ->
      (forall v, corner m' t v <-> corner m' s v) -> s = t }.

Hypothesis C : consistent m.
Hypothesis W : rewired.

Lemma rw_edge x : edge_of m' x <-> (edge_of m x /\ ~ In x dE) \/ In x nE.
Proof.
  unfold edge_of at 1. rewrite (w_nv W). split.
  - intros (u & U & I). apply (w_VE W) in I; [|exact U]. destruct I as [[I D]|[I _]]; [left|right; exact I]. split; [exists u; auto|exact D].
  - intros [[(u & U & I) D]|I].
    + exists u. split; [exact U|]. apply (w_VE W); auto.
    + destruct (w_newE W x I) as (E0 & _). exists (EV m' x 0). split; [exact E0|]. apply (w_VE W); [exact E0|]. right. split; [exact I|left; reflexivity].
Qed.

Lemma rw_tri t : tri_of m' t <-> (tri_of m t /\ ~ In t dT) \/ In t nT.
Proof.
  unfold tri_of at 1. rewrite (w_nv W). split.
  - intros (u & U & I). apply (w_VT W) in I; [|exact U]. destruct I as [[I D]|[I _]]; [left|right; exact I]. split; [exists u; auto|exact D].
  - intros [[(u & U & I) D]|I].
    + exists u. split; [exact U|]. apply (w_VT W); auto.
    + destruct (w_newT W t I) as (E0 & _). assert (V : TV m' t 0 < nv m) by (apply E0; left; reflexivity).
      exists (TV m' t 0). split; [exact V|]. apply (w_VT W); [exact V|]. right. split; [exact I|left; reflexivity].
Qed.

Lemma fresh_edge x : In x nE -> ~ edge_of m x.
Proof. intros I E. apply (c_rangeE _ C) in E. apply (w_nE W) in I. lia. Qed.
Lemma fresh_tri x : In x nT -> ~ tri_of m x.
Proof. intros I E. apply (c_rangeT _ C) in E. apply (w_nT W) in I. lia. Qed.

Lemma old_end x v : edge_of m x -> (end_of m' x v <-> end_of m x v).
Proof. intros E. destruct (w_EV W x E) as [A B]. unfold end_of. rewrite A, B. tauto. Qed.
Lemma old_joins x u v : edge_of m x -> (joins m' x u v <-> joins m x u v).
Proof. intros E. destruct (w_EV W x E) as [A B]. unfold joins. rewrite A, B. tauto. Qed.
Lemma old_corner t v : tri_of m t -> (corner m' t v <-> corner m t v).
Proof. intros E. destruct (w_TV W t E) as (A & B & D). unfold corner. rewrite A, B, D. tauto. Qed.
Lemma old_side t v : tri_of m t -> (side m' t v <-> side m t v).
Proof. intros E. destruct (w_TE W t E) as (A & B & D). unfold side. rewrite A, B, D. tauto. Qed.

(** sides of the triangles that stay stay *)
Lemma kept_side t e : tri_of m t -> ~ In t dT -> side m t e -> edge_of m e /\ ~ In e dE /\ beside m e t.
Proof.
  intros T D S. destruct (c_side _ C t e T S) as [E B]. split; [exact E|split; [|exact B]]. intros I. apply D. eapply (w_oldside W); eauto.
Qed.

Lemma rewire_consistent : consistent m'.
Proof.
  constructor.
  - intros v V. rewrite (w_nv W) in V. apply (w_setE W), (c_setE _ C), V.
  - intros v V. rewrite (w_nv W) in V. apply (w_setT W), (c_setT _ C), V.
  - intros v e V E. rewrite (w_nv W) in V. rewrite (w_VE W) by exact V. apply rw_edge in E. destruct E as [[E D]|N].
    + rewrite (old_end e v E). rewrite <- (c_vertE _ C v e V E). split; [intros [[I _]|[N _]]; [exact I|]|auto].
      exfalso. exact (fresh_edge e N E).
    + split; [|intros H; right; auto]. intros [[I _]|[_ I]]; [|exact I]. exfalso. apply (fresh_edge e N). exists v. auto.
  - intros v t V T. rewrite (w_nv W) in V. rewrite (w_VT W) by exact V. apply rw_tri in T. destruct T as [[E D]|N].
    + rewrite (old_corner t v E). rewrite <- (c_vertT _ C v t V E). split; [intros [[I _]|[N _]]; [exact I|]|auto].
      exfalso. exact (fresh_tri t N E).
    + split; [|intros H; right; auto]. intros [[I _]|[_ I]]; [|exact I]. exfalso. apply (fresh_tri t N). exists v. auto.
  - intros e v E H. rewrite (w_nv W). apply rw_edge in E. destruct E as [[E D]|N].
    + apply (c_ends _ C e v E). apply old_end; assumption.
    + destruct (w_newE W e N) as (A & B & _). destruct H as [<-|<-]; assumption.
  - intros t v T H. rewrite (w_nv W). apply rw_tri in T. destruct T as [[E D]|N].
    + apply (c_corners _ C t v E). apply old_corner; assumption.
    + destruct (w_newT W t N) as (A & _). apply A, H.
  - intros e E. apply rw_edge in E. destruct E as [[E D]|N]; [|apply (w_nE W) in N; lia]. apply (c_rangeE _ C) in E. pose proof (w_ne W). lia.
  - intros e E. apply rw_tri in E. destruct E as [[E D]|N]; [|apply (w_nT W) in N; lia]. apply (c_rangeT _ C) in E. pose proof (w_nt W). lia.
  - intros e E. apply rw_edge in E. destruct E as [[E D]|N].
    + destruct (w_EV W e E) as [-> ->]. apply (c_edge _ C e E).
    + apply (w_newE W e N).
  - intros t T. apply rw_tri in T. destruct T as [[E D]|N].
    + destruct (w_TV W t E) as (-> & -> & ->). apply (c_tri _ C t E).
    + apply (w_newT W t N).
  - intros e t E B. apply rw_edge in E. destruct E as [[E D]|N].
    + apply (w_beside W) in B; [|exact E|exact D]. destruct B as [[B DT]|[NT S]].
      * destruct (c_beside _ C e t E B) as [T S]. split; [apply rw_tri; auto|apply old_side; auto].
      * split; [apply rw_tri; auto|exact S].
    + destruct (w_newE W e N) as (_ & _ & _ & t0 & t1 & E0 & E1 & _ & A).
      assert (X : t = t0 \/ t = t1) by (destruct B as [B|B]; [left|right]; congruence).
      apply A in X. destruct X as [X S]. split; [apply rw_tri; auto|exact S].
  - intros t e T S. apply rw_tri in T. destruct T as [[T D]|N].
    + apply old_side in S; [|exact T]. destruct (kept_side t e T D S) as (E & DE & B). split; [apply rw_edge; auto|].
      apply (w_beside W); auto.
    + destruct (w_newT W t N) as (_ & _ & _ & SS & _). destruct (SS e S) as [NE|[E DE]].
      * split; [apply rw_edge; auto|]. destruct (w_newE W e NE) as (_ & _ & _ & t0 & t1 & E0 & E1 & _ & A).
        destruct (proj1 (A t) (conj N S)) as [->| ->]; [left|right]; assumption.
      * split; [apply rw_edge; auto|]. apply (w_beside W); auto.
  - intros e t E. apply rw_edge in E. destruct E as [[E D]|N]; [apply (w_two W); assumption|].
    destruct (w_newE W e N) as (_ & _ & _ & t0 & t1 & E0 & E1 & X & _). intros [A B]. congruence.
  - intros t u v T CU CV UV. apply rw_tri in T. destruct T as [[T D]|N].
    + apply old_corner in CU, CV; try exact T. destruct (c_sides _ C t u v T CU CV UV) as (e & S & J). exists e.
      split; [apply old_side; assumption|]. apply old_joins; [|exact J]. apply (c_side _ C t e T S).
    + destruct (w_newT W t N) as (_ & _ & _ & _ & A & _). apply A; assumption.
  - intros t e v T S EN. apply rw_tri in T. destruct T as [[T D]|N].
    + apply old_side in S; [|exact T]. apply old_corner; [exact T|]. apply (c_inner _ C t e v T S).
      apply old_end in EN; [exact EN|]. apply (c_side _ C t e T S).
    + destruct (w_newT W t N) as (_ & _ & _ & _ & _ & A). apply (A e v); assumption.
  - intros t T. apply rw_tri in T. destruct T as [[E D]|N].
    + destruct (w_TE W t E) as (-> & -> & ->). apply (c_sides3 _ C t E).
    + apply (w_newT W t N).
  - intros e e' u v E E' J J'. apply rw_edge in E, E'. destruct E as [[E D]|N].
    + destruct E' as [[E' D']|N'].
      * apply old_joins in J, J'; try assumption. apply (c_simple _ C e e' u v); assumption.
      * apply (w_simple W e' e u v); auto.
    + symmetry. apply (w_simple W e e' u v); auto. tauto.
  - assert (SYM : forall t t', tri_of m' t -> tri_of m' t' -> (forall v, corner m' t v -> corner m' t' v) -> forall v, corner m' t v <-> corner m' t' v).
    { intros t t' T T' H v. split; [apply H|].
      assert (D3 : forall s, tri_of m' s -> TV m' s 0 <> TV m' s 1 /\ TV m' s 0 <> TV m' s 2 /\ TV m' s 1 <> TV m' s 2).
      { intros s S. apply rw_tri in S. destruct S as [[E D]|N].
        - destruct (w_TV W s E) as (-> & -> & ->). apply (c_tri _ C s E).
        - apply (w_newT W s N). }
      destruct (D3 t T) as (A1 & A2 & A3). destruct (D3 t' T') as (B1 & B2 & B3).
      pose proof (H (TV m' t 0) (or_introl eq_refl)) as H0. pose proof (H (TV m' t 1) (or_intror (or_introl eq_refl))) as H1.
      pose proof (H (TV m' t 2) (or_intror (or_intror eq_refl))) as H2. exact (three_in _ _ _ _ _ _ A1 A2 A3 H0 H1 H2 v). }
    intros t t' T T' H. pose proof (SYM t t' T T' H) as HS. apply rw_tri in T, T'. destruct T as [[E D]|N].
    + destruct T' as [[E' D']|N'].
      * apply (c_distinct _ C t t' E E'). intros v V. apply (old_corner t' v E'), HS, (old_corner t v E), V.
      * apply (w_distinct W t' t); auto. intros v. symmetry. apply HS.
    + symmetry. apply (w_distinct W t t'); auto. tauto.
  - intros e E. apply rw_edge in E. destruct E as [[E D]|N].
    + split; [apply (w_first W e E D)|]. intros H. destruct (w_EV W e E) as [-> ->]. apply (c_outer _ C e E), (w_second W e E D H).
    + destruct (w_newE W e N) as (_ & _ & _ & t0 & t1 & E0 & E1 & _). split; [eauto|]. congruence.
  - rewrite (w_nv W). apply (c_bound _ C).
Qed.

(** numbers of edges and triangles *)
Lemma list_replace (L D N : list nat) (A A' : nat -> Prop) :
  NoDup L -> (forall x, In x L <-> A x) -> NoDup D -> (forall x, In x D -> A x) -> NoDup N -> (forall x, In x N -> ~ A x) ->
  (forall x, A' x <-> (A x /\ ~ In x D) \/ In x N) ->
  exists L', NoDup L' /\ (forall x, In x L' <-> A' x) /\ length L' + length D = length L + length N.
Proof.
  intros NL HL ND HD NN HN HA.
  set (R := filter (fun x => if in_dec Nat.eq_dec x D then false else true) L).
  assert (IR : forall x, In x R <-> A x /\ ~ In x D).
  { intros x. unfold R. rewrite filter_In, HL. destruct (in_dec Nat.eq_dec x D); intuition congruence. }
  assert (NR : NoDup R) by (apply NoDup_filter, NL).
  clearbody R. exists (N ++ R). split; [|split].
  - clear - NN NR HN IR. induction NN as [|x N NI NN IH]; cbn; [exact NR|]. constructor.
    + rewrite in_app_iff. intros [I|I]; [contradiction|]. apply IR in I. apply (HN x); [now left|tauto].
    + apply IH. intros y Y. apply HN. now right.
  - intros x. rewrite in_app_iff, HA, IR. tauto.
  - rewrite app_length. enough (length R + length D = length L) by lia.
    assert (NoDup (D ++ R)).
    { clear - ND NR IR. assert (DJ : forall x, In x D -> ~ In x R) by (intros x X I; apply IR in I; tauto). clear IR.
      induction ND as [|x D NI ND IH]; cbn; [exact NR|]. constructor.
      + rewrite in_app_iff. intros [I|I]; [contradiction|]. apply (DJ x); [now left|exact I].
      + apply IH. intros y Y. apply DJ. now right. }
    rewrite <- (app_length R D). apply Nat.le_antisymm.
    + rewrite app_length, Nat.add_comm, <- app_length. apply NoDup_incl_length; [exact H|]. intros x I. rewrite in_app_iff in I. apply HL.
      destruct I as [I|I]; [apply HD, I|apply IR, I].
    + rewrite app_length, Nat.add_comm, <- app_length. apply NoDup_incl_length; [exact NL|]. intros x I. rewrite in_app_iff.
      destruct (in_dec Nat.eq_dec x D); [left; assumption|right; apply IR; split; [apply HL, I|assumption]].
Qed.

Definition census (k : mesh P) (a b : nat) : Prop :=
  exists le lt, NoDup le /\ NoDup lt /\ (forall e, In e le <-> edge_of k e) /\ (forall t, In t lt <-> tri_of k t) /\ length le = a /\ length lt = b.

Lemma rewire_census a b : census m a b ->
  length dE <= a + length nE -> length dT <= b + length nT ->
  census m' (a + length nE - length dE) (b + length nT - length dT).
Proof.
  intros (le & lt & N1 & N2 & H1 & H2 & <- & <-) LE LT.
  destruct (list_replace le dE nE (edge_of m) (edge_of m') N1 H1 (w_ddE W) (w_dE W) (w_ndE W) fresh_edge rw_edge) as (le' & A1 & A2 & A3).
  destruct (list_replace lt dT nT (tri_of m) (tri_of m') N2 H2 (w_ddT W) (w_dT W) (w_ndT W) fresh_tri rw_tri) as (lt' & B1 & B2 & B3).
  exists le', lt'. repeat split; auto; try (apply A2; assumption); try (apply B2; assumption); lia.
Qed.
End Rewire.
