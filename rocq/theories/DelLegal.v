(** The queue of edges: when it is empty the triangulation is Delaunay. *)
From Coq Require Import ZArith List Bool Arith Lia Reals Lra Psatz.
From Verif Require Import Outcome DelModel DelSpec DelFields DelRewire DelFlip DelFlip2 DelDivide DelSplit DelHist DelPlaneSpec DelPlane DelGen DelRun DelRun2 DelRun3.
From Verif Require Import DelDiscSpec DelDisc DelWalk DelStar DelMove DelMesh.
Import ListNotations.
Open Scope nat_scope.

Section Legal.
Context {P : Type}.
Variable pos : P -> pt.
Variable g : geometry P.
Hypothesis SIDES : exact_sides pos g.
Hypothesis CIRC : exact_circles pos g.
Implicit Types m : mesh P.

Notation AT := (at_vertex pos).
Notation good := (good pos g).
Notation bounded := (bounded pos).

Definition delaunay m : Prop := delaunay_on (all (nv m)) (KM m) (AT m).

(** the edges around v are legal or in the queue *)
Definition pending m v (q : list nat) : Prop := forall x y w, KM m v x y -> KM m x y w -> w <> v -> legal3 (AT m) v x y w \/ exists e, In e q /\ joins m e x y.

(** an edge found legal *)
Lemma pending_legal m v e q : good m -> bounded m -> 3 <= v -> edge_of m e -> isEdgeLegal g m e = Ok true -> pending m v (e :: q) -> pending m v q.
Proof.
  intros K B V EE HL PE x y w T1 T2 N. pose proof (mesh_complex pos g m K B) as HC. pose proof K as [C PL FI G BA].
  destruct (PE x y w T1 T2 N) as [L|(e' & I & J)]; [left; exact L|]. destruct I as [<-|I]; [left|right; exists e'; auto].
  destruct (edge_pair m v x y w C T1 T2 N) as (f & o0 & o1 & c & d & x00 & x01 & x10 & x11 & E & JF & E0 & E1 & A0 & A1 & VW).
  assert (f = e) by (apply (c_simple _ C f e x y); assumption). subst f.
  pose proof (x_opposite HC x y v w (x_rot _ _ _ HC _ _ _ T1) T2 ltac:(congruence)) as OP.
  assert (CD : 3 <= c \/ 3 <= d) by (destruct VW as [[-> ->]|[-> ->]]; auto).
  destruct (test_true pos g SIDES CIRC m e o0 o1 c d x00 x01 x10 x11 C G E E0 E1 A0 A1 HL) as [L1 L2].
  assert (XY : (EV m e 0 = x /\ EV m e 1 = y) \/ (EV m e 0 = y /\ EV m e 1 = x)) by exact J.
  assert (OPS : (orient (AT m (EV m e 0)) (AT m (EV m e 1)) (AT m c) * orient (AT m (EV m e 0)) (AT m (EV m e 1)) (AT m d) < 0)%R).
  { destruct XY as [[-> ->]|[-> ->]], VW as [[<- <-]|[<- <-]]; rewrite ?(orient_swap (AT m x) (AT m y)); lra. }
  split; [|split].
  - intros X Y W IC. assert (I1 : in_circle (AT m x) (AT m y) (AT m v) (AT m w)) by (apply circle_rot, IC).
    assert (I2 : in_circle (AT m x) (AT m y) (AT m w) (AT m v)) by (apply circle_rot, pencil_turn; assumption).
    apply L1; [lia|lia|lia|lia|exact OPS|].
    destruct XY as [[-> ->]|[-> ->]], VW as [[<- <-]|[<- <-]]; auto using circle_swap.
  - intros X Y CR. apply L2; [lia|]. destruct XY as [[-> ->]|[-> ->]], VW as [[<- <-]|[<- <-]]; auto using crossed_swap, crossed_sym.
  - intros X Y CR. apply L2; [lia|]. destruct XY as [[-> ->]|[-> ->]], VW as [[<- <-]|[<- <-]]; auto using crossed_swap, crossed_sym.
Qed.

(** ** One flip *)
Section Flip.
Variables (m : mesh P) (v e : nat) (q : list nat) (o0 o1 c d x00 x01 x10 x11 : nat) (m' : mesh P).
Hypothesis (K : good m) (B : bounded m) (V : 3 <= v < nv m) (S : star (KM m) (AT m) (nv m) v) (PE : pending m v (e :: q)) (Q : queue_ok m v (e :: q)).
Hypothesis (E : edge_of m e) (E0 : ET m e 0 = Some o0) (E1 : ET m e 1 = Some o1) (A0 : around m o0 e c x00 x01) (A1 : around m o1 e d x10 x11).
Hypothesis (HL : isEdgeLegal g m e = Ok false) (F : flipped m e o0 o1 c d x00 x01 x10 x11 m') (W : rewired m m' [e] [o0; o1] [ne m] [nt m; nt m + 1]).
Let a := EV m e 0.
Let b := EV m e 1.

Lemma flip_v : v = c \/ v = d.
Proof using All.
  destruct (proj2 Q e (or_introl eq_refl)) as (_ & NV & tv & BV & CV). unfold end_of in NV.
  destruct BV as [BV|BV]; rewrite BV in *.
  - injection E0 as ->. apply (perm3_in _ _ _ _ v (a_corner _ _ _ _ _ _ A0)) in CV. intuition congruence.
  - injection E1 as ->. apply (perm3_in _ _ _ _ v (a_corner _ _ _ _ _ _ A1)) in CV. intuition congruence.
Qed.

(** the triangles after the flip *)
Lemma flip_tri x y z : KM m' x y z ->
  (exists t, tri_of m t /\ t <> o0 /\ t <> o1 /\ tri_of m' t /\ perm3 (TV m t) x y z) \/ ((x = c \/ y = c \/ z = c) /\ (x = d \/ y = d \/ z = d) /\ (x = a \/ y = a \/ z = a \/ x = b \/ y = b \/ z = b)).
Proof using All.
  intros (t & T & PM). pose proof T as T0. apply (rw_tri _ _ _ _ _ _ W) in T. cbn [In] in T. destruct T as [[T N]|[<-|[<-|[]]]].
  - left. exists t. split; [exact T|]. split; [intros ->; apply N; auto|]. split; [intros ->; apply N; auto|]. split; [exact T0|]. destruct (w_TV _ _ _ _ _ _ W t T) as (H0 & H1 & H2).
    unfold perm3 in *. rewrite H0, H1, H2 in PM. exact PM.
  - right. destruct (f_TV0 _ _ _ _ _ _ _ _ _ _ _ F) as (V0 & V1 & V2).
    assert (PC := proj1 (perm3_in _ _ _ _ c PM) (or_introl V0)). assert (PD := proj1 (perm3_in _ _ _ _ d PM) (or_intror (or_introl V1))). assert (PA := proj1 (perm3_in _ _ _ _ a PM) (or_intror (or_intror V2))).
    intuition auto.
  - right. destruct (f_TV1 _ _ _ _ _ _ _ _ _ _ _ F) as (V0 & V1 & V2).
    assert (PC := proj1 (perm3_in _ _ _ _ c PM) (or_introl V0)). assert (PD := proj1 (perm3_in _ _ _ _ d PM) (or_intror (or_introl V1))). assert (PA := proj1 (perm3_in _ _ _ _ b PM) (or_intror (or_intror V2))).
    intuition auto.
Qed.

Lemma flip_x : AT m' = AT m.
Proof using F. unfold at_vertex. rewrite (f_POS _ _ _ _ _ _ _ _ _ _ _ F). reflexivity. Qed.

Lemma flip_bounded : bounded m'.
Proof using All.
  destruct K as [C PL FI G BA]. destruct B as [B1 B2]. split.
  - intros u U VU. rewrite (w_nv _ _ _ _ _ _ W) in U. destruct (VT m u) as [|t l] eqn:VM; [apply (B1 u U VM)|]. assert (I : In t (VT m u)) by (rewrite VM; left; reflexivity).
    assert (T : tri_of m t) by (exists u; auto). pose proof (proj1 (c_vertT _ C u t U T) I) as CO.
    assert (NEW : forall s, In s [nt m; nt m + 1] -> corner m' s u -> False).
    { intros s IS CS. assert (H : In s (VT m' u)) by (apply (w_VT _ _ _ _ _ _ W u s U); auto). rewrite VU in H. destruct H. }
    destruct (f_TV0 _ _ _ _ _ _ _ _ _ _ _ F) as (V0 & V1 & V2). destruct (f_TV1 _ _ _ _ _ _ _ _ _ _ _ F) as (V3 & V4 & V5).
    assert (QUAD : u = a \/ u = b \/ u = c \/ u = d -> False).
    { intros [->|[->|[->| ->]]]; [apply (NEW (nt m))|apply (NEW (nt m + 1))|apply (NEW (nt m))|apply (NEW (nt m))]; cbn [In]; unfold corner; auto. }
    destruct (Nat.eq_dec t o0) as [->|N0]; [|destruct (Nat.eq_dec t o1) as [->|N1]].
    + apply (perm3_in _ _ _ _ u (a_corner _ _ _ _ _ _ A0)) in CO. apply QUAD. unfold a, b. tauto.
    + apply (perm3_in _ _ _ _ u (a_corner _ _ _ _ _ _ A1)) in CO. apply QUAD. unfold a, b. tauto.
    + assert (H : In t (VT m' u)) by (apply (w_VT _ _ _ _ _ _ W u t U); left; cbn [In]; intuition congruence). rewrite VU in H. destruct H.
  - intros u. rewrite (w_nv _ _ _ _ _ _ W), flip_x. apply B2.
Qed.

Lemma flip_facts w o : (v = c /\ w = d /\ o = o1) \/ (v = d /\ w = c /\ o = o0) -> KM m v a b /\ KM m a b w /\ w <> v /\ v <> a /\ v <> b /\ w <> a /\ w <> b /\ tri_of m o /\ perm3 (TV m o) a b w.
Proof using All.
  intros VW. destruct K as [C PL FI G BA]. destruct (quad_distinct m e o0 o1 c d x00 x01 x10 x11 C E E0 E1 A0 A1) as (D1 & D2 & D3 & D4 & D5 & D6). fold a b in D1, D2, D3, D4, D5.
  pose proof (a_corner _ _ _ _ _ _ A0) as P0. pose proof (a_corner _ _ _ _ _ _ A1) as P1. fold a b in P0, P1. pose proof (a_tri _ _ _ _ _ _ A0) as T0. pose proof (a_tri _ _ _ _ _ _ A1) as T1.
  destruct VW as [(-> & -> & ->)|(-> & -> & ->)]; repeat split; auto; [exists o0|exists o1|exists o1|exists o0]; (split; [assumption|]); auto using perm3_rot.
Qed.

Lemma flip_star : star (KM m') (AT m') (nv m') v.
Proof using All.
  assert (VW : exists w o, (v = c /\ w = d /\ o = o1) \/ (v = d /\ w = c /\ o = o0)) by (destruct flip_v; [exists d, o1|exists c, o0]; auto).
  destruct VW as (w & o & VW). destruct (flip_facts w o VW) as (T1 & T2 & WV & VA & VB & WA & WB & TO & PO).
  pose proof (mesh_complex pos g m K B) as HC. pose proof K as [C PL FI G BA].
  destruct (test_false pos g SIDES CIRC m e o0 o1 c d x00 x01 x10 x11 C G E E0 E1 A0 A1 HL) as (H3 & CR & IC). fold a b in H3, CR, IC.
  pose proof (x_opposite HC a b v w (x_rot _ _ _ HC _ _ _ T1) T2 ltac:(congruence)) as OP.
  rewrite flip_x, (w_nv _ _ _ _ _ _ W). apply (star_flip (KM m) (KM m') (AT m) (nv m) v a b w HC V S T1 T2 WV).
  - destruct VW as [(-> & -> & _)|(-> & -> & _)]; auto using crossed_sym.
  - exact H3.
  - intros A' B'. destruct (IC A' B') as (C3 & D3 & I). destruct VW as [(-> & -> & _)|(-> & -> & _)].
    + split; [exact D3|]. apply circle_rot, circle_rot, I.
    + split; [exact C3|]. apply pencil_turn; [lra|]. apply circle_rot, circle_rot, I.
  - intros x y z T NX NY NZ. destruct (flip_tri x y z T) as [(t & TT & _ & _ & _ & PT)|(HC1 & HC2 & _)]; [exists t; auto|]. exfalso. destruct VW as [(-> & -> & _)|(-> & -> & _)]; intuition congruence.
  - intros x y T. destruct (flip_tri v x y T) as [(t & TT & _ & _ & _ & PT)|(HC1 & HC2 & HC3)]; [left; exists t; auto|right].
    assert (XW : x = w \/ y = w) by (destruct VW as [(-> & -> & _)|(-> & -> & _)]; intuition congruence).
    clear - XW HC3 VA VB WA WB. destruct XW as [->| ->]; intuition congruence.
Qed.

Lemma flip_pending o more : (v = c /\ o = o1) \/ (v = d /\ o = o0) -> (forall y, side m o y -> y <> e -> In y more) -> pending m' v (q ++ more).
Proof using All.
  intros VO MO. assert (VW : exists w, (v = c /\ w = d /\ o = o1) \/ (v = d /\ w = c /\ o = o0)) by (destruct VO as [[]|[]]; [exists d|exists c]; auto).
  destruct VW as (w & VW). destruct (flip_facts w o VW) as (T1 & T2 & WV & VA & VB & WA & WB & TO & PO).
  pose proof (mesh_complex pos g m K B) as HC. pose proof K as [C PL FI G BA]. assert (ND : ~ In e q) by (destruct Q as [ND _]; apply NoDup_cons_iff in ND; apply ND).
  intros x y z H1 H2 N. destruct (flip_tri v x y H1) as [(t & TT & N0 & N1 & _ & PT)|(HC1 & HC2 & HC3)].
  - (* an old triangle *)
    destruct (perm3_distinct m t v x y C TT PT) as (D1 & D2 & D3).
    assert (OLD : KM m x y z).
    { destruct (flip_tri x y z H2) as [(s & TS & _ & _ & _ & PS)|(HC1 & HC2 & _)]; [exists s; auto|]. exfalso. destruct flip_v as [->| ->]; intuition congruence. }
    destruct (PE x y z ltac:(exists t; auto) OLD N) as [L|(f & I & J)]; [left; rewrite flip_x; exact L|right].
    destruct I as [<-|I].
    + exfalso. destruct (tri_edge m t x y v C TT (perm3_rot _ _ _ _ PT) D3) as (f & EF & _ & BF & JF). assert (f = e) by (apply (c_simple _ C f e x y); assumption). subst f.
      destruct BF as [BF|BF]; congruence.
    + exists f. split; [apply in_or_app; auto|]. apply (old_joins _ _ _ _ _ _ W f x y); [|exact J]. apply (proj2 Q f (or_intror I)).
  - (* a new triangle *)
    right. assert (XW : (x = w /\ (y = a \/ y = b)) \/ (y = w /\ (x = a \/ x = b))).
    { assert (XW : x = w \/ y = w) by (destruct VW as [(-> & -> & _)|(-> & -> & _)]; intuition congruence). clear - XW HC3 VA VB WA WB. destruct XW as [->| ->]; intuition congruence. }
    assert (GET : forall u, u = a \/ u = b -> exists f, In f more /\ joins m' f u w).
    { intros u U. destruct (c_sides _ C o u w TO) as (f & SF & JF); [apply (perm3_in _ _ _ _ u PO); destruct U; auto|apply (perm3_in _ _ _ _ w PO); auto|destruct U; congruence|].
      exists f. split; [apply MO; [exact SF|]|].
      - intros ->. assert (EW : end_of m e w) by (apply (joins_ends _ _ _ _ w JF); auto). unfold end_of in EW. fold a b in EW. destruct EW; congruence.
      - apply (old_joins _ _ _ _ _ _ W f u w); [apply (c_side _ C o f TO SF)|exact JF]. }
    destruct XW as [(-> & Y)|(-> & X0)].
    + destruct (GET y Y) as (f & I & J). exists f. split; [apply in_or_app; auto|apply joins_sym, J].
    + destruct (GET x X0) as (f & I & J). exists f. split; [apply in_or_app; auto|exact J].
Qed.
End Flip.

(** ** The loop *)
Lemma legalize_delaunay v : forall fuel m queue m', good m -> bounded m -> 3 <= v < nv m -> queue_ok m v queue -> star (KM m) (AT m) (nv m) v -> pending m v queue ->
  legalize g v fuel m queue = Ok m' -> bounded m' /\ delaunay m' /\ POS m' = POS m /\ nv m' = nv m.
Proof.
  induction fuel as [|fuel IH]; intros m queue m' K B V Q S PE H; [discriminate|]. cbn [legalize] in H. destruct queue as [|e q].
  - injection H as <-. split; [exact B|]. split; [|auto]. apply (star_final (mesh_complex pos g m K B) V S). intros x y w T1 T2 N. destruct (PE x y w T1 T2 N) as [L|(e & [] & _)]. exact L.
  - pose proof K as [C PL FI G BA]. destruct (proj2 Q e (or_introl eq_refl)) as (E & _). destruct (legal_ok g m e C E) as (l & HL & BAD). rewrite HL in H. cbn [bind] in H. destruct l.
    + apply (IH m q m' K B V); [|exact S|apply (pending_legal m v e q K B ltac:(lia) E HL PE)|exact H].
      destruct Q as [ND Q]. apply NoDup_cons_iff in ND. split; [apply ND|intros y Y; apply Q; right; exact Y].
    + destruct (BAD eq_refl) as (H3 & o0 & o1 & c & d & x00 & x01 & x10 & x11 & E0 & E1 & A0 & A1 & CV). clear BAD.
      pose proof (quad_crossed pos g SIDES m e o0 o1 c d x00 x01 x10 x11 C G E E0 E1 A0 A1 CV) as X.
      pose proof (quad_unjoined pos m e o0 o1 c d x00 x01 x10 x11 C PL E E0 E1 A0 A1 X) as NJ.
      destruct (flip_computes m e o0 o1 c d x00 x01 x10 x11 C E E0 E1 A0 A1) as (m1 & HF & F).
      assert (W : rewired m m1 [e] [o0; o1] [ne m] [nt m; nt m + 1]) by (apply (flip_rewired m m1 e o0 o1 c d x00 x01 x10 x11); assumption).
      destruct (queue_flip m v e q o0 o1 c d x00 x01 x10 x11 m1 C ltac:(lia) E E0 E1 A0 A1 NJ F W Q) as (o & HO & Q' & L2 & DG).
      rewrite E0, E1, HO, HF in H. cbn [bind] in H.
      assert (K' : good m1).
      { constructor.
        - apply (rewire_consistent _ _ _ _ _ _ C W).
        - apply (flip_planar pos g m e o0 o1 c d x00 x01 x10 x11); assumption.
        - apply (flip_fills pos m e o0 o1 c d x00 x01 x10 x11); assumption.
        - apply (flip_general pos g m e o0 o1 c d x00 x01 x10 x11); assumption.
        - destruct BA as (f & FE & FJ). exists f. split; [|apply (old_joins _ _ _ _ _ _ W f 0 1 FE), FJ].
          apply (rw_edge _ _ _ _ _ _ W). left. split; [exact FE|]. intros [<-|[]]. unfold joins in FJ. lia. }
      assert (VO : (v = c /\ o = o1) \/ (v = d /\ o = o0)).
      { pose proof (a_corner _ _ _ _ _ _ A0) as P0. destruct (proj2 Q e (or_introl eq_refl)) as (_ & NV & _). unfold end_of in NV.
        destruct (isIncidentT m v o0) eqn:IV; injection HO as <-.
        - left. split; [|reflexivity]. unfold isIncidentT in IV. rewrite !orb_true_iff, !Nat.eqb_eq in IV. rewrite or_assoc in IV. apply (perm3_in _ _ _ _ v P0) in IV. intuition congruence.
        - right. split; [|reflexivity]. destruct (flip_v m v e q o0 o1 c d x00 x01 x10 x11 m1 K B V S PE Q E E0 E1 A0 A1 HL F W) as [->|VD]; [exfalso|exact VD].
          assert (TC : TV m o0 0 = c \/ TV m o0 1 = c \/ TV m o0 2 = c) by (apply (perm3_in _ _ _ _ c P0); auto).
          unfold isIncidentT in IV. rewrite !orb_false_iff, !Nat.eqb_neq in IV. tauto. }
      assert (R : bounded m' /\ delaunay m' /\ POS m' = POS m1 /\ nv m' = nv m1).
      { refine (IH m1 _ m' K' (flip_bounded m v e q o0 o1 c d x00 x01 x10 x11 m1 K B V S PE Q E E0 E1 A0 A1 HL F W) _ Q' _ _ H).
        - rewrite (w_nv _ _ _ _ _ _ W). exact V.
        - apply (flip_star m v e q o0 o1 c d x00 x01 x10 x11 m1); assumption.
        - apply (flip_pending m v e q o0 o1 c d x00 x01 x10 x11 m1 K B V S PE Q E E0 E1 A0 A1 HL F W o); [exact VO|].
          intros y SY NY. apply filter_In. split; [unfold side in SY; cbn [In]; tauto|]. apply negb_true_iff, Nat.eqb_neq, NY. }
      destruct R as (R1 & R2 & R3 & R4). split; [exact R1|]. split; [exact R2|]. split; [rewrite R3; apply (f_POS _ _ _ _ _ _ _ _ _ _ _ F)|rewrite R4; apply (w_nv _ _ _ _ _ _ W)].
Qed.
End Legal.
