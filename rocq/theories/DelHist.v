(** The bounding triangle, new vertices, and every history of insertions and flips. *)
From Coq Require Import ZArith List Bool Arith Lia.
From Verif Require Import Outcome DelModel DelSpec DelFields DelRewire DelFlip DelFlip2 DelDivide DelSplit.
Import ListNotations.
Open Scope nat_scope.

Section Hist.
Context {P : Type}.
Implicit Types m : mesh P.

(** ** A new vertex *)
Lemma mv_VE m p i u : u < nv m -> VE (makeVertex m p i) u = VE m u.
Proof. intros U. cbn. unfold upd. assert (u =? nv m = false) as -> by (apply Nat.eqb_neq; lia). reflexivity. Qed.
Lemma mv_VT m p i u : u < nv m -> VT (makeVertex m p i) u = VT m u.
Proof. intros U. cbn. unfold upd. assert (u =? nv m = false) as -> by (apply Nat.eqb_neq; lia). reflexivity. Qed.
Lemma mv_VEn m p i : VE (makeVertex m p i) (nv m) = [].
Proof. cbn. unfold upd. rewrite Nat.eqb_refl. reflexivity. Qed.
Lemma mv_VTn m p i : VT (makeVertex m p i) (nv m) = [].
Proof. cbn. unfold upd. rewrite Nat.eqb_refl. reflexivity. Qed.
Lemma mv_edge m p i e : edge_of (makeVertex m p i) e <-> edge_of m e.
Proof.
  split; intros (u & U & I).
  - destruct (Nat.eq_dec u (nv m)) as [->|N]; [rewrite mv_VEn in I; destruct I|]. cbn in U. assert (u < nv m) by lia. exists u. rewrite mv_VE in I by assumption. auto.
  - exists u. cbn [nv makeVertex]. rewrite mv_VE by exact U. split; [lia|exact I].
Qed.
Lemma mv_tri m p i e : tri_of (makeVertex m p i) e <-> tri_of m e.
Proof.
  split; intros (u & U & I).
  - destruct (Nat.eq_dec u (nv m)) as [->|N]; [rewrite mv_VTn in I; destruct I|]. cbn in U. assert (u < nv m) by lia. exists u. rewrite mv_VT in I by assumption. auto.
  - exists u. cbn [nv makeVertex]. rewrite mv_VT by exact U. split; [lia|exact I].
Qed.

Lemma mv_consistent m p i : consistent m -> consistent (makeVertex m p i).
Proof.
  intros C. constructor.
  - intros v V. destruct (Nat.eq_dec v (nv m)) as [->|N]; [rewrite mv_VEn; constructor|]. cbn in V. rewrite mv_VE by lia. apply (c_setE _ C). lia.
  - intros v V. destruct (Nat.eq_dec v (nv m)) as [->|N]; [rewrite mv_VTn; constructor|]. cbn in V. rewrite mv_VT by lia. apply (c_setT _ C). lia.
  - intros v e V E. rewrite mv_edge in E. destruct (Nat.eq_dec v (nv m)) as [->|N].
    + rewrite mv_VEn. split; [intros []|]. intros H. apply (c_ends _ C e _ E) in H. lia.
    + cbn in V. rewrite mv_VE by lia. apply (c_vertE _ C v e); [lia|exact E].
  - intros v e V E. rewrite mv_tri in E. destruct (Nat.eq_dec v (nv m)) as [->|N].
    + rewrite mv_VTn. split; [intros []|]. intros H. apply (c_corners _ C e _ E) in H. lia.
    + cbn in V. rewrite mv_VT by lia. apply (c_vertT _ C v e); [lia|exact E].
  - intros e v E H. rewrite mv_edge in E. pose proof (c_ends _ C e v E H). cbn. lia.
  - intros e v E H. rewrite mv_tri in E. pose proof (c_corners _ C e v E H). cbn. lia.
  - intros e E. rewrite mv_edge in E. apply (c_rangeE _ C e E).
  - intros e E. rewrite mv_tri in E. apply (c_rangeT _ C e E).
  - intros e E. rewrite mv_edge in E. apply (c_edge _ C e E).
  - intros e E. rewrite mv_tri in E. apply (c_tri _ C e E).
  - intros e t E B. rewrite mv_tri. rewrite mv_edge in E. apply (c_beside _ C e t E B).
  - intros t e T S. rewrite mv_edge. rewrite mv_tri in T. apply (c_side _ C t e T S).
  - intros e t E. rewrite mv_edge in E. apply (c_two _ C e t E).
  - intros t u v T. rewrite mv_tri in T. apply (c_sides _ C t u v T).
  - intros t e v T. rewrite mv_tri in T. apply (c_inner _ C t e v T).
  - intros t T. rewrite mv_tri in T. apply (c_sides3 _ C t T).
  - intros e e' u v E E'. rewrite mv_edge in E, E'. apply (c_simple _ C e e' u v E E').
  - intros t t' T T'. rewrite mv_tri in T, T'. apply (c_distinct _ C t t' T T').
  - intros e E. rewrite mv_edge in E. apply (c_outer _ C e E).
  - cbn. pose proof (c_bound _ C). lia.
Qed.

Lemma mv_fresh m p i : fresh (makeVertex m p i) (nv m).
Proof. split; [cbn; lia|]. split; [apply mv_VEn|apply mv_VTn]. Qed.

Lemma mv_joined m p i u v : joined (makeVertex m p i) u v <-> joined m u v.
Proof. unfold joined. split; intros (e & E & J); exists e; [rewrite mv_edge in E|rewrite mv_edge]; (split; [exact E|exact J]). Qed.

Lemma mv_census m p i a b : census m a b -> census (makeVertex m p i) a b.
Proof.
  intros (le & lt & N1 & N2 & H1 & H2 & L1 & L2). exists le, lt. repeat (split; [assumption|]).
  split; [intros e; rewrite mv_edge; apply H1|]. split; [intros e; rewrite mv_tri; apply H2|]. auto.
Qed.

(** ** Meshes that differ only in the sets beyond their vertices *)
Definition alike m m' : Prop :=
  nv m' = nv m /\ ne m' = ne m /\ nt m' = nt m /\ EV m' = EV m /\ ET m' = ET m /\ TV m' = TV m /\ TE m' = TE m /\
  (forall v, v < nv m -> VE m' v = VE m v /\ VT m' v = VT m v).

Lemma alike_edge m m' e : alike m m' -> (edge_of m' e <-> edge_of m e).
Proof.
  intros (A & _ & _ & _ & _ & _ & _ & H). unfold edge_of. rewrite A. split; intros (v & V & I); exists v; (split; [exact V|]); destruct (H v V) as [HE _]; congruence.
Qed.
Lemma alike_tri m m' e : alike m m' -> (tri_of m' e <-> tri_of m e).
Proof.
  intros (A & _ & _ & _ & _ & _ & _ & H). unfold tri_of. rewrite A. split; intros (v & V & I); exists v; (split; [exact V|]); destruct (H v V) as [_ HE]; congruence.
Qed.

Lemma alike_consistent m m' : alike m m' -> consistent m -> consistent m'.
Proof.
  intros A C. pose proof (fun e => alike_edge m m' e A) as EE. pose proof (fun e => alike_tri m m' e A) as TT.
  destruct A as (A1 & A2 & A3 & A4 & A5 & A6 & A7 & A8).
  constructor; unfold end_of, corner, side, beside, joins; rewrite ?A1, ?A2, ?A3, ?A4, ?A5, ?A6, ?A7.
  - intros v V. destruct (A8 v V) as [-> _]. apply (c_setE _ C v V).
  - intros v V. destruct (A8 v V) as [_ ->]. apply (c_setT _ C v V).
  - intros v e V E. rewrite EE in E. destruct (A8 v V) as [-> _]. apply (c_vertE _ C v e V E).
  - intros v e V E. rewrite TT in E. destruct (A8 v V) as [_ ->]. apply (c_vertT _ C v e V E).
  - intros e v E. rewrite EE in E. apply (c_ends _ C e v E).
  - intros e v E. rewrite TT in E. apply (c_corners _ C e v E).
  - intros e E. rewrite EE in E. apply (c_rangeE _ C e E).
  - intros e E. rewrite TT in E. apply (c_rangeT _ C e E).
  - intros e E. rewrite EE in E. apply (c_edge _ C e E).
  - intros e E. rewrite TT in E. apply (c_tri _ C e E).
  - intros e t E B. rewrite EE in E. rewrite TT. apply (c_beside _ C e t E B).
  - intros t e T B. rewrite TT in T. rewrite EE. apply (c_side _ C t e T B).
  - intros e t E. rewrite EE in E. apply (c_two _ C e t E).
  - intros t u v T. rewrite TT in T. apply (c_sides _ C t u v T).
  - intros t e v T. rewrite TT in T. apply (c_inner _ C t e v T).
  - intros t T. rewrite TT in T. apply (c_sides3 _ C t T).
  - intros e e' u v E E'. rewrite EE in E, E'. apply (c_simple _ C e e' u v E E').
  - intros t t' T T'. rewrite TT in T, T'. apply (c_distinct _ C t t' T T').
  - intros e E. rewrite EE in E. apply (c_outer _ C e E).
  - apply (c_bound _ C).
Qed.

Lemma alike_census m m' a b : alike m m' -> census m a b -> census m' a b.
Proof.
  intros A (le & lt & N1 & N2 & H1 & H2 & L1 & L2). exists le, lt. repeat (split; [assumption|]).
  split; [intros e; rewrite (alike_edge _ _ _ A); apply H1|]. split; [intros e; rewrite (alike_tri _ _ _ A); apply H2|]. auto.
Qed.

Lemma pop_alike m p i : alike m (popVertex (makeVertex m p i)).
Proof.
  unfold alike. cbn [nv ne nt EV ET TV TE VE VT popVertex makeVertex]. repeat (split; [reflexivity|]).
  intros v V. split; [apply (mv_VE m p i v V)|apply (mv_VT m p i v V)].
Qed.

(** ** The bounding triangle *)
Section Bounding.
Variables b0 b1 b2 : P.
Let B := bounding b0 b1 b2.
Lemma bVE : forall v, VE B v = match v with 0 => [2; 0] | 1 => [1; 0] | 2 => [2; 1] | _ => [] end.
Proof. intros [|[|[|v]]]; reflexivity. Qed.
Lemma bVT : forall v, VT B v = match v with 0 | 1 | 2 => [0] | _ => [] end.
Proof. intros [|[|[|v]]]; reflexivity. Qed.
Lemma bnv : nv B = 3. Proof. reflexivity. Qed.
Lemma bne : ne B = 3. Proof. reflexivity. Qed.
Lemma bnt : nt B = 1. Proof. reflexivity. Qed.
Lemma bEV : (EV B 0 0 = 0 /\ EV B 0 1 = 1) /\ (EV B 1 0 = 1 /\ EV B 1 1 = 2) /\ (EV B 2 0 = 2 /\ EV B 2 1 = 0).
Proof. repeat split; reflexivity. Qed.
Lemma bET : forall e, e < 3 -> ET B e 0 = Some 0 /\ ET B e 1 = None.
Proof. intros e E. destruct e as [|[|[|e]]]; [split; reflexivity..|lia]. Qed.
Lemma bTV : TV B 0 0 = 0 /\ TV B 0 1 = 1 /\ TV B 0 2 = 2. Proof. repeat split; reflexivity. Qed.
Lemma bTE : TE B 0 0 = 0 /\ TE B 0 1 = 1 /\ TE B 0 2 = 2. Proof. repeat split; reflexivity. Qed.
Lemma b_edge e : edge_of B e <-> e < 3.
Proof.
  unfold edge_of. rewrite bnv. split.
  - intros (v & V & I). rewrite bVE in I. destruct v as [|[|[|v]]]; cbn in I; intuition lia.
  - intros E. destruct e as [|[|[|e]]]; [exists 0|exists 1|exists 2|lia]; rewrite bVE; cbn; (split; [lia|auto]).
Qed.
Lemma b_tri t : tri_of B t <-> t = 0.
Proof.
  unfold tri_of. rewrite bnv. split.
  - intros (v & V & I). rewrite bVT in I. destruct v as [|[|[|v]]]; cbn in I; intuition lia.
  - intros ->. exists 0. rewrite bVT. cbn. split; [lia|auto].
Qed.
Lemma b_end e v : e < 3 -> (end_of B e v <-> v = e \/ v = (e + 1) mod 3).
Proof.
  intros E. pose proof bEV as ((A0 & A1) & (A2 & A3) & A4 & A5). unfold end_of.
  destruct e as [|[|[|e]]]; [rewrite A0, A1|rewrite A2, A3|rewrite A4, A5|lia]; cbn; intuition lia.
Qed.
Lemma b_corner v : corner B 0 v <-> v < 3.
Proof. pose proof bTV as (A0 & A1 & A2). unfold corner. rewrite A0, A1, A2. lia. Qed.
Lemma b_side e : side B 0 e <-> e < 3.
Proof. pose proof bTE as (A0 & A1 & A2). unfold side. rewrite A0, A1, A2. lia. Qed.

Lemma bounding_consistent : consistent B.
Proof.
  pose proof bEV as ((A0 & A1) & (A2 & A3) & A4 & A5).
  constructor; rewrite ?bnv, ?bne, ?bnt.
  - intros v V. rewrite bVE. destruct v as [|[|[|v]]]; [| | |lia]; repeat constructor; cbn; intuition lia.
  - intros v V. rewrite bVT. destruct v as [|[|[|v]]]; [| | |lia]; repeat constructor; cbn; intuition lia.
  - intros v e V E. rewrite b_edge in E. rewrite (b_end e v E), bVE.
    destruct v as [|[|[|v]]]; [| | |lia]; destruct e as [|[|[|e]]]; try lia; cbn; intuition lia.
  - intros v t V E. rewrite b_tri in E. subst t. rewrite b_corner, bVT. destruct v as [|[|[|v]]]; [| | |lia]; cbn; intuition lia.
  - intros e v E H. rewrite b_edge in E. apply (b_end e v E) in H. destruct e as [|[|[|e]]]; cbn in H; lia.
  - intros t v T H. rewrite b_tri in T. subst t. apply b_corner in H. exact H.
  - intros e E. rewrite b_edge in E. exact E.
  - intros t T. rewrite b_tri in T. lia.
  - intros e E. rewrite b_edge in E. destruct e as [|[|[|e]]]; [| | |lia]; rewrite ?A0, ?A1, ?A2, ?A3, ?A4, ?A5; lia.
  - intros t T. rewrite b_tri in T. subst t. destruct bTV as (-> & -> & ->). lia.
  - intros e t E H. rewrite b_edge in E. unfold beside in H. destruct (bET e E) as [W0 W1]. rewrite W0, W1 in H. rewrite b_tri.
    assert (t = 0) by (destruct H; congruence). subst t. split; [reflexivity|]. apply b_side, E.
  - intros t e T H. rewrite b_tri in T. subst t. rewrite b_side in H. rewrite b_edge. split; [exact H|]. left. apply (bET e H).
  - intros e t E [_ H]. rewrite b_edge in E. destruct (bET e E). congruence.
  - intros t u v T U V N. rewrite b_tri in T. subst t. rewrite b_corner in U, V.
    assert (J0 : joins B 0 0 1) by (left; auto). assert (J1 : joins B 1 1 2) by (left; auto). assert (J2 : joins B 2 2 0) by (left; auto).
    destruct u as [|[|[|u]]]; try lia; destruct v as [|[|[|v]]]; try lia.
    + exists 0. rewrite b_side. split; [lia|exact J0].
    + exists 2. rewrite b_side. split; [lia|apply joins_sym, J2].
    + exists 0. rewrite b_side. split; [lia|apply joins_sym, J0].
    + exists 1. rewrite b_side. split; [lia|exact J1].
    + exists 2. rewrite b_side. split; [lia|exact J2].
    + exists 1. rewrite b_side. split; [lia|apply joins_sym, J1].
  - intros t e v T S E. rewrite b_tri in T. subst t. rewrite b_side in S. apply (b_end e v S) in E. apply b_corner. destruct e as [|[|[|e]]]; cbn in E; lia.
  - intros t T. rewrite b_tri in T. subst t. destruct bTE as (-> & -> & ->). lia.
  - intros e e' u v E E' J J'. rewrite b_edge in E, E'.
    pose proof (fun w => iff_trans (iff_sym (b_end e w E)) (joins_ends _ _ _ _ w J)) as H.
    pose proof (fun w => iff_trans (iff_sym (b_end e' w E')) (joins_ends _ _ _ _ w J')) as H'.
    assert (Q : forall w, w = e \/ w = (e + 1) mod 3 <-> w = e' \/ w = (e' + 1) mod 3) by (intros w; rewrite H, H'; tauto).
    pose proof (Q 0) as Q0. pose proof (Q 1) as Q1. pose proof (Q 2) as Q2. clear - E E' Q0 Q1 Q2.
    destruct e as [|[|[|e]]]; try lia; destruct e' as [|[|[|e']]]; try lia; cbn in *; lia.
  - intros t t' T T' _. rewrite b_tri in T, T'. congruence.
  - intros e E. rewrite b_edge in E. split; [exists 0; apply (bET e E)|]. intros _.
    destruct e as [|[|[|e]]]; [| | |lia]; rewrite ?A0, ?A1, ?A2, ?A3, ?A4, ?A5; lia.
  - lia.
Qed.

Lemma bounding_census : census B 3 1.
Proof.
  exists [0; 1; 2], [0]. split; [repeat constructor; cbn; intuition lia|]. split; [repeat constructor; cbn; intuition lia|].
  split; [intros e; rewrite b_edge; cbn; lia|]. split; [intros t; rewrite b_tri; cbn; lia|]. auto.
Qed.
End Bounding.

(** ** The three operations *)
Lemma divideTriangle_ok m t v : consistent m -> fresh m v -> tri_of m t ->
  exists m' x, divideTriangle m t v = Ok m' /\ opposite m t x /\ divided m t v x m' /\
    rewired m m' [] [t] [ne m + 0; ne m + 1; ne m + 2] [nt m + 0; nt m + 1; nt m + 2].
Proof.
  intros C F T. destruct (opposite_ex m t C T) as (x & O). destruct (divide_computes m t v x C O) as (m' & H & D).
  exists m', x. split; [exact H|]. split; [exact O|]. split; [exact D|]. apply (divide_rewired m t v x m' C F O D).
Qed.

Lemma divideEdge_ok m e v o0 o1 : consistent m -> fresh m v -> edge_of m e -> ET m e 0 = Some o0 -> ET m e 1 = Some o1 ->
  exists m' c d x00 x01 x10 x11, divideEdge m e v = Ok m' /\ around m o0 e c x00 x01 /\ around m o1 e d x10 x11 /\
    split_mesh m e o0 o1 c d v x00 x01 x10 x11 m' /\
    rewired m m' [e] [o0; o1] [ne m + 0; ne m + 1; ne m + 2; ne m + 3] [nt m + 0; nt m + 1; nt m + 2; nt m + 3].
Proof.
  intros C F E E0 E1. destruct (around_ex m e o0 C E (or_introl E0)) as (c & x00 & x01 & A0).
  destruct (around_ex m e o1 C E (or_intror E1)) as (d & x10 & x11 & A1).
  destruct (split_computes m e v o0 o1 c d x00 x01 x10 x11 C E E0 E1 A0 A1) as (m' & H & S).
  exists m', c, d, x00, x01, x10, x11. split; [exact H|]. split; [exact A0|]. split; [exact A1|]. split; [exact S|].
  apply (split_rewired m m' e v o0 o1 c d x00 x01 x10 x11 C E F E0 E1 A0 A1 S).
Qed.

Lemma divideTriangle_keeps m t v m' a b : consistent m -> fresh m v -> tri_of m t -> divideTriangle m t v = Ok m' -> census m a b -> 1 <= b ->
  consistent m' /\ nv m' = nv m /\ census m' (a + 3) (b + 2).
Proof.
  intros C F T H K LB. destruct (divideTriangle_ok m t v C F T) as (q & x & H' & _ & D & W). assert (q = m') by congruence. subst q.
  split; [apply (rewire_consistent _ _ _ _ _ _ C W)|]. split; [apply (w_nv _ _ _ _ _ _ W)|].
  pose proof (rewire_census _ _ _ _ _ _ C W a b K) as K'. cbn [length] in K'.
  replace (a + 3) with (a + 3 - 0) by lia. replace (b + 2) with (b + 3 - 1) by lia. apply K'; lia.
Qed.

Lemma divideEdge_keeps m e v m' a b : consistent m -> fresh m v -> edge_of m e -> ET m e 1 <> None -> divideEdge m e v = Ok m' -> census m a b ->
  consistent m' /\ nv m' = nv m /\ census m' (a + 3) (b + 2).
Proof.
  intros C F E N H K. destruct (c_outer _ C e E) as [(o0 & E0) _]. destruct (ET m e 1) as [o1|] eqn:E1; [|congruence].
  destruct (divideEdge_ok m e v o0 o1 C F E E0 E1) as (q & c & d & x00 & x01 & x10 & x11 & H' & A0 & A1 & S & W). assert (q = m') by congruence. subst q.
  split; [apply (rewire_consistent _ _ _ _ _ _ C W)|]. split; [apply (w_nv _ _ _ _ _ _ W)|].
  pose proof (rewire_census _ _ _ _ _ _ C W a b K) as K'. cbn [length] in K'.
  replace (a + 3) with (a + 4 - 1) by lia. replace (b + 2) with (b + 4 - 2) by lia. apply K'; lia.
Qed.

Lemma performFlip_keeps m e m' a b : consistent m -> flippable m e -> performFlip m e = Ok m' -> census m a b ->
  consistent m' /\ nv m' = nv m /\ census m' a b.
Proof.
  intros C F H K. destruct (flip_ok m e C F) as (q & o0 & o1 & c & d & x00 & x01 & x10 & x11 & H' & _ & _ & _ & _ & _ & _ & W). assert (q = m') by congruence. subst q.
  split; [apply (rewire_consistent _ _ _ _ _ _ C W)|]. split; [apply (w_nv _ _ _ _ _ _ W)|].
  pose proof (rewire_census _ _ _ _ _ _ C W a b K) as K'. cbn [length] in K'.
  replace a with (a + 1 - 1) by lia. replace b with (b + 2 - 2) by lia. apply K'; lia.
Qed.
End Hist.
