(** Points in general position: the construction always succeeds. *)
From Coq Require Import ZArith List Bool Arith Lia Reals Lra Permutation.
From Verif Require Import Outcome DelModel DelSpec DelFields DelRewire DelFlip DelFlip2 DelDivide DelSplit DelHist DelPlaneSpec DelPlane DelGen DelRun.
Import ListNotations.
Open Scope nat_scope.

Section Run.
Context {P : Type}.
Variable pos : P -> pt.
Variable g : geometry P.
Hypothesis SIDES : exact_sides pos g.
Implicit Types m : mesh P.

Notation AT := (at_vertex pos).
Notation OPEN := (in_open pos).

Record good m : Prop := {
  k_con : consistent m; k_pl : planar pos m; k_fill : fills pos m; k_gen : general pos g m; k_base : joined m 0 1 }.

(** ** The walk *)
Lemma third_edge m t e : consistent m -> tri_of m t -> side m t e -> exists c x0 x1, around m t e c x0 x1.
Proof. intros C T S. destruct (c_side _ C t e T S) as [E B]. apply (around_ex m e t C E B). Qed.

Lemma other_sides m t e : consistent m -> edge_of m e -> beside m e t ->
  exists c x0 x1 s0 s1, around m t e c x0 x1 /\ filter (fun y => negb (y =? e)) [TE m t 0; TE m t 1; TE m t 2] = [s0; s1] /\
    ((s0 = x0 /\ s1 = x1) \/ (s0 = x1 /\ s1 = x0)).
Proof.
  intros C E B. destruct (around_ex m e t C E B) as (c & x0 & x1 & A). exists c, x0, x1.
  pose proof (a_side _ _ _ _ _ _ A) as S. pose proof (a_e0 _ _ _ _ _ _ A) as N0. pose proof (a_e1 _ _ _ _ _ _ A) as N1.
  assert (F0 : negb (x0 =? e) = true) by (apply negb_true_iff, Nat.eqb_neq; congruence).
  assert (F1 : negb (x1 =? e) = true) by (apply negb_true_iff, Nat.eqb_neq; congruence).
  assert (FE : negb (e =? e) = false) by (rewrite Nat.eqb_refl; reflexivity).
  unfold perm3 in S.
  decompose [or and] S; clear S; repeat match goal with [ H : TE m t _ = _ |- _ ] => rewrite H; clear H end; cbn [filter]; rewrite ?F0, ?F1, ?FE;
    eexists _, _; (split; [exact A|]); (split; [reflexivity|]); auto.
Qed.

Lemma walk_ok m p coin : consistent m -> forall fuel cur, edge_of m cur ->
  walk g m p coin fuel cur = NoFuel \/ exists t, walk g m p coin fuel cur = Ok t /\ tri_of m t /\ containsT g m t p = true.
Proof.
  intros C. induction fuel as [|fuel IH]; intros cur E; [left; reflexivity|]. cbn [walk].
  assert (T : exists t, beside m cur t /\ (match ET m cur 0, ET m cur 1 with
         | None, t => Ok t
         | t, None => Ok t
         | Some t0, Some t1 => bind (findThirdVert m (Some t0) cur) (fun c =>
             Ok (if g_sameSide g (POS m (EV m cur 0)) (POS m (EV m cur 1)) (POS m c) p then Some t0 else Some t1))
         end) = Ok (Some t)).
  { destruct (c_outer _ C cur E) as [(t0 & T0) _]. rewrite T0. destruct (ET m cur 1) as [t1|] eqn:T1.
    - destruct (around_ex m cur t0 C E (or_introl T0)) as (c & x0 & x1 & A). rewrite (a_third _ _ _ _ _ _ A). cbn [bind].
      destruct (g_sameSide g (POS m (EV m cur 0)) (POS m (EV m cur 1)) (POS m c) p); [exists t0|exists t1]; (split; [|reflexivity]); [left; exact T0|right; exact T1].
    - exists t0. split; [left; exact T0|reflexivity]. }
  destruct T as (t & B & ->). cbn [bind]. destruct (other_sides m t cur C E B) as (c & x0 & x1 & s0 & s1 & A & -> & S).
  destruct (c_beside _ C cur t E B) as [T _].
  assert (SD : side m t s0 /\ side m t s1).
  { pose proof (fun v => perm3_in _ _ _ _ v (a_side _ _ _ _ _ _ A)) as K. unfold side. destruct S as [[-> ->]|[-> ->]]; split; apply K; auto. }
  destruct SD as [SD0 SD1]. destruct (third_edge m t s0 C T SD0) as (c0 & y0 & y1 & A0). destruct (third_edge m t s1 C T SD1) as (c1 & z0 & z1 & A1).
  rewrite (a_third _ _ _ _ _ _ A0), (a_third _ _ _ _ _ _ A1). cbn [bind].
  destruct (containsT g m t p) eqn:CT; [right; exists t; auto|]. apply IH.
  assert (E0 : edge_of m s0) by apply (c_side _ C t s0 T SD0). assert (E1 : edge_of m s1) by apply (c_side _ C t s1 T SD1).
  repeat match goal with [ |- edge_of _ (if ?b then _ else _) ] => destruct b end; assumption.
Qed.

Lemma enclosing_ok m p fs coin fuel : consistent m -> joined m 0 1 -> (forall l : list nat, l <> [] -> fs l < length l) -> isInsideBound g m p = true ->
  enclosingTriangle g m p fs coin fuel = NoFuel \/
  exists t, enclosingTriangle g m p fs coin fuel = Ok (Some t) /\ tri_of m t /\ containsT g m t p = true.
Proof.
  intros C (e & E & J) FS IN. unfold enclosingTriangle. rewrite IN. cbn [negb].
  assert (I : In e (VE m 0)). { apply (c_vertE _ C); [pose proof (c_bound _ C); lia|exact E|]. apply (joins_ends m e 0 1 0 J). auto. }
  assert (NE : VE m 0 <> []) by (intros Z; rewrite Z in I; destruct I).
  destruct (nth_error (VE m 0) (fs (VE m 0))) as [cur|] eqn:N; [|apply nth_error_None in N; specialize (FS _ NE); lia].
  assert (EC : edge_of m cur) by (exists 0; split; [pose proof (c_bound _ C); lia|apply (nth_error_In _ _ N)]).
  assert (W : bind (walk g m p coin fuel cur) (fun t => Ok (Some t)) = NoFuel \/
    exists t, bind (walk g m p coin fuel cur) (fun t => Ok (Some t)) = Ok (Some t) /\ tri_of m t /\ containsT g m t p = true).
  { destruct (walk_ok m p coin C fuel cur EC) as [->|(t & -> & T)]; [left; reflexivity|right; exists t; auto]. }
  destruct (c_outer _ C cur EC) as [(t0 & T0) _]. rewrite T0. destruct (containsT g m t0 p) eqn:C0.
  { right. exists t0. split; [reflexivity|]. split; [apply (c_beside _ C cur t0 EC (or_introl T0))|exact C0]. }
  destruct (ET m cur 1) as [t1|] eqn:T1; [|exact W]. destruct (containsT g m t1 p) eqn:C1; [|exact W].
  right. exists t1. split; [reflexivity|]. split; [apply (c_beside _ C cur t1 EC (or_intror T1))|exact C1].
Qed.

(** ** The legality test *)
Lemma legal_ok m e : consistent m -> edge_of m e -> exists b, isEdgeLegal g m e = Ok b /\
  (b = false -> (3 <= EV m e 0 \/ 3 <= EV m e 1) /\ exists o0 o1 c d x00 x01 x10 x11, ET m e 0 = Some o0 /\ ET m e 1 = Some o1 /\
     around m o0 e c x00 x01 /\ around m o1 e d x10 x11 /\
     isABCDConvex g (POS m (EV m e 0)) (POS m c) (POS m (EV m e 1)) (POS m d) = true).
Proof.
  intros C E. unfold isEdgeLegal, isFromBoundingTri. destruct (c_outer _ C e E) as [(o0 & E0) OUT].
  destruct ((EV m e 0 <? 3) && (EV m e 1 <? 3)) eqn:BB; [exists true; split; [reflexivity|discriminate]|].
  assert (H3 : 3 <= EV m e 0 \/ 3 <= EV m e 1).
  { apply andb_false_iff in BB. destruct BB as [BB|BB]; apply Nat.ltb_ge in BB; auto. }
  destruct (ET m e 1) as [o1|] eqn:E1; [|specialize (OUT eq_refl); lia].
  destruct (around_ex m e o0 C E (or_introl E0)) as (c & x00 & x01 & A0). destruct (around_ex m e o1 C E (or_intror E1)) as (d & x10 & x11 & A1).
  rewrite E0, (a_third _ _ _ _ _ _ A0), (a_third _ _ _ _ _ _ A1). cbn [bind].
  set (cv := isABCDConvex g (POS m (EV m e 0)) (POS m c) (POS m (EV m e 1)) (POS m d)).
  assert (K : cv = true -> (3 <= EV m e 0 \/ 3 <= EV m e 1) /\ exists o2 o3 c d x00 x01 x10 x11, Some o0 = Some o2 /\ Some o1 = Some o3 /\
     around m o2 e c x00 x01 /\ around m o3 e d x10 x11 /\ isABCDConvex g (POS m (EV m e 0)) (POS m c) (POS m (EV m e 1)) (POS m d) = true).
  { intros CV. split; [exact H3|]. exists o0, o1, c, d, x00, x01, x10, x11. auto. }
  destruct (((c <? 3) || (d <? 3)) && negb (EV m e 0 <? 3) && negb (EV m e 1 <? 3)); [exists true; split; [reflexivity|discriminate]|].
  destruct ((EV m e 0 <? 3) || (EV m e 1 <? 3)).
  - exists (negb cv). split; [reflexivity|]. intros H. apply negb_false_iff in H. apply K, H.
  - eexists. split; [reflexivity|]. intros H. apply orb_false_iff in H. destruct H as [H _]. apply negb_false_iff in H. apply K, H.
Qed.

(** ** The queue *)
Definition opp m v e : Prop := edge_of m e /\ ~ end_of m e v /\ exists t, beside m e t /\ corner m t v.
Definition queue_ok m v (q : list nat) : Prop := NoDup q /\ forall e, In e q -> opp m v e.
Definition degree m v := length (VE m v).

Lemma degree_bound m v : consistent m -> v < nv m -> degree m v <= nv m.
Proof.
  intros C V. unfold degree. set (oth := fun e => if EV m e 0 =? v then EV m e 1 else EV m e 0).
  rewrite <- (seq_length (nv m) 0) at 1. rewrite <- (map_length oth). apply NoDup_incl_length.
  - assert (K : forall l, NoDup l -> (forall e, In e l -> In e (VE m v)) -> NoDup (map oth l)); [|apply K; [apply (c_setE _ C v V)|auto]].
    assert (J : forall e, In e (VE m v) -> edge_of m e /\ joins m e v (oth e)).
    { intros e I. assert (E : edge_of m e) by (exists v; auto). split; [exact E|]. apply (c_vertE _ C v e V E) in I. unfold oth, joins.
      destruct (EV m e 0 =? v) eqn:Q; [apply Nat.eqb_eq in Q; auto|]. apply Nat.eqb_neq in Q. destruct I as [I|I]; [contradiction|auto]. }
    induction l as [|e l IH]; intros N S; cbn [map]; [constructor|]. apply NoDup_cons_iff in N. destruct N as [N0 N]. constructor; [|apply IH; [exact N|intros; apply S; right; assumption]].
    intros I. apply in_map_iff in I. destruct I as (f & Q & F). destruct (J e (S e (or_introl eq_refl))) as [E1 J1]. destruct (J f (S f (or_intror F))) as [E2 J2].
    rewrite Q in J2. apply N0. rewrite (c_simple _ C e f v (oth e) E1 E2 J1 J2). exact F.
  - intros w I. apply in_map_iff in I. destruct I as (e & <- & I). apply in_seq. assert (E : edge_of m e) by (exists v; auto).
    split; [lia|]. cbn. unfold oth. destruct (EV m e 0 =? v); apply (c_ends _ C e _ E); [right|left]; reflexivity.
Qed.

(** one flip of the queue *)
Lemma queue_flip m v e q o0 o1 c d x00 x01 x10 x11 m' :
  consistent m -> v < nv m -> edge_of m e -> ET m e 0 = Some o0 -> ET m e 1 = Some o1 ->
  around m o0 e c x00 x01 -> around m o1 e d x10 x11 -> ~ joined m c d ->
  flipped m e o0 o1 c d x00 x01 x10 x11 m' -> rewired m m' [e] [o0; o1] [ne m] [nt m; nt m + 1] ->
  queue_ok m v (e :: q) ->
  exists o, (if isIncidentT m v o0 then Some o1 else Some o0) = Some o /\
  queue_ok m' v (q ++ filter (fun y => negb (y =? e)) [TE m o 0; TE m o 1; TE m o 2]) /\
  length (filter (fun y => negb (y =? e)) [TE m o 0; TE m o 1; TE m o 2]) = 2 /\ degree m v < degree m' v.
Proof.
  intros C V E E0 E1 A0 A1 NJ F W (ND & Q).
  set (a := EV m e 0). set (b := EV m e 1).
  assert (AB : a <> b) by apply (c_edge _ C e E).
  pose proof (apart_distinct m e o0 o1 c d x00 x01 x10 x11 C E E0 E1 A0 A1) as CD.
  pose proof (fun w => perm3_in _ _ _ _ w (a_corner _ _ _ _ _ _ A0)) as K0. fold a b in K0.
  pose proof (fun w => perm3_in _ _ _ _ w (a_corner _ _ _ _ _ _ A1)) as K1. fold a b in K1.
  pose proof (fun w => perm3_in _ _ _ _ w (a_side _ _ _ _ _ _ A0)) as S0. pose proof (fun w => perm3_in _ _ _ _ w (a_side _ _ _ _ _ _ A1)) as S1.
  change (forall w, corner m o0 w <-> w = a \/ w = b \/ w = c) in K0. change (forall w, corner m o1 w <-> w = a \/ w = b \/ w = d) in K1.
  change (forall w, side m o0 w <-> w = e \/ w = x00 \/ w = x01) in S0. change (forall w, side m o1 w <-> w = e \/ w = x10 \/ w = x11) in S1.
  pose proof (a_c0 _ _ _ _ _ _ A0) as CA. pose proof (a_c1 _ _ _ _ _ _ A0) as CB. pose proof (a_c0 _ _ _ _ _ _ A1) as DA. pose proof (a_c1 _ _ _ _ _ _ A1) as DB.
  fold a b in CA, CB, DA, DB.
  apply NoDup_cons_iff in ND. destruct ND as [NE ND]. destruct (Q e (or_introl eq_refl)) as (_ & NV & tv & BV & CV).
  assert (VA : v <> a) by (intros ->; apply NV; left; reflexivity). assert (VB : v <> b) by (intros ->; apply NV; right; reflexivity).
  assert (VCD : v = c \/ v = d).
  { destruct BV as [BV|BV]; rewrite BV in *; [injection E0 as ->; apply K0 in CV|injection E1 as ->; apply K1 in CV]; tauto. }
  (* the two triangles of e are recognised by v *)
  assert (INC : isIncidentT m v o0 = true <-> v = c).
  { unfold isIncidentT. rewrite !orb_true_iff, !Nat.eqb_eq. rewrite or_assoc. change (corner m o0 v <-> v = c). rewrite K0. tauto. }
  assert (JA0 := a_join0 _ _ _ _ _ _ A0). assert (JB0 := a_join1 _ _ _ _ _ _ A0). assert (JA1 := a_join0 _ _ _ _ _ _ A1). assert (JB1 := a_join1 _ _ _ _ _ _ A1).
  fold a b in JA0, JB0, JA1, JB1.
  destruct (quad_beside m e o0 o1 c d x00 x01 x10 x11 C A0 A1) as (B00 & B01 & B10 & B11).
  (* an edge of the queue keeps its triangle *)
  assert (KEEP : forall y, y <> e -> opp m v y -> opp m' v y).
  { intros y NY (Y & NVY & t & BY & CY). split; [apply (rw_edge _ _ _ _ _ _ W); left; split; [exact Y|cbn; intuition congruence]|].
    split; [rewrite (old_end _ _ _ _ _ _ W y v Y); exact NVY|]. exists t.
    destruct (c_beside _ C y t Y BY) as [T SY].
    assert (NT0 : t <> o0).
    { intros ->. apply S0 in SY. apply K0 in CY. assert (v = c) by tauto. destruct SY as [SY|[SY|SY]]; [contradiction|subst y; apply NVY|subst y; apply NVY].
      - apply (joins_ends _ _ _ _ _ JA0). auto.
      - apply (joins_ends _ _ _ _ _ JB0). auto. }
    assert (NT1 : t <> o1).
    { intros ->. apply S1 in SY. apply K1 in CY. assert (v = d) by tauto. destruct SY as [SY|[SY|SY]]; [contradiction|subst y; apply NVY|subst y; apply NVY].
      - apply (joins_ends _ _ _ _ _ JA1). auto.
      - apply (joins_ends _ _ _ _ _ JB1). auto. }
    split; [apply (w_beside _ _ _ _ _ _ W); [exact Y|cbn; intuition congruence|]; left; split; [exact BY|cbn; intuition congruence]|].
    apply (old_corner _ _ _ _ _ _ W t v T), CY. }
  destruct (f_TV0 _ _ _ _ _ _ _ _ _ _ _ F) as (V00 & V01 & V02). destruct (f_TV1 _ _ _ _ _ _ _ _ _ _ _ F) as (V10 & V11 & V12).
  destruct (f_TE0 _ _ _ _ _ _ _ _ _ _ _ F) as (T00 & T01 & T02). destruct (f_TE1 _ _ _ _ _ _ _ _ _ _ _ F) as (T10 & T11 & T12).
  assert (CN0 : corner m' (nt m) v) by (unfold corner; rewrite V00, V01; destruct VCD; auto).
  assert (CN1 : corner m' (nt m + 1) v) by (unfold corner; rewrite V10, V11; destruct VCD; auto).
  (* a side of the triangle opposite gets a triangle with v *)
  assert (GET : forall y w k, edge_of m y -> y <> e -> joins m y w k -> v <> w -> v <> k -> side m' (nt m) y \/ side m' (nt m + 1) y -> opp m' v y).
  { intros y w k Y NY J VW VK S. split; [apply (rw_edge _ _ _ _ _ _ W); left; split; [exact Y|cbn; intuition congruence]|].
    split; [rewrite (old_end _ _ _ _ _ _ W y v Y), (joins_ends _ _ _ _ _ J); intuition congruence|].
    destruct S as [S|S]; [exists (nt m)|exists (nt m + 1)]; (split; [|assumption]); apply (w_beside _ _ _ _ _ _ W); try exact Y; try (cbn; intuition congruence); right; (split; [cbn; auto|exact S]). }
  assert (DEG : degree m v < degree m' v).
  { unfold degree. assert (L : length (ne m :: VE m v) <= length (VE m' v)); [|cbn in L; lia]. apply NoDup_incl_length.
    - constructor; [|apply (c_setE _ C v V)]. intros I. assert (edge_of m (ne m)) as EN by (exists v; auto). apply (c_rangeE _ C) in EN. lia.
    - intros y I. apply (f_VE _ _ _ _ _ _ _ _ _ _ _ F). destruct I as [<-|I]; [right; auto|left; split; [exact I|]]. intros [_ [->| ->]]; [apply VA|apply VB]; reflexivity. }
  assert (FINISH : forall o y0 y1 w, beside m e o -> (forall z, side m o z <-> z = e \/ z = y0 \/ z = y1) -> e <> y0 -> e <> y1 -> y0 <> y1 ->
     joins m y0 a w -> joins m y1 b w -> edge_of m y0 -> edge_of m y1 -> w <> a -> w <> b -> v <> w -> ~ joined m v w ->
     side m' (nt m) y0 -> side m' (nt m + 1) y1 ->
     queue_ok m' v (q ++ filter (fun y => negb (y =? e)) [TE m o 0; TE m o 1; TE m o 2]) /\
     length (filter (fun y => negb (y =? e)) [TE m o 0; TE m o 1; TE m o 2]) = 2).
  { intros o y0 y1 w BO SO N0 N1 N01 J0 J1 Y0 Y1 WA WB VW NJW SD0 SD1.
    destruct (other_sides m o e C E BO) as (c' & z0 & z1 & s0 & s1 & A & -> & S).
    assert (SS : (s0 = y0 /\ s1 = y1) \/ (s0 = y1 /\ s1 = y0)).
    { pose proof (fun w => perm3_in _ _ _ _ w (a_side _ _ _ _ _ _ A)) as SA. change (forall w, side m o w <-> w = e \/ w = z0 \/ w = z1) in SA.
      assert (H0 : y0 = z0 \/ y0 = z1) by (assert (H : side m o y0) by (apply SO; auto); apply SA in H; intuition congruence).
      assert (H1 : y1 = z0 \/ y1 = z1) by (assert (H : side m o y1) by (apply SO; auto); apply SA in H; intuition congruence).
      intuition congruence. }
    split; [|reflexivity]. clear S A z0 z1 c'.
    assert (O0 : opp m' v y0) by (apply (GET y0 a w); auto). assert (O1 : opp m' v y1) by (apply (GET y1 b w); auto).
    assert (NQ : forall y u, joins m y u w -> v <> u -> u <> w -> ~ In y q).
    { intros y u JY VU UW I. destruct (Q y (or_intror I)) as (Y & NVY & t & BY & CY). destruct (c_beside _ C y t Y BY) as [T SY].
      apply NJW. assert (CW : corner m t w) by (apply (c_inner _ C t y w T SY), (joins_ends _ _ _ _ _ JY); auto).
      destruct (c_sides _ C t v w T CY CW VW) as (f & FS & FJ). exists f. split; [apply (c_side _ C t f T FS)|exact FJ]. }
    split.
    - assert (Q0 : ~ In y0 q) by (apply (NQ y0 a); auto). assert (Q1 : ~ In y1 q) by (apply (NQ y1 b); auto).
      assert (PP : Permutation ([s0; s1] ++ q) (q ++ [s0; s1])) by apply Permutation_app_comm. apply (Permutation_NoDup PP). cbn [app].
      constructor; [|constructor; [|exact ND]]; destruct SS as [[-> ->]|[-> ->]]; cbn [In]; intuition congruence.
    - intros y I. apply in_app_or in I. destruct I as [I|I]; [apply KEEP; [intros ->; contradiction|apply Q; right; exact I]|].
      destruct SS as [[-> ->]|[-> ->]]; destruct I as [<-|[<-|[]]]; assumption. }
  assert (D00 : side m' (nt m) x00) by (unfold side; rewrite T00; auto). assert (D10 : side m' (nt m) x10) by (unfold side; rewrite T01; auto).
  assert (D01 : side m' (nt m + 1) x01) by (unfold side; rewrite T10; auto). assert (D11 : side m' (nt m + 1) x11) by (unfold side; rewrite T11; auto).
  destruct (isIncidentT m v o0) eqn:IV.
  - exists o1. split; [reflexivity|]. assert (v = c) by (apply INC; reflexivity). subst v.
    assert (R : queue_ok m' c (q ++ filter (fun y => negb (y =? e)) [TE m o1 0; TE m o1 1; TE m o1 2]) /\ length (filter (fun y => negb (y =? e)) [TE m o1 0; TE m o1 1; TE m o1 2]) = 2).
    { apply (FINISH o1 x10 x11 d); auto; [right; exact E1|apply (a_e0 _ _ _ _ _ _ A1)|apply (a_e1 _ _ _ _ _ _ A1)|apply (a_01 _ _ _ _ _ _ A1)|
        apply (a_edge0 _ _ _ _ _ _ A1)|apply (a_edge1 _ _ _ _ _ _ A1)]. }
    destruct R as [R1 R2]. split; [exact R1|]. split; [exact R2|exact DEG].
  - exists o0. split; [reflexivity|]. assert (v = d). { destruct VCD as [H|H]; [apply INC in H; congruence|exact H]. } subst v.
    assert (R : queue_ok m' d (q ++ filter (fun y => negb (y =? e)) [TE m o0 0; TE m o0 1; TE m o0 2]) /\ length (filter (fun y => negb (y =? e)) [TE m o0 0; TE m o0 1; TE m o0 2]) = 2).
    { apply (FINISH o0 x00 x01 c); auto; [left; exact E0|apply (a_e0 _ _ _ _ _ _ A0)|apply (a_e1 _ _ _ _ _ _ A0)|apply (a_01 _ _ _ _ _ _ A0)|
        apply (a_edge0 _ _ _ _ _ _ A0)|apply (a_edge1 _ _ _ _ _ _ A0)|].
      intros (f & FE & FJ). apply NJ. exists f. split; [exact FE|apply joins_sym, FJ]. }
    destruct R as [R1 R2]. split; [exact R1|]. split; [exact R2|exact DEG].
Qed.
End Run.
