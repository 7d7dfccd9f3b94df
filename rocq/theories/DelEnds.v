(** The search for the triangle of a point: draws under which it ends. *)
From Coq Require Import ZArith List Bool Arith Lia Reals Lra Psatz.
From Verif Require Import Outcome DelModel DelSpec DelFields DelRewire DelFlip DelFlip2 DelDivide DelSplit DelHist DelPlaneSpec DelPlane DelGen DelRun DelRun2 DelRun3 DelThm.
From Verif Require Import DelDiscSpec DelDisc DelWalk DelStar DelMesh DelReach.
Import ListNotations.
Open Scope nat_scope.

Section Ends.
Context {P : Type}.
Variable pos : P -> pt.
Variable g : geometry P.
Hypothesis SIDES : exact_sides pos g.
Implicit Types m : mesh P.
Notation AT := (at_vertex pos).

Lemma walk_ext m p coin coin' : forall fuel cur, (forall i, i < fuel -> coin i = coin' i) -> DelModel.walk g m p coin fuel cur = DelModel.walk g m p coin' fuel cur.
Proof.
  induction fuel as [|fuel IH]; intros cur H; [reflexivity|]. cbn [DelModel.walk]. rewrite (H fuel (Nat.lt_succ_diag_r fuel)).
  assert (IH' : forall c, DelModel.walk g m p coin fuel c = DelModel.walk g m p coin' fuel c) by (intros c; apply IH; intros i I; apply H; lia).
  destruct (match ET m cur 0, ET m cur 1 with None, t => Ok t | t, None => Ok t | Some t0, Some t1 => _ end) as [[t|]| | | |]; try reflexivity. cbn [bind].
  destruct (filter (fun c => negb (c =? cur)) [TE m t 0; TE m t 1; TE m t 2]) as [|s0 [|s1 [|s2 s]]]; try reflexivity.
  destruct (findThirdVert m (Some t) s0) as [c0| | | |]; try reflexivity. destruct (findThirdVert m (Some t) s1) as [c1| | | |]; try reflexivity. cbn [bind].
  destruct (containsT g m t p); [reflexivity|]. apply IH'.
Qed.

Section Mesh.
Variables (m : mesh P) (n : nat) (p : P).
Hypothesis (C : consistent m) (HC : complex (KM m) (AT m) n).
Let r := pos p.
Hypothesis (GEN : forall x y, x < n -> y < n -> x <> y -> orient (AT m x) (AT m y) r <> 0%R).
Hypothesis (BOX : forall y z x, y < 3 -> z < 3 -> y <> z -> x < n -> x <> y -> x <> z -> (0 < orient (AT m y) (AT m z) (AT m x) * orient (AT m y) (AT m z) r)%R).

(** the point is on the triangle's side of the edge *)
Definition facing t e : Prop := exists c, findThirdVert m (Some t) e = Ok c /\ (0 < orient (AT m (EV m e 0)) (AT m (EV m e 1)) (AT m c) * orient (AT m (EV m e 0)) (AT m (EV m e 1)) r)%R.

Lemma around_km t e c x0 x1 : around m t e c x0 x1 -> KM m (EV m e 0) (EV m e 1) c.
Proof. intros A. exists t. split; [apply (a_tri _ _ _ _ _ _ A)|apply (a_corner _ _ _ _ _ _ A)]. Qed.

Lemma side_true e c : g_sameSide g (POS m (EV m e 0)) (POS m (EV m e 1)) (POS m c) p = true <-> (0 <= orient (AT m (EV m e 0)) (AT m (EV m e 1)) (AT m c) * orient (AT m (EV m e 0)) (AT m (EV m e 1)) r)%R.
Proof. apply SIDES. Qed.

Lemma pair_differs e t0 t1 c0 c1 x00 x01 x10 x11 : edge_of m e -> ET m e 0 = Some t0 -> ET m e 1 = Some t1 -> around m t0 e c0 x00 x01 -> around m t1 e c1 x10 x11 -> c0 <> c1.
Proof.
  intros E T0 T1 A0 A1 ->. assert (t0 = t1).
  { apply (c_distinct _ C); [apply (a_tri _ _ _ _ _ _ A0)|apply (a_tri _ _ _ _ _ _ A1)|]. intros v V. unfold corner in *. apply (perm3_in _ _ _ _ v (a_corner _ _ _ _ _ _ A1)). apply (perm3_in _ _ _ _ v (a_corner _ _ _ _ _ _ A0)), V. }
  subst t1. apply (c_two _ C e t0 E). auto.
Qed.

Lemma chosen e t : edge_of m e -> beside m e t -> facing t e ->
  (match ET m e 0, ET m e 1 with
   | None, t => Ok t
   | t, None => Ok t
   | Some t0, Some t1 => bind (findThirdVert m (Some t0) e) (fun c =>
       Ok (if g_sameSide g (POS m (EV m e 0)) (POS m (EV m e 1)) (POS m c) p then Some t0 else Some t1))
   end) = Ok (Some t).
Proof.
  intros E B (c & TH & F). destruct (c_outer _ C e E) as [(t0 & T0) _]. rewrite T0. destruct (ET m e 1) as [t1|] eqn:T1.
  - destruct (around_ex m e t0 C E (or_introl T0)) as (c0 & x00 & x01 & A0). destruct (around_ex m e t1 C E (or_intror T1)) as (c1 & x10 & x11 & A1).
    rewrite (a_third _ _ _ _ _ _ A0). cbn [bind]. destruct B as [B|B].
    + assert (t = t0) by congruence. subst t. rewrite (a_third _ _ _ _ _ _ A0) in TH. injection TH as <-. rewrite (proj2 (side_true e c0)) by lra. reflexivity.
    + assert (t = t1) by congruence. subst t. rewrite (a_third _ _ _ _ _ _ A1) in TH. injection TH as <-.
      pose proof (x_opposite HC _ _ _ _ (around_km _ _ _ _ _ A0) (around_km _ _ _ _ _ A1) (pair_differs _ _ _ _ _ _ _ _ _ E T0 T1 A0 A1)) as OP.
      destruct (g_sameSide g (POS m (EV m e 0)) (POS m (EV m e 1)) (POS m c0) p) eqn:S; [exfalso|reflexivity]. apply side_true in S.
      set (o0 := orient (AT m (EV m e 0)) (AT m (EV m e 1)) (AT m c0)) in *. set (o1 := orient (AT m (EV m e 0)) (AT m (EV m e 1)) (AT m c1)) in *. set (o := orient (AT m (EV m e 0)) (AT m (EV m e 1)) r) in *.
      clearbody o0 o1 o. clear - OP S F. nra.
  - destruct B as [B|B]; congruence.
Qed.

Lemma start_facing e : edge_of m e -> exists t, beside m e t /\ facing t e.
Proof.
  intros E. destruct (c_outer _ C e E) as [(t0 & T0) OUT]. destruct (around_ex m e t0 C E (or_introl T0)) as (c0 & x00 & x01 & A0).
  destruct (x_corner _ _ _ HC _ _ _ (around_km _ _ _ _ _ A0)) as (R0 & R1 & R2 & D1 & D2 & D3). pose proof (GEN _ _ R0 R1 D1) as NZ.
  destruct (ET m e 1) as [t1|] eqn:T1.
  - destruct (around_ex m e t1 C E (or_intror T1)) as (c1 & x10 & x11 & A1).
    pose proof (x_opposite HC _ _ _ _ (around_km _ _ _ _ _ A0) (around_km _ _ _ _ _ A1) (pair_differs _ _ _ _ _ _ _ _ _ E T0 T1 A0 A1)) as OP.
    set (o0 := orient (AT m (EV m e 0)) (AT m (EV m e 1)) (AT m c0)). set (o1 := orient (AT m (EV m e 0)) (AT m (EV m e 1)) (AT m c1)). set (o := orient (AT m (EV m e 0)) (AT m (EV m e 1)) r).
    fold o0 o1 in OP. fold o in NZ.
    destruct (Rlt_le_dec 0 (o0 * o)) as [L|L]; [exists t0; split; [left; exact T0|exists c0; split; [apply (a_third _ _ _ _ _ _ A0)|exact L]]|].
    exists t1. split; [right; exact T1|exists c1; split; [apply (a_third _ _ _ _ _ _ A1)|]]. fold o1 o. clearbody o0 o1 o. clear - OP NZ L. pose proof (sqr_pos _ NZ). nra.
  - exists t0. split; [left; exact T0|]. exists c0. split; [apply (a_third _ _ _ _ _ _ A0)|]. destruct (OUT eq_refl) as [B0 B1]. apply BOX; auto.
Qed.

(** from this triangle the search may end in so many further rounds *)
Definition ends (j x y z : nat) : Prop := exists t, tri_of m t /\ perm3 (TV m t) x y z /\
  forall fuel cur, j < fuel -> side m t cur -> facing t cur -> exists coin t', DelModel.walk g m p coin fuel cur = Ok t'.

Lemma ends_base x y z : KM m x y z -> inside (AT m x) (AT m y) (AT m z) r -> ends 0 x y z.
Proof.
  intros (t & T & PE) I. exists t. split; [exact T|]. split; [exact PE|]. intros fuel cur F S FA. exists (fun _ => true), t. destruct fuel as [|fuel]; [lia|].
  destruct (c_side _ C t cur T S) as [E B]. cbn [DelModel.walk]. rewrite (chosen cur t E B FA). cbn [bind].
  destruct (other_sides m t cur C E B) as (c & x0 & x1 & s0 & s1 & A & -> & S').
  assert (SD : side m t s0 /\ side m t s1).
  { pose proof (fun v => perm3_in _ _ _ _ v (a_side _ _ _ _ _ _ A)) as K. unfold side. destruct S' as [[-> ->]|[-> ->]]; split; apply K; auto. }
  destruct SD as [SD0 SD1]. destruct (third_edge m t s0 C T SD0) as (c0 & y0 & y1 & A0). destruct (third_edge m t s1 C T SD1) as (c1 & z0 & z1 & A1).
  rewrite (a_third _ _ _ _ _ _ A0), (a_third _ _ _ _ _ _ A1). cbn [bind].
  assert (CT : containsT g m t p = true).
  { unfold containsT. apply orb_true_iff. right. apply (inside_true g pos SIDES). change (inside (AT m (TV m t 0)) (AT m (TV m t 1)) (AT m (TV m t 2)) r).
    clear - PE I. assert (R1 := inside_rot _ _ _ _ I). assert (R2 := inside_rot _ _ _ _ R1). assert (R3 := inside_swap _ _ _ _ I). assert (R4 := inside_swap _ _ _ _ R1). assert (R5 := inside_swap _ _ _ _ R2).
    unfold perm3 in PE. decompose [or and] PE; subst; assumption. }
  rewrite CT. reflexivity.
Qed.

Lemma ends_step j x y z w : KM m x y z -> (co (AT m x) (AT m y) (AT m z) r < 0)%R -> KM m y z w -> w <> x -> ends j w y z -> ends (S j) x y z.
Proof.
  intros (t & T & PE) NEG KW NW (t' & T' & PE' & IH). exists t. split; [exact T|]. split; [exact PE|]. intros fuel cur F S FA. destruct fuel as [|fuel]; [lia|].
  destruct (c_side _ C t cur T S) as [E B].
  assert (KX : KM m x y z) by (exists t; auto). destruct (x_corner _ _ _ HC _ _ _ KX) as (RX & RY & RZ & D1 & D2 & D3).
  (* the side to leave through *)
  destruct (tri_edge m t y z x C T (perm3_rot _ _ _ _ PE) D3) as (s & ES & SS & BS & JS).
  assert (CE : forall e, edge_of m e -> joins m e y z -> forall u, orient (AT m (EV m e 0)) (AT m (EV m e 1)) u = orient (AT m y) (AT m z) u \/ orient (AT m (EV m e 0)) (AT m (EV m e 1)) u = (- orient (AT m y) (AT m z) u)%R).
  { intros e _ [[-> ->]|[-> ->]] u; [left; reflexivity|right; unfold orient; ring]. }
  assert (SIGN : forall u v : pt, (orient (AT m (EV m s 0)) (AT m (EV m s 1)) u * orient (AT m (EV m s 0)) (AT m (EV m s 1)) v = orient (AT m y) (AT m z) u * orient (AT m y) (AT m z) v)%R).
  { intros u v. destruct JS as [[-> ->]|[-> ->]]; [reflexivity|unfold orient; ring]. }
  destruct (third_edge m t s C T SS) as (cs & xs0 & xs1 & AS).
  assert (CX : cs = x).
  { symmetry. apply (perm3_third _ y z x _ _ _ (perm3_rot _ _ _ _ PE) (a_corner _ _ _ _ _ _ AS)); [congruence..|]. destruct JS as [[-> ->]|[-> ->]]; auto. }
  subst cs. apply co_neg in NEG.
  assert (WS : g_sameSide g (POS m (EV m s 0)) (POS m (EV m s 1)) (POS m x) p = false).
  { destruct (g_sameSide _ _ _ _ _) eqn:Q; [exfalso|reflexivity]. apply side_true in Q. rewrite SIGN in Q. lra. }
  assert (SC : s <> cur).
  { intros ->. destruct FA as (c & TH & FA). rewrite (a_third _ _ _ _ _ _ AS) in TH. injection TH as <-. rewrite SIGN in FA. lra. }
  (* the next triangle *)
  assert (SS' : side m t' s).
  { destruct (tri_edge m t' y z w C T' (perm3_rot _ _ _ _ PE') D3) as (s' & ES' & SS' & _ & JS'). rewrite (c_simple _ C s s' y z ES ES' JS JS'). exact SS'. }
  assert (FA' : facing t' s).
  { destruct (third_edge m t' s C T' SS') as (cs' & xs0' & xs1' & AS').
    assert (CW : cs' = w).
    { symmetry. apply (perm3_third _ y z w _ _ _ (perm3_rot _ _ _ _ PE') (a_corner _ _ _ _ _ _ AS')); [| | |destruct JS as [[-> ->]|[-> ->]]; auto].
      - congruence.
      - destruct (x_corner _ _ _ HC _ _ _ KW) as (_ & _ & _ & _ & Q & _). exact Q.
      - destruct (x_corner _ _ _ HC _ _ _ KW) as (_ & _ & _ & _ & _ & Q). exact Q. }
    subst cs'. exists w. split; [apply (a_third _ _ _ _ _ _ AS')|]. rewrite SIGN.
    pose proof (x_opposite HC y z x w (x_rot _ _ _ HC _ _ _ KX) KW ltac:(congruence)) as OP.
    set (o0 := orient (AT m y) (AT m z) (AT m x)) in *. set (o1 := orient (AT m y) (AT m z) (AT m w)) in *. set (o := orient (AT m y) (AT m z) r) in *. clearbody o0 o1 o. clear - OP NEG.
    assert (o0 <> 0)%R by (intros Z; rewrite Z in OP; lra). pose proof (sqr_pos _ H). nra. }
  destruct (IH fuel s ltac:(lia) SS' FA') as (coin & t'' & W).
  cbn [DelModel.walk]. rewrite (chosen cur t E B FA). cbn [bind].
  destruct (other_sides m t cur C E B) as (c & x0 & x1 & s0 & s1 & A & FI & S').
  assert (SD : side m t s0 /\ side m t s1).
  { pose proof (fun v => perm3_in _ _ _ _ v (a_side _ _ _ _ _ _ A)) as K. unfold side. destruct S' as [[-> ->]|[-> ->]]; split; apply K; auto. }
  assert (SI : s = s0 \/ s = s1).
  { assert (I : In s (filter (fun y => negb (y =? cur)) [TE m t 0; TE m t 1; TE m t 2])).
    { apply filter_In. split; [destruct SS as [<-|[<-|<-]]; cbn [In]; auto|apply negb_true_iff, Nat.eqb_neq, SC]. }
    rewrite FI in I. destruct I as [I|[I|[]]]; auto. }
  rewrite FI. destruct SD as [SD0 SD1]. destruct (third_edge m t s0 C T SD0) as (c0 & y0 & y1 & A0). destruct (third_edge m t s1 C T SD1) as (c1 & z0 & z1 & A1).
  rewrite (a_third _ _ _ _ _ _ A0), (a_third _ _ _ _ _ _ A1). cbn [bind].
  destruct (containsT g m t p); [exists coin, t; reflexivity|].
  exists (fun i => if i =? fuel then (if Nat.eq_dec s s0 then true else false) else coin i), t''.
  rewrite Nat.eqb_refl. rewrite <- W.
  assert (NX : (if negb (g_sameSide g (POS m (EV m s0 0)) (POS m (EV m s0 1)) (POS m c0) p) && negb (g_sameSide g (POS m (EV m s1 0)) (POS m (EV m s1 1)) (POS m c1) p)
    then if if Nat.eq_dec s s0 then true else false then s0 else s1
    else if negb (g_sameSide g (POS m (EV m s0 0)) (POS m (EV m s0 1)) (POS m c0) p) then s0
    else if negb (g_sameSide g (POS m (EV m s1 0)) (POS m (EV m s1 1)) (POS m c1) p) then s1 else cur) = s).
  { destruct SI as [SI|SI].
    - rewrite <- SI in A0. assert (c0 = x) by (pose proof (a_third _ _ _ _ _ _ A0); pose proof (a_third _ _ _ _ _ _ AS); congruence). subst c0. rewrite <- SI, WS. cbn [negb andb].
      destruct (g_sameSide g (POS m (EV m s1 0)) (POS m (EV m s1 1)) (POS m c1) p); cbn [negb]; [reflexivity|]. destruct (Nat.eq_dec s s); [reflexivity|congruence].
    - rewrite <- SI in A1. assert (c1 = x) by (pose proof (a_third _ _ _ _ _ _ A1); pose proof (a_third _ _ _ _ _ _ AS); congruence). subst c1. rewrite <- SI, WS. cbn [negb]. rewrite andb_true_r.
      destruct (g_sameSide g (POS m (EV m s0 0)) (POS m (EV m s0 1)) (POS m c0) p); cbn [negb]; [reflexivity|]. destruct (Nat.eq_dec s s0) as [<-|]; reflexivity. }
  rewrite NX. apply walk_ext. intros i I. assert (i =? fuel = false) as -> by (apply Nat.eqb_neq; lia). reflexivity.
Qed.

Lemma walk_ends cur fuel lt : (forall t, In t lt <-> tri_of m t) -> edge_of m cur -> length lt <= fuel -> exists coin t, DelModel.walk g m p coin fuel cur = Ok t.
Proof using All.
  intros LT E F. destruct (start_facing cur E) as (t & B & FA). destruct (c_beside _ C cur t E B) as [T S].
  destruct (around_ex m cur t C E B) as (c & x0 & x1 & A). pose proof (around_km _ _ _ _ _ A) as KX.
  destruct (reach HC (TV m) lt) with (r := r) (E := ends) (x := EV m cur 0) (y := EV m cur 1) (z := c) as (k & LK & (t' & T' & PE & EN)).
  - intros x y z. unfold KM. split; intros (s & Q & PE); exists s; (split; [apply LT, Q|exact PE]).
  - exact GEN.
  - exact BOX.
  - intros k x y z (s & Q & PE & R). exists s. split; [exact Q|]. split; [apply perm3_swap, PE|exact R].
  - intros k x y z (s & Q & PE & R). exists s. split; [exact Q|]. split; [apply perm3_rot, PE|exact R].
  - exact ends_base.
  - exact ends_step.
  - exact KX.
  - assert (t' = t).
    { apply (c_distinct _ C); [exact T'|exact T|]. intros v V. unfold corner in *. apply (perm3_in _ _ _ _ v (a_corner _ _ _ _ _ _ A)), (perm3_in _ _ _ _ v PE), V. }
    subst t'. apply (EN fuel cur); [lia|exact S|exact FA].
Qed.
End Mesh.
End Ends.
