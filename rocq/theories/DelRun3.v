(** Points in general position: insertion of all points. *)
From Coq Require Import ZArith List Bool Arith Lia Reals Lra Permutation.
From Verif Require Import Outcome DelModel DelSpec DelFields DelRewire DelFlip DelFlip2 DelDivide DelSplit DelHist DelPlaneSpec DelPlane DelGen DelRun DelRun2.
Import ListNotations.
Open Scope nat_scope.

Section Run.
Context {P : Type}.
Variable pos : P -> pt.
Variable g : geometry P.
Hypothesis SIDES : exact_sides pos g.
Implicit Types m : mesh P.

Notation AT := (at_vertex pos).
Notation OPEN := (in_open pos).
Notation good := (good pos g).

Lemma legalize_ok v a b : forall fuel m queue, good m -> census m a b -> v < nv m -> queue_ok m v queue ->
  (legalize g v fuel m queue = NoFuel /\ fuel <= 2 * (nv m - degree m v) + length queue) \/
  exists m', legalize g v fuel m queue = Ok m' /\ good m' /\ census m' a b.
Proof.
  induction fuel as [|fuel IH]; intros m queue K CE V Q; [left; split; [reflexivity|lia]|]. cbn [legalize]. destruct queue as [|e q]; [right; exists m; auto|].
  pose proof K as [C PL FI G BA]. destruct (proj2 Q e (or_introl eq_refl)) as (E & _).
  destruct (legal_ok g m e C E) as (l & HL & BAD). rewrite HL. cbn [bind]. destruct l.
  - assert (Q' : queue_ok m v q). { destruct Q as [ND Q]. apply NoDup_cons_iff in ND. split; [apply ND|intros y Y; apply Q; right; exact Y]. }
    destruct (IH m q K CE V Q') as [[H L]|H]; [left|right; exact H]. split; [exact H|]. cbn [length]. lia.
  - destruct (BAD eq_refl) as (H3 & o0 & o1 & c & d & x00 & x01 & x10 & x11 & E0 & E1 & A0 & A1 & CV). clear BAD.
    pose proof (quad_crossed pos g SIDES m e o0 o1 c d x00 x01 x10 x11 C G E E0 E1 A0 A1 CV) as X.
    pose proof (quad_unjoined pos m e o0 o1 c d x00 x01 x10 x11 C PL E E0 E1 A0 A1 X) as NJ.
    destruct (flip_computes m e o0 o1 c d x00 x01 x10 x11 C E E0 E1 A0 A1) as (m' & HF & F).
    assert (W : rewired m m' [e] [o0; o1] [ne m] [nt m; nt m + 1]) by (apply (flip_rewired m m' e o0 o1 c d x00 x01 x10 x11); assumption).
    destruct (queue_flip m v e q o0 o1 c d x00 x01 x10 x11 m' C V E E0 E1 A0 A1 NJ F W Q) as (o & HO & Q' & L2 & DG).
    rewrite E0, E1, HO, HF. cbn [bind].
    assert (K' : good m').
    { constructor.
      - apply (rewire_consistent _ _ _ _ _ _ C W).
      - apply (flip_planar pos g m e o0 o1 c d x00 x01 x10 x11); assumption.
      - apply (flip_fills pos m e o0 o1 c d x00 x01 x10 x11); assumption.
      - apply (flip_general pos g m e o0 o1 c d x00 x01 x10 x11); assumption.
      - destruct BA as (f & FE & FJ). exists f. split; [|apply (old_joins _ _ _ _ _ _ W f 0 1 FE), FJ].
        apply (rw_edge _ _ _ _ _ _ W). left. split; [exact FE|]. intros [<-|[]]. unfold joins in FJ. lia. }
    assert (CE' : census m' a b).
    { pose proof (rewire_census _ _ _ _ _ _ C W a b CE) as H. cbn [length] in H. replace a with (a + 1 - 1) by lia. replace b with (b + 2 - 2) by lia. apply H; lia. }
    pose proof (w_nv _ _ _ _ _ _ W) as NV. rewrite <- NV in V. rewrite <- E0 in HO.
    pose proof (degree_bound m' v (k_con _ _ _ K') V) as DB.
    destruct (IH m' _ K' CE' V Q') as [[H L]|H]; [left|right; exact H]. split; [exact H|]. rewrite app_length, L2, NV in L. rewrite NV in DB. cbn [length]. lia.
Qed.

(** the mesh with a new vertex *)
Lemma new_at m p i u : u < nv m -> AT (makeVertex m p i) u = AT m u.
Proof. intros U. unfold at_vertex. cbn. unfold upd. assert (u =? nv m = false) as -> by (apply Nat.eqb_neq; lia). reflexivity. Qed.
Lemma new_pos m p i : POS (makeVertex m p i) (nv m) = p.
Proof. cbn. unfold upd. rewrite Nat.eqb_refl. reflexivity. Qed.

Lemma new_good m p i : good m -> general pos g (makeVertex m p i) -> good (makeVertex m p i).
Proof.
  intros [C PL FI G BA] G'. 
  assert (T3 : forall t, tri_of m t -> TV m t 0 < nv m /\ TV m t 1 < nv m /\ TV m t 2 < nv m).
  { intros t T. repeat split; apply (c_corners _ C t _ T); [left|right; left|right; right]; reflexivity. }
  constructor.
  - apply mv_consistent, C.
  - intros t t' q T T'. rewrite mv_tri in T, T'. destruct (T3 t T) as (A & B & D). destruct (T3 t' T') as (A' & B' & D'). unfold in_open. cbn [TV makeVertex].
    rewrite !new_at by assumption. apply (PL t t' q T T').
  - intros q. pose proof (c_bound _ C) as B3. rewrite !new_at by lia. intros Q. destruct (FI q Q) as (t & T & H). exists t. rewrite mv_tri. split; [exact T|].
    destruct (T3 t T) as (A & B & D). unfold in_closed in *. cbn [TV makeVertex]. rewrite !new_at by assumption. exact H.
  - exact G'.
  - rewrite mv_joined. exact BA.
Qed.

(** one point *)
Lemma add_ok m p i fs coin fuel a b : good m -> census m a b -> 1 <= b -> general pos g (makeVertex m p i) ->
  (forall l : list nat, l <> [] -> fs l < length l) -> isInsideBound g m p = true ->
  (addPoint g (makeVertex m p i) (nv m) fs coin fuel = NoFuel /\
    (enclosingTriangle g (makeVertex m p i) p fs coin fuel = NoFuel \/ fuel <= 2 * nv (makeVertex m p i) + 3)) \/
  exists m', addPoint g (makeVertex m p i) (nv m) fs coin fuel = Ok (m', nv m) /\ good m' /\ census m' (a + 3) (b + 2).
Proof.
  intros K0 CE LB G FS IN. pose proof (new_good m p i K0 G) as K. pose proof (mv_census m p i a b CE) as CE'. pose proof (mv_fresh m p i) as FR.
  assert (PV : POS (makeVertex m p i) (nv m) = p) by apply new_pos.
  assert (IN' : isInsideBound g (makeVertex m p i) p = true).
  { unfold isInsideBound in *. cbn [POS makeVertex]. pose proof (c_bound _ (k_con _ _ _ K0)) as B3. unfold upd.
    assert (0 =? nv m = false) as -> by (apply Nat.eqb_neq; lia). assert (1 =? nv m = false) as -> by (apply Nat.eqb_neq; lia).
    assert (2 =? nv m = false) as -> by (apply Nat.eqb_neq; lia). exact IN. }
  set (v := nv m) in *. set (k := makeVertex m p i) in *. clearbody k v. clear m CE G K0 IN.
  destruct K as [C PL FI G BA]. unfold addPoint. rewrite PV.
  destruct (enclosing_ok g k p fs coin fuel C BA FS IN') as [->|(t & -> & T & CT)]; [left; auto|]. cbn [bind].
  destruct FR as (VN & VE0 & VT0).
  assert (FR : fresh k v) by (repeat split; assumption).
  assert (CN : forall u, corner k t u -> u < nv k /\ u <> v).
  { intros u U. split; [apply (c_corners _ C t u T U)|]. intros ->. apply (fresh_corner k v t C FR T U). }
  destruct (CN (TV k t 0) (or_introl eq_refl)) as [R0 N0]. destruct (CN (TV k t 1) (or_intror (or_introl eq_refl))) as [R1 N1].
  destruct (CN (TV k t 2) (or_intror (or_intror eq_refl))) as [R2 N2]. destruct (c_tri _ C t T) as (D1 & D2 & D3).
  assert (FN : find (fun u => g_equal g (POS k u) p) [TV k t 0; TV k t 1; TV k t 2] = None).
  { cbn [find]. rewrite <- PV. rewrite (proj1 (G _ v R0 VN N0)), (proj1 (G _ v R1 VN N1)), (proj1 (G _ v R2 VN N2)). reflexivity. }
  rewrite FN.
  assert (CE : forall s, side k t s -> containsE g k s p = false).
  { intros s S. destruct (c_side _ C t s T S) as [E B]. unfold containsE. rewrite <- PV.
    destruct (CN (EV k s 0)) as [Q0 M0]; [apply (c_inner _ C t s _ T S); left; reflexivity|]. destruct (CN (EV k s 1)) as [Q1 M1]; [apply (c_inner _ C t s _ T S); right; reflexivity|].
    apply (proj2 (G _ _ Q0 Q1 (c_edge _ C s E)) v VN); congruence. }
  assert (CE0 := CE (TE k t 0) (or_introl eq_refl)). assert (CE1 := CE (TE k t 1) (or_intror (or_introl eq_refl))). assert (CE2 := CE (TE k t 2) (or_intror (or_intror eq_refl))).
  destruct (divideTriangle_ok k t v C FR T) as (m' & x & HD & O & D & W).
  assert (HI : insertPoint g k t v = Ok (m', [TE k t 0; TE k t 1; TE k t 2])).
  { unfold insertPoint. rewrite PV. cbn [fold_left]. rewrite CE0, CE1, CE2, CT, HD. reflexivity. }
  rewrite HI. cbn [bind fst snd].
  assert (IT : OPEN k t (AT k v)).
  { unfold containsT in CT. rewrite CE0, CE1, CE2 in CT. cbn [orb] in CT. rewrite <- PV in CT. apply (inside_test pos g SIDES); [..|exact CT].
    - apply (proj2 (G _ _ R0 R1 D1) _ R2); congruence.
    - apply (proj2 (G _ _ R0 R1 D1) v VN); congruence.
    - apply (proj2 (G _ _ R0 R2 D2) v VN); congruence.
    - apply (proj2 (G _ _ R1 R2 D3) v VN); congruence. }
  assert (K' : good m').
  { constructor.
    - apply (rewire_consistent _ _ _ _ _ _ C W).
    - apply (div_planar pos g k m' t v x); assumption.
    - apply (div_fills pos k m' t v x); assumption.
    - apply (div_general pos g k m' t v x G D W).
    - destruct BA as (f & FE & FJ). exists f. split; [|apply (old_joins _ _ _ _ _ _ W f 0 1 FE), FJ].
      apply (rw_edge _ _ _ _ _ _ W). left. split; [exact FE|]. intros []. }
  assert (CC : census m' (a + 3) (b + 2)).
  { pose proof (rewire_census _ _ _ _ _ _ C W a b CE') as H. cbn [length] in H. replace (a + 3) with (a + 3 - 0) by lia. replace (b + 2) with (b + 3 - 1) by lia. apply H; lia. }
  assert (NV : nv m' = nv k) by apply (w_nv _ _ _ _ _ _ W).
  assert (QO : queue_ok m' v [TE k t 0; TE k t 1; TE k t 2]).
  { split; [destruct (c_sides3 _ C t T) as (S1 & S2 & S3); repeat constructor; cbn [In]; intuition congruence|].
    intros s I. assert (S : side k t s) by (destruct I as [<-|[<-|[<-|[]]]]; [left|right; left|right; right]; reflexivity).
    destruct (c_side _ C t s T S) as [E B]. apply (p_side _ _ _ O) in S. destruct S as (j & J & ->).
    split; [apply (rw_edge _ _ _ _ _ _ W); left; split; [exact E|intros []]|].
    split; [rewrite (old_end _ _ _ _ _ _ W _ v E); apply (fresh_end k v _ C FR E)|].
    exists (nt k + j). split.
    - apply (w_beside _ _ _ _ _ _ W); [exact E|intros []|]. right. split; [each3 j J; cbn; auto|]. right; right. apply (d_TEn _ _ _ _ _ D j J).
    - right; right. apply (d_TVn _ _ _ _ _ D j J). }
  rewrite <- NV in VN.
  destruct (legalize_ok v (a + 3) (b + 2) fuel m' _ K' CC VN QO) as [[-> L]|(m2 & -> & K2 & C2)]; [left; split; [reflexivity|right; rewrite NV in L; cbn [length] in L; lia]|right].
  exists m2. split; [reflexivity|]. auto.
Qed.

(** all points; [done] are the points of the vertices *)
Lemma run_ok (ch : choices) fuel n (FS : forall i (l : list nat), l <> [] -> fst (ch i) l < length l) :
  forall order done i m inv a b, good m -> census m a b -> 1 <= b ->
  length done = nv m -> (forall u, u < nv m -> nth_error done u = Some (POS m u)) ->
  general_position pos g (done ++ map snd order) -> Forall (fun p => isInsideBound g m p = true) (map snd order) ->
  insert_all g ch fuel order i m inv n = NoFuel \/
  exists m' inv', insert_all g ch fuel order i m inv n = Ok (m', inv') /\ good m' /\ nv m' = nv m + length order /\
    census m' (a + 3 * length order) (b + 2 * length order).
Proof.
  induction order as [|[ind p] order IH]; intros done i m inv a b K CE LB LD DN GP IN.
  - right. exists m, inv. cbn [insert_all length]. split; [reflexivity|]. rewrite !Nat.mul_0_r, !Nat.add_0_r. auto.
  - cbn [insert_all map snd] in *. apply Forall_cons_iff in IN. destruct IN as [IP IN].
    assert (DN' : forall u, u < nv (makeVertex m p ind) -> nth_error (done ++ [p]) u = Some (POS (makeVertex m p ind) u)).
    { intros u U. destruct (Nat.eq_dec u (nv m)) as [->|N].
      - rewrite new_pos, nth_error_app2 by lia. rewrite LD, Nat.sub_diag. reflexivity.
      - cbn in U. rewrite nth_error_app1 by lia. cbn. unfold upd. apply Nat.eqb_neq in N. rewrite N. apply DN. apply Nat.eqb_neq in N. lia. }
    assert (GP' : general_position pos g ((done ++ [p]) ++ map snd order)) by (rewrite <- app_assoc; exact GP).
    assert (LD' : length (done ++ [p]) = nv (makeVertex m p ind)) by (rewrite app_length; cbn; lia).
    assert (G : general pos g (makeVertex m p ind)).
    { intros u w U W NE.
      assert (LU : forall z, z < nv (makeVertex m p ind) -> nth_error ((done ++ [p]) ++ map snd order) z = Some (POS (makeVertex m p ind) z)).
      { intros z Z. rewrite nth_error_app1 by lia. apply DN', Z. }
      destruct (GP' u w _ _ (LU u U) (LU w W) NE) as [H1 H2]. split; [exact H1|]. intros z Z ZU ZW. apply (H2 z _ (LU z Z) ZU ZW). }
    destruct (add_ok m p ind (fst (ch i)) (snd (ch i)) fuel a b K CE LB G (FS i) IP) as [[-> _]|(m' & H & K' & CE')]; [left; reflexivity|].
    rewrite H. cbn [bind]. rewrite Nat.eqb_refl. apply fr_addPoint in H. destruct H as [(F1 & F2 & F3) _].
    destruct (IH (done ++ [p]) (S i) m' (fun j => if (j =? ind)%Z then (Z.of_nat i + 3)%Z else inv j) (a + 3) (b + 2) K' CE') as [->|(m2 & inv2 & -> & K2 & N2 & C2)].
    + lia.
    + rewrite F1. exact LD'.
    + rewrite F1, F2. exact DN'.
    + exact GP'.
    + apply Forall_forall. intros q Q. rewrite Forall_forall in IN. specialize (IN q Q). unfold isInsideBound in *. rewrite F2. cbn [POS makeVertex]. unfold upd.
      pose proof (c_bound _ (k_con _ _ _ K)) as B3.
      assert (0 =? nv m = false) as -> by (apply Nat.eqb_neq; lia). assert (1 =? nv m = false) as -> by (apply Nat.eqb_neq; lia).
      assert (2 =? nv m = false) as -> by (apply Nat.eqb_neq; lia). exact IN.
    + left; reflexivity.
    + right. exists m2, inv2. split; [reflexivity|]. split; [exact K2|]. cbn [length]. split; [rewrite N2, F1; cbn; lia|].
      replace (a + 3 * S (length order)) with (a + 3 + 3 * length order) by lia. replace (b + 2 * S (length order)) with (b + 2 + 2 * length order) by lia. exact C2.
Qed.

(** the bounding triangle to begin with *)
Lemma start_good b0 b1 b2 : general_position pos g [b0; b1; b2] -> good (bounding b0 b1 b2).
Proof.
  intros GP.
  assert (LU : forall z, z < 3 -> nth_error [b0; b1; b2] z = Some (POS (bounding b0 b1 b2) z)).
  { intros z Z. each3 z Z; reflexivity. }
  constructor.
  - apply bounding_consistent.
  - intros t t' q T T' _ _. rewrite b_tri in T, T'. congruence.
  - intros q Q. exists 0. rewrite b_tri. split; [reflexivity|]. exact Q.
  - intros u w U W NE. destruct (GP u w _ _ (LU u U) (LU w W) NE) as [H1 H2]. split; [exact H1|]. intros z Z ZU ZW. apply (H2 z _ (LU z Z) ZU ZW).
  - exists 0. rewrite b_edge. split; [lia|]. left. split; reflexivity.
Qed.
End Run.
