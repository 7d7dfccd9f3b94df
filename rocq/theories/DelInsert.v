(** Insertion of the points keeps the triangulation Delaunay. *)
From Coq Require Import ZArith List Bool Arith Lia Reals Lra Psatz Permutation.
From Verif Require Import Outcome DelModel DelSpec DelFields DelRewire DelFlip DelFlip2 DelDivide DelSplit DelHist DelPlaneSpec DelPlane DelGen DelRun DelRun2 DelRun3.
From Verif Require Import DelDiscSpec DelDisc DelWalk DelStar DelMove DelMesh DelLegal.
Import ListNotations.
Open Scope nat_scope.

Section Insert.
Context {P : Type}.
Variable pos : P -> pt.
Variable g : geometry P.
Hypothesis SIDES : exact_sides pos g.
Hypothesis CIRC : exact_circles pos g.
Implicit Types m : mesh P.

Notation AT := (at_vertex pos).
Notation OPEN := (in_open pos).
Notation good := (good pos g).
Notation bounded := (bounded pos).
Notation delaunay := (delaunay pos).

(** ** A division *)
Section Division.
Variables (k m' : mesh P) (t v : nat) (x : nat -> nat).
Hypothesis (C : consistent k) (FR : fresh k v) (O : opposite k t x) (D : divided k t v x m').
Hypothesis (W : rewired k m' [] [t] [ne k + 0; ne k + 1; ne k + 2] [nt k + 0; nt k + 1; nt k + 2]).
Hypothesis (IT : OPEN k t (AT k v)).

Lemma division_x : AT m' = AT k.
Proof using D. unfold at_vertex. rewrite (d_POS _ _ _ _ _ D). reflexivity. Qed.

Lemma division_tri y z w : KM m' y z w -> (KM k y z w /\ y <> v /\ z <> v /\ w <> v) \/
  exists i, i < 3 /\ perm3 (fun j => match j with 0 => TV k t ((i + 1) mod 3) | 1 => TV k t ((i + 2) mod 3) | _ => v end) y z w.
Proof using All.
  intros (s & S & PE). apply (rw_tri _ _ _ _ _ _ W) in S. cbn [In] in S.
  assert (NEW : forall i, i < 3 -> nt k + i = s -> exists i, i < 3 /\ perm3 (fun j => match j with 0 => TV k t ((i + 1) mod 3) | 1 => TV k t ((i + 2) mod 3) | _ => v end) y z w).
  { intros i I <-. exists i. split; [exact I|]. destruct (d_TVn _ _ _ _ _ D i I) as (V0 & V1 & V2). unfold perm3 in *. rewrite V0, V1, V2 in PE. exact PE. }
  destruct S as [[S N]|[S|[S|[S|[]]]]]; [left|right; apply (NEW 0); auto|right; apply (NEW 1); auto|right; apply (NEW 2); auto].
  destruct (w_TV _ _ _ _ _ _ W s S) as (V0 & V1 & V2). assert (PS : perm3 (TV k s) y z w) by (unfold perm3 in *; rewrite V0, V1, V2 in PE; exact PE).
  split; [exists s; auto|]. pose proof (fresh_corner k v s C FR S) as NC. pose proof (fun u => proj2 (perm3_in _ _ _ _ u PS)) as IN.
  repeat split; intros ->; apply NC, IN; auto.
Qed.

Lemma division_pair y z : KM m' v y z -> exists i, i < 3 /\ ((y = TV k t ((i + 1) mod 3) /\ z = TV k t ((i + 2) mod 3)) \/ (y = TV k t ((i + 2) mod 3) /\ z = TV k t ((i + 1) mod 3))).
Proof using All.
  intros T. destruct (division_tri v y z T) as [(_ & N & _)|(i & I & PE)]; [congruence|]. exists i. split; [exact I|].
  pose proof (p_tri _ _ _ O) as TT. assert (N1 : TV k t ((i + 1) mod 3) <> v /\ TV k t ((i + 2) mod 3) <> v).
  { split; intros E; apply (fresh_corner k v t C FR TT); unfold corner; each3 i I; cbn [Nat.modulo Nat.divmod Nat.add fst snd Nat.sub] in E; auto. }
  destruct N1 as [N1 N2]. unfold perm3 in PE. clear - PE N1 N2. decompose [or and] PE; subst; auto; congruence.
Qed.

Lemma tri_perm i : i < 3 -> perm3 (TV k t) (TV k t ((i + 1) mod 3)) (TV k t ((i + 2) mod 3)) (TV k t i).
Proof using Type. intros I. each3 i I; cbn [Nat.modulo Nat.divmod Nat.add fst snd Nat.sub]; unfold perm3; tauto. Qed.

Lemma division_inside y z : KM m' v y z -> exists w, KM k y z w /\ inside (AT k y) (AT k z) (AT k w) (AT k v).
Proof using All.
  intros T. destruct (division_pair y z T) as (i & I & YZ). pose proof (p_tri _ _ _ O) as TT. exists (TV k t i). pose proof (tri_perm i I) as PI.
  assert (IN : inside (AT k (TV k t ((i + 1) mod 3))) (AT k (TV k t ((i + 2) mod 3))) (AT k (TV k t i)) (AT k v)) by (apply (perm_open pos k t _ _ _ (AT k v) PI), IT).
  destruct YZ as [[-> ->]|[-> ->]]; (split; [exists t; split; [exact TT|]|]).
  - exact PI.
  - exact IN.
  - apply perm3_swap, PI.
  - apply inside_swap, IN.
Qed.

Lemma division_pending : pending pos m' v [TE k t 0; TE k t 1; TE k t 2].
Proof using All.
  intros y z w T1 _ _. right. destruct (division_pair y z T1) as (i & I & YZ). pose proof (p_tri _ _ _ O) as TT. pose proof (tri_perm i I) as PI.
  destruct (perm3_distinct k t _ _ _ C TT PI) as (D1 & _ & _).
  destruct (tri_edge k t _ _ _ C TT PI D1) as (e & E & S & _ & J). exists e. split; [unfold side in S; cbn [In]; tauto|].
  apply (old_joins _ _ _ _ _ _ W e y z E). destruct YZ as [[-> ->]|[-> ->]]; [exact J|apply joins_sym, J].
Qed.

Lemma division_bounded : (forall u, u < nv k -> u <> v -> VT k u <> []) -> (forall u, 3 <= u < nv k -> inside (AT k 0) (AT k 1) (AT k 2) (AT k u)) -> bounded m'.
Proof using All.
  intros B1 B2. split; [|intros u; rewrite (w_nv _ _ _ _ _ _ W), division_x; apply B2].
  intros u U VU. rewrite (w_nv _ _ _ _ _ _ W) in U. assert (NO : forall s, ~ In s (VT m' u)) by (intros s I; rewrite VU in I; destruct I).
  assert (NEW : forall i, i < 3 -> u = v \/ u = TV k t ((i + 1) mod 3) \/ u = TV k t ((i + 2) mod 3) -> False).
  { intros i I H. apply (NO (nt k + i)), (d_VT _ _ _ _ _ D). right. exists i. auto. }
  destruct (Nat.eq_dec u v) as [->|N]; [apply (NEW 0); auto|].
  destruct (VT k u) as [|s l] eqn:VK; [apply (B1 u U N VK)|]. assert (I : In s (VT k u)) by (rewrite VK; left; reflexivity).
  destruct (Nat.eq_dec s t) as [->|NS]; [|apply (NO s), (d_VT _ _ _ _ _ D); left; split; [exact I|intros [E _]; contradiction]].
  apply (c_vertT _ C u t U (p_tri _ _ _ O)) in I. destruct I as [I|[I|I]]; [apply (NEW 1)|apply (NEW 0)|apply (NEW 0)]; cbn [Nat.modulo Nat.divmod Nat.add fst snd Nat.sub]; auto.
Qed.
End Division.

(** ** One point *)
Lemma add_delaunay m p i fs coin fuel m' : good m -> bounded m -> delaunay m -> general pos g (makeVertex m p i) ->
  (forall l : list nat, l <> [] -> fs l < length l) -> isInsideBound g m p = true ->
  addPoint g (makeVertex m p i) (nv m) fs coin fuel = Ok (m', nv m) -> bounded m' /\ delaunay m'.
Proof.
  intros K0 B0 D0 G0 FS IN H. pose proof (new_good pos g m p i K0 G0) as K. pose proof (mv_fresh m p i) as FR.
  assert (PV : POS (makeVertex m p i) (nv m) = p) by apply new_pos.
  assert (IN' : isInsideBound g (makeVertex m p i) p = true).
  { unfold isInsideBound in *. cbn [POS makeVertex]. pose proof (c_bound _ (k_con _ _ _ K0)) as B3. unfold upd.
    assert (0 =? nv m = false) as -> by (apply Nat.eqb_neq; lia). assert (1 =? nv m = false) as -> by (apply Nat.eqb_neq; lia).
    assert (2 =? nv m = false) as -> by (apply Nat.eqb_neq; lia). exact IN. }
  pose proof (mesh_complex pos g m K0 B0) as HC. pose proof (c_bound _ (k_con _ _ _ K0)) as N3.
  assert (XE : forall u, u < nv m -> AT (makeVertex m p i) u = AT m u) by (intros u U; apply new_at, U).
  pose proof (complex_ext _ _ _ _ XE HC) as HC'. pose proof (delaunay_ext _ _ _ _ XE HC D0) as D0'.
  assert (KE : forall y z w, KM (makeVertex m p i) y z w -> KM m y z w) by (intros y z w (t & T & PE); exists t; split; [rewrite mv_tri in T; exact T|exact PE]).
  assert (VTE : forall u, u < nv (makeVertex m p i) -> u <> nv m -> VT (makeVertex m p i) u <> []).
  { intros u U N. cbn in U. rewrite mv_VT by lia. apply (proj1 B0). lia. }
  assert (BE : forall u, 3 <= u < nv m -> inside (AT (makeVertex m p i) 0) (AT (makeVertex m p i) 1) (AT (makeVertex m p i) 2) (AT (makeVertex m p i) u)).
  { intros u U. rewrite !XE by lia. apply (proj2 B0), U. }
  assert (NVK : nv (makeVertex m p i) = S (nv m)) by reflexivity.
  set (v := nv m) in *. set (k := makeVertex m p i) in *. set (KM0 := KM m) in *. clearbody k v KM0. clear m D0 G0 K0 IN HC XE B0.
  destruct K as [C PL FI G BA]. unfold addPoint in H. rewrite PV in H.
  destruct (enclosing_ok g k p fs coin fuel C BA FS IN') as [ER|(t & ER & T & CT)]; rewrite ER in H; [discriminate|]. cbn [bind] in H.
  destruct FR as (VN & VE0 & VT0). assert (FR : fresh k v) by (repeat split; assumption).
  assert (CN : forall u, corner k t u -> u < nv k /\ u <> v).
  { intros u U. split; [apply (c_corners _ C t u T U)|]. intros ->. apply (fresh_corner k v t C FR T U). }
  destruct (CN (TV k t 0) (or_introl eq_refl)) as [R0 N0]. destruct (CN (TV k t 1) (or_intror (or_introl eq_refl))) as [R1 N1].
  destruct (CN (TV k t 2) (or_intror (or_intror eq_refl))) as [R2 N2]. destruct (c_tri _ C t T) as (D1 & D2 & D3).
  assert (FN : find (fun u => g_equal g (POS k u) p) [TV k t 0; TV k t 1; TV k t 2] = None).
  { cbn [find]. rewrite <- PV. rewrite (proj1 (G _ v R0 VN N0)), (proj1 (G _ v R1 VN N1)), (proj1 (G _ v R2 VN N2)). reflexivity. }
  rewrite FN in H.
  assert (CE : forall s, side k t s -> containsE g k s p = false).
  { intros s S. destruct (c_side _ C t s T S) as [E B]. unfold containsE. rewrite <- PV.
    destruct (CN (EV k s 0)) as [Q0 M0]; [apply (c_inner _ C t s _ T S); left; reflexivity|]. destruct (CN (EV k s 1)) as [Q1 M1]; [apply (c_inner _ C t s _ T S); right; reflexivity|].
    apply (proj2 (G _ _ Q0 Q1 (c_edge _ C s E)) v VN); congruence. }
  assert (CE0 := CE (TE k t 0) (or_introl eq_refl)). assert (CE1 := CE (TE k t 1) (or_intror (or_introl eq_refl))). assert (CE2 := CE (TE k t 2) (or_intror (or_intror eq_refl))).
  destruct (divideTriangle_ok k t v C FR T) as (m1 & x & HD & O & D & W).
  assert (HI : insertPoint g k t v = Ok (m1, [TE k t 0; TE k t 1; TE k t 2])).
  { unfold insertPoint. rewrite PV. cbn [fold_left]. rewrite CE0, CE1, CE2, CT, HD. reflexivity. }
  rewrite HI in H. cbn [bind fst snd] in H.
  assert (IT : OPEN k t (AT k v)).
  { unfold containsT in CT. rewrite CE0, CE1, CE2 in CT. cbn [orb] in CT. rewrite <- PV in CT. apply (inside_test pos g SIDES); [..|exact CT].
    - apply (proj2 (G _ _ R0 R1 D1) _ R2); congruence.
    - apply (proj2 (G _ _ R0 R1 D1) v VN); congruence.
    - apply (proj2 (G _ _ R0 R2 D2) v VN); congruence.
    - apply (proj2 (G _ _ R1 R2 D3) v VN); congruence. }
  assert (IB : inside (AT k 0) (AT k 1) (AT k 2) (AT k v)).
  { unfold isInsideBound in IN'. rewrite <- PV in IN'. apply (inside_test pos g SIDES); [..|exact IN'].
    - apply (G 0 1); lia.
    - apply (G 0 1); lia.
    - apply (G 0 2); lia.
    - apply (G 1 2); lia. }
  assert (K' : good m1).
  { constructor.
    - apply (rewire_consistent _ _ _ _ _ _ C W).
    - apply (div_planar pos g k m1 t v x); assumption.
    - apply (div_fills pos k m1 t v x); assumption.
    - apply (div_general pos g k m1 t v x G D W).
    - destruct BA as (f & FE & FJ). exists f. split; [|apply (old_joins _ _ _ _ _ _ W f 0 1 FE), FJ].
      apply (rw_edge _ _ _ _ _ _ W). left. split; [exact FE|]. intros []. }
  assert (NV : nv m1 = nv k) by apply (w_nv _ _ _ _ _ _ W).
  assert (QO : queue_ok m1 v [TE k t 0; TE k t 1; TE k t 2]).
  { split; [destruct (c_sides3 _ C t T) as (S1 & S2 & S3); repeat constructor; cbn [In]; intuition congruence|].
    intros s I. assert (S : side k t s) by (destruct I as [<-|[<-|[<-|[]]]]; [left|right; left|right; right]; reflexivity).
    destruct (c_side _ C t s T S) as [E B]. apply (p_side _ _ _ O) in S. destruct S as (j & J & ->).
    split; [apply (rw_edge _ _ _ _ _ _ W); left; split; [exact E|intros []]|].
    split; [rewrite (old_end _ _ _ _ _ _ W _ v E); apply (fresh_end k v _ C FR E)|].
    exists (nt k + j). split.
    - apply (w_beside _ _ _ _ _ _ W); [exact E|intros []|]. right. split; [each3 j J; cbn; auto|]. right; right. apply (d_TEn _ _ _ _ _ D j J).
    - right; right. apply (d_TVn _ _ _ _ _ D j J). }
  destruct (legalize g v fuel m1 [TE k t 0; TE k t 1; TE k t 2]) as [m2| | | |] eqn:HL; try discriminate. injection H as ->.
  assert (R : bounded m' /\ delaunay m' /\ POS m' = POS m1 /\ nv m' = nv m1); [|destruct R as (R1' & R2' & _); auto].
  refine (legalize_delaunay pos g SIDES CIRC v fuel m1 _ m' K' _ _ QO _ _ HL).
  - apply (division_bounded k m1 t v x C FR O D W IT VTE). intros u U. destruct (Nat.eq_dec u v) as [->|NU]; [exact IB|apply BE; lia].
  - lia.
  - rewrite (division_x k m1 t v x D), NV, NVK. apply (star_divide HC' N3 D0').
    + intros y z w TT NY NZ NW. apply KE. destruct (division_tri k m1 t v x C FR O D W IT y z w TT) as [[TK _]|(j & J & PE)]; [exact TK|exfalso].
      pose proof (proj1 (perm3_in _ _ _ _ v PE) (or_intror (or_intror eq_refl))) as [E|[E|E]]; congruence.
    + intros y z TT. destruct (division_inside k m1 t v x C FR O D W IT y z TT) as (w & TW & IW). exists w. split; [apply KE, TW|exact IW].
  - apply (division_pending k m1 t v x C FR O D W IT).
Qed.

(** ** All points *)
Lemma run_delaunay (ch : choices) fuel n (FS : forall i (l : list nat), l <> [] -> fst (ch i) l < length l) :
  forall order done i m inv a b m' inv', good m -> bounded m -> delaunay m -> census m a b -> 1 <= b ->
  length done = nv m -> (forall u, u < nv m -> nth_error done u = Some (POS m u)) ->
  general_position pos g (done ++ map snd order) -> Forall (fun p => isInsideBound g m p = true) (map snd order) ->
  insert_all g ch fuel order i m inv n = Ok (m', inv') -> good m' /\ bounded m' /\ delaunay m'.
Proof.
  induction order as [|[ind p] order IH]; intros done i m inv a b m' inv' K B D CE LB LD DN GP IN H.
  - cbn [insert_all] in H. injection H as <- _. auto.
  - cbn [insert_all map snd] in *. apply Forall_cons_iff in IN. destruct IN as [IP IN].
    assert (DN' : forall u, u < nv (makeVertex m p ind) -> nth_error (done ++ [p]) u = Some (POS (makeVertex m p ind) u)).
    { intros u U. destruct (Nat.eq_dec u (nv m)) as [->|N].
      - rewrite new_pos, nth_error_app2 by lia. rewrite LD, Nat.sub_diag. reflexivity.
      - cbn in U. rewrite nth_error_app1 by lia. cbn. unfold upd. apply Nat.eqb_neq in N. rewrite N. apply DN. apply Nat.eqb_neq in N. lia. }
    assert (GP' : general_position pos g ((done ++ [p]) ++ map snd order)) by (rewrite <- app_assoc; exact GP).
    assert (LD' : length (done ++ [p]) = nv (makeVertex m p ind)) by (rewrite app_length; cbn; lia).
    assert (G : general pos g (makeVertex m p ind)).
    { intros u w U W NE.
      assert (LU : forall z, z < nv (makeVertex m p ind) -> nth_error ((done ++ [p]) ++ map snd order) z = Some (POS (makeVertex m p ind) z)).
      { intros z Z. rewrite nth_error_app1 by lia. apply DN', Z. }
      destruct (GP' u w _ _ (LU u U) (LU w W) NE) as [H1 H2]. split; [exact H1|]. intros z Z ZU ZW. apply (H2 z _ (LU z Z) ZU ZW). }
    destruct (add_ok pos g SIDES m p ind (fst (ch i)) (snd (ch i)) fuel a b K CE LB G (FS i) IP) as [[HA _]|(m1 & HA & K' & CE')]; rewrite HA in H; [discriminate|].
    destruct (add_delaunay m p ind (fst (ch i)) (snd (ch i)) fuel m1 K B D G (FS i) IP HA) as [B' D'].
    cbn [bind] in H. rewrite Nat.eqb_refl in H. apply fr_addPoint in HA. destruct HA as [(F1 & F2 & F3) _].
    apply (IH (done ++ [p]) (S i) m1 (fun j => if (j =? ind)%Z then (Z.of_nat i + 3)%Z else inv j) (a + 3) (b + 2) m' inv' K' B' D' CE').
    + lia.
    + rewrite F1. exact LD'.
    + rewrite F1, F2. exact DN'.
    + exact GP'.
    + apply Forall_forall. intros q Q. rewrite Forall_forall in IN. specialize (IN q Q). unfold isInsideBound in *. rewrite F2. cbn [POS makeVertex]. unfold upd.
      pose proof (c_bound _ (k_con _ _ _ K)) as B3.
      assert (0 =? nv m = false) as -> by (apply Nat.eqb_neq; lia). assert (1 =? nv m = false) as -> by (apply Nat.eqb_neq; lia).
      assert (2 =? nv m = false) as -> by (apply Nat.eqb_neq; lia). exact IN.
    + exact H.
Qed.

(** the bounding triangle *)
Lemma start_bounded b0 b1 b2 : bounded (bounding b0 b1 b2) /\ delaunay (bounding b0 b1 b2).
Proof.
  assert (N : nv (bounding b0 b1 b2) = 3) by reflexivity. split; [split|].
  - intros u U. rewrite N in U. each3 u U; discriminate.
  - intros u U. rewrite N in U. lia.
  - constructor; unfold all; rewrite N; lia.
Qed.
End Insert.
