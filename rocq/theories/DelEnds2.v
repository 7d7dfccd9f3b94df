(** Draws under which the constructor returns. *)
From Coq Require Import ZArith QArith List Bool Arith Lia Reals Lra Psatz Permutation.
From Verif Require Import Outcome DelModel DelSpec DelFields DelRewire DelFlip DelFlip2 DelDivide DelSplit DelHist DelPlaneSpec DelPlane DelGen DelRun DelRun2 DelRun3 DelThm DelExact.
From Verif Require Import DelDiscSpec DelDisc DelWalk DelStar DelMesh DelLegal DelInsert DelFinal DelReach DelEnds.
Import ListNotations.
Open Scope nat_scope.

Lemma complex_iff (K K' : tri3) X n : (forall x y z, K' x y z <-> K x y z) -> complex K X n -> complex K' X n.
Proof.
  intros E H. constructor.
  - intros x y z T. apply E, (x_swap _ _ _ H), E, T.
  - intros x y z T. apply E, (x_rot _ _ _ H), E, T.
  - intros x y z T. apply (x_corner _ _ _ H), E, T.
  - apply (x_gen _ _ _ H).
  - intros x y z x' y' z' q T T'. apply (x_planar _ _ _ H); apply E; assumption.
  - intros x y z T B. destruct (x_other _ _ _ H x y z (proj1 (E _ _ _) T) B) as (w & W & T'). exists w. split; [exact W|apply E, T'].
  - intros u U. destruct (x_vert _ _ _ H u U) as (y & z & T). exists y, z. apply E, T.
  - apply (x_side _ _ _ H).
  - apply (x_tip _ _ _ H).
  - apply (x_three _ _ _ H).
Qed.

Section Draws.
Context {P : Type}.
Variable pos : P -> pt.
Variable g : geometry P.
Hypothesis SIDES : exact_sides pos g.
Implicit Types m : mesh P.
Notation AT := (at_vertex pos).
Notation good := (good pos g).

Lemma search_ends m p i a b fuel : good m -> bounded pos m -> census m a b -> general pos g (makeVertex m p i) -> isInsideBound g m p = true -> b <= fuel ->
  forall cur, edge_of (makeVertex m p i) cur -> exists coin t, DelModel.walk g (makeVertex m p i) p coin fuel cur = Ok t.
Proof.
  intros K0 B0 CE G IN LB cur E. pose proof (new_good pos g m p i K0 G) as K. pose proof (c_bound _ (k_con _ _ _ K0)) as N3.
  assert (PV : POS (makeVertex m p i) (nv m) = p) by apply new_pos. assert (XV : AT (makeVertex m p i) (nv m) = pos p) by (unfold at_vertex; rewrite PV; reflexivity).
  assert (XE : forall u, u < nv m -> AT (makeVertex m p i) u = AT m u) by (intros u U; apply new_at, U).
  pose proof (complex_ext _ _ _ _ XE (mesh_complex pos g m K0 B0)) as HC.
  assert (KE : forall x y z, KM (makeVertex m p i) x y z <-> KM m x y z) by (intros x y z; unfold KM; split; intros (t & T & PE); exists t; (split; [apply (mv_tri m p i), T|exact PE])).
  apply (complex_iff _ _ _ _ KE) in HC. apply (mv_census m p i) in CE. destruct CE as (le & lt & _ & _ & _ & LT & _ & LL).
  assert (NK : nv (makeVertex m p i) = S (nv m)) by reflexivity.
  apply (walk_ends pos g SIDES (makeVertex m p i) (nv m) p (k_con _ _ _ K) HC) with (lt := lt); [| |exact LT|exact E|lia].
  - intros x y X Y N. rewrite <- XV. apply (G x y); lia.
  - intros y z x Y Z N X N1 N2. rewrite <- XV. apply (bound_side0 pos g); try lia; [exact G|].
    intros u U. destruct (Nat.eq_dec u (nv m)) as [->|NU]; [|rewrite !XE by lia; apply (proj2 B0); lia].
    rewrite XV, !XE by lia. unfold isInsideBound in IN. apply (inside_test pos g SIDES); [..|exact IN]; rewrite <- ?XV; change (pos (POS m 0)) with (AT m 0); change (pos (POS m 1)) with (AT m 1); change (pos (POS m 2)) with (AT m 2); rewrite <- !XE by lia;
      apply G; lia.
Qed.

Lemma locate_ends m p i a b fuel fs : good m -> bounded pos m -> census m a b -> general pos g (makeVertex m p i) -> isInsideBound g m p = true -> b <= fuel ->
  (forall l : list nat, l <> [] -> fs l < length l) -> exists coin, enclosingTriangle g (makeVertex m p i) p fs coin fuel <> NoFuel.
Proof.
  intros K0 B0 CE G IN LB FS. pose proof (new_good pos g m p i K0 G) as K. unfold enclosingTriangle. destruct (negb (isInsideBound g (makeVertex m p i) p)); [exists (fun _ => true); discriminate|].
  destruct (nth_error (VE (makeVertex m p i) 0) (fs (VE (makeVertex m p i) 0))) as [cur|] eqn:N; [|exists (fun _ => true); discriminate].
  assert (E : edge_of (makeVertex m p i) cur) by (exists 0; split; [pose proof (c_bound _ (k_con _ _ _ K)); lia|apply (nth_error_In _ _ N)]).
  destruct (search_ends m p i a b fuel K0 B0 CE G IN LB cur E) as (coin & t & W). exists coin. rewrite W. cbn [bind].
  destruct (ET (makeVertex m p i) cur 0) as [t0|], (ET (makeVertex m p i) cur 1) as [t1|]; repeat match goal with [ |- context [containsT ?g ?m ?t ?p] ] => destruct (containsT g m t p) end; discriminate.
Qed.

Lemma all_ext (ch ch' : choices) fuel n : forall order i m inv, (forall j, i <= j -> ch j = ch' j) -> insert_all g ch fuel order i m inv n = insert_all g ch' fuel order i m inv n.
Proof.
  induction order as [|[ind p] order IH]; intros i m inv H; [reflexivity|]. cbn [insert_all]. rewrite (H i (le_n i)).
  destruct (addPoint g (makeVertex m p ind) (nv m) (fst (ch' i)) (snd (ch' i)) fuel) as [[m' u]| | | |]; try reflexivity. cbn [bind].
  assert (H' : forall j, S i <= j -> ch j = ch' j) by (intros j J; apply H; lia).
  destruct (u =? nv m); [apply IH, H'|]. cbv zeta. destruct ((0 <=? IDX m' u) && (IDX m' u <? n))%Z; [apply IH, H'|reflexivity].
Qed.

Hypothesis CIRC : exact_circles pos g.

Lemma run_ends fuel n (first : nat -> list nat -> nat) (FS : forall i (l : list nat), l <> [] -> first i l < length l) :
  forall order done i m inv a b, good m -> bounded pos m -> delaunay pos m -> census m a b -> 1 <= b -> b <= 2 * nv m ->
  length done = nv m -> (forall u, u < nv m -> nth_error done u = Some (POS m u)) ->
  general_position pos g (done ++ map snd order) -> Forall (fun p => isInsideBound g m p = true) (map snd order) ->
  2 * (nv m + length order) + 5 < fuel ->
  exists coins : nat -> nat -> bool, insert_all g (fun j => (first j, coins j)) fuel order i m inv n <> NoFuel.
Proof.
  induction order as [|[ind p] order IH]; intros done i m inv a b K B D CE LB BN LD DN GP IN FU.
  - exists (fun _ _ => true). discriminate.
  - cbn [map snd length] in *. apply Forall_cons_iff in IN. destruct IN as [IP IN].
    assert (DN' : forall u, u < nv (makeVertex m p ind) -> nth_error (done ++ [p]) u = Some (POS (makeVertex m p ind) u)).
    { intros u U. destruct (Nat.eq_dec u (nv m)) as [->|N].
      - rewrite new_pos, nth_error_app2 by lia. rewrite LD, Nat.sub_diag. reflexivity.
      - cbn in U. rewrite nth_error_app1 by lia. cbn. unfold upd. apply Nat.eqb_neq in N. rewrite N. apply DN. apply Nat.eqb_neq in N. lia. }
    assert (GP' : general_position pos g ((done ++ [p]) ++ map snd order)) by (rewrite <- app_assoc; exact GP).
    assert (LD' : length (done ++ [p]) = nv (makeVertex m p ind)) by (rewrite app_length; cbn; lia).
    assert (G : general pos g (makeVertex m p ind)).
    { intros u w U W NE.
      assert (LU : forall z, z < nv (makeVertex m p ind) -> nth_error ((done ++ [p]) ++ map snd order) z = Some (POS (makeVertex m p ind) z)).
      { intros z Z. rewrite nth_error_app1 by lia. apply DN', Z. }
      destruct (GP' u w _ _ (LU u U) (LU w W) NE) as [H1 H2]. split; [exact H1|]. intros z Z ZU ZW. apply (H2 z _ (LU z Z) ZU ZW). }
    assert (NK : nv (makeVertex m p ind) = S (nv m)) by reflexivity.
    destruct (locate_ends m p ind a b fuel (first i) K B CE G IP ltac:(lia) (FS i)) as (coin & EN).
    destruct (add_ok pos g SIDES m p ind (first i) coin fuel a b K CE LB G (FS i) IP) as [[_ [HA|HA]]|(m1 & HA & K' & CE')]; [congruence|exfalso; rewrite NK in HA; lia|].
    destruct (add_delaunay pos g SIDES CIRC m p ind (first i) coin fuel m1 K B D G (FS i) IP HA) as [B' D'].
    pose proof HA as HA'. apply fr_addPoint in HA'. destruct HA' as [(F1 & F2 & F3) _].
    destruct (IH (done ++ [p]) (S i) m1 (fun j => if (j =? ind)%Z then (Z.of_nat i + 3)%Z else inv j) (a + 3) (b + 2) K' B' D' CE') as (coins & HC).
    + lia.
    + rewrite F1, NK. lia.
    + rewrite F1. exact LD'.
    + rewrite F1, F2. exact DN'.
    + exact GP'.
    + apply Forall_forall. intros q Q. rewrite Forall_forall in IN. specialize (IN q Q). unfold isInsideBound in *. rewrite F2. cbn [POS makeVertex]. unfold upd.
      pose proof (c_bound _ (k_con _ _ _ K)) as B3.
      assert (0 =? nv m = false) as -> by (apply Nat.eqb_neq; lia). assert (1 =? nv m = false) as -> by (apply Nat.eqb_neq; lia).
      assert (2 =? nv m = false) as -> by (apply Nat.eqb_neq; lia). exact IN.
    + rewrite F1, NK. lia.
    + exists (fun j => if j =? i then coin else coins j). cbn [insert_all fst snd]. rewrite Nat.eqb_refl, HA. cbn [bind]. rewrite Nat.eqb_refl.
      rewrite (all_ext _ (fun j => (first j, coins j))); [exact HC|]. intros j J. assert (j =? i = false) as -> by (apply Nat.eqb_neq; lia). reflexivity.
Qed.

Lemma construct_ends b0 b1 b2 (first : nat -> list nat -> nat) fuel order :
  (forall i (l : list nat), l <> [] -> first i l < length l) ->
  Permutation (map fst order) (map Z.of_nat (seq 0 (length order))) ->
  general_position pos g (b0 :: b1 :: b2 :: map snd order) ->
  Forall (fun p => inside (pos b0) (pos b1) (pos b2) (pos p)) (map snd order) ->
  2 * length order + 11 < fuel ->
  exists coins T, construct g b0 b1 b2 (fun i => (first i, coins i)) fuel order = Ok T.
Proof.
  intros FS PM GP IN FU.
  assert (GB : general_position pos g [b0; b1; b2]) by (apply (gp_prefix g pos [b0; b1; b2] (map snd order)), GP).
  pose proof (start_good pos g b0 b1 b2 GB) as K. destruct (start_bounded pos b0 b1 b2) as [SB SD].
  destruct (run_ends fuel (Z.of_nat (length order)) first FS order [b0; b1; b2] 0 (bounding b0 b1 b2) (fun _ => 0%Z) 3 1 K SB SD (bounding_census b0 b1 b2)) as (coins & HC).
  - lia.
  - cbn. lia.
  - reflexivity.
  - intros u U. cbn in U. each3 u U; reflexivity.
  - exact GP.
  - apply Forall_forall. intros p Q. rewrite Forall_forall in IN. apply (inside_true g pos SIDES b0 b1 b2 p (IN p Q)).
  - change (nv (bounding b0 b1 b2)) with 3. lia.
  - exists coins. destruct (general_ok g pos SIDES b0 b1 b2 (fun i => (first i, coins i)) fuel order FS PM GP IN) as [H|(T & H & _)]; [exfalso|exists T; exact H].
    unfold construct in H. destruct (insert_all g (fun i => (first i, coins i)) fuel order 0 (bounding b0 b1 b2) (fun _ => 0%Z) (Z.of_nat (length order))) as [[m inv]| | | |] eqn:Q; try discriminate; [|congruence].
    cbn [bind] in H. assert (NF : forall k i, fill_vertices m inv i k <> NoFuel).
    { clear. induction k as [|k IH]; intros i; cbn; [discriminate|]. destruct (lookup m inv i) as [v| | | |] eqn:L; cbn [bind]; try discriminate.
      - destruct (fill_vertices m inv (i + 1) k) eqn:F; cbn [bind]; try discriminate. exfalso. apply (IH _ F).
      - unfold lookup in L. repeat match type of L with (if ?b then _ else _) = _ => destruct b end; discriminate. }
    destruct (fill_vertices m inv 0 (nv m - 3)) eqn:F; cbn [bind] in H; try discriminate. apply (NF _ _ F).
Qed.

(** the search from every edge, at every stage *)
Lemma stage_ends b0 b1 b2 (ch : choices) fuel order n m inv ind p :
  (forall i (l : list nat), l <> [] -> fst (ch i) l < length l) ->
  general_position pos g (b0 :: b1 :: b2 :: map snd order ++ [p]) ->
  Forall (fun p => inside (pos b0) (pos b1) (pos b2) (pos p)) (map snd order ++ [p]) ->
  insert_all g ch fuel order 0 (bounding b0 b1 b2) (fun _ => 0%Z) n = Ok (m, inv) ->
  forall fuel' cur, 2 * length order + 1 <= fuel' -> edge_of (makeVertex m p ind) cur ->
  exists coin t, DelModel.walk g (makeVertex m p ind) p coin fuel' cur = Ok t /\ inside (AT m (TV m t 0)) (AT m (TV m t 1)) (AT m (TV m t 2)) (pos p).
Proof.
  intros FS GP IN H fuel' cur FU E. rewrite Forall_app in IN. destruct IN as [IN INP]. apply Forall_inv in INP.
  assert (GO : general_position pos g ([b0; b1; b2] ++ map snd order)) by (apply (gp_prefix g pos _ [p]); rewrite <- app_assoc; exact GP).
  assert (GB : general_position pos g [b0; b1; b2]) by (apply (gp_prefix g pos _ _ GO)).
  pose proof (start_good pos g b0 b1 b2 GB) as K. destruct (start_bounded pos b0 b1 b2) as [SB SD].
  assert (POSB : forall u, u < nv (bounding b0 b1 b2) -> nth_error [b0; b1; b2] u = Some (POS (bounding b0 b1 b2) u)) by (intros u U; cbn in U; each3 u U; reflexivity).
  assert (INB : Forall (fun p => isInsideBound g (bounding b0 b1 b2) p = true) (map snd order)) by (apply Forall_forall; intros q Q; rewrite Forall_forall in IN; apply (inside_true g pos SIDES b0 b1 b2 q (IN q Q))).
  pose proof (run_delaunay pos g SIDES CIRC ch fuel n FS order [b0; b1; b2] 0 (bounding b0 b1 b2) (fun _ => 0%Z) 3 1 m inv K SB SD (bounding_census b0 b1 b2) ltac:(lia) eq_refl POSB GO INB H) as (K' & B' & D').
  destruct (run_ok pos g SIDES ch fuel n FS order [b0; b1; b2] 0 (bounding b0 b1 b2) (fun _ => 0%Z) 3 1 K (bounding_census b0 b1 b2) ltac:(lia) eq_refl POSB GO INB) as [Q|(m2 & inv2 & H2 & _ & NV & CE)]; [congruence|].
  rewrite H in H2. injection H2 as <- <-. change (nv (bounding b0 b1 b2)) with 3 in NV.
  assert (POSN : forall u, u < nv m -> nth_error ([b0; b1; b2] ++ map snd order) u = Some (POS m u)).
  { intros u U. pose proof (insert_frame g ch fuel n _ _ _ _ _ _ H) as (_ & OLD & _). change (nv (bounding b0 b1 b2)) with 3 in OLD.
    destruct (Nat.lt_ge_cases u 3) as [L|L].
    - rewrite (proj1 (OLD u L)). rewrite nth_error_app1 by exact L. each3 u L; reflexivity.
    - rewrite nth_error_app2 by exact L. cbn [length]. destruct (nth_error order (u - 3)) as [[id q]|] eqn:Q; [|apply nth_error_None in Q; lia].
      rewrite nth_error_map, Q. cbn [option_map snd]. f_equal.
      assert (REC : forall order i m inv m' inv', insert_all g ch fuel order i m inv n = Ok (m', inv') -> nv m' = nv m + length order ->
        forall k ind (p : P), nth_error order k = Some (ind, p) -> POS m' (nv m + k) = p).
      { clear. induction order as [|[ind0 p0] order IH]; intros i m inv m' inv' H NV k ind p KK; [destruct k; discriminate|].
        change ((ind0, p0) :: order) with ([(ind0, p0)] ++ order) in H. rewrite insert_app in H. apply ok_app in H. destruct H as ([q iv] & H1 & H2).
        cbn [fst snd length] in *. apply insert_one in H1. pose proof (insert_frame g ch fuel n _ _ _ _ _ _ H2) as (N & U & V).
        destruct H1 as [(N1 & U1 & P1 & I1 & V1 & K1)|(N1 & U1 & K1)]; [|lia]. destruct k as [|k].
        - cbn in KK. injection KK as <- <-. rewrite Nat.add_0_r. destruct (U (nv m) ltac:(lia)) as [-> _]. exact P1.
        - cbn in KK. replace (nv m + S k) with (nv q + k) by lia. apply (IH (i + 1) q iv _ _ H2) with (ind := ind); [lia|exact KK]. }
      pose proof (REC order 0 _ _ _ _ H NV (u - 3) id q Q) as R. change (nv (bounding b0 b1 b2)) with 3 in R. replace (3 + (u - 3)) with u in R by lia. congruence. }
  assert (G : general pos g (makeVertex m p ind)).
  { assert (LU : forall z, z < nv (makeVertex m p ind) -> nth_error (([b0; b1; b2] ++ map snd order) ++ [p]) z = Some (POS (makeVertex m p ind) z)).
    { intros z Z. destruct (Nat.eq_dec z (nv m)) as [->|N].
      - rewrite new_pos, nth_error_app2; rewrite app_length, map_length; cbn [length]; [|lia]. replace (nv m - (3 + length order)) with 0 by lia. reflexivity.
      - cbn in Z. rewrite nth_error_app1 by (rewrite app_length, map_length; cbn [length]; lia). cbn [POS makeVertex]. unfold upd.
        pose proof N as N'. apply Nat.eqb_neq in N'. rewrite N'. apply POSN. lia. }
    assert (GP' : general_position pos g (([b0; b1; b2] ++ map snd order) ++ [p])) by (rewrite <- app_assoc; exact GP).
    intros u w U W NE. destruct (GP' u w _ _ (LU u U) (LU w W) NE) as [H1 H2]. split; [exact H1|]. intros z Z ZU ZW. apply (H2 z _ (LU z Z) ZU ZW). }
  assert (IB : isInsideBound g m p = true).
  { pose proof (insert_frame g ch fuel n _ _ _ _ _ _ H) as (_ & OLD & _). change (nv (bounding b0 b1 b2)) with 3 in OLD.
    unfold isInsideBound. rewrite (proj1 (OLD 0 ltac:(lia))), (proj1 (OLD 1 ltac:(lia))), (proj1 (OLD 2 ltac:(lia))). apply (inside_true g pos SIDES b0 b1 b2 p INP). }

  destruct (search_ends m p ind _ _ fuel' K' B' CE G IB ltac:(lia) cur E) as (coin & t & W). exists coin, t. split; [exact W|].
  pose proof (new_good pos g m p ind K' G) as KK. pose proof (new_pos m p ind) as PV.
  destruct (walk_ok g (makeVertex m p ind) p coin (k_con _ _ _ KK) fuel' cur E) as [Q|(t' & W' & T' & CT)]; [congruence|]. rewrite W in W'. injection W' as <-.
  set (k := makeVertex m p ind) in *. pose proof (k_con _ _ _ KK) as C.
  assert (T : tri_of m t) by (apply (mv_tri m p ind), T'). pose proof (k_con _ _ _ K') as C0.
  assert (CN : forall u, corner k t u -> u < nv m) by (intros u U; apply (c_corners _ C0 t u T U)).
  assert (NK : nv k = S (nv m)) by reflexivity.
  pose proof (CN (TV k t 0) (or_introl eq_refl)) as R0. pose proof (CN (TV k t 1) (or_intror (or_introl eq_refl))) as R1.
  pose proof (CN (TV k t 2) (or_intror (or_intror eq_refl))) as R2. destruct (c_tri _ C t T') as (D1 & D2 & D3).
  assert (CE' : forall s, side k t s -> containsE g k s p = false).
  { intros s S. destruct (c_side _ C t s T' S) as [ES _]. unfold containsE. rewrite <- PV.
    pose proof (CN (EV k s 0) (c_inner _ C t s _ T' S (or_introl eq_refl))) as Q0. pose proof (CN (EV k s 1) (c_inner _ C t s _ T' S (or_intror eq_refl))) as Q1.
    apply (proj2 (G (EV k s 0) (EV k s 1) ltac:(lia) ltac:(lia) (c_edge _ C s ES)) (nv m)); lia. }
  unfold containsT in CT. rewrite (CE' _ (or_introl eq_refl)), (CE' _ (or_intror (or_introl eq_refl))), (CE' _ (or_intror (or_intror eq_refl))) in CT. cbn [orb] in CT.
  change (TV m t) with (TV k t). rewrite <- (new_at pos m p ind _ R0), <- (new_at pos m p ind _ R1), <- (new_at pos m p ind _ R2). fold k. rewrite <- PV. change (pos (POS k (nv m))) with (AT k (nv m)).
  rewrite <- PV in CT. apply (inside_test pos g SIDES); [..|exact CT].
  - apply (proj2 (G (TV k t 0) (TV k t 1) ltac:(lia) ltac:(lia) D1) (TV k t 2)); lia.
  - apply (proj2 (G (TV k t 0) (TV k t 1) ltac:(lia) ltac:(lia) D1) (nv m)); lia.
  - apply (proj2 (G (TV k t 0) (TV k t 2) ltac:(lia) ltac:(lia) D2) (nv m)); lia.
  - apply (proj2 (G (TV k t 1) (TV k t 2) ltac:(lia) ltac:(lia) D3) (nv m)); lia.
Qed.
End Draws.
