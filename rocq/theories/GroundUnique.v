(** The answers of the planar terrain do not depend on the order and the draws; the query can end. *)
From Coq Require Import ZArith QArith Qreals List Bool Arith Lia Reals Lra Psatz Permutation.
From Verif Require Import Outcome Pose GeomModel SectorModel SectorSpec SectorProofs SectorMore.
From Verif Require Import DelModel DelSpec DelFields DelRewire DelFlip DelFlip2 DelDivide DelSplit DelHist DelPlaneSpec DelPlane DelGen DelRun DelRun2 DelRun3 DelThm DelExact.
From Verif Require Import DelDiscSpec DelDisc DelWalk DelStar DelMesh DelLegal DelInsert DelFinal DelReach DelEnds DelEnds2.
From Verif Require Import GroundModel GroundSpec GroundProofs GroundMore.
Import ListNotations.
Open Scope nat_scope.

Lemma within_any pts (x : ptR) i j k i' j' k' a b c a' b' c' :
  nth_error pts i = Some a -> nth_error pts j = Some b -> nth_error pts k = Some c -> nth_error pts i' = Some a' -> nth_error pts j' = Some b' -> nth_error pts k' = Some c' ->
  (i' = i \/ i' = j \/ i' = k) -> (j' = i \/ j' = j \/ j' = k) -> (k' = i \/ k' = j \/ k' = k) -> i' <> j' -> i' <> k' -> j' <> k' ->
  within (place a) (place b) (place c) x -> within (place a') (place b') (place c') x.
Proof.
  intros A B C A' B' C' HI HJ HK N1 N2 N3 H.
  assert (INJ : forall h q q', nth_error pts h = Some q -> nth_error pts h = Some q' -> q = q') by (intros; congruence).
  destruct HI as [->|[->| ->]], HJ as [->|[->| ->]], HK as [->|[->| ->]]; try congruence;
    repeat match goal with [ X : nth_error pts ?h = Some ?q, Y : nth_error pts ?h = Some ?q' |- _ ] => lazymatch q with q' => fail | _ => pose proof (INJ h q q' X Y); subst q'; clear Y end end;
    auto using within_swap, within_rot.
Qed.

Section Two.
Variables (es em : Q) (p : point) (l : list point) (units : list vec) (depths : list R).
Let d := maxDim p l.
Let g := exact (es * d) (em * d).
Hypothesis ES : (0 < es)%Q.
Hypothesis GP : general_position place g (corner0 p l :: corner1 p l :: corner2 p l :: p :: l).
Hypothesis NC : forall i j k h x y z u, nth_error (p :: l) i = Some x -> nth_error (p :: l) j = Some y -> nth_error (p :: l) k = Some z -> nth_error (p :: l) h = Some u ->
     NoDup [i; j; k; h] -> ~ exists o, dist2 o (place x) = dist2 o (place y) /\ dist2 o (place y) = dist2 o (place z) /\ dist2 o (place z) = dist2 o (place u).
Hypothesis UNIT : Forall (fun n => vnorm n = 1%R) units.
Hypothesis LU : length units = S (length l).

Lemma one_way order order' ch ch' fuel fuel' W W' solve solve' x fs fs' coin coin' f f' r o' :
  (forall i (s : list nat), s <> [] -> fst (ch i) s < length s) -> (forall i (s : list nat), s <> [] -> fst (ch' i) s < length s) ->
  Permutation order (map Z.of_nat (seq 0 (S (length l)))) -> Permutation order' (map Z.of_nat (seq 0 (S (length l)))) ->
  affine_solver solve -> affine_solver solve' ->
  make_ground es em p l units depths order ch fuel = Ok W -> make_ground es em p l units depths order' ch' fuel' = Ok W' ->
  (forall s : list nat, s <> [] -> fs s < length s) -> (forall s : list nat, s <> [] -> fs' s < length s) ->
  ~ on_edge g (t_mesh (g_triang W)) x -> ~ on_edge g (t_mesh (g_triang W')) x ->
  depth_at solve es em p l W x fs coin f = Ok (Some r) -> depth_at solve' es em p l W' x fs' coin' f' = Ok o' -> o' = Some r.
Proof using All.
  intros FS FS' PM PM' SO SO' MK MK' FF FF' NE NE' H H'.
  pose proof (made es em p l order ch fuel W units depths MK) as (RUN & LD & _). pose proof (made es em p l order' ch' fuel' W' units depths MK') as (RUN' & _ & _).
  set (T := g_triang W) in *. set (T' := g_triang W') in *. set (m := t_mesh T) in *. set (m' := t_mesh T') in *.
  destruct (query es em p l order ch fuel W solve units depths FS PM GP SO UNIT LU MK x fs coin f FF) as [Q|[(Q & _)|[(t & Q & _)|(t & r0 & Q & _ & TT & CT & I & IB & i & j & k & N1 & N2 & N3 & LI & CL & AL & I0 & I1 & I2)]]]; try congruence.
  assert (r0 = r) by congruence. subst r0. fold T in I, CT, TT, IB, N1, N2, N3, CL, AL, I0, I1, I2. fold m in CT, TT, IB, N1, N2, N3, CL, AL, I0, I1, I2.
  destruct (contains_edge es em p l order ch fuel T FS PM GP RUN t x TT CT) as [E|E]; [contradiction|].
  destruct (triangulate_unique es em p l order order' ch ch' fuel fuel' T T' FS FS' PM PM' GP NC RUN RUN' t I) as (t' & I' & NM). fold m in NM. fold m' in NM.
  pose proof (proj1 (run_listed es em p l order' ch' fuel' T' FS' PM' GP RUN' t') I') as [TT' US']. fold m' in TT', US'.
  pose proof (run_vertices es em p l order' ch' fuel' T' FS' PM' GP RUN') as (NV' & VP' & PV' & INJ'). fold m' in NV', VP', PV', INJ'.
  pose proof (run_good es em p l order' ch' fuel' T' FS' PM' GP RUN') as [K' B']. fold d in K'. fold g in K'. fold m' in K', B'.
  assert (NAM : forall h, named m t h -> h = i \/ h = j \/ h = k).
  { intros h (v & C & X). destruct (AL v C) as [Y|[Y|Y]]; rewrite X in Y; apply Nat2Z.inj in Y; auto. }
  assert (CL' : in_closed place m' t' (place x)).
  { destruct (CL E) as (a & b & c & A & B & C & IN).
    assert (C0 : corner m' t' (TVm m' t' 0)) by (left; reflexivity). assert (C1 : corner m' t' (TVm m' t' 1)) by (right; left; reflexivity). assert (C2 : corner m' t' (TVm m' t' 2)) by (right; right; reflexivity).
    destruct (VP' _ (US' _ C0)) as (i' & QI & II). destruct (VP' _ (US' _ C1)) as (j' & QJ & IJ). destruct (VP' _ (US' _ C2)) as (k' & QK & IK).
    destruct (c_tri _ (k_con _ _ _ K') t' TT') as (D1 & D2 & D3).
    apply (within_any (p :: l) (place x) i j k i' j' k' a b c _ _ _ A B C QI QJ QK); try exact IN.
    - apply NAM, NM. exists (TVm m' t' 0). auto.
    - apply NAM, NM. exists (TVm m' t' 1). auto.
    - apply NAM, NM. exists (TVm m' t' 2). auto.
    - intros ->. apply D1, INJ'; [apply US', C0|apply US', C1|congruence].
    - intros ->. apply D2, INJ'; [apply US', C0|apply US', C2|congruence].
    - intros ->. apply D3, INJ'; [apply US', C1|apply US', C2|congruence]. }
  pose proof (closed_open es em p l order' ch' fuel' T' FS' PM' GP RUN' t' x ES TT' NE' CL') as OP'. fold m' in OP'.
  assert (IBE : isInsideBound g m' x = isInsideBound g m x).
  { pose proof (run_mesh es em p l order ch fuel T FS PM GP RUN) as (_ & _ & P0 & P1 & P2). pose proof (run_mesh es em p l order' ch' fuel' T' FS' PM' GP RUN') as (_ & _ & P0' & P1' & P2').
    unfold isInsideBound. fold m in P0, P1, P2. fold m' in P0', P1', P2'. rewrite P0, P1, P2, P0', P1', P2'. reflexivity. }
  destruct (query es em p l order' ch' fuel' W' solve' units depths FS' PM' GP SO' UNIT LU MK' x fs' coin' f' FF') as [Q'|[(Q' & _ & Z)|[(s & Q' & _ & TS & CS & NS & _)|(s & r' & Q' & _ & TS & CS & IS & _ & i' & j' & k' & M1 & M2 & M3 & LI' & _)]]].
  - congruence.
  - fold T' in Z. fold m' in Z. fold d in Z. fold g in Z. fold d in IB. fold g in IB. congruence.
  - exfalso. fold T' in TS, CS, NS. fold m' in TS, CS. destruct (contains_edge es em p l order' ch' fuel' T' FS' PM' GP RUN' s x TS CS) as [E'|E']; [contradiction|].
    pose proof (closed_open es em p l order' ch' fuel' T' FS' PM' GP RUN' s x ES TS NE' E') as OS. fold m' in OS. assert (s = t') by apply (k_pl _ _ _ K' s t' (place x) TS TT' OS OP'). subst s. exact (NS I').
  - fold T' in TS, CS, IS, M1, M2, M3. fold m' in TS, CS, M1, M2, M3. destruct (contains_edge es em p l order' ch' fuel' T' FS' PM' GP RUN' s x TS CS) as [E'|E']; [contradiction|].
    pose proof (closed_open es em p l order' ch' fuel' T' FS' PM' GP RUN' s x ES TS NE' E') as OS. fold m' in OS. assert (s = t') by apply (k_pl _ _ _ K' s t' (place x) TS TT' OS OP'). subst s.
    assert (r' = r). { apply (linear_same (p :: l) depths i' j' k' i j k (place x)); [exact LI'|exact LI|]. intros h [->|[->| ->]]; apply NAM, NM; assumption. }
    congruence.
Qed.

Lemma same_answer order order' ch ch' fuel fuel' W W' solve solve' x fs fs' coin coin' f f' o o' :
  (forall i (s : list nat), s <> [] -> fst (ch i) s < length s) -> (forall i (s : list nat), s <> [] -> fst (ch' i) s < length s) ->
  Permutation order (map Z.of_nat (seq 0 (S (length l)))) -> Permutation order' (map Z.of_nat (seq 0 (S (length l)))) ->
  affine_solver solve -> affine_solver solve' ->
  make_ground es em p l units depths order ch fuel = Ok W -> make_ground es em p l units depths order' ch' fuel' = Ok W' ->
  (forall s : list nat, s <> [] -> fs s < length s) -> (forall s : list nat, s <> [] -> fs' s < length s) ->
  ~ on_edge g (t_mesh (g_triang W)) x -> ~ on_edge g (t_mesh (g_triang W')) x ->
  depth_at solve es em p l W x fs coin f = Ok o -> depth_at solve' es em p l W' x fs' coin' f' = Ok o' -> o = o'.
Proof using All.
  intros FS FS' PM PM' SO SO' MK MK' FF FF' NE NE' H H'. destruct o as [r|].
  - symmetry. exact (one_way order order' ch ch' fuel fuel' W W' solve solve' x fs fs' coin coin' f f' r o' FS FS' PM PM' SO SO' MK MK' FF FF' NE NE' H H').
  - destruct o' as [r'|]; [|reflexivity]. exact (one_way order' order ch' ch fuel' fuel W' W solve' solve x fs' fs coin' coin f' f r' None FS' FS PM' PM SO' SO MK' MK FF' FF NE' NE H' H).
Qed.
End Two.

(** ** The query can end *)
Lemma third_side a b c q : inside a b c q -> exists x y z, (0 < x /\ 0 < y /\ 0 < z /\ orient b c q = x * orient b c a /\ orient c a q = y * orient c a b /\ orient a b q = z * orient a b c)%R.
Proof.
  intros (x & y & z & X & Y & Z & S & ->). exists x, y, z. assert (A : x = (1 - y - z)%R) by lra. repeat (split; [assumption|]). unfold orient, mix. cbn [fst snd]. rewrite A. repeat split; ring.
Qed.

Lemma box_sides a b c q r : orient a b c <> 0%R -> inside a b c r -> (inside a b c q \/ q = c) -> (0 < orient a b q * orient a b r)%R.
Proof.
  intros O IR H. destruct (third_side _ _ _ _ IR) as (x & y & z & _ & _ & Z & _ & _ & ER). rewrite ER.
  assert (exists k, 0 < k /\ orient a b q = k * orient a b c)%R as (k & K & EQ).
  { destruct H as [H| ->]; [|exists 1%R; lra]. destruct (third_side _ _ _ _ H) as (x' & y' & z' & _ & _ & Z' & _ & _ & EQ). exists z'. auto. }
  rewrite EQ. replace (k * orient a b c * (z * orient a b c))%R with (k * z * (orient a b c * orient a b c))%R by ring. apply Rmult_lt_0_compat; [apply Rmult_lt_0_compat; assumption|apply sqr_pos, O].
Qed.

Lemma can_end (es em : Q) p l units depths order ch fuel W solve x fs f :
  let d := maxDim p l in let g := exact (es * d) (em * d) in
  (forall i (s : list nat), s <> [] -> fst (ch i) s < length s) ->
  Permutation order (map Z.of_nat (seq 0 (S (length l)))) ->
  general_position place g (corner0 p l :: corner1 p l :: corner2 p l :: p :: l) ->
  affine_solver solve -> Forall (fun n => vnorm n = 1%R) units -> length units = S (length l) ->
  make_ground es em p l units depths order ch fuel = Ok W -> (forall s : list nat, s <> [] -> fs s < length s) ->
  (forall i j a b, nth_error (corner0 p l :: corner1 p l :: corner2 p l :: p :: l) i = Some a -> nth_error (corner0 p l :: corner1 p l :: corner2 p l :: p :: l) j = Some b -> i <> j ->
     orient (place a) (place b) (place x) <> 0%R) ->
  2 * length l + 3 <= f -> exists coin o, depth_at solve es em p l W x fs coin f = Ok o.
Proof.
  intros d g FS PM GP SO UNIT LU MK FF GX LF.
  pose proof (made es em p l order ch fuel W units depths MK) as (RUN & LD & _). set (T := g_triang W) in *. set (m := t_mesh T) in *.
  assert (END : exists coin, enclosingTriangle g m x fs coin f <> NoFuel).
  { pose proof (run_good es em p l order ch fuel T FS PM GP RUN) as [K B]. fold d in K. fold g in K. fold m in K, B. pose proof (k_con _ _ _ K) as C. pose proof (c_bound _ C) as N3.
    pose proof (run_mesh es em p l order ch fuel T FS PM GP RUN) as (_ & _ & P0 & P1 & P2). fold m in P0, P1, P2.
    pose proof (run_vertices es em p l order ch fuel T FS PM GP RUN) as (NV & VP & PV & INJ). fold m in NV, VP, PV, INJ.
    unfold enclosingTriangle. destruct (isInsideBound g m x) eqn:IB; cbn [negb]; [|exists (fun _ => true); discriminate].
    destruct (nth_error (VE m 0) (fs (VE m 0))) as [cur|] eqn:N; [|exists (fun _ => true); discriminate].
    assert (E : edge_of m cur) by (exists 0; split; [lia|apply (nth_error_In _ _ N)]).
    assert (AT0 : forall u, u < nv m -> exists i, nth_error (corner0 p l :: corner1 p l :: corner2 p l :: p :: l) i = Some (POS m u) /\ (3 <= u -> exists h, i = 3 + h /\ IDX m u = Z.of_nat h) /\ (u < 3 -> i = u)).
    { intros u U. destruct (le_lt_dec 3 u) as [V|V].
      - destruct (VP u (conj V U)) as (h & Q & I). exists (3 + h). split; [exact Q|]. split; [eauto|lia].
      - exists u. split; [|split; [lia|reflexivity]]. destruct u as [|[|[|u]]]; [rewrite P0|rewrite P1|rewrite P2|lia]; reflexivity. }
    assert (GEN : forall u v, u < nv m -> v < nv m -> u <> v -> orient (at_vertex place m u) (at_vertex place m v) (place x) <> 0%R).
    { intros u v U V D. destruct (AT0 u U) as (i & QI & UI & LI). destruct (AT0 v V) as (j & QJ & UJ & LJ). apply (GX i j _ _ QI QJ). intros IJ.
      destruct (le_lt_dec 3 u) as [U3|U3], (le_lt_dec 3 v) as [V3|V3].
      - destruct (UI U3) as (h & -> & I1). destruct (UJ V3) as (h' & E' & I2). apply D, INJ; [split; assumption|split; assumption|]. rewrite I1, I2. f_equal. lia.
      - destruct (UI U3) as (h & -> & _). specialize (LJ V3). lia.
      - destruct (UJ V3) as (h & -> & _). specialize (LI U3). lia.
      - specialize (LI U3). specialize (LJ V3). lia. }
    assert (O : orient (at_vertex place m 0) (at_vertex place m 1) (at_vertex place m 2) <> 0%R) by (apply (k_gen _ _ _ K); lia).
    assert (IN : inside (at_vertex place m 0) (at_vertex place m 1) (at_vertex place m 2) (place x)).
    { apply (inside_test place g (exact_ok _ _)); [exact O|apply (GEN 0 1); lia|apply (GEN 0 2); lia|apply (GEN 1 2); lia|exact IB]. }
    assert (BOX : forall y z w, y < 3 -> z < 3 -> y <> z -> w < nv m -> w <> y -> w <> z -> (0 < orient (at_vertex place m y) (at_vertex place m z) (at_vertex place m w) * orient (at_vertex place m y) (at_vertex place m z) (place x))%R).
    { intros y z w Y Z D Ww N1 N2.
      assert (PE : forall a b c, (a = 0 /\ b = 1 /\ c = 2) \/ (a = 1 /\ b = 0 /\ c = 2) \/ (a = 1 /\ b = 2 /\ c = 0) \/ (a = 2 /\ b = 1 /\ c = 0) \/ (a = 0 /\ b = 2 /\ c = 1) \/ (a = 2 /\ b = 0 /\ c = 1) ->
        orient (at_vertex place m a) (at_vertex place m b) (at_vertex place m c) <> 0%R /\ forall q, inside (at_vertex place m 0) (at_vertex place m 1) (at_vertex place m 2) q -> inside (at_vertex place m a) (at_vertex place m b) (at_vertex place m c) q).
      { intros a b c H. decompose [or and] H; subst; (split; [unfold orient in *; lra|]); intros q Q; auto using inside_swap, inside_rot. }
      set (c := 3 - y - z). destruct (PE y z c) as [OC IC]; [unfold c; clear - Y Z D; lia|].
      apply (box_sides _ _ _ _ _ OC (IC _ IN)). destruct (le_lt_dec 3 w) as [W3|W3].
      - left. apply IC, (proj2 B). lia.
      - right. f_equal. unfold c. clear - Y Z D W3 N1 N2. lia. }
    destruct (triangulate_ok es em p l order ch fuel FS PM GP) as [Q|(T0 & Q & _ & SZ & _)]; [congruence|]. assert (T0 = T) by congruence. subst T0. fold m in SZ. destruct SZ as (le & lt & _ & _ & _ & LT & _ & _ & LL).
    destruct (walk_ends place g (exact_ok _ _) m (nv m) x C (mesh_complex place g m K B) GEN BOX cur f lt LT E ltac:(lia)) as (coin & t & Wk). exists coin. rewrite Wk. cbn [bind].
    destruct (ET m cur 0) as [t0|], (ET m cur 1) as [t1|]; repeat match goal with [ |- context [containsT ?g ?m ?t ?p] ] => destruct (containsT g m t p) end; discriminate. }
  destruct END as (coin & END). exists coin.
  destruct (query es em p l order ch fuel W solve units depths FS PM GP SO UNIT LU MK x fs coin f FF) as [Q|[(Q & _)|[(t & Q & _)|(t & r & Q & _)]]]; [exfalso|eexists; exact Q..].
  unfold depth_at in Q. fold T in Q. fold m in Q. fold d in Q. fold g in Q. destruct (found es em p l order ch fuel T FS PM GP RUN x fs coin f FF) as [H|[[H _]|(t & H & TT & _)]]; fold d in H; fold g in H; fold m in H; [congruence|rewrite H in Q; discriminate Q|].
  destruct (query es em p l order ch fuel W solve units depths FS PM GP SO UNIT LU MK x fs coin f FF) as [Q'|[(Q' & _)|[(t' & Q' & _)|(t' & r & Q' & _)]]]; unfold depth_at in Q'; fold T in Q'; fold m in Q'; fold d in Q'; fold g in Q'; try congruence.
  rewrite H in Q. cbn [bind corners_of at_boundary] in Q. unfold terrain in Q. destruct (isIncidentToBoundary m t); [discriminate Q|].
  repeat match type of Q with context [if ?b then _ else _] => destruct b | context [match nth_error ?a ?b with _ => _ end] => destruct (nth_error a b) end; cbn [bind] in Q; try discriminate Q.
  destruct (solve _ _ _ _) as [[k0 k1] k2]. discriminate Q.
Qed.

(** ** hasInterpolatedDepth *)
Lemma has_depth (es em : Q) p l units depths order ch fuel W solve x fs coin f :
  let d := maxDim p l in let g := exact (es * d) (em * d) in
  (forall i (s : list nat), s <> [] -> fst (ch i) s < length s) ->
  Permutation order (map Z.of_nat (seq 0 (S (length l)))) ->
  general_position place g (corner0 p l :: corner1 p l :: corner2 p l :: p :: l) ->
  affine_solver solve -> Forall (fun n => vnorm n = 1%R) units -> length units = S (length l) ->
  make_ground es em p l units depths order ch fuel = Ok W -> (forall s : list nat, s <> [] -> fs s < length s) ->
  (has_depth_at es em p l W x fs coin f = UB <-> ~ within (place (corner0 p l)) (place (corner1 p l)) (place (corner2 p l)) (place x)) /\
  (has_depth_at es em p l W x fs coin f = UB -> depth_at solve es em p l W x fs coin f = Ok None) /\
  (has_depth_at es em p l W x fs coin f = Ok true <-> exists r, depth_at solve es em p l W x fs coin f = Ok (Some r)).
Proof.
  intros d g FS PM GP SO UNIT LU MK FF.
  pose proof (made es em p l order ch fuel W units depths MK) as (RUN & LD & _). set (T := g_triang W) in *. set (m := t_mesh T) in *.
  pose proof (run_mesh es em p l order ch fuel T FS PM GP RUN) as (K & _ & P0 & P1 & P2). fold m in P0, P1, P2. fold m in K. fold d in K. fold g in K.
  assert (IBW : isInsideBound g m x = true <-> within (place (corner0 p l)) (place (corner1 p l)) (place (corner2 p l)) (place x)).
  { unfold isInsideBound. rewrite P0, P1, P2. split.
    - apply (closed_test place g (exact_ok _ _)). rewrite <- P0, <- P1, <- P2. apply (k_gen _ _ _ K); pose proof (c_bound _ (k_con _ _ _ K)); lia.
    - apply (closed_true place g (exact_ok _ _)). }
  destruct (query es em p l order ch fuel W solve units depths FS PM GP SO UNIT LU MK x fs coin f FF) as [Q|[(Q & HQ & IB)|[(t & Q & HQ & _ & _ & _ & IB)|(t & r & Q & HQ & _ & _ & _ & IB & _)]]].
  - assert (E : enclosingTriangle g m x fs coin f = NoFuel \/ enclosingTriangle g m x fs coin f = Ok None).
    { destruct (found es em p l order ch fuel T FS PM GP RUN x fs coin f FF) as [H|[[H IB]|(t & H & _)]]; [left; exact H|right; exact H|].
      exfalso. unfold depth_at in Q. fold T in Q. fold m in Q. fold d in Q. fold g in Q. fold d in H. fold g in H. fold m in H. rewrite H in Q. cbn [bind corners_of at_boundary] in Q. unfold terrain in Q. destruct (isIncidentToBoundary m t); [discriminate Q|].
      repeat match type of Q with context [if ?b then _ else _] => destruct b | context [match nth_error ?a ?b with _ => _ end] => destruct (nth_error a b) end; cbn [bind] in Q; try discriminate Q.
      destruct (solve _ _ _ _) as [[k0 k1] k2]. discriminate Q. }
    destruct E as [E|E].
    2:{ exfalso. unfold depth_at in Q. fold T in Q. fold m in Q. fold d in Q. fold g in Q. rewrite E in Q. discriminate Q. }
    assert (HN : has_depth_at es em p l W x fs coin f = NoFuel) by (unfold has_depth_at; fold T; fold m; fold d; fold g; rewrite E; reflexivity).
    rewrite HN, Q. split; [|split; [discriminate|split; [discriminate|intros (r & R); discriminate R]]]. split; [discriminate|]. intros NW. exfalso.
    unfold enclosingTriangle in E. destruct (isInsideBound g m x) eqn:IB; [apply NW, IBW; reflexivity|discriminate E].
  - rewrite HQ, Q. split; [|split; [reflexivity|split; [discriminate|intros (r & R); discriminate R]]]. split; [|reflexivity]. intros _ Wt. apply IBW in Wt. fold T in IB. fold m in IB. fold d in IB. fold g in IB. congruence.
  - rewrite HQ, Q. split; [|split; [discriminate|split; [discriminate|intros (r & R); discriminate R]]]. split; [discriminate|]. intros NW. exfalso. apply NW, IBW, IB.
  - rewrite HQ, Q. split; [|split; [discriminate|split; [eauto|reflexivity]]]. split; [discriminate|]. intros NW. exfalso. apply NW, IBW, IB.
Qed.
