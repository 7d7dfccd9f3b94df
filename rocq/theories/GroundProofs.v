(** Proofs about the planar terrain. *)
From Coq Require Import ZArith QArith Qreals List Bool Arith Lia Reals Lra Psatz Permutation.
From Verif Require Import Outcome Pose GeomModel SectorModel SectorSpec SectorProofs SectorMore.
From Verif Require Import DelModel DelSpec DelFields DelRewire DelFlip DelFlip2 DelDivide DelSplit DelHist DelPlaneSpec DelPlane DelGen DelRun DelRun2 DelRun3 DelThm DelExact.
From Verif Require Import DelDiscSpec DelDisc DelWalk DelStar DelMesh DelLegal DelInsert DelFinal DelReach DelEnds DelEnds2.
From Verif Require Import GroundModel GroundSpec.
Import ListNotations.
Open Scope nat_scope.
Notation ptR := DelPlaneSpec.pt.
Notation TVm := DelModel.TV.

(** ** The tests at a point of the plane *)
Section Tests.
Context {P : Type}.
Variable pos : P -> ptR.
Variable g : geometry P.
Hypothesis SIDES : exact_sides pos g.

Lemma quot_nneg o x : (o <> 0 -> 0 <= x * o -> 0 <= x / o)%R.
Proof.
  intros N H. replace (x / o)%R with (x * o * / (o * o))%R by (field; exact N). apply Rmult_le_pos; [exact H|].
  left. apply Rinv_0_lt_compat, sqr_pos, N.
Qed.

Lemma closed_test a b c p : orient (pos a) (pos b) (pos c) <> 0%R -> isInsideTriangle g a b c p = true -> within (pos a) (pos b) (pos c) (pos p).
Proof.
  intros O H. unfold isInsideTriangle in H. apply andb_true_iff in H. destruct H as [H H3]. apply andb_true_iff in H. destruct H as [H1 H2].
  apply SIDES in H1. apply SIDES in H2. apply SIDES in H3.
  assert (E2 : orient (pos a) (pos c) (pos b) = (- orient (pos a) (pos b) (pos c))%R) by (unfold orient; ring).
  assert (E3 : orient (pos b) (pos c) (pos a) = orient (pos a) (pos b) (pos c)) by (unfold orient; ring).
  rewrite E2 in H2. rewrite E3 in H3.
  exists (orient (pos p) (pos b) (pos c) / orient (pos a) (pos b) (pos c))%R, (orient (pos a) (pos p) (pos c) / orient (pos a) (pos b) (pos c))%R,
    (orient (pos a) (pos b) (pos p) / orient (pos a) (pos b) (pos c))%R.
  split. { apply quot_nneg; [exact O|]. replace (orient (pos p) (pos b) (pos c)) with (orient (pos b) (pos c) (pos p)) by (unfold orient; ring). exact H3. }
  split. { apply quot_nneg; [exact O|]. replace (orient (pos a) (pos p) (pos c)) with (- orient (pos a) (pos c) (pos p))%R by (unfold orient; ring). lra. }
  split. { apply quot_nneg; [exact O|exact H1]. }
  split; [apply bary_sum, O|apply bary, O].
Qed.

Lemma closed_true a b c p : within (pos a) (pos b) (pos c) (pos p) -> isInsideTriangle g a b c p = true.
Proof.
  intros (x & y & z & X & Y & Z & S & E). unfold isInsideTriangle. rewrite !andb_true_iff. assert (A : x = (1 - y - z)%R) by lra.
  assert (E1 : orient (pos a) (pos b) (pos p) = (z * orient (pos a) (pos b) (pos c))%R) by (rewrite E; unfold orient, mix; cbn [fst snd]; rewrite A; ring).
  assert (E2 : orient (pos a) (pos c) (pos p) = (y * orient (pos a) (pos c) (pos b))%R) by (rewrite E; unfold orient, mix; cbn [fst snd]; rewrite A; ring).
  assert (E3 : orient (pos b) (pos c) (pos p) = (x * orient (pos b) (pos c) (pos a))%R) by (rewrite E; unfold orient, mix; cbn [fst snd]; rewrite A; ring).
  repeat split; apply SIDES; rewrite ?E1, ?E2, ?E3, Rmult_assoc; (apply Rmult_le_pos; [assumption|apply sqr_nneg]).
Qed.
End Tests.

(** a point of a side is taken for one *)
Lemma q2r0 : Q2R 0 = 0%R.
Proof. unfold Q2R. cbn. lra. Qed.
Lemma side_taken (e : Q) a b x s t : (0 < e)%Q -> place a <> place b -> (0 <= s)%R -> (0 <= t)%R -> (s + t = 1)%R ->
  Q2R (fst x) = (s * Q2R (fst a) + t * Q2R (fst b))%R -> Q2R (snd x) = (s * Q2R (snd a) + t * Q2R (snd b))%R -> doesABcontain e a b x = true.
Proof.
  intros E N S T ST X Y. unfold doesABcontain. cbv zeta. apply Qlt_Rlt in E. rewrite q2r0 in E.
  assert (VN : Q2R (dot2 (psub b a) (psub b a)) = ((Q2R (fst b) - Q2R (fst a)) * (Q2R (fst b) - Q2R (fst a)) + (Q2R (snd b) - Q2R (snd a)) * (Q2R (snd b) - Q2R (snd a)))%R).
  { unfold dot2, psub. cbn [fst snd]. rewrite Q2R_plus, !Q2R_mult, !Q2R_minus. reflexivity. }
  assert (VC : Q2R (cross2 (psub x a) (psub b a)) = 0%R).
  { unfold cross2, psub. cbn [fst snd]. rewrite Q2R_minus, !Q2R_mult, !Q2R_minus, X, Y. replace s with (1 - t)%R by lra. ring. }
  assert (VD : Q2R (dot2 (psub b a) (psub x a)) = (t * Q2R (dot2 (psub b a) (psub b a)))%R).
  { rewrite VN. unfold dot2, psub. cbn [fst snd]. rewrite Q2R_plus, !Q2R_mult, !Q2R_minus, X, Y. replace s with (1 - t)%R by lra. ring. }
  set (n := dot2 (psub b a) (psub b a)) in *. set (c := cross2 (psub x a) (psub b a)) in *. set (f := dot2 (psub b a) (psub x a)) in *.
  assert (NP : (0 < Q2R n)%R).
  { rewrite VN. destruct (Req_dec (Q2R (fst b)) (Q2R (fst a))) as [D|D].
    - destruct (Req_dec (Q2R (snd b)) (Q2R (snd a))) as [D'|D']; [exfalso; apply N; unfold place; congruence|]. pose proof (sqr_nneg (Q2R (fst b) - Q2R (fst a))). pose proof (sqr_pos (Q2R (snd b) - Q2R (snd a)) ltac:(lra)). lra.
    - pose proof (sqr_pos (Q2R (fst b) - Q2R (fst a)) ltac:(lra)). pose proof (sqr_nneg (Q2R (snd b) - Q2R (snd a))). lra. }
  clear VN. clearbody n c f. rewrite !andb_true_iff. repeat split.
  - apply negb_true_iff. destruct (Qeq_bool n 0) eqn:Q; [|reflexivity]. apply Qeq_bool_eq in Q. apply Qeq_eqR in Q. rewrite q2r0 in Q. lra.
  - unfold qlt. apply negb_true_iff. destruct (Qle_bool (e * e * n) (c * c)) eqn:Q; [|reflexivity]. apply Qle_bool_iff, Qle_Rle in Q. rewrite !Q2R_mult, VC in Q.
    assert (0 < Q2R e * Q2R e * Q2R n)%R by (apply Rmult_lt_0_compat; [apply Rmult_lt_0_compat|]; assumption). lra.
  - unfold geRoot. apply orb_true_iff. left. apply Qle_bool_iff, Rle_Qle. rewrite q2r0, VD. apply Rmult_le_pos; lra.
  - unfold geRoot. apply orb_true_iff. left. apply Qle_bool_iff, Rle_Qle. rewrite q2r0, Q2R_minus, VD. replace (Q2R n - t * Q2R n)%R with (s * Q2R n)%R by (replace s with (1 - t)%R by lra; ring).
    apply Rmult_le_pos; lra.
Qed.

Lemma orient_distinct (a b c : ptR) : orient a b c <> 0%R -> a <> b.
Proof. intros O ->. apply O. unfold orient. ring. Qed.

(** ** A constructed mesh *)
Section Run.
Variables (es em : Q) (p : point) (l : list point) (order : list Z) (ch : choices) (fuel : nat) (T : @triangulation point).
Let d := maxDim p l.
Let g := exact (es * d) (em * d).
Hypothesis FS : forall i (s : list nat), s <> [] -> fst (ch i) s < length s.
Hypothesis PM : Permutation order (map Z.of_nat (seq 0 (S (length l)))).
Hypothesis GP : general_position place g (corner0 p l :: corner1 p l :: corner2 p l :: p :: l).
Hypothesis RUN : triangulate es em p l order ch fuel = Ok T.
Let m := t_mesh T.
Notation AT := (at_vertex place).

Lemma run_mesh : good place g m /\ bounded place m /\ POS m 0 = corner0 p l /\ POS m 1 = corner1 p l /\ POS m 2 = corner2 p l.
Proof using All.
  pose proof GP as GP0. assert (D : (0 < maxDim p l)%Q) by (apply (gp_dim (es * d) (em * d)), (gp_prefix _ _ [corner0 p l; corner1 p l; corner2 p l] (p :: l)), GP).
  pose proof RUN as R. unfold triangulate in R. cbv zeta in R. set (pts := map (fun i => (i, nth (Z.to_nat i) (p :: l) p)) order) in *.
  assert (MS : Permutation (p :: l) (map snd pts)).
  { unfold pts. rewrite map_map. cbn [snd]. apply Permutation_sym. eapply perm_trans; [apply Permutation_map, PM|]. rewrite map_map.
    erewrite map_ext; [|intros a; rewrite Nat2Z.id; reflexivity]. change (S (length l)) with (length (p :: l)). rewrite nth_map_id. apply Permutation_refl. }
  unfold construct in R. change (minx p l - maxDim p l, miny p l - maxDim p l)%Q with (corner0 p l) in R. change (minx p l + 4 * maxDim p l, miny p l - maxDim p l)%Q with (corner1 p l) in R.
  change (minx p l - maxDim p l, miny p l + 4 * maxDim p l)%Q with (corner2 p l) in R. fold d in R. fold g in R.
  destruct (insert_all g ch fuel pts 0 (bounding (corner0 p l) (corner1 p l) (corner2 p l)) (fun _ => 0%Z) (Z.of_nat (length pts))) as [[m0 inv]| | | |] eqn:HI; try discriminate R. cbn [bind] in R.
  destruct (fill_vertices m0 inv 0 (nv m0 - 3)) as [vs| | | |]; try discriminate R. cbn [bind] in R. injection R as R. assert (EM : m0 = m) by (unfold m; rewrite <- R; reflexivity). subst m0. clear R.
  assert (GP' : general_position place g (corner0 p l :: corner1 p l :: corner2 p l :: map snd pts)).
  { apply (gp_perm _ _ (corner0 p l :: corner1 p l :: corner2 p l :: p :: l)); [|exact GP]. apply (Permutation_app_head [corner0 p l; corner1 p l; corner2 p l]), MS. }
  assert (GB : general_position place g [corner0 p l; corner1 p l; corner2 p l]) by (apply (gp_prefix g place [corner0 p l; corner1 p l; corner2 p l] (p :: l)), GP).
  pose proof (start_good place g _ _ _ GB) as K. destruct (start_bounded place (corner0 p l) (corner1 p l) (corner2 p l)) as [SB SD].
  assert (R : good place g m /\ bounded place m /\ delaunay place m).
  { refine (run_delaunay place g (exact_ok _ _) (exact_circle _ _) ch fuel _ FS pts [corner0 p l; corner1 p l; corner2 p l] 0 (bounding (corner0 p l) (corner1 p l) (corner2 p l)) (fun _ => 0%Z) 3 1 m inv K SB SD (bounding_census _ _ _) _ _ _ _ _ HI).
    - lia.
    - reflexivity.
    - intros u U. cbn in U. each3 u U; reflexivity.
    - exact GP'.
    - apply Forall_forall. intros q Q. apply (inside_true g place (exact_ok _ _)), box_inside; [exact D|]. apply (Permutation_in _ (Permutation_sym MS)), Q. }
  destruct (insert_frame _ _ _ _ _ _ _ _ _ _ HI) as (_ & KP & _).
  destruct (KP 0 ltac:(cbn; lia)) as [-> _]. destruct (KP 1 ltac:(cbn; lia)) as [-> _]. destruct (KP 2 ltac:(cbn; lia)) as [-> _]. tauto.
Qed.
Lemma run_good : good place g m /\ bounded place m.
Proof using All. pose proof run_mesh. tauto. Qed.

Lemma tri_area t : tri_of m t -> orient (AT m (TVm m t 0)) (AT m (TVm m t 1)) (AT m (TVm m t 2)) <> 0%R.
Proof using All.
  intros TT. destruct run_good as [K _]. pose proof (k_con _ _ _ K) as C. destruct (c_tri _ C t TT) as (N1 & N2 & N3).
  apply (k_gen _ _ _ K); try (apply (c_corners _ C t _ TT); unfold corner; auto); auto.
Qed.

(** a point of a triangle that is not taken for lying on an edge is strictly inside *)
Lemma closed_open t x : (0 < es)%Q -> tri_of m t -> ~ on_edge g m x -> in_closed place m t (place x) -> in_open place m t (place x).
Proof using All.
  intros ES TT NE H. destruct run_good as [K _]. pose proof (k_con _ _ _ K) as C. pose proof (tri_area t TT) as O.
  assert (D : (0 < d)%Q) by (apply (gp_dim (es * d) (em * d)), (gp_prefix _ _ [corner0 p l; corner1 p l; corner2 p l] (p :: l)), GP).
  assert (ED : (0 < es * d)%Q) by (apply Qmult_lt_0_compat; assumption).
  destruct (c_tri _ C t TT) as (N1 & N2 & N3).
  assert (SIDE : forall u v a b, corner m t u -> corner m t v -> u <> v -> (0 <= a -> 0 <= b -> a + b = 1 -> place x = (a * fst (AT m u) + b * fst (AT m v), a * snd (AT m u) + b * snd (AT m v)) -> False)%R).
  { intros u v a b U V N A B S E. destruct (c_sides _ C t u v TT U V N) as (e & SE & J). apply NE. exists e. split; [apply (c_side _ C t e TT SE)|].
    assert (DI : place (POS m u) <> place (POS m v)).
    { pose proof (c_corners _ C t u TT U) as Lu. pose proof (c_corners _ C t v TT V) as Lv.
      assert (exists w, w < nv m /\ w <> u /\ w <> v) as (w & W & W1 & W2).
      { destruct U as [<-|[<-|<-]], V as [<-|[<-|<-]]; try congruence; match goal with [ |- exists w, _ /\ w <> TVm m t ?i /\ w <> TVm m t ?j ] =>
          first [ exists (TVm m t 0); repeat split; [apply (c_corners _ C t _ TT); unfold corner; auto|congruence..]
                | exists (TVm m t 1); repeat split; [apply (c_corners _ C t _ TT); unfold corner; auto|congruence..]
                | exists (TVm m t 2); repeat split; [apply (c_corners _ C t _ TT); unfold corner; auto|congruence..] ] end. }
      destruct (k_gen _ _ _ K u v Lu Lv N) as [_ G]. apply (orient_distinct _ _ _ (proj1 (G w W W1 W2))). }
    cbn [g_onSegment g exact]. unfold at_vertex in E. unfold place in E at 1. injection E as EX EY.
    destruct J as [[J1 J2]|[J1 J2]]; rewrite J1, J2.
    - apply (side_taken _ _ _ _ a b ED DI A B S); [exact EX|exact EY].
    - apply (side_taken _ _ _ _ b a ED (fun Q => DI (eq_sym Q)) B A); [lra| |]; unfold place in EX, EY; cbn [fst snd] in EX, EY; lra. }
  destruct H as (a & b & c & A & B & CC & S & E).
  assert (C0 : corner m t (TVm m t 0)) by (left; reflexivity). assert (C1 : corner m t (TVm m t 1)) by (right; left; reflexivity). assert (C2 : corner m t (TVm m t 2)) by (right; right; reflexivity).
  exists a, b, c. destruct (Rle_lt_or_eq_dec _ _ A) as [A'|A']; [|exfalso; apply (SIDE _ _ b c C1 C2 N3 B CC); [lra|rewrite E; unfold mix; f_equal; rewrite <- A'; ring]].
  destruct (Rle_lt_or_eq_dec _ _ B) as [B'|B']; [|exfalso; apply (SIDE _ _ a c C0 C2 N2 A CC); [lra|rewrite E; unfold mix; f_equal; rewrite <- B'; ring]].
  destruct (Rle_lt_or_eq_dec _ _ CC) as [C'|C']; [|exfalso; apply (SIDE _ _ a b C0 C1 N1 A B); [lra|rewrite E; unfold mix; f_equal; rewrite <- C'; ring]].
  auto 10.
Qed.

(** the triangle found *)
Lemma contains_edge t x : tri_of m t -> containsT g m t x = true -> on_edge g m x \/ in_closed place m t (place x).
Proof using All.
  intros TT H. destruct run_good as [K _]. pose proof (k_con _ _ _ K) as C. unfold containsT in H. rewrite !orb_true_iff in H. unfold containsE in H.
  destruct H as [[[H|H]|H]|H]; [left; exists (TE m t 0)|left; exists (TE m t 1)|left; exists (TE m t 2)|right; apply (closed_test place g (exact_ok _ _)); [apply (tri_area t TT)|exact H]];
    (split; [apply (c_side _ C t _ TT); unfold side; auto|exact H]).
Qed.

Lemma found x fs coin fuel' : (forall s : list nat, s <> [] -> fs s < length s) ->
  enclosingTriangle g m x fs coin fuel' = NoFuel \/
  (enclosingTriangle g m x fs coin fuel' = Ok None /\ isInsideBound g m x = false) \/
  exists t, enclosingTriangle g m x fs coin fuel' = Ok (Some t) /\ tri_of m t /\ containsT g m t x = true /\ isInsideBound g m x = true.
Proof using All.
  intros FF. destruct run_good as [K _]. destruct (isInsideBound g m x) eqn:IB.
  - destruct (enclosing_ok g m x fs coin fuel' (k_con _ _ _ K) (k_base _ _ _ K) FF IB) as [H|(t & H & TT & CT)]; [left; exact H|right; right; exists t; auto].
  - right. left. split; [|reflexivity]. unfold enclosingTriangle. rewrite IB. reflexivity.
Qed.

Lemma listed_false t : tri_of m t -> (isIncidentToBoundary m t = false <-> In t (t_triangles T)).
Proof using All.
  intros TT. destruct run_good as [K _]. rewrite (run_listed es em p l order ch fuel T FS PM GP RUN t). fold m. unfold isIncidentToBoundary, isFromBoundingTri. rewrite !orb_false_iff, !Nat.ltb_ge. split.
  - intros [[A B] D]. split; [exact TT|]. intros v V. split; [destruct V as [<-|[<-|<-]]; assumption|apply (c_corners _ (k_con _ _ _ K) t v TT V)].
  - intros [_ U]. repeat split; [apply (U (TVm m t 0))|apply (U (TVm m t 1))|apply (U (TVm m t 2))]; unfold corner; auto.
Qed.

(** ** The value *)
Variables (solve : GeomModel.pt -> GeomModel.pt -> GeomModel.pt -> R * R * R -> R * R * R) (units : list vec) (depths : list R).
Hypothesis SOLVE : affine_solver solve.
Hypothesis UNIT : Forall (fun n => vnorm n = 1%R) units.
Hypothesis LU : length units = S (length l).
Hypothesis LD : length depths = S (length l).

Lemma value t x : In t (t_triangles T) -> exists r, terrain solve (ref_depths units depths) (corners_of m (Some t)) false (real_point x) = Ok (Some r) /\
  exists i j k, named m t i /\ named m t j /\ named m t k /\ linear (p :: l) depths i j k (place x) r /\ (in_closed place m t (place x) -> in_points (p :: l) i j k (place x)) /\
    (forall v, corner m t v -> IDX m v = Z.of_nat i \/ IDX m v = Z.of_nat j \/ IDX m v = Z.of_nat k) /\
    IDX m (TVm m t 0) = Z.of_nat i /\ IDX m (TVm m t 1) = Z.of_nat j /\ IDX m (TVm m t 2) = Z.of_nat k.
Proof using All.
  intros I. pose proof (proj1 (run_listed es em p l order ch fuel T FS PM GP RUN t) I) as [TT US]. fold m in TT, US.
  pose proof (run_vertices es em p l order ch fuel T FS PM GP RUN) as (NV & VP & PV & INJ). fold m in NV, VP, PV, INJ.
  pose proof (tri_area t TT) as O.
  assert (C0 : corner m t (TVm m t 0)) by (left; reflexivity). assert (C1 : corner m t (TVm m t 1)) by (right; left; reflexivity). assert (C2 : corner m t (TVm m t 2)) by (right; right; reflexivity).
  destruct (VP _ (US _ C0)) as (i & QI & II). destruct (VP _ (US _ C1)) as (j & QJ & IJ). destruct (VP _ (US _ C2)) as (k & QK & IK).
  assert (KN : forall h q, nth_error (p :: l) h = Some q -> exists dh, nth_error depths h = Some dh).
  { intros h q Q. destruct (nth_error depths h) as [dh|] eqn:E; [eauto|]. apply nth_error_None in E. assert (h < length (p :: l)) by (apply nth_error_Some; congruence). cbn [length] in *. lia. }
  destruct (KN _ _ QI) as (di & DI). destruct (KN _ _ QJ) as (dj & DJ). destruct (KN _ _ QK) as (dk & DK).
  destruct (bary_ex _ _ _ (place x) O) as (u & v & w & S & E).
  exists (u * Rabs di + v * Rabs dj + w * Rabs dk)%R. split.
  - cbn [corners_of]. apply planar_spec with (u := u) (v := v) (w := w).
    + exact SOLVE.
    + exact O.
    + exact UNIT.
    + congruence.
    + unfold corner_of. cbn [tv_index]. rewrite II. split; [lia|]. rewrite Nat2Z.id. exact DI.
    + unfold corner_of. cbn [tv_index]. rewrite IJ. split; [lia|]. rewrite Nat2Z.id. exact DJ.
    + unfold corner_of. cbn [tv_index]. rewrite IK. split; [lia|]. rewrite Nat2Z.id. exact DK.
    + unfold barycentric, corner_of, real_point. cbn [tv_pos px py]. unfold place at 1, mix, at_vertex, place in E. cbn [fst snd] in E. injection E as EX EY. auto.
  - exists i, j, k. split; [exists (TVm m t 0); auto|]. split; [exists (TVm m t 1); auto|]. split; [exists (TVm m t 2); auto|]. split; [|split].
    + exists (POS m (TVm m t 0)), (POS m (TVm m t 1)), (POS m (TVm m t 2)), di, dj, dk, u, v, w. repeat (split; [assumption|]). reflexivity.
    + intros CL. exists (POS m (TVm m t 0)), (POS m (TVm m t 1)), (POS m (TVm m t 2)). repeat (split; [assumption|]). exact CL.
    + split; [|auto]. intros v' [<-|[<-|<-]]; auto.
Qed.
End Run.
