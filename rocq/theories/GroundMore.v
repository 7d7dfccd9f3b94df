(** The answers of the planar terrain. *)
From Coq Require Import ZArith QArith Qreals List Bool Arith Lia Reals Lra Psatz Permutation.
From Verif Require Import Outcome Pose GeomModel SectorModel SectorSpec SectorProofs SectorMore.
From Verif Require Import DelModel DelSpec DelFields DelRewire DelFlip DelFlip2 DelDivide DelSplit DelHist DelPlaneSpec DelPlane DelGen DelRun DelRun2 DelRun3 DelThm DelExact.
From Verif Require Import DelDiscSpec DelDisc DelWalk DelStar DelMesh DelLegal DelInsert DelFinal DelReach DelEnds DelEnds2.
From Verif Require Import GroundModel GroundSpec GroundProofs.
Import ListNotations.
Open Scope nat_scope.

(** ** The affine function of a triangle *)
Lemma linear_fun pts depths i j k x r : linear pts depths i j k x r -> exists f a b c da db dc, affine f /\ r = f x /\ orient (place a) (place b) (place c) <> 0%R /\
  nth_error pts i = Some a /\ nth_error pts j = Some b /\ nth_error pts k = Some c /\ nth_error depths i = Some da /\ nth_error depths j = Some db /\ nth_error depths k = Some dc /\
  f (place a) = Rabs da /\ f (place b) = Rabs db /\ f (place c) = Rabs dc.
Proof.
  intros (a & b & c & da & db & dc & u & v & w & A & B & C & DA & DB & DC & O & S & E & R).
  set (f := fun q => (Rabs dc * orient (place a) (place b) q - - (Rabs da * orient q (place b) (place c) - - (Rabs db * - orient (place a) (place c) q)))%R).
  assert (AF : affine f).
  { unfold f. apply affine_minus; [apply affine_scale, affine_orient|].
    assert (AM : forall h, affine h -> affine (fun q => - h q)%R) by (intros h (x1 & y1 & z1 & H); exists (- x1)%R, (- y1)%R, (- z1)%R; intros q; rewrite H; ring).
    apply AM, affine_minus; [apply affine_scale, affine_orient1|apply AM, affine_scale, AM, affine_orient]. }
  set (o := orient (place a) (place b) (place c)) in *.
  exists (fun q => / o * f q)%R, a, b, c, da, db, dc. split; [apply affine_scale, AF|].
  assert (FA : f (place a) = (o * Rabs da)%R) by (unfold f, o, orient; ring).
  assert (FB : f (place b) = (o * Rabs db)%R) by (unfold f, o, orient; ring).
  assert (FC : f (place c) = (o * Rabs dc)%R) by (unfold f, o, orient; ring).
  assert (FX : f x = (o * r)%R).
  { rewrite E. rewrite (affine_mix f _ _ _ _ _ _ AF S), FA, FB, FC, R. ring. }
  rewrite FA, FB, FC, FX. split; [field; exact O|]. split; [exact O|]. do 6 (split; [assumption|]). split; [field; exact O|]. split; field; exact O.
Qed.

Lemma linear_same pts depths i j k i' j' k' x r r' : linear pts depths i j k x r -> linear pts depths i' j' k' x r' ->
  (forall h, h = i \/ h = j \/ h = k -> h = i' \/ h = j' \/ h = k') -> r = r'.
Proof.
  intros H H' SUB. apply linear_fun in H. apply linear_fun in H'.
  destruct H as (f & a & b & c & da & db & dc & AF & R & O & A & B & C & DA & DB & DC & FA & FB & FC).
  destruct H' as (f' & a' & b' & c' & da' & db' & dc' & AF' & R' & _ & A' & B' & C' & DA' & DB' & DC' & FA' & FB' & FC').
  assert (K : forall h q e, nth_error pts h = Some q -> nth_error depths h = Some e -> h = i \/ h = j \/ h = k -> f' (place q) = Rabs e).
  { intros h q e Q E I. destruct (SUB h I) as [->|[->| ->]]; congruence. }
  assert (Z : (f x - f' x = 0)%R).
  { apply (affine_zero (fun q => f q - f' q)%R (place a) (place b) (place c)); [apply affine_minus; assumption|exact O|..].
    - rewrite FA, (K i a da); auto. ring.
    - rewrite FB, (K j b db); auto. ring.
    - rewrite FC, (K k c dc); auto. ring. }
  lra.
Qed.

Section Query.
Variables (es em : Q) (p : point) (l : list point) (order : list Z) (ch : choices) (fuel : nat) (W : ground).
Variables (solve : GeomModel.pt -> GeomModel.pt -> GeomModel.pt -> R * R * R -> R * R * R) (units : list vec) (depths : list R).
Let d := maxDim p l.
Let g := exact (es * d) (em * d).
Hypothesis FS : forall i (s : list nat), s <> [] -> fst (ch i) s < length s.
Hypothesis PM : Permutation order (map Z.of_nat (seq 0 (S (length l)))).
Hypothesis GP : general_position place g (corner0 p l :: corner1 p l :: corner2 p l :: p :: l).
Hypothesis SOLVE : affine_solver solve.
Hypothesis UNIT : Forall (fun n => vnorm n = 1%R) units.
Hypothesis LU : length units = S (length l).
Hypothesis MAKE : make_ground es em p l units depths order ch fuel = Ok W.
Let T := g_triang W.
Let m := t_mesh T.
Notation AT := (at_vertex place).
Notation ask x fs coin f := (depth_at solve es em p l W x fs coin f).

Lemma made : triangulate es em p l order ch fuel = Ok T /\ length depths = S (length l) /\ g_refs W = ref_depths units depths.
Proof using MAKE.
  unfold make_ground in MAKE. destruct (triangulate es em p l order ch fuel) as [T'| | | |]; try discriminate MAKE. cbn [bind] in MAKE.
  destruct (length (p :: l) =? length depths) eqn:L; [|discriminate MAKE]. apply Nat.eqb_eq in L. injection MAKE as EW. unfold T. rewrite <- EW. cbn [g_triang g_refs]. split; [reflexivity|]. split; [symmetry; exact L|reflexivity].
Qed.

Let RUN := proj1 made.
Let LD := proj1 (proj2 made).

(** the three outcomes of the query *)
Lemma query x fs coin f : (forall s : list nat, s <> [] -> fs s < length s) ->
  ask x fs coin f = NoFuel \/
  (ask x fs coin f = Ok None /\ has_depth_at es em p l W x fs coin f = UB /\ isInsideBound g m x = false) \/
  (exists t, ask x fs coin f = Ok None /\ has_depth_at es em p l W x fs coin f = Ok false /\ tri_of m t /\ containsT g m t x = true /\ ~ In t (t_triangles T) /\ isInsideBound g m x = true) \/
  exists t r, ask x fs coin f = Ok (Some r) /\ has_depth_at es em p l W x fs coin f = Ok true /\ tri_of m t /\ containsT g m t x = true /\ In t (t_triangles T) /\ isInsideBound g m x = true /\
    exists i j k, named m t i /\ named m t j /\ named m t k /\ linear (p :: l) depths i j k (place x) r /\ (in_closed place m t (place x) -> in_points (p :: l) i j k (place x)) /\
      (forall v, corner m t v -> IDX m v = Z.of_nat i \/ IDX m v = Z.of_nat j \/ IDX m v = Z.of_nat k) /\
      IDX m (TVm m t 0) = Z.of_nat i /\ IDX m (TVm m t 1) = Z.of_nat j /\ IDX m (TVm m t 2) = Z.of_nat k.
Proof using All.
  intros FF. unfold depth_at, has_depth_at. fold T. fold m. fold d. fold g. rewrite (proj2 (proj2 made)).
  destruct (found es em p l order ch fuel T FS PM GP RUN x fs coin f FF) as [H|[[H IB]|(t & H & TT & CT & IB)]]; fold d in H; fold g in H; fold m in H; rewrite H; cbn [bind].
  - left. reflexivity.
  - right. left. auto.
  - right. right. pose proof (listed_false es em p l order ch fuel T FS PM GP RUN t TT) as LF. fold m in LF. cbn [at_boundary]. destruct (isIncidentToBoundary m t) eqn:IN.
    + left. exists t. split; [reflexivity|]. split; [reflexivity|]. split; [exact TT|]. split; [exact CT|]. split; [|exact IB]. intros I. apply LF in I. discriminate I.
    + right. assert (I : In t (t_triangles T)) by (apply LF; reflexivity).
      destruct (value es em p l order ch fuel T FS PM GP RUN solve units depths SOLVE UNIT LU LD t x I) as (r & V & N). exists t, r. fold m in V. split; [exact V|]. split; [reflexivity|]. auto 8.
Qed.

(** the answer *)
Lemma answer x fs coin f : (forall s : list nat, s <> [] -> fs s < length s) ->
  ask x fs coin f = NoFuel \/ ask x fs coin f = Ok None \/
  exists r t i j k, ask x fs coin f = Ok (Some r) /\ In t (t_triangles T) /\ named m t i /\ named m t j /\ named m t k /\
    linear (p :: l) depths i j k (place x) r /\ (on_edge g m x \/ in_points (p :: l) i j k (place x)).
Proof using All.
  intros FF. destruct (query x fs coin f FF) as [H|[(H & _)|[(t & H & _)|(t & r & H & _ & TT & CT & I & _ & i & j & k & N1 & N2 & N3 & LI & CL & _)]]]; [left; exact H|right; left; exact H|right; left; exact H|].
  right. right. exists r, t, i, j, k. repeat (split; [assumption|]). destruct (contains_edge es em p l order ch fuel T FS PM GP RUN t x TT CT) as [E|E]; [left; exact E|right; apply CL, E].
Qed.

Lemma hull_listed x : inside_hull (p :: l) x -> exists t, In t (t_triangles T) /\ in_closed place m t x.
Proof using All.
  intros (a & b & c & A & B & C & O & I). pose proof (triangulate_delaunay es em p l order ch fuel T FS PM GP RUN) as (_ & E2 & _). apply (E2 a b c x A B C O I).
Qed.

(** strictly inside the hull *)
Lemma inside_answer x fs coin f : (forall s : list nat, s <> [] -> fs s < length s) -> (0 < es)%Q -> ~ on_edge g m x -> inside_hull (p :: l) (place x) ->
  ask x fs coin f = NoFuel \/
  exists r t i j k, ask x fs coin f = Ok (Some r) /\ In t (t_triangles T) /\ named m t i /\ named m t j /\ named m t k /\
    linear (p :: l) depths i j k (place x) r /\ in_points (p :: l) i j k (place x).
Proof using All.
  intros FF ES NE HU. destruct (hull_listed (place x) HU) as (t' & I' & CL').
  pose proof (proj1 (run_listed es em p l order ch fuel T FS PM GP RUN t') I') as [TT' _]. fold m in TT'.
  pose proof (closed_open es em p l order ch fuel T FS PM GP RUN t' x ES TT' NE CL') as OP'.
  pose proof (run_good es em p l order ch fuel T FS PM GP RUN) as [K B]. fold d in K. fold g in K. fold m in K, B, OP'.
  destruct (query x fs coin f FF) as [H|[(H & _ & IB)|[(t & H & _ & TT & CT & NI & _)|(t & r & H & _ & TT & CT & I & _ & i & j & k & N1 & N2 & N3 & LI & CL & _)]]].
  - left. exact H.
  - exfalso. assert (IN : inside (AT m 0) (AT m 1) (AT m 2) (place x)).
    { destruct HU as (a & b & c & A & Bb & C & O & (u & v & w & U & V & Wp & S & E)).
      pose proof (run_mesh es em p l order ch fuel T FS PM GP RUN) as (_ & _ & P0 & P1 & P2). fold m in P0, P1, P2. unfold at_vertex. rewrite P0, P1, P2.
      assert (D : (0 < maxDim p l)%Q) by (apply (gp_dim (es * d) (em * d)), (gp_prefix _ _ [corner0 p l; corner1 p l; corner2 p l] (p :: l)), GP).
      destruct (box_inside p l a D A) as (a1 & a2 & a3 & A1 & A2 & A3 & SA & EA). destruct (box_inside p l b D Bb) as (b1 & b2 & b3 & B1 & B2 & B3 & SB & EB). destruct (box_inside p l c D C) as (c1 & c2 & c3 & C1 & C2 & C3 & SC & EC).
      exists (u * a1 + v * b1 + w * c1)%R, (u * a2 + v * b2 + w * c2)%R, (u * a3 + v * b3 + w * c3)%R.
      assert (PP : forall y1 y2 y3, (0 < y1 -> 0 < y2 -> 0 < y3 -> 0 < u * y1 + v * y2 + w * y3)%R).
      { intros y1 y2 y3 Y1 Y2 Y3. pose proof (Rmult_lt_0_compat _ _ U Y1). pose proof (Rmult_lt_0_compat _ _ V Y2). pose proof (Rmult_lt_0_compat _ _ Wp Y3). lra. }
      split; [apply PP; assumption|]. split; [apply PP; assumption|]. split; [apply PP; assumption|]. split.
      - replace (u * a1 + v * b1 + w * c1 + (u * a2 + v * b2 + w * c2) + (u * a3 + v * b3 + w * c3))%R with (u * (a1 + a2 + a3) + v * (b1 + b2 + b3) + w * (c1 + c2 + c3))%R by ring. rewrite SA, SB, SC. lra.
      - rewrite E, EA, EB, EC. unfold mix. cbn [fst snd]. f_equal; ring. }
    pose proof (inside_true g place (exact_ok _ _) (POS m 0) (POS m 1) (POS m 2) x IN) as Q. unfold isInsideBound in IB. congruence.
  - exfalso. destruct (contains_edge es em p l order ch fuel T FS PM GP RUN t x TT CT) as [E|E]; [exact (NE E)|]. pose proof (closed_open es em p l order ch fuel T FS PM GP RUN t x ES TT NE E) as OP.
    assert (t = t') by apply (k_pl _ _ _ K t t' (place x) TT TT' OP OP'). subst t'. exact (NI I').
  - right. exists r, t, i, j, k. repeat (split; [assumption|]). destruct (contains_edge es em p l order ch fuel T FS PM GP RUN t x TT CT) as [E|E]; [contradiction|apply CL, E].
Qed.

(** outside the hull *)
Lemma outside_answer x fs coin f : (forall s : list nat, s <> [] -> fs s < length s) -> ~ on_edge g m x -> ~ in_hull (p :: l) (place x) ->
  ask x fs coin f = NoFuel \/ ask x fs coin f = Ok None.
Proof using All.
  intros FF NE HU. destruct (answer x fs coin f FF) as [H|[H|(r & t & i & j & k & _ & _ & _ & _ & _ & _ & [E|(a & b & c & A & B & C & IN)])]]; [auto|auto|contradiction|].
  exfalso. apply HU. exists a, b, c. repeat (split; [eapply nth_error_In; eassumption|]). exact IN.
Qed.

(** between the least and the greatest depth *)
Lemma answer_range x fs coin f lo hi r : (forall s : list nat, s <> [] -> fs s < length s) -> ~ on_edge g m x ->
  Forall (fun h => (lo <= Rabs h <= hi)%R) depths -> ask x fs coin f = Ok (Some r) -> (lo <= r <= hi)%R.
Proof using All.
  intros FF NE RA H. destruct (answer x fs coin f FF) as [H'|[H'|(r' & t & i & j & k & H' & _ & _ & _ & _ & LI & [E|IN])]]; [congruence|congruence|contradiction|].
  assert (r' = r) by congruence. subst r'. destruct LI as (a & b & c & da & db & dc & u & v & w & A & B & C & DA & DB & DC & O & S & E & ->).
  destruct IN as (a' & b' & c' & A' & B' & C' & (u' & v' & w' & U & V & Wn & S' & E')). assert (a' = a) by congruence. assert (b' = b) by congruence. assert (c' = c) by congruence. subst a' b' c'.
  destruct (bary_unique _ _ _ u v w u' v' w' O S S' (eq_trans (eq_sym E) E')) as (-> & -> & ->).
  rewrite Forall_forall in RA. pose proof (RA _ (nth_error_In _ _ DA)) as [A1 A2]. pose proof (RA _ (nth_error_In _ _ DB)) as [B1 B2]. pose proof (RA _ (nth_error_In _ _ DC)) as [C1 C2].
  clear - U V Wn S' A1 A2 B1 B2 C1 C2. assert (W' : w' = (1 - u' - v')%R) by lra.
  pose proof (Rmult_le_compat_l _ _ _ U A1). pose proof (Rmult_le_compat_l _ _ _ U A2). pose proof (Rmult_le_compat_l _ _ _ V B1). pose proof (Rmult_le_compat_l _ _ _ V B2). pose proof (Rmult_le_compat_l _ _ _ Wn C1). pose proof (Rmult_le_compat_l _ _ _ Wn C2).
  assert (lo = u' * lo + v' * lo + w' * lo)%R by (rewrite W'; ring). assert (hi = u' * hi + v' * hi + w' * hi)%R by (rewrite W'; ring). lra.
Qed.

(** at a point given *)
Lemma point_answer x i di fs coin f : (forall s : list nat, s <> [] -> fs s < length s) -> nth_error (p :: l) i = Some x -> nth_error depths i = Some di ->
  ask x fs coin f = NoFuel \/ ask x fs coin f = Ok None \/ ask x fs coin f = Ok (Some (Rabs di)).
Proof using All.
  intros FF X DI. destruct (query x fs coin f FF) as [H|[(H & _)|[(t & H & _)|(t & r & H & _ & TT & CT & I & _ & i1 & i2 & i3 & N1 & N2 & N3 & LI & _ & AL & _)]]]; [left; exact H|right; left; exact H|right; left; exact H|].
  right. right. rewrite H. f_equal. f_equal.
  pose proof (run_vertices es em p l order ch fuel T FS PM GP RUN) as (NV & VP & PV & INJ). fold m in NV, VP, PV, INJ.
  pose proof (run_good es em p l order ch fuel T FS PM GP RUN) as [K B]. fold d in K. fold g in K. fold m in K, B. pose proof (k_con _ _ _ K) as C.
  destruct (PV i x X) as (v & [V1 V2] & PX & IX).
  assert (CV : corner m t v).
  { assert (DEC : corner m t v \/ ~ corner m t v) by (unfold corner; destruct (Nat.eq_dec (TVm m t 0) v); [tauto|]; destruct (Nat.eq_dec (TVm m t 1) v); [tauto|]; destruct (Nat.eq_dec (TVm m t 2) v); tauto).
    destruct DEC as [Q|Q]; [exact Q|exfalso]. assert (Q0 : v <> TVm m t 0) by (intros ->; apply Q; left; reflexivity). assert (Q1 : v <> TVm m t 1) by (intros ->; apply Q; right; left; reflexivity). assert (Q2 : v <> TVm m t 2) by (intros ->; apply Q; right; right; reflexivity).
    assert (C0 : corner m t (TVm m t 0)) by (left; reflexivity). assert (C1 : corner m t (TVm m t 1)) by (right; left; reflexivity). assert (C2 : corner m t (TVm m t 2)) by (right; right; reflexivity).
    pose proof (c_corners _ C t _ TT C0) as L0. pose proof (c_corners _ C t _ TT C1) as L1. pose proof (c_corners _ C t _ TT C2) as L2. destruct (c_tri _ C t TT) as (N01 & N02 & N12).
    assert (SE : forall e, side m t e -> containsE g m e x = false).
    { intros e SD. unfold containsE. rewrite <- PX. pose proof (proj1 (c_side _ C t e TT SD)) as EE. assert (CE0 : corner m t (EV m e 0)) by (apply (c_inner _ C t e _ TT SD); left; reflexivity). assert (CE1 : corner m t (EV m e 1)) by (apply (c_inner _ C t e _ TT SD); right; reflexivity).
      apply (k_gen _ _ _ K); [apply (c_corners _ C t _ TT CE0)|apply (c_corners _ C t _ TT CE1)|apply (c_edge _ C e EE)|exact V2|intros ->; exact (Q CE0)|intros ->; exact (Q CE1)]. }
    unfold containsT in CT. rewrite (SE (TE m t 0)), (SE (TE m t 1)), (SE (TE m t 2)) in CT by (unfold side; auto). cbn [orb] in CT. rewrite <- PX in CT.
    apply (inside_test place g (exact_ok _ _)) in CT.
    - assert (KT : KM m (TVm m t 0) (TVm m t 1) (TVm m t 2)) by (exists t; split; [exact TT|left; auto]).
      apply (x_no_inside (mesh_complex place g m K B) _ _ _ v KT V2 Q0 Q1 Q2). exact CT.
    - apply (k_gen _ _ _ K); assumption || congruence.
    - apply (k_gen _ _ _ K); assumption || congruence.
    - apply (k_gen _ _ _ K); assumption || congruence.
    - apply (k_gen _ _ _ K); assumption || congruence. }
  destruct (linear_fun _ _ _ _ _ _ _ LI) as (h & a & b & c & da & db & dc & AF & R & O & A & Bb & Cc & DA & DB & DC & FA & FB & FC).
  rewrite R. destruct (AL v CV) as [E|[E|E]]; rewrite IX in E; apply Nat2Z.inj in E; subst; congruence.
Qed.
End Query.
