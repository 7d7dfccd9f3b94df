(** The finished triangulation: empty circles, coverage of the hull, uniqueness. *)
From Coq Require Import ZArith QArith List Bool Arith Lia Reals Lra Psatz Qreals Permutation.
From Verif Require Import Outcome DelModel DelSpec DelFields DelRewire DelFlip DelFlip2 DelDivide DelSplit DelHist DelPlaneSpec DelPlane DelGen DelRun DelRun2 DelRun3 DelThm DelExact.
From Verif Require Import DelDiscSpec DelDisc DelWalk DelStar DelMove DelMesh DelLegal DelInsert DelCover.
Import ListNotations.
Open Scope nat_scope.

Lemma disc_lift l a b c d : orient a b c <> 0%R -> plane l a b c -> (in_disc a b c d <-> (sq d <= l d)%R).
Proof.
  intros O L. split.
  - intros (o & E1 & E2 & H). set (l' := fun q => (sq q - dist2 o q + dist2 o a)%R).
    assert (L' : plane l' a b c).
    { split; [exists (2 * fst o)%R, (2 * snd o)%R, (dist2 o a - sq o)%R; intros q; unfold l', sq, dist2; ring|]. unfold l'. lra. }
    rewrite (plane_unique _ _ _ _ _ d O L L'). unfold l'. lra.
  - intros H. destruct L as ((A & B & C & L) & LA & LB & LC). set (o := (A / 2, B / 2)%R). exists o.
    assert (D : forall q, dist2 o q = (sq q - l q + C + sq o)%R) by (intros q; rewrite L; unfold dist2, sq, o; cbn [fst snd]; field).
    rewrite !D. lra.
Qed.

Section Final.
Context {P : Type}.
Variable pos : P -> pt.
Variable g : geometry P.
Hypothesis SIDES : exact_sides pos g.
Implicit Types m : mesh P.
Notation AT := (at_vertex pos).
Notation good := (good pos g).

Lemma tri_km m t : tri_of m t -> KM m (TV m t 0) (TV m t 1) (TV m t 2).
Proof. intros T. exists t. split; [exact T|]. unfold perm3. auto. Qed.

Lemma tri_circle m : delaunay pos m -> empty_circles pos m.
Proof.
  intros D t u T US U I. pose proof (US _ (or_introl eq_refl)) as U0. pose proof (US _ (or_intror (or_introl eq_refl))) as U1. pose proof (US _ (or_intror (or_intror eq_refl))) as U2.
  destruct (Nat.eq_dec u (TV m t 0)) as [->|N0]; [apply circle_rot in I; apply (circle_self _ _ _ I)|].
  destruct (Nat.eq_dec u (TV m t 1)) as [->|N1]; [apply circle_rot, circle_rot in I; apply (circle_self _ _ _ I)|].
  destruct (Nat.eq_dec u (TV m t 2)) as [->|N2]; [apply (circle_self _ _ _ I)|].
  apply (d_circle _ _ _ D _ _ _ u (tri_km m t T)); assumption.
Qed.

Lemma tri_hull m : good m -> bounded pos m -> delaunay pos m -> covers_hull pos m.
Proof.
  intros K B D x y z q X Y Z I O. pose proof (mesh_complex pos g m K B) as HC.
  destruct (k_fill _ _ _ K q) as (t & T & CL).
  { destruct (proj2 B x X) as (x0 & x1 & x2 & X0 & X1 & X2 & XS & XE). destruct (proj2 B y Y) as (y0 & y1 & y2 & Y0 & Y1 & Y2 & YS & YE). destruct (proj2 B z Z) as (z0 & z1 & z2 & Z0 & Z1 & Z2 & ZS & ZE).
    destruct I as (r & s & w & R & S & W & SM & ->). rewrite XE, YE, ZE. exists (r * x0 + s * y0 + w * z0)%R, (r * x1 + s * y1 + w * z1)%R, (r * x2 + s * y2 + w * z2)%R. clear - X0 X1 X2 Y0 Y1 Y2 Z0 Z1 Z2 XS YS ZS R S W SM.
    assert (PP : forall a b, (0 < a -> 0 < b -> 0 < a * b)%R) by (intros; apply Rmult_lt_0_compat; assumption).
    pose proof (PP _ _ R X0). pose proof (PP _ _ R X1). pose proof (PP _ _ R X2). pose proof (PP _ _ S Y0). pose proof (PP _ _ S Y1). pose proof (PP _ _ S Y2). pose proof (PP _ _ W Z0). pose proof (PP _ _ W Z1). pose proof (PP _ _ W Z2).
    split; [lra|]. split; [lra|]. split; [lra|]. split; [transitivity (r * (x0 + x1 + x2) + s * (y0 + y1 + y2) + w * (z0 + z1 + z2))%R; [ring|rewrite XS, YS, ZS; lra]|].
    unfold mix. cbn [fst snd]. f_equal; ring. }
  exists t. split; [exact T|]. split; [|exact CL]. pose proof (cover HC D x y z X Y Z O _ _ _ q (tri_km m t T) CL I) as (C0 & C1 & C2).
  destruct (x_corner _ _ _ HC _ _ _ (tri_km m t T)) as (R0 & R1 & R2 & _). intros v [<-|[<-|<-]]; split; assumption.
Qed.

Lemma tri_unique m : good m -> bounded pos m -> delaunay pos m -> has_empty pos m.
Proof.
  intros K B D x y z X Y Z O EM. pose proof (mesh_complex pos g m K B) as HC.
  set (c := mix (1/3) (AT m x) (1/3) (AT m y) (1/3) (AT m z)).
  assert (IC : inside (AT m x) (AT m y) (AT m z) c) by (exists (1/3)%R, (1/3)%R, (1/3)%R; repeat (split; [lra|]); reflexivity).
  destruct (tri_hull m K B D x y z c X Y Z IC O) as (t & T & US & CL). exists t. split; [exact T|].
  pose proof (US _ (or_introl eq_refl)) as U0. pose proof (US _ (or_intror (or_introl eq_refl))) as U1. pose proof (US _ (or_intror (or_intror eq_refl))) as U2.
  pose proof (tri_circle m D t) as EC. pose proof (x_area HC _ _ _ (tri_km m t T)) as OT. destruct (c_tri _ (k_con _ _ _ K) t T) as (N1 & N2 & N3).
  unfold in_closed in CL. unfold corner. set (a0 := TV m t 0) in *. set (a1 := TV m t 1) in *. set (a2 := TV m t 2) in *.
  destruct (plane_ex _ _ _ OT) as (l1 & L1). destruct (plane_ex _ _ _ O) as (l2 & L2).
  assert (F1 : forall u, user m u -> (l1 (AT m u) <= sq (AT m u))%R).
  { intros u U. apply Rnot_lt_le. intros Q. apply (EC u T US U). apply (circle_lift l1); assumption. }
  assert (F2 : forall u, user m u -> (l2 (AT m u) <= sq (AT m u))%R /\ ((l2 (AT m u) = sq (AT m u)) -> u = x \/ u = y \/ u = z)).
  { intros u U. destruct (Nat.eq_dec u x) as [->|NX]; [split; [right; apply L2|auto]|]. destruct (Nat.eq_dec u y) as [->|NY]; [split; [right; apply L2|auto]|]. destruct (Nat.eq_dec u z) as [->|NZ]; [split; [right; apply L2|auto]|].
    assert (Q : ~ (sq (AT m u) <= l2 (AT m u))%R) by (intros Q; apply (EM u U NX NY NZ); apply (disc_lift l2); assumption). split; [|intros Q'; exfalso]; lra. }
  (* a point inside both *)
  destruct (inside_open _ _ _ c (mix (1/3) (AT m a0) (1/3) (AT m a1) (1/3) (AT m a2)) O IC) as (d & D0 & D1 & G). specialize (G d ltac:(lra)).
  set (q := toward c _ d) in G.
  assert (IT : inside (AT m a0) (AT m a1) (AT m a2) q).
  { destruct CL as (r & s & w & R & S & W & SM & E). exists ((1 - d) * r + d * (1/3))%R, ((1 - d) * s + d * (1/3))%R, ((1 - d) * w + d * (1/3))%R. unfold q. clear - R S W SM E D0 D1.
    assert (0 <= (1 - d) * r)%R by (apply Rmult_le_pos; lra). assert (0 <= (1 - d) * s)%R by (apply Rmult_le_pos; lra). assert (0 <= (1 - d) * w)%R by (apply Rmult_le_pos; lra).
    split; [lra|]. split; [lra|]. split; [lra|]. split; [transitivity ((1 - d) * (r + s + w) + d)%R; [lra|rewrite SM; ring]|]. rewrite E. unfold toward, mix. cbn [fst snd]. f_equal; ring. }
  assert (Z0 : (forall r s w p0 p1 p2, 0 < r -> 0 < s -> 0 < w -> 0 <= p0 -> 0 <= p1 -> 0 <= p2 -> r * p0 + s * p1 + w * p2 <= 0 -> p0 = 0 /\ p1 = 0 /\ p2 = 0)%R).
  { clear. intros r s w p0 p1 p2 R S W A B C H. assert (0 <= r * p0)%R by (apply Rmult_le_pos; lra). assert (0 <= s * p1)%R by (apply Rmult_le_pos; lra). assert (0 <= w * p2)%R by (apply Rmult_le_pos; lra).
    repeat split; [apply (Rmult_eq_reg_l r)|apply (Rmult_eq_reg_l s)|apply (Rmult_eq_reg_l w)]; lra. }
  destruct L1 as (AL1 & A0 & A1 & A2). destruct L2 as (AL2 & B0 & B1 & B2).
  assert (LE : (l1 q <= l2 q)%R).
  { destruct G as (r & s & w & R & S & W & SM & ->). rewrite (affine_mix _ _ _ _ _ _ _ AL1 SM), (affine_mix _ _ _ _ _ _ _ AL2 SM), B0, B1, B2.
    pose proof (F1 x X). pose proof (F1 y Y). pose proof (F1 z Z). apply Rplus_le_compat; [apply Rplus_le_compat|]; apply Rmult_le_compat_l; lra. }
  assert (EQ : (sq (AT m a0) - l2 (AT m a0) = 0 /\ sq (AT m a1) - l2 (AT m a1) = 0 /\ sq (AT m a2) - l2 (AT m a2) = 0)%R).
  { pose proof (proj1 (F2 a0 U0)). pose proof (proj1 (F2 a1 U1)). pose proof (proj1 (F2 a2 U2)).
    destruct IT as (r & s & w & R & S & W & SM & E). rewrite E in LE. rewrite (affine_mix _ _ _ _ _ _ _ AL1 SM), (affine_mix _ _ _ _ _ _ _ AL2 SM), A0, A1, A2 in LE.
    apply (Z0 r s w); lra. }
  destruct EQ as (E0 & E1 & E2). clear - F2 E0 E1 E2 U0 U1 U2 N1 N2 N3.
  pose proof (proj2 (F2 a0 U0) ltac:(lra)). pose proof (proj2 (F2 a1 U1) ltac:(lra)). pose proof (proj2 (F2 a2 U2) ltac:(lra)). clearbody a0 a1 a2. clear - H H0 H1 N1 N2 N3. intuition (subst; congruence || auto).
Qed.

(** ** The insertions *)
Hypothesis CIRC : exact_circles pos g.

Lemma stage_delaunay b0 b1 b2 (ch : choices) fuel order n m inv :
  (forall i (l : list nat), l <> [] -> fst (ch i) l < length l) ->
  general_position pos g (b0 :: b1 :: b2 :: map snd order) ->
  Forall (fun p => inside (pos b0) (pos b1) (pos b2) (pos p)) (map snd order) ->
  insert_all g ch fuel order 0 (bounding b0 b1 b2) (fun _ => 0%Z) n = Ok (m, inv) ->
  empty_circles pos m /\ covers_hull pos m /\ has_empty pos m.
Proof.
  intros FS GP IN H.
  assert (GB : general_position pos g [b0; b1; b2]) by (apply (gp_prefix g pos [b0; b1; b2] (map snd order)), GP).
  pose proof (start_good pos g b0 b1 b2 GB) as K. destruct (start_bounded pos b0 b1 b2) as [SB SD].
  assert (R : good m /\ bounded pos m /\ delaunay pos m).
  { refine (run_delaunay pos g SIDES CIRC ch fuel n FS order [b0; b1; b2] 0 (bounding b0 b1 b2) (fun _ => 0%Z) 3 1 m inv K SB SD (bounding_census b0 b1 b2) _ _ _ _ _ H).
    - lia.
    - reflexivity.
    - intros u U. cbn in U. each3 u U; reflexivity.
    - exact GP.
    - apply Forall_forall. intros p Q. rewrite Forall_forall in IN. apply (inside_true g pos SIDES b0 b1 b2 p (IN p Q)). }
  destruct R as (R1 & R2 & R3). split; [apply tri_circle, R3|]. split; [apply tri_hull|apply tri_unique]; assumption.
Qed.

Lemma construct_delaunay b0 b1 b2 (ch : choices) fuel order T :
  (forall i (l : list nat), l <> [] -> fst (ch i) l < length l) ->
  general_position pos g (b0 :: b1 :: b2 :: map snd order) ->
  Forall (fun p => inside (pos b0) (pos b1) (pos b2) (pos p)) (map snd order) ->
  construct g b0 b1 b2 ch fuel order = Ok T ->
  empty_circles pos (t_mesh T) /\ covers_hull pos (t_mesh T) /\ has_empty pos (t_mesh T).
Proof.
  intros FS GP IN H. unfold construct in H.
  destruct (insert_all g ch fuel order 0 (bounding b0 b1 b2) (fun _ => 0%Z) (Z.of_nat (length order))) as [[m inv]| | | |] eqn:HI; try discriminate. cbn [bind] in H.
  destruct (fill_vertices m inv 0 (nv m - 3)) as [vs| | | |]; try discriminate. cbn [bind] in H. injection H as <-. cbn [t_mesh].
  apply (stage_delaunay b0 b1 b2 ch fuel order _ m inv FS GP IN HI).
Qed.
End Final.

(** ** Exact arithmetic *)
Lemma exact_circle e1 e2 : exact_circles place (exact e1 e2).
Proof.
  intros a b c d O. cbn [g_delaunay exact]. unfold isABDelaunay. cbv zeta. rewrite Qle_bool_iff. destruct (plane_ex _ _ _ O) as (l & L). rewrite (circle_lift l _ _ _ _ O L).
  set (E := (_ * _)%Q). assert (V : Q2R E = (orient (place a) (place b) (place c) * orient (place a) (place b) (place c) * (l (place d) - sq (place d)))%R).
  { destruct L as ((A & B & C & L) & LA & LB & LC). rewrite L in LA, LB, LC. rewrite L. unfold E, cross2, dot2, psub. cbn [fst snd].
    repeat rewrite ?Q2R_mult, ?Q2R_plus, ?Q2R_minus. unfold orient, place, sq in *. cbn [fst snd] in *.
    set (ax := Q2R (fst a)) in *. set (ay := Q2R (snd a)) in *. set (bx := Q2R (fst b)) in *. set (by_ := Q2R (snd b)) in *. set (cx := Q2R (fst c)) in *. set (cy := Q2R (snd c)) in *. set (dx := Q2R (fst d)) in *. set (dy := Q2R (snd d)) in *.
    clearbody ax ay bx by_ cx cy dx dy. clear - LA LB LC.
    replace ((ax - dx) * (ax - dx) + (ay - dy) * (ay - dy))%R with (A * ax + B * ay + C - 2 * ax * dx - 2 * ay * dy + (dx * dx + dy * dy))%R by (rewrite LA; ring).
    replace ((bx - dx) * (bx - dx) + (by_ - dy) * (by_ - dy))%R with (A * bx + B * by_ + C - 2 * bx * dx - 2 * by_ * dy + (dx * dx + dy * dy))%R by (rewrite LB; ring).
    replace ((cx - dx) * (cx - dx) + (cy - dy) * (cy - dy))%R with (A * cx + B * cy + C - 2 * cx * dx - 2 * cy * dy + (dx * dx + dy * dy))%R by (rewrite LC; ring). ring. }
  pose proof (sqr_pos _ O) as S. clearbody E. set (k := (l (place d) - sq (place d))%R) in *. set (o := orient (place a) (place b) (place c)) in *.
  assert (KE : (sq (place d) < l (place d) <-> 0 < k)%R) by (unfold k; lra). rewrite KE. clear KE. clearbody k o.
  assert (Z : Q2R 0 = 0%R) by (unfold Q2R; cbn; lra). split.
  - intros H. apply Qle_Rle in H. rewrite V, Z in H. intros Q. assert (0 < o * o * k)%R by (apply Rmult_lt_0_compat; assumption). lra.
  - intros H. apply Rle_Qle. rewrite V, Z. apply Rnot_lt_le in H. assert (0 <= o * o * - k)%R by (apply Rmult_le_pos; lra). lra.
Qed.

(** ** The vertices and the points they were made from *)
Lemma vertex_points {P} (g : geometry P) b0 b1 b2 ch fuel order T : construct g b0 b1 b2 ch fuel order = Ok T ->
  Permutation (map fst order) (map Z.of_nat (seq 0 (length order))) -> nv (t_mesh T) = 3 + length order ->
  forall k ind p, nth_error order k = Some (ind, p) -> POS (t_mesh T) (3 + k) = p /\ IDX (t_mesh T) (3 + k) = ind.
Proof.
  unfold construct. intros H PM NV. apply ok_app in H. destruct H as ([m inv] & HI & H). cbv beta iota in H. apply ok_app in H. destruct H as (vs & HF & H). injection H as <-.
  cbn [t_mesh] in *. pose proof (insert_kept g ch fuel _ order 0 _ _ _ _ HI (perm_nodup _ _ PM) NV eq_refl) as KP. intros k ind p K. destruct (KP k _ p K) as (A & B & _). auto.
Qed.

Section Run.
Variables (es em : Q) (p : point) (l : list point) (order : list Z) (ch : choices) (fuel : nat) (T : @triangulation point).
Let d := maxDim p l.
Hypothesis FS : forall i (s : list nat), s <> [] -> fst (ch i) s < length s.
Hypothesis PM : Permutation order (map Z.of_nat (seq 0 (S (length l)))).
Hypothesis GP : general_position place (exact (es * d) (em * d)) (corner0 p l :: corner1 p l :: corner2 p l :: p :: l).
Hypothesis RUN : triangulate es em p l order ch fuel = Ok T.
Let m := t_mesh T.

Lemma run_vertices : nv m = 3 + S (length l) /\
  (forall v, user m v -> exists i, nth_error (p :: l) i = Some (POS m v) /\ IDX m v = Z.of_nat i) /\
  (forall i q, nth_error (p :: l) i = Some q -> exists v, user m v /\ POS m v = q /\ IDX m v = Z.of_nat i) /\
  (forall u v, user m u -> user m v -> IDX m u = IDX m v -> u = v).
Proof using All.
  assert (NV : nv m = 3 + S (length l)).
  { destruct (triangulate_ok es em p l order ch fuel FS PM GP) as [H|(T' & H & _ & S & _)]; [congruence|]. assert (T' = T) by congruence. subst T'. apply sizes_census in S. unfold m. rewrite (proj1 S). apply Nat.add_comm. }
  split; [exact NV|]. unfold triangulate in RUN. cbv zeta in RUN. set (pts := map (fun i => (i, nth (Z.to_nat i) (p :: l) p)) order) in *.
  assert (LN : length pts = S (length l)).
  { unfold pts. rewrite map_length, (Permutation_length PM), map_length, seq_length. reflexivity. }
  assert (MF : map fst pts = order) by (unfold pts; rewrite map_map; cbn [fst]; apply map_id).
  assert (PF : Permutation (map fst pts) (map Z.of_nat (seq 0 (length pts)))) by (rewrite MF, LN; exact PM).
  assert (VP := vertex_points _ _ _ _ _ _ _ T RUN PF). rewrite LN in VP. specialize (VP NV). fold m in VP.
  assert (NT : forall k i, nth_error order k = Some i -> exists h q, i = Z.of_nat h /\ nth_error (p :: l) h = Some q /\ nth_error pts k = Some (i, q)).
  { intros k i K. assert (I : In i (map Z.of_nat (seq 0 (S (length l))))) by (apply (Permutation_in _ PM), (nth_error_In _ _ K)).
    apply in_map_iff in I. destruct I as (h & <- & I). apply in_seq in I. exists h. destruct (nth_error (p :: l) h) as [q|] eqn:Q; [|apply nth_error_None in Q; cbn [length] in Q; lia].
    exists q. split; [reflexivity|]. split; [reflexivity|]. unfold pts. rewrite nth_error_map, K. cbn [option_map]. rewrite Nat2Z.id. rewrite (nth_error_nth _ _ p Q). reflexivity. }
  assert (LO : length order = S (length l)) by (rewrite <- MF, map_length; exact LN).
  assert (VK : forall v, user m v -> exists k h q, v = 3 + k /\ nth_error order k = Some (Z.of_nat h) /\ nth_error (p :: l) h = Some q /\ POS m v = q /\ IDX m v = Z.of_nat h).
  { intros v [V1 V2]. exists (v - 3). destruct (nth_error order (v - 3)) as [i|] eqn:K; [|apply nth_error_None in K; lia].
    destruct (NT _ _ K) as (h & q & -> & Q & Q'). exists h, q. destruct (VP _ _ _ Q') as [A B]. replace (3 + (v - 3)) with v in A, B by lia. repeat (split; [assumption || lia || reflexivity|]). exact B. }
  split; [|split].
  - intros v V. destruct (VK v V) as (k & h & q & _ & _ & Q & A & B). exists h. rewrite A. auto.
  - intros i q Q. assert (I : In (Z.of_nat i) order).
    { apply (Permutation_in _ (Permutation_sym PM)). apply in_map_iff. exists i. split; [reflexivity|]. apply in_seq. assert (i < length (p :: l)) by (apply nth_error_Some; congruence). cbn [length] in *. lia. }
    apply In_nth_error in I. destruct I as (k & K). destruct (NT _ _ K) as (h & q' & E & Q' & Q''). apply Nat2Z.inj in E. subst h. assert (q' = q) by congruence. subst q'.
    destruct (VP _ _ _ Q'') as [A B]. exists (3 + k). split; [split; [lia|]|auto]. rewrite NV. assert (k < length order) by (apply nth_error_Some; congruence). lia.
  - intros u v U V E. destruct (VK u U) as (k & h & q & -> & K & Q & _ & B). destruct (VK v V) as (k' & h' & q' & -> & K' & Q' & _ & B'). rewrite B, B' in E. apply Nat2Z.inj in E. subst h'.
    f_equal. apply (proj1 (NoDup_nth_error order)); [|apply nth_error_Some; congruence|congruence].
    rewrite <- MF. apply (perm_nodup _ _ PF).
Qed.

Lemma run_final : empty_circles place m /\ covers_hull place m /\ has_empty place m.
Proof using All.
  assert (D : (0 < maxDim p l)%Q) by (apply (gp_dim (es * d) (em * d)), (gp_prefix _ _ [corner0 p l; corner1 p l; corner2 p l] (p :: l)), GP).
  unfold triangulate in RUN. cbv zeta in RUN. set (pts := map (fun i => (i, nth (Z.to_nat i) (p :: l) p)) order) in *.
  assert (MS : Permutation (p :: l) (map snd pts)).
  { unfold pts. rewrite map_map. cbn [snd]. apply Permutation_sym. eapply perm_trans; [apply Permutation_map, PM|]. rewrite map_map.
    erewrite map_ext; [|intros a; rewrite Nat2Z.id; reflexivity]. change (S (length l)) with (length (p :: l)). rewrite nth_map_id. apply Permutation_refl. }
  apply (construct_delaunay place (exact (es * d) (em * d)) (exact_ok _ _) (exact_circle _ _) (corner0 p l) (corner1 p l) (corner2 p l) ch fuel pts T FS); [| |exact RUN].
  - apply (gp_perm _ _ (corner0 p l :: corner1 p l :: corner2 p l :: p :: l)); [|exact GP]. apply (Permutation_app_head [corner0 p l; corner1 p l; corner2 p l]), MS.
  - apply Forall_forall. intros q Q. apply box_inside; [exact D|]. apply (Permutation_in _ (Permutation_sym MS)), Q.
Qed.

Lemma run_listed t : In t (t_triangles T) <-> tri_of m t /\ forall v, corner m t v -> user m v.
Proof using All.
  destruct (triangulate_ok es em p l order ch fuel FS PM GP) as [H|(T' & H & C & _ & _ & _ & _ & _ & _ & _ & L)]; [congruence|]. assert (T' = T) by congruence. subst T'. rewrite L. fold m.
  split; intros (A & B); (split; [exact A|]); intros v V; [split; [apply B, V|apply (c_corners _ C t v A V)]|apply B, V].
Qed.
End Run.

Theorem triangulate_delaunay (es em : Q) p l order ch fuel T :
  let d := maxDim p l in let m := t_mesh T in
  (forall i (s : list nat), s <> [] -> fst (ch i) s < length s) ->
  Permutation order (map Z.of_nat (seq 0 (S (length l)))) ->
  general_position place (exact (es * d) (em * d)) (corner0 p l :: corner1 p l :: corner2 p l :: p :: l) ->
  triangulate es em p l order ch fuel = Ok T ->
  (forall t q, In t (t_triangles T) -> In q (p :: l) ->
     ~ in_circle (place (POS m (TV m t 0))) (place (POS m (TV m t 1))) (place (POS m (TV m t 2))) (place q)) /\
  (forall x y z r, In x (p :: l) -> In y (p :: l) -> In z (p :: l) -> orient (place x) (place y) (place z) <> 0%R ->
     inside (place x) (place y) (place z) r -> exists t, In t (t_triangles T) /\ in_closed place m t r) /\
  (forall i j k x y z, nth_error (p :: l) i = Some x -> nth_error (p :: l) j = Some y -> nth_error (p :: l) k = Some z -> i <> j -> i <> k -> j <> k ->
     (forall h u, nth_error (p :: l) h = Some u -> h <> i -> h <> j -> h <> k -> ~ in_disc (place x) (place y) (place z) (place u)) ->
     exists t, In t (t_triangles T) /\ named m t i /\ named m t j /\ named m t k).
Proof.
  intros d m FS PM GP RUN. pose proof (run_final es em p l order ch fuel T FS PM GP RUN) as (F1 & F2 & F3).
  pose proof (run_vertices es em p l order ch fuel T FS PM GP RUN) as (NV & VP & PV & INJ). pose proof (run_listed es em p l order ch fuel T FS PM GP RUN) as L. fold m in F1, F2, F3, NV, VP, PV, INJ, L.
  assert (PV' : forall q, In q (p :: l) -> exists v, user m v /\ POS m v = q) by (intros q I; apply In_nth_error in I; destruct I as (i & I); destruct (PV i q I) as (v & V & A & _); eauto).
  split; [|split].
  - intros t q I Q. apply L in I. destruct I as [TT US]. destruct (PV' q Q) as (v & V & <-). apply (F1 t v TT US V).
  - intros x y z r X Y Z O I. destruct (PV' x X) as (vx & VX & <-). destruct (PV' y Y) as (vy & VY & <-). destruct (PV' z Z) as (vz & VZ & <-).
    destruct (F2 vx vy vz r VX VY VZ I O) as (t & TT & US & CL). exists t. split; [apply L; auto|exact CL].
  - intros i j k x y z X Y Z IJ IK JK EM. destruct (PV i x X) as (vx & VX & <- & IX). destruct (PV j y Y) as (vy & VY & <- & IY). destruct (PV k z Z) as (vz & VZ & <- & IZ).
    assert (O : orient (place (POS m vx)) (place (POS m vy)) (place (POS m vz)) <> 0%R).
    { destruct (GP (3 + i) (3 + j) _ _ X Y ltac:(lia)) as [_ G]. apply (G (3 + k) _ Z); lia. }
    destruct (F3 vx vy vz VX VY VZ O) as (t & TT & C1 & C2 & C3).
    { intros u U NX NY NZ. destruct (VP u U) as (h & Q & IU). apply (EM h _ Q); intros ->; [apply NX|apply NY|apply NZ]; apply INJ; congruence. }
    exists t. split; [|repeat split; [exists vx|exists vy|exists vz]; auto]. apply L. split; [exact TT|].
    intros w W.
    assert (E : w = vx \/ w = vy \/ w = vz).
    { assert (D1 : vx <> vy) by (intros ->; apply IJ, Nat2Z.inj; congruence). assert (D2 : vx <> vz) by (intros ->; apply IK, Nat2Z.inj; congruence). assert (D3 : vy <> vz) by (intros ->; apply JK, Nat2Z.inj; congruence).
      clear - C1 C2 C3 W D1 D2 D3. unfold corner in *. destruct C1 as [A|[A|A]], C2 as [B|[B|B]], C3 as [C|[C|C]]; try congruence; destruct W as [D|[D|D]]; try (left; congruence); try (right; left; congruence); right; right; congruence. }
    destruct E as [->|[->| ->]]; assumption.
Qed.

(** with no four points on a circle the triangles do not depend on the order and the draws *)
Theorem triangulate_unique (es em : Q) p l order order' ch ch' fuel fuel' T T' :
  let d := maxDim p l in
  (forall i (s : list nat), s <> [] -> fst (ch i) s < length s) -> (forall i (s : list nat), s <> [] -> fst (ch' i) s < length s) ->
  Permutation order (map Z.of_nat (seq 0 (S (length l)))) -> Permutation order' (map Z.of_nat (seq 0 (S (length l)))) ->
  general_position place (exact (es * d) (em * d)) (corner0 p l :: corner1 p l :: corner2 p l :: p :: l) ->
  (forall i j k h x y z u, nth_error (p :: l) i = Some x -> nth_error (p :: l) j = Some y -> nth_error (p :: l) k = Some z -> nth_error (p :: l) h = Some u ->
     NoDup [i; j; k; h] -> ~ exists o, dist2 o (place x) = dist2 o (place y) /\ dist2 o (place y) = dist2 o (place z) /\ dist2 o (place z) = dist2 o (place u)) ->
  triangulate es em p l order ch fuel = Ok T -> triangulate es em p l order' ch' fuel' = Ok T' ->
  forall t, In t (t_triangles T) -> exists t', In t' (t_triangles T') /\ forall i, named (t_mesh T) t i <-> named (t_mesh T') t' i.
Proof.
  intros d FS FS' PM PM' GP NC RUN RUN' t I.
  pose proof (triangulate_delaunay es em p l order ch fuel T FS PM GP RUN) as (E1 & _ & _).
  pose proof (triangulate_delaunay es em p l order' ch' fuel' T' FS' PM' GP RUN') as (_ & _ & E3).
  pose proof (run_vertices es em p l order ch fuel T FS PM GP RUN) as (NV & VP & PV & INJ). pose proof (run_listed es em p l order ch fuel T FS PM GP RUN t) as L.
  pose proof (run_vertices es em p l order' ch' fuel' T' FS' PM' GP RUN') as (NV' & VP' & PV' & INJ'). pose proof (run_listed es em p l order' ch' fuel' T' FS' PM' GP RUN') as L'.
  set (m := t_mesh T) in *. set (m' := t_mesh T') in *. pose proof (proj1 L I) as [TT US].
  assert (CON : consistent m).
  { destruct (triangulate_ok es em p l order ch fuel FS PM GP) as [H|(T0 & H & C & _)]; [congruence|]. assert (T0 = T) by congruence. subst T0. exact C. }
  assert (CON' : consistent m').
  { destruct (triangulate_ok es em p l order' ch' fuel' FS' PM' GP) as [H|(T0 & H & C & _)]; [congruence|]. assert (T0 = T') by congruence. subst T0. exact C. }
  destruct (c_tri _ CON t TT) as (N1 & N2 & N3).
  pose proof (US _ (or_introl eq_refl)) as U0. pose proof (US _ (or_intror (or_introl eq_refl))) as U1. pose proof (US _ (or_intror (or_intror eq_refl))) as U2.
  destruct (VP _ U0) as (i & QI & II). destruct (VP _ U1) as (j & QJ & IJ). destruct (VP _ U2) as (k & QK & IK).
  assert (DI : i <> j /\ i <> k /\ j <> k) by (repeat split; intros ->; [apply N1|apply N2|apply N3]; apply INJ; congruence). destruct DI as (D1 & D2 & D3).
  destruct (E3 i j k _ _ _ QI QJ QK D1 D2 D3) as (t' & I' & M1 & M2 & M3).
  { intros h u Q H1 H2 H3 (o & O1 & O2 & O3). apply Rle_lt_or_eq_dec in O3. destruct O3 as [O3|O3].
    - apply (E1 t u I (nth_error_In _ _ Q)). exists o. auto.
    - apply (NC i j k h _ _ _ _ QI QJ QK Q); [|exists o; repeat split; congruence].
      repeat constructor; cbn [In]; intuition congruence. }
  exists t'. split; [exact I'|]. pose proof (proj1 (L' t') I') as [TT' US'].
  destruct M1 as (v1 & C1 & X1). destruct M2 as (v2 & C2 & X2). destruct M3 as (v3 & C3 & X3).
  assert (E1' : v1 <> v2) by (intros ->; apply D1, Nat2Z.inj; congruence). assert (E2' : v1 <> v3) by (intros ->; apply D2, Nat2Z.inj; congruence). assert (E3' : v2 <> v3) by (intros ->; apply D3, Nat2Z.inj; congruence).
  intros h. split.
  - intros (v & C & X). assert (E : h = i \/ h = j \/ h = k) by (destruct C as [<-|[<-|<-]]; [left|right; left|right; right]; apply Nat2Z.inj; congruence).
    destruct E as [->|[->| ->]]; [exists v1|exists v2|exists v3]; auto.
  - intros (v & C & X). assert (E : v = v1 \/ v = v2 \/ v = v3).
    { clear - C1 C2 C3 C E1' E2' E3'. unfold corner in *. destruct C1 as [A|[A|A]], C2 as [B|[B|B]], C3 as [D|[D|D]]; try congruence; destruct C as [E|[E|E]]; try (left; congruence); try (right; left; congruence); right; right; congruence. }
    destruct E as [->|[->| ->]].
    + exists (TV m t 0). split; [left; reflexivity|congruence].
    + exists (TV m t 1). split; [right; left; reflexivity|congruence].
    + exists (TV m t 2). split; [right; right; reflexivity|congruence].
Qed.
