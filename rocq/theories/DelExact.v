(** The constructor with exact arithmetic. *)
From Coq Require Import ZArith QArith List Bool Arith Lia Reals Lra Permutation Qreals Psatz.
From Verif Require Import Outcome DelModel DelSpec DelPlaneSpec DelPlane DelRun DelThm.
Import ListNotations.
Open Scope nat_scope.

Lemma gp_perm {P} pos (g : geometry P) l l' : Permutation l l' -> general_position pos g l -> general_position pos g l'.
Proof.
  intros PM H. apply Permutation_nth_error in PM. destruct PM as (_ & f & INJ & F). intros i j a b I J N. rewrite F in I, J.
  destruct (H _ _ a b I J) as [H1 H2]; [intros Q; apply N, INJ, Q|]. split; [exact H1|]. intros k c K KI KJ. rewrite F in K.
  apply (H2 _ c K); intros Q; [apply KI|apply KJ]; apply INJ, Q.
Qed.

Lemma nth_map_id {A} (d : A) l : map (fun i => nth i l d) (seq 0 (length l)) = l.
Proof.
  induction l as [|x l IH]; [reflexivity|]. cbn [length seq map nth]. f_equal. rewrite <- seq_shift, map_map. exact IH.
Qed.

Open Scope Q_scope.
Lemma qmin_le a b : qmin a b <= a /\ qmin a b <= b.
Proof.
  unfold qmin, qlt. destruct (Qle_bool a b) eqn:E; cbn [negb].
  - apply Qle_bool_iff in E. split; [apply Qle_refl|exact E].
  - assert (~ a <= b) by (intros H; apply Qle_bool_iff in H; congruence). apply Qnot_le_lt in H. split; [apply Qlt_le_weak, H|apply Qle_refl].
Qed.
Lemma qmax_le a b : a <= qmax a b /\ b <= qmax a b.
Proof.
  unfold qmax, qlt. destruct (Qle_bool b a) eqn:E; cbn [negb].
  - apply Qle_bool_iff in E. split; [apply Qle_refl|exact E].
  - assert (~ b <= a) by (intros H; apply Qle_bool_iff in H; congruence). apply Qnot_le_lt in H. split; [apply Qlt_le_weak, H|apply Qle_refl].
Qed.

Lemma fold_min (f : point -> Q) l : forall x, (fold_left (fun a q => qmin a (f q)) l x <= x) /\ forall q, In q l -> fold_left (fun a q => qmin a (f q)) l x <= f q.
Proof.
  induction l as [|y l IH]; intros x; cbn [fold_left].
  - split; [apply Qle_refl|intros q []].
  - destruct (IH (qmin x (f y))) as [A B]. destruct (qmin_le x (f y)) as [C D]. split; [eapply Qle_trans; eassumption|].
    intros q [<-|I]; [eapply Qle_trans; eassumption|apply B, I].
Qed.
Lemma fold_max (f : point -> Q) l : forall x, (x <= fold_left (fun a q => qmax a (f q)) l x) /\ forall q, In q l -> f q <= fold_left (fun a q => qmax a (f q)) l x.
Proof.
  induction l as [|y l IH]; intros x; cbn [fold_left].
  - split; [apply Qle_refl|intros q []].
  - destruct (IH (qmax x (f y))) as [A B]. destruct (qmax_le x (f y)) as [C D]. split; [eapply Qle_trans; eassumption|].
    intros q [<-|I]; [eapply Qle_trans; eassumption|apply B, I].
Qed.

Lemma in_box p l q : In q (p :: l) ->
  minx p l <= fst q /\ miny p l <= snd q /\ fst q <= minx p l + maxDim p l /\ snd q <= miny p l + maxDim p l /\ 0 <= maxDim p l.
Proof.
  intros I. destruct (fold_min fst l (fst p)) as [A1 A2]. destruct (fold_min snd l (snd p)) as [B1 B2]. destruct (fold_max fst l (fst p)) as [C1 C2]. destruct (fold_max snd l (snd p)) as [D1 D2].
  fold (minx p l) in A1, A2. fold (miny p l) in B1, B2. fold (maxx p l) in C1, C2. fold (maxy p l) in D1, D2.
  assert (H : minx p l <= fst q /\ miny p l <= snd q /\ fst q <= maxx p l /\ snd q <= maxy p l).
  { destruct I as [<-|I]; [auto|]. split; [apply A2, I|]. split; [apply B2, I|]. split; [apply C2, I|apply D2, I]. }
  destruct H as (H1 & H2 & H3 & H4). unfold maxDim. destruct (qmax_le (maxx p l - minx p l) (maxy p l - miny p l)) as [M1 M2].
  repeat split; lra.
Qed.

Definition corner0 p l : point := (minx p l - maxDim p l, miny p l - maxDim p l).
Definition corner1 p l : point := (minx p l + 4 * maxDim p l, miny p l - maxDim p l).
Definition corner2 p l : point := (minx p l - maxDim p l, miny p l + 4 * maxDim p l).

Lemma box_inside p l q : 0 < maxDim p l -> In q (p :: l) -> inside (place (corner0 p l)) (place (corner1 p l)) (place (corner2 p l)) (place q).
Proof.
  intros D I. destruct (in_box p l q I) as (A & B & C & E & _). set (d := maxDim p l) in *. set (x := minx p l) in *. set (y := miny p l) in *.
  unfold corner0, corner1, corner2, place. cbn [fst snd]. fold d x y. rewrite !Q2R_minus, !Q2R_plus, !Q2R_mult.
  replace (Q2R 4) with 4%R by (unfold Q2R; cbn; lra).
  apply Qlt_Rlt in D. apply Qle_Rle in A, B, C, E. rewrite Q2R_plus in C, E. replace (Q2R 0) with 0%R in D by (unfold Q2R; cbn; lra).
  set (D' := Q2R d) in *. set (X := Q2R x) in *. set (Y := Q2R y) in *. set (u := Q2R (fst q)) in *. set (v := Q2R (snd q)) in *. clearbody D' X Y u v.
  exists (1 - (u - X + D') / (5 * D') - (v - Y + D') / (5 * D'))%R, ((u - X + D') / (5 * D'))%R, ((v - Y + D') / (5 * D'))%R.
  assert (D5 : (0 < 5 * D')%R) by lra.
  split. { replace (1 - (u - X + D') / (5 * D') - (v - Y + D') / (5 * D'))%R with ((3 * D' - (u - X) - (v - Y)) / (5 * D'))%R by (field; lra). apply Rdiv_lt_0_compat; lra. }
  split; [apply Rdiv_lt_0_compat; lra|]. split; [apply Rdiv_lt_0_compat; lra|]. split; [ring|].
  unfold mix. cbn [fst snd]. f_equal; field; lra.
Qed.

Open Scope nat_scope.
Lemma gp_dim (e1 e2 : Q) p l : general_position place (exact e1 e2) [corner0 p l; corner1 p l; corner2 p l] -> (0 < maxDim p l)%Q.
Proof.
  intros H. destruct (in_box p l p (or_introl eq_refl)) as (_ & _ & _ & _ & D). apply Qle_lteq in D. destruct D as [D|D]; [exact D|].
  exfalso. destruct (H 0 1 _ _ eq_refl eq_refl ltac:(lia)) as [_ K]. destruct (K 2 _ eq_refl ltac:(lia) ltac:(lia)) as [O _]. apply O.
  rewrite place_orient. apply Qeq_eqR in D. replace (Q2R 0) with 0%R in D by (unfold Q2R; cbn; lra).
  unfold cross2, psub, corner0, corner1, corner2. cbn [fst snd]. repeat rewrite ?Q2R_minus, ?Q2R_plus, ?Q2R_mult. rewrite <- D. ring.
Qed.

Theorem triangulate_ok (es em : Q) p l order ch fuel :
  let d := maxDim p l in
  (forall i (s : list nat), s <> [] -> fst (ch i) s < length s) ->
  Permutation order (map Z.of_nat (seq 0 (S (length l)))) ->
  general_position place (exact (es * d) (em * d)) (corner0 p l :: corner1 p l :: corner2 p l :: p :: l) ->
  triangulate es em p l order ch fuel = NoFuel \/
  exists T, triangulate es em p l order ch fuel = Ok T /\ consistent (t_mesh T) /\ sizes (t_mesh T) (S (length l)) /\
    planar place (t_mesh T) /\ fills place (t_mesh T) /\ length (t_vertices T) = S (length l) /\
    (forall i q, nth_error (p :: l) i = Some q -> exists v, lookup (t_mesh T) (t_inv T) (Z.of_nat i) = Ok v /\
       nth_error (t_vertices T) i = Some v /\ POS (t_mesh T) v = q /\ IDX (t_mesh T) v = Z.of_nat i) /\
    (NoDup (t_edges T) /\ forall e, In e (t_edges T) <-> edge_of (t_mesh T) e /\ forall v, end_of (t_mesh T) e v -> 3 <= v) /\
    (NoDup (t_triangles T) /\ forall t, In t (t_triangles T) <-> tri_of (t_mesh T) t /\ forall v, corner (t_mesh T) t v -> 3 <= v).
Proof.
  intros d FS PM GP. unfold triangulate. cbv zeta. fold d.
  set (pts := map (fun i => (i, nth (Z.to_nat i) (p :: l) p)) order).
  change (minx p l - d, miny p l - d)%Q with (corner0 p l). change (minx p l + 4 * d, miny p l - d)%Q with (corner1 p l). change (minx p l - d, miny p l + 4 * d)%Q with (corner2 p l).
  assert (LN : length pts = S (length l)).
  { unfold pts. rewrite map_length, (Permutation_length PM), map_length, seq_length. reflexivity. }
  assert (MF : map fst pts = order) by (unfold pts; rewrite map_map; cbn [fst]; apply map_id).
  assert (MS : Permutation (p :: l) (map snd pts)).
  { unfold pts. rewrite map_map. cbn [snd]. apply Permutation_sym. eapply perm_trans; [apply Permutation_map, PM|]. rewrite map_map.
    erewrite map_ext; [|intros a; rewrite Nat2Z.id; reflexivity]. change (S (length l)) with (length (p :: l)). rewrite nth_map_id. apply Permutation_refl. }
  assert (GP' : general_position place (exact (es * d) (em * d)) (corner0 p l :: corner1 p l :: corner2 p l :: map snd pts)).
  { apply (gp_perm _ _ (corner0 p l :: corner1 p l :: corner2 p l :: p :: l)); [|exact GP]. apply (Permutation_app_head [corner0 p l; corner1 p l; corner2 p l]), MS. }
  assert (D : (0 < maxDim p l)%Q) by (apply (gp_dim (es * d) (em * d)), (gp_prefix _ _ [corner0 p l; corner1 p l; corner2 p l] (p :: l)), GP).
  assert (IN : Forall (fun q => inside (place (corner0 p l)) (place (corner1 p l)) (place (corner2 p l)) (place q)) (map snd pts)).
  { apply Forall_forall. intros q Q. apply box_inside; [exact D|]. apply (Permutation_in _ (Permutation_sym MS)), Q. }
  assert (PF : Permutation (map fst pts) (map Z.of_nat (seq 0 (length pts)))) by (rewrite MF, LN; exact PM).
  destruct (general_ok (exact (es * d) (em * d)) place (exact_ok _ _) (corner0 p l) (corner1 p l) (corner2 p l) ch fuel pts FS PF GP' IN) as [H|(T & H & C & S & PL & FI)]; [left; exact H|right].
  exists T. split; [exact H|]. rewrite LN in S. split; [exact C|]. split; [exact S|]. split; [exact PL|]. split; [exact FI|].
  assert (NV : nv (t_mesh T) = 3 + length pts) by (apply sizes_census in S; rewrite LN; lia).
  destruct (index_ok (exact (es * d) (em * d)) _ _ _ _ _ _ T H PF NV) as [LV IX]. split; [rewrite LV; exact LN|]. split.
  - intros i q Q.
    assert (I : In (Z.of_nat i, q) pts).
    { unfold pts. apply in_map_iff. exists (Z.of_nat i). rewrite Nat2Z.id. split; [f_equal; apply nth_error_nth; exact Q|].
      apply (Permutation_in _ (Permutation_sym PM)). apply in_map_iff. exists i. split; [reflexivity|]. apply in_seq. assert (i < length (p :: l)) by (apply nth_error_Some; congruence). cbn in *. lia. }
    destruct (IX _ _ I) as (v & A & B & E & F). rewrite Nat2Z.id in B. exists v. auto.
  - split; [apply (public_edges _ _ _ _ _ _ _ _ H C)|apply (public_triangles _ _ _ _ _ _ _ _ H C)].
Qed.
