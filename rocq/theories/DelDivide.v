(** divideTriangle keeps a mesh consistent. *)
From Coq Require Import ZArith List Bool Arith Lia.
From Verif Require Import Outcome DelModel DelSpec DelFields DelRewire DelFlip DelFlip2.
Import ListNotations.
Open Scope nat_scope.

Lemma eqb_plus n i j : (n + i =? n + j) = (i =? j).
Proof. destruct (i =? j) eqn:H; [apply Nat.eqb_eq in H; subst; apply Nat.eqb_refl|apply Nat.eqb_neq in H; apply Nat.eqb_neq; lia]. Qed.
Lemma eqb_less x n i : x < n -> (x =? n + i) = false.
Proof. intros. apply Nat.eqb_neq. lia. Qed.
Lemma below3 (Q : nat -> Prop) : Q 0 -> Q 1 -> Q 2 -> forall i, i < 3 -> Q i.
Proof. intros A B C i I. destruct i as [|[|[|i]]]; auto. lia. Qed.
Ltac each3 i I := destruct i as [|[|[|i]]]; [clear I|clear I|clear I|exfalso; clear - I; lia].

Section Divide.
Context {P : Type}.
Implicit Types m : mesh P.

(** the triangle t with the sides x i opposite to its corners *)
Record opposite m (t : nat) (x : nat -> nat) : Prop := {
  p_tri : tri_of m t;
  p_find : forall i, i < 3 -> findOppositeEdge m t (TV m t i) = Ok (x i);
  p_edge : forall i, i < 3 -> edge_of m (x i);
  p_side : forall e, side m t e <-> exists i, i < 3 /\ e = x i;
  p_join : forall i, i < 3 -> joins m (x i) (TV m t ((i + 1) mod 3)) (TV m t ((i + 2) mod 3));
  p_inj : forall i j, i < 3 -> j < 3 -> x i = x j -> i = j;
  p_corner : forall i j, i < 3 -> j < 3 -> TV m t i = TV m t j -> i = j }.

Lemma opposite_ex m t : consistent m -> tri_of m t -> exists x, opposite m t x.
Proof.
  intros C T. destruct (c_tri _ C t T) as (D1 & D2 & D3).
  destruct (c_sides _ C t (TV m t 1) (TV m t 2) T) as (x0 & S0 & J0); [right; left; reflexivity|right; right; reflexivity|exact D3|].
  destruct (c_sides _ C t (TV m t 2) (TV m t 0) T) as (x1 & S1 & J1); [right; right; reflexivity|left; reflexivity|congruence|].
  destruct (c_sides _ C t (TV m t 0) (TV m t 1) T) as (x2 & S2 & J2); [left; reflexivity|right; left; reflexivity|congruence|].
  set (p := TV m t 0) in *. set (q := TV m t 1) in *. set (r := TV m t 2) in *.
  assert (E0 : forall w, end_of m x0 w <-> w = q \/ w = r) by (intros w; apply (joins_ends _ _ _ _ _ J0)).
  assert (E1 : forall w, end_of m x1 w <-> w = r \/ w = p) by (intros w; apply (joins_ends _ _ _ _ _ J1)).
  assert (E2 : forall w, end_of m x2 w <-> w = p \/ w = q) by (intros w; apply (joins_ends _ _ _ _ _ J2)).
  assert (X01 : x0 <> x1). { intros <-. assert (end_of m x0 q) by (apply E0; auto). apply E1 in H. destruct H; congruence. }
  assert (X02 : x0 <> x2). { intros <-. assert (end_of m x0 r) by (apply E0; auto). apply E2 in H. destruct H; congruence. }
  assert (X12 : x1 <> x2). { intros <-. assert (end_of m x1 r) by (apply E1; auto). apply E2 in H. destruct H; congruence. }
  assert (PM : perm3 (TE m t) x0 x1 x2) by (apply perm3_of; auto).
  assert (SD : forall e, side m t e <-> e = x0 \/ e = x1 \/ e = x2) by (intros e; apply (perm3_in _ _ _ _ _ PM)).
  assert (FIND : forall w y, (w = p \/ w = q \/ w = r) -> (y = x0 \/ y = x1 \/ y = x2) -> ~ end_of m y w ->
    (forall z, z = x0 \/ z = x1 \/ z = x2 -> z <> y -> end_of m z w) -> findOppositeEdge m t w = Ok y).
  { intros w y W Y N O. unfold findOppositeEdge.
    assert (isIncidentT m w t = true) as ->. { unfold isIncidentT. fold p q r. destruct W as [->|[->| ->]]; rewrite Nat.eqb_refl, ?orb_true_r; reflexivity. }
    assert (FY : negb (EV m y 0 =? w) && negb (EV m y 1 =? w) = true).
    { apply andb_true_iff. split; apply negb_true_iff, Nat.eqb_neq; intros Q; apply N; [left|right]; exact Q. }
    assert (FZ : forall z, z = x0 \/ z = x1 \/ z = x2 -> z <> y -> negb (EV m z 0 =? w) && negb (EV m z 1 =? w) = false).
    { intros z Z ZY. destruct (O z Z ZY) as [->| ->]; rewrite Nat.eqb_refl, ?andb_false_r; reflexivity. }
    assert (GO : forall z rest, z = x0 \/ z = x1 \/ z = x2 -> find (fun e => negb (EV m e 0 =? w) && negb (EV m e 1 =? w)) (z :: rest) =
       if Nat.eq_dec z y then Some y else find (fun e => negb (EV m e 0 =? w) && negb (EV m e 1 =? w)) rest).
    { intros z rest Z. cbn [find]. destruct (Nat.eq_dec z y) as [->|ZY]; [rewrite FY|rewrite (FZ z Z ZY)]; reflexivity. }
    rewrite !GO by (apply SD; unfold side; auto).
    assert (SY : side m t y) by (apply SD, Y). unfold side in SY.
    destruct (Nat.eq_dec (TE m t 0) y); [reflexivity|]. destruct (Nat.eq_dec (TE m t 1) y); [reflexivity|]. destruct (Nat.eq_dec (TE m t 2) y); [reflexivity|].
    exfalso. tauto. }
  exists (fun i => match i with 0 => x0 | 1 => x1 | _ => x2 end). constructor.
  - exact T.
  - apply below3; fold p q r.
    + apply FIND; auto. { rewrite E0. intros [?|?]; congruence. } intros z [->|[->| ->]] Z; [congruence|apply E1|apply E2]; auto.
    + apply FIND; auto. { rewrite E1. intros [?|?]; congruence. } intros z [->|[->| ->]] Z; [apply E0|congruence|apply E2]; auto.
    + apply FIND; auto. { rewrite E2. intros [?|?]; congruence. } intros z [->|[->| ->]] Z; [apply E0|apply E1|congruence]; auto.
  - apply below3; [apply (c_side _ C t x0 T S0)|apply (c_side _ C t x1 T S1)|apply (c_side _ C t x2 T S2)].
  - intros e. rewrite SD. split.
    + intros [->|[->| ->]]; [exists 0|exists 1|exists 2]; auto.
    + intros (i & I & ->). revert i I. apply below3; auto.
  - apply below3; cbn [Nat.modulo Nat.divmod fst snd Nat.sub Nat.add]; fold p q r; assumption.
  - intros i j I J Q. destruct i as [|[|[|i]]], j as [|[|[|j]]]; try lia; congruence.
  - intros i j I J Q. destruct i as [|[|[|i]]], j as [|[|[|j]]]; try lia; fold p q r in Q; congruence.
Qed.

Record divided m (t v : nat) (x : nat -> nat) (m' : mesh P) : Prop := {
  d_nv : nv m' = nv m; d_ne : ne m' = ne m + 3; d_nt : nt m' = nt m + 3; d_POS : POS m' = POS m; d_IDX : IDX m' = IDX m;
  d_EV : forall y k, y < ne m -> EV m' y k = EV m y k;
  d_EVn : forall i, i < 3 -> EV m' (ne m + i) 0 = v /\ EV m' (ne m + i) 1 = TV m t i;
  d_TV : forall s k, s < nt m -> TV m' s k = TV m s k;
  d_TVn : forall i, i < 3 -> TV m' (nt m + i) 0 = TV m t ((i + 1) mod 3) /\ TV m' (nt m + i) 1 = TV m t ((i + 2) mod 3) /\ TV m' (nt m + i) 2 = v;
  d_TE : forall s k, s < nt m -> TE m' s k = TE m s k;
  d_TEn : forall i, i < 3 -> TE m' (nt m + i) 0 = ne m + (i + 2) mod 3 /\ TE m' (nt m + i) 1 = ne m + (i + 1) mod 3 /\ TE m' (nt m + i) 2 = x i;
  d_ET : forall y k, y < ne m -> ET m' y k = ET (rep (rep (rep m (x 0) t (nt m + 0)) (x 1) t (nt m + 1)) (x 2) t (nt m + 2)) y k;
  d_ETn : forall i, i < 3 -> ET m' (ne m + i) 0 = Some (nt m + (i + 1) mod 3) /\ ET m' (ne m + i) 1 = Some (nt m + (i + 2) mod 3);
  d_setE : forall u, NoDup (VE m u) -> NoDup (VE m' u);
  d_setT : forall u, NoDup (VT m u) -> NoDup (VT m' u);
  d_VE : forall u y, In y (VE m' u) <-> In y (VE m u) \/ exists i, i < 3 /\ y = ne m + i /\ (u = v \/ u = TV m t i);
  d_VT : forall u s, In s (VT m' u) <-> (In s (VT m u) /\ ~ (s = t /\ exists i, i < 3 /\ u = TV m t i)) \/
    exists i, i < 3 /\ s = nt m + i /\ (u = v \/ u = TV m t ((i + 1) mod 3) \/ u = TV m t ((i + 2) mod 3)) }.

(** the triangles of the vertices after the last two loops *)
Lemma divide_VT m (w : nat -> nat) v t e0 n0 u s : (forall i, n0 + i <> t) ->
  let f3 := fun m i => delT (insT (insT (insE m (w i) (e0 + i)) (w i) (n0 + (i + 1) mod 3)) (w i) (n0 + (i + 2) mod 3)) (w i) t in
  let f4 := fun m i => insT (insE m v (e0 + i)) v (n0 + i) in
  In s (VT (for3 f4 (for3 f3 m)) u) <-> (In s (VT m u) /\ ~ (s = t /\ exists i, i < 3 /\ u = w i)) \/
    exists i, i < 3 /\ s = n0 + i /\ (u = v \/ u = w ((i + 1) mod 3) \/ u = w ((i + 2) mod 3)).
Proof.
  intros NN f3 f4.
  assert (S3 : forall m i, In s (VT (f3 m i) u) <-> ~ (u = w i /\ s = t) /\
     ((u = w i /\ s = n0 + (i + 2) mod 3) \/ (u = w i /\ s = n0 + (i + 1) mod 3) \/ In s (VT m u))).
  { intros q i. unfold f3. rewrite VT_delT, !VT_insT, VT_insE. reflexivity. }
  assert (S4 : forall m i, In s (VT (f4 m i) u) <-> (u = v /\ s = n0 + i) \/ In s (VT m u)).
  { intros q i. unfold f4. rewrite VT_insT, VT_insE. reflexivity. }
  clearbody f3 f4. unfold for3. rewrite !S4, !S3. clear S3 S4. 
  change ((0 + 1) mod 3) with 1. change ((0 + 2) mod 3) with 2. change ((1 + 1) mod 3) with 2.
  change ((1 + 2) mod 3) with 0. change ((2 + 1) mod 3) with 0. change ((2 + 2) mod 3) with 1.
  split.
  - intros [[A B]|[[A B]|[[A B]|(M2 & [[A B]|[[A B]|(M1 & [[A B]|[[A B]|(M0 & [[A B]|[[A B]|I]])]])]])]]].
    + right. exists 2. auto.
    + right. exists 1. auto.
    + right. exists 0. auto.
    + right. exists 1. auto.
    + right. exists 0. auto.
    + right. exists 0. auto.
    + right. exists 2. auto.
    + right. exists 2. auto.
    + right. exists 1. auto.
    + left. split; [exact I|]. intros (-> & i & IL & Q). each3 i IL; [apply M0|apply M1|apply M2]; auto.
  - intros [[I N]|(i & I & Q)].
    + assert (M : forall i, i < 3 -> ~ (u = w i /\ s = t)). { intros i IL [A B]. apply N. split; [exact B|]. exists i. auto. }
      pose proof (M 0 ltac:(lia)) as M0. pose proof (M 1 ltac:(lia)) as M1. pose proof (M 2 ltac:(lia)) as M2.
      clear - I M0 M1 M2. right. right. right. split; [exact M2|]. right. right. split; [exact M1|]. right. right. split; [exact M0|]. auto.
    + assert (NT : forall q, ~ (u = q /\ s = t)). { intros q [_ B]. apply (NN i). destruct Q as [Q _]. congruence. }
      pose proof (NT (w 0)) as M0. pose proof (NT (w 1)) as M1. pose proof (NT (w 2)) as M2. clear NT.
      each3 i I; destruct Q as (-> & Q).
      * change ((0 + 1) mod 3) with 1 in Q. change ((0 + 2) mod 3) with 2 in Q. destruct Q as [->|[->| ->]]; [auto 10| |].
        -- right. right. right. split; [exact M2|]. right. right. split; [exact M1|]. auto 10.
        -- right. right. right. split; [exact M2|]. auto 10.
      * change ((1 + 1) mod 3) with 2 in Q. change ((1 + 2) mod 3) with 0 in Q. destruct Q as [->|[->| ->]]; [auto 10| |].
        -- right. right. right. split; [exact M2|]. auto 10.
        -- right. right. right. split; [exact M2|]. right. right. split; [exact M1|]. right. right. split; [exact M0|]. auto 10.
      * change ((2 + 1) mod 3) with 0 in Q. change ((2 + 2) mod 3) with 1 in Q. destruct Q as [->|[->| ->]]; [auto 10| |].
        -- right. right. right. split; [exact M2|]. right. right. split; [exact M1|]. right. right. split; [exact M0|]. auto 10.
        -- right. right. right. split; [exact M2|]. right. right. split; [exact M1|]. auto 10.
Qed.

Lemma divide_computes m t v x : consistent m -> opposite m t x -> exists m', divideTriangle m t v = Ok m' /\ divided m t v x m'.
Proof.
  intros C O. unfold divideTriangle. rewrite !(p_find _ _ _ O) by lia. cbn [bind].
  eexists. split; [reflexivity|].
  set (w := TV m t). set (e0 := ne m). set (n0 := nt m).
  assert (RT : t < n0) by (apply (c_rangeT _ C), O).
  assert (RX : forall i, i < 3 -> x i < e0) by (intros i I; apply (c_rangeE _ C), (p_edge _ _ _ O), I).
  pose proof (RX 0 ltac:(lia)) as R0. pose proof (RX 1 ltac:(lia)) as R1. pose proof (RX 2 ltac:(lia)) as R2. clear RX.
  set (x0 := x 0) in *. set (x1 := x 1) in *. set (x2 := x 2) in *.
  match goal with |- divided _ _ _ _ (for3 ?f4 (for3 ?f3 (for3 ?f2 (for3 ?f1 ?mm)))) =>
    set (m1 := for3 f1 mm); set (m2 := for3 f2 m1) end.
  assert (F1 : nv m1 = nv m /\ ne m1 = e0 + 3 /\ nt m1 = n0 + 3 /\ POS m1 = POS m /\ IDX m1 = IDX m /\ TV m1 = TV m /\ VE m1 = VE m /\ VT m1 = VT m).
  { repeat split; reflexivity. }
  assert (EV1 : (forall y k, y < e0 -> EV m1 y k = EV m y k) /\ (forall i, i < 3 -> EV m1 (e0 + i) 0 = v /\ EV m1 (e0 + i) 1 = w i)).
  { unfold m1, for3. cbn [EV setTE setET setEV makeTriangles makeEdges]. unfold upd2. split.
    - intros y k Y. rewrite !eqb_less by exact Y. reflexivity.
    - intros i I. rewrite !eqb_plus. revert i I. apply below3; split; reflexivity. }
  assert (ET1 : (forall y k, y < e0 -> ET m1 y k = ET m y k) /\ (forall i, i < 3 -> ET m1 (e0 + i) 0 = Some (n0 + (i + 1) mod 3) /\ ET m1 (e0 + i) 1 = Some (n0 + (i + 2) mod 3))).
  { unfold m1, for3. cbn [ET setTE setET setEV makeTriangles makeEdges]. unfold upd2. split.
    - intros y k Y. rewrite !eqb_less by exact Y. reflexivity.
    - intros i I. rewrite !eqb_plus. revert i I. apply below3; split; reflexivity. }
  assert (TE1 : (forall s k, s < n0 -> TE m1 s k = TE m s k) /\ (forall i, i < 3 -> TE m1 (n0 + i) 0 = e0 + (i + 2) mod 3 /\ TE m1 (n0 + i) 1 = e0 + (i + 1) mod 3)).
  { unfold m1, for3. cbn [TE setTE setET setEV makeTriangles makeEdges]. unfold upd2. split.
    - intros y k Y. rewrite !eqb_less by exact Y. reflexivity.
    - intros i I. rewrite !eqb_plus. revert i I. apply below3; split; reflexivity. }
  clearbody m1. destruct F1 as (G1 & G2 & G3 & G4 & G5 & G6 & G7 & G8).
  assert (F2 : nv m2 = nv m /\ ne m2 = e0 + 3 /\ nt m2 = n0 + 3 /\ POS m2 = POS m /\ IDX m2 = IDX m /\ EV m2 = EV m1 /\ VE m2 = VE m /\ VT m2 = VT m).
  { unfold m2, for3. cbn [nv ne nt POS IDX EV VE VT setTV setTE setET]. auto 10. }
  assert (TV2 : (forall s k, s < n0 -> TV m2 s k = TV m s k) /\ (forall i, i < 3 -> TV m2 (n0 + i) 0 = w ((i + 1) mod 3) /\ TV m2 (n0 + i) 1 = w ((i + 2) mod 3) /\ TV m2 (n0 + i) 2 = v)).
  { assert (EQ : forall s k, TV m2 s k = upd2 (upd2 (upd2 (upd2 (upd2 (upd2 (upd2 (upd2 (upd2 (TV m1) (n0 + 0) 0 (w 1)) (n0 + 0) 1 (w 2)) (n0 + 0) 2 v)
        (n0 + 1) 0 (w 2)) (n0 + 1) 1 (w 0)) (n0 + 1) 2 v) (n0 + 2) 0 (w 0)) (n0 + 2) 1 (w 1)) (n0 + 2) 2 v s k).
    { intros s k. unfold m2, for3. autorewrite with fields. reflexivity. }
    clearbody m2. split.
    - intros y k Y. rewrite EQ. unfold upd2. rewrite !eqb_less by exact Y. cbn [andb]. rewrite G6. reflexivity.
    - intros i I. rewrite !EQ. unfold upd2. rewrite !eqb_plus. each3 i I; repeat split. }
  assert (TE2 : (forall s k, s < n0 -> TE m2 s k = TE m s k) /\ (forall i, i < 3 -> TE m2 (n0 + i) 0 = e0 + (i + 2) mod 3 /\ TE m2 (n0 + i) 1 = e0 + (i + 1) mod 3 /\ TE m2 (n0 + i) 2 = x i)).
  { unfold m2, for3. cbn [TE setTE setET setTV]. unfold upd2. split.
    - intros y k Y. rewrite !eqb_less by exact Y. apply TE1, Y.
    - intros i I. rewrite !eqb_plus. destruct (proj2 TE1 i I) as [Q0 Q1]. rewrite <- Q0, <- Q1. clear Q0 Q1. revert i I. apply below3; repeat split; reflexivity. }
  assert (ET2 : (forall y k, y < e0 -> ET m2 y k = ET (rep (rep (rep m x0 t (n0 + 0)) x1 t (n0 + 1)) x2 t (n0 + 2)) y k) /\ (forall i, i < 3 -> ET m2 (e0 + i) 0 = Some (n0 + (i + 1) mod 3) /\ ET m2 (e0 + i) 1 = Some (n0 + (i + 2) mod 3))).
  { assert (EQ : forall y k, ET m2 y k = ET (rep (rep (rep m1 x0 t (n0 + 0)) x1 t (n0 + 1)) x2 t (n0 + 2)) y k) by reflexivity. split.
    - intros y k Y. rewrite EQ. apply (rep_ext _ _ x2 t (n0 + 2) e0 R2); [|exact Y]. intros y1 k1 Y1.
      apply (rep_ext _ _ x1 t (n0 + 1) e0 R1); [|exact Y1]. intros y2 k2 Y2. apply (rep_ext _ _ x0 t (n0 + 0) e0 R0); [|exact Y2]. apply ET1.
    - intros i I. rewrite !EQ, !rep_other by lia. apply ET1, I. }
  clearbody m2. destruct F2 as (H1 & H2 & H3 & H4 & H5 & H6 & H7 & H8).
  constructor; fold e0 n0 w.
  - unfold for3. exact H1.
  - unfold for3. exact H2.
  - unfold for3. exact H3.
  - unfold for3. exact H4.
  - unfold for3. exact H5.
  - intros y k Y. unfold for3; cbn. rewrite H6. apply EV1, Y.
  - intros i I. unfold for3; cbn. rewrite H6. apply EV1, I.
  - intros s k S. unfold for3; cbn. apply TV2, S.
  - intros i I. unfold for3; cbn. apply TV2, I.
  - intros s k S. unfold for3; cbn. apply TE2, S.
  - intros i I. unfold for3; cbn. apply TE2, I.
  - intros y k Y. unfold for3; cbn. apply ET2, Y.
  - intros i I. unfold for3; cbn. apply ET2, I.
  - intros u U. rewrite <- H7 in U. unfold for3. nodup_sets. exact U.
  - intros u U. rewrite <- H8 in U. unfold for3. nodup_sets. exact U.
  - intros u y. unfold for3. autorewrite with mesh. rewrite H7. split.
    + intros [[A B]|[[A B]|[[A B]|[[A B]|[[A B]|[[A B]|I]]]]]]; [right|right|right|right|right|right|left; exact I];
        [exists 2|exists 1|exists 0|exists 2|exists 1|exists 0]; auto.
    + intros [I|(i & I & Q)]; [auto 10|]. each3 i I; destruct Q as (-> & [->| ->]); auto 10.
  - intros u s. rewrite <- H8. exact (divide_VT m2 w v t e0 n0 u s (fun i Q => Nat.lt_neq _ _ (Nat.lt_lt_add_r _ _ i RT) (eq_sym Q))).
Qed.

(** a vertex without edges and triangles *)
Definition fresh m (v : nat) : Prop := v < nv m /\ VE m v = [] /\ VT m v = [].

Lemma fresh_end m v e : consistent m -> fresh m v -> edge_of m e -> ~ end_of m e v.
Proof. intros C (V & E & _) X H. apply (c_vertE _ C v e V X) in H. rewrite E in H. exact H. Qed.
Lemma fresh_corner m v t : consistent m -> fresh m v -> tri_of m t -> ~ corner m t v.
Proof. intros C (V & _ & E) X H. apply (c_vertT _ C v t V X) in H. rewrite E in H. exact H. Qed.

Lemma divide_rewired m t v x m' : consistent m -> fresh m v -> opposite m t x -> divided m t v x m' ->
  rewired m m' [] [t] [ne m + 0; ne m + 1; ne m + 2] [nt m + 0; nt m + 1; nt m + 2].
Proof.
  intros C FV O D.
  pose proof (p_tri _ _ _ O) as T. destruct FV as (V & FE & FT).
  assert (NV : forall i, i < 3 -> TV m t i <> v).
  { intros i I Q. apply (fresh_corner m v t C (conj V (conj FE FT)) T). unfold corner. each3 i I; auto. }
  assert (CT : forall u, corner m t u <-> exists i, i < 3 /\ u = TV m t i).
  { intros u. unfold corner. split; [intros [<-|[<-|<-]]; [exists 0|exists 1|exists 2]; auto|]. intros (i & I & ->). each3 i I; auto. }
  assert (VT3 : forall i, i < 3 -> TV m t i < nv m) by (intros i I; apply (c_corners _ C t _ T), CT; exists i; auto).
  assert (OEV : forall y k, edge_of m y -> EV m' y k = EV m y k) by (intros y k Y; apply (d_EV _ _ _ _ _ D), (c_rangeE _ C y Y)).
  assert (OTV : forall y k, tri_of m y -> TV m' y k = TV m y k) by (intros y k Y; apply (d_TV _ _ _ _ _ D), (c_rangeT _ C y Y)).
  assert (OJ : forall y u w, edge_of m y -> (joins m' y u w <-> joins m y u w)) by (intros y u w X; unfold joins; rewrite !OEV by exact X; tauto).
  assert (NJ : forall i, i < 3 -> joins m' (ne m + i) v (TV m t i)) by (intros i I; left; apply (d_EVn _ _ _ _ _ D i I)).
  assert (NS : forall i y, i < 3 -> (side m' (nt m + i) y <-> y = ne m + (i + 2) mod 3 \/ y = ne m + (i + 1) mod 3 \/ y = x i)).
  { intros i y I. unfold side. destruct (d_TEn _ _ _ _ _ D i I) as (-> & -> & ->). intuition congruence. }
  assert (NC : forall i u, i < 3 -> (corner m' (nt m + i) u <-> u = TV m t ((i + 1) mod 3) \/ u = TV m t ((i + 2) mod 3) \/ u = v)).
  { intros i y I. unfold corner. destruct (d_TVn _ _ _ _ _ D i I) as (-> & -> & ->). intuition congruence. }
  assert (IN3 : forall n y, In y [n + 0; n + 1; n + 2] <-> exists i, i < 3 /\ y = n + i).
  { intros n y. split; [intros [<-|[<-|[<-|[]]]]; [exists 0|exists 1|exists 2]; auto|]. intros (i & I & ->). each3 i I; cbn; auto. }
  assert (ROW : forall y, edge_of m y -> (exists i, i < 3 /\ y = x i /\ forall k, ET m' y k = ET (rep m y t (nt m + i)) y k) \/
                                         ((forall i, i < 3 -> y <> x i) /\ forall k, ET m' y k = ET m y k)).
  { intros y Y. pose proof (fun k => d_ET _ _ _ _ _ D y k (c_rangeE _ C y Y)) as H.
    assert (X01 : x 0 <> x 1) by (intros Q; apply (p_inj _ _ _ O) in Q; lia). assert (X02 : x 0 <> x 2) by (intros Q; apply (p_inj _ _ _ O) in Q; lia).
    assert (X12 : x 1 <> x 2) by (intros Q; apply (p_inj _ _ _ O) in Q; lia).
    destruct (Nat.eq_dec y (x 0)) as [->|Y0].
    { left. exists 0. split; [lia|]. split; [reflexivity|]. intros k. rewrite H, !(rep_other (rep _ _ _ _)) by congruence. reflexivity. }
    destruct (Nat.eq_dec y (x 1)) as [->|Y1].
    { left. exists 1. split; [lia|]. split; [reflexivity|]. intros k. rewrite H, (rep_other _ (x 2)) by congruence.
      rewrite (rep_row _ m); [reflexivity|]. intros j. rewrite !rep_other by congruence. reflexivity. }
    destruct (Nat.eq_dec y (x 2)) as [->|Y2].
    { left. exists 2. split; [lia|]. split; [reflexivity|]. intros k. rewrite H.
      rewrite (rep_row _ m); [reflexivity|]. intros j. rewrite !rep_other by congruence. reflexivity. }
    right. split; [intros i I; each3 i I; assumption|]. intros k. rewrite H, !rep_other by congruence. reflexivity. }
  destruct (relink m m' [] [t] [nt m + 0; nt m + 1; nt m + 2] (fun y o n => o = t /\ exists i, i < 3 /\ y = x i /\ n = nt m + i) C) as (Q1 & Q2 & Q3 & Q4).
  { intros s S. apply IN3 in S. destruct S as (i & _ & ->). lia. }
  { intros y o n (-> & i & I & -> & ->). split; [|split; [left; reflexivity|apply IN3; eauto]]. apply (c_side _ C t _ T). apply (p_side _ _ _ O). eauto. }
  { intros y o n o' n' (-> & i & I & -> & ->) (-> & j & J & Q & ->). pose proof (p_inj _ _ _ O i j I J Q). subst. auto. }
  { intros y Y _. destruct (ROW y Y) as [(i & I & -> & H)|[H1 H2]].
    - left. exists t, (nt m + i). split; [eauto|exact H].
    - right. split; [|exact H2]. intros o n (_ & i & I & Q & _). exact (H1 i I Q). }
  { intros y o Y _ [<-|[]] B. apply (c_beside _ C y t Y) in B. destruct B as [_ B]. apply (p_side _ _ _ O) in B. destruct B as (i & I & ->).
    exists (nt m + i). eauto. }
  { intros y s Y _ S. apply IN3 in S. destruct S as (i & I & ->). rewrite NS by exact I. pose proof (c_rangeE _ C y Y) as LY. split.
    - intros [Q|[Q|Q]]; [lia|lia|]. exists t. eauto.
    - intros (o & _ & j & J & -> & Q). replace j with i by lia. auto. }
  constructor.
  - apply (d_nv _ _ _ _ _ D).
  - rewrite (d_ne _ _ _ _ _ D). lia.
  - rewrite (d_nt _ _ _ _ _ D). lia.
  - repeat constructor; cbn; intuition lia.
  - repeat constructor; cbn; intuition lia.
  - constructor.
  - repeat constructor. intros [].
  - intros y [].
  - intros s [<-|[]]. exact T.
  - intros y Y. apply IN3 in Y. destruct Y as (i & I & ->). rewrite (d_ne _ _ _ _ _ D). lia.
  - intros y Y. apply IN3 in Y. destruct Y as (i & I & ->). rewrite (d_nt _ _ _ _ _ D). lia.
  - intros y Y. split; apply OEV, Y.
  - intros y Y. split; [|split]; apply OTV, Y.
  - intros y Y. apply (c_rangeT _ C) in Y. split; [|split]; apply (d_TE _ _ _ _ _ D), Y.
  - apply (d_setE _ _ _ _ _ D).
  - apply (d_setT _ _ _ _ _ D).
  - intros u y U. rewrite (d_VE _ _ _ _ _ D). rewrite IN3. split.
    + intros [I|(i & I & -> & Q)]; [left; auto|]. right. split; [eauto|]. apply (joins_ends _ _ _ _ _ (NJ i I)), Q.
    + intros [[I _]|[(i & I & ->) Q]]; [auto|]. right. exists i. split; [exact I|]. split; [reflexivity|]. apply (joins_ends _ _ _ _ _ (NJ i I)), Q.
  - intros u s U. rewrite (d_VT _ _ _ _ _ D). rewrite IN3. split.
    + intros [[I N]|(i & I & -> & Q)].
      * left. split; [exact I|]. intros [<-|[]]. apply N. split; [reflexivity|]. apply CT, (c_vertT _ C u t U T), I.
      * right. split; [eauto|]. apply NC; [exact I|]. tauto.
    + intros [[I N]|[(i & I & ->) Q]].
      * left. split; [exact I|]. intros [-> _]. apply N. left. reflexivity.
      * right. exists i. split; [exact I|]. split; [reflexivity|]. apply NC in Q; [|exact I]. tauto.
  - exact Q1.
  - exact Q2.
  - exact Q3.
  - exact Q4.
  - intros y Y. apply IN3 in Y. destruct Y as (i & I & ->). destruct (d_EVn _ _ _ _ _ D i I) as [-> ->].
    split; [exact V|]. split; [apply VT3, I|]. split; [intros Q; exact (NV i I (eq_sym Q))|].
    destruct (d_ETn _ _ _ _ _ D i I) as [Z0 Z1]. exists (nt m + (i + 1) mod 3), (nt m + (i + 2) mod 3). split; [exact Z0|]. split; [exact Z1|].
    split; [each3 i I; cbn; lia|]. intros s. rewrite IN3. split.
    + intros [(j & J & ->) S]. apply NS in S; [|exact J]. assert (x j < ne m) by (apply (c_rangeE _ C), (p_edge _ _ _ O), J).
      clear - I J S H. each3 i I; each3 j J; cbn in *; lia.
    + assert (X : forall j, j < 3 -> ne m + i = ne m + (j + 2) mod 3 \/ ne m + i = ne m + (j + 1) mod 3 -> (exists i0, i0 < 3 /\ nt m + j = nt m + i0) /\ side m' (nt m + j) (ne m + i)).
      { intros j J H. split; [eauto|]. apply NS; tauto. }
      intros [->| ->]; apply X; clear - I; each3 i I; cbn; lia.
  - intros y s [].
  - intros s S. apply IN3 in S. destruct S as (i & I & ->).
    assert (I1 : (i + 1) mod 3 < 3) by (apply Nat.mod_upper_bound; lia). assert (I2 : (i + 2) mod 3 < 3) by (apply Nat.mod_upper_bound; lia).
    assert (I12 : (i + 1) mod 3 <> (i + 2) mod 3) by (clear - I; each3 i I; cbn; lia).
    destruct (tri_ok m' (nt m + i) (TV m t ((i + 1) mod 3)) (TV m t ((i + 2) mod 3)) v (x i) (ne m + (i + 1) mod 3) (ne m + (i + 2) mod 3)) as (G1 & G2 & G3 & G4).
    { unfold perm3. destruct (d_TVn _ _ _ _ _ D i I) as (-> & -> & ->). auto. }
    { unfold perm3. destruct (d_TEn _ _ _ _ _ D i I) as (-> & -> & ->). auto 10. }
    { intros Q. apply (p_corner _ _ _ O) in Q; auto. }
    { apply NV, I1. }
    { apply NV, I2. }
    { apply OJ; [apply (p_edge _ _ _ O), I|apply (p_join _ _ _ O), I]. }
    { apply joins_sym, NJ, I1. }
    { apply joins_sym, NJ, I2. }
    split; [intros u U; apply NC in U; [|exact I]; destruct U as [->|[->| ->]]; auto|]. split; [exact G1|]. split; [exact G2|]. split; [|split; [exact G3|exact G4]].
    intros y Y. apply NS in Y; [|exact I]. destruct Y as [->|[->| ->]]; [left; apply IN3; eauto|left; apply IN3; eauto|right; split; [apply (p_edge _ _ _ O), I|intros []]].
  - intros y z u w Y Z J1 J2. apply IN3 in Y. destruct Y as (i & I & ->). assert (E1 : end_of m' (ne m + i) v) by (apply (joins_ends _ _ _ _ _ (NJ i I)); auto).
    apply (joins_ends _ _ _ _ _ J1) in E1. apply (joins_ends _ _ _ _ _ J2) in E1. destruct Z as [Z|[Z _]].
    + apply IN3 in Z. destruct Z as (j & J & ->). assert (E2 : end_of m' (ne m + i) (TV m t i)) by (apply (joins_ends _ _ _ _ _ (NJ i I)); auto).
      apply (joins_ends _ _ _ _ _ J1) in E2. apply (joins_ends _ _ _ _ _ J2) in E2. apply (joins_ends _ _ _ _ _ (NJ j J)) in E2.
      destruct E2 as [E2|E2]; [exfalso; exact (NV i I E2)|]. apply (p_corner _ _ _ O) in E2; auto.
    + exfalso. apply (fresh_end m v z C (conj V (conj FE FT)) Z). unfold end_of in *. rewrite !OEV in E1 by exact Z. exact E1.
  - intros s s' S S' H. apply IN3 in S. destruct S as (i & I & ->). destruct S' as [S'|[S' _]].
    + apply IN3 in S'. destruct S' as (j & J & ->). f_equal.
      assert (Q : forall k, k < 3 -> k <> i -> k <> j).
      { intros k K KI ->. assert (X : corner m' (nt m + i) (TV m t j)).
        { apply NC; [exact I|]. assert (j = (i + 1) mod 3 \/ j = (i + 2) mod 3) as [Q|Q] by (clear - I K KI; each3 i I; each3 j K; cbn; lia); rewrite <- Q; auto. }
        apply H, NC in X; [|exact K]. assert (I1 : (j + 1) mod 3 < 3) by (apply Nat.mod_upper_bound; lia). assert (I2 : (j + 2) mod 3 < 3) by (apply Nat.mod_upper_bound; lia).
        destruct X as [X|[X|X]]; [| |exact (NV j K X)]; apply (p_corner _ _ _ O) in X; auto; clear - K X; each3 j K; cbn in X; lia. }
      destruct (Nat.eq_dec j i) as [->|N]; [reflexivity|]. exfalso. exact (Q j J N eq_refl).
    + exfalso. assert (X : corner m' (nt m + i) v) by (apply NC; auto). apply H in X. apply (fresh_corner m v s' C (conj V (conj FE FT)) S').
      unfold corner in *. rewrite !OTV in X by exact S'. exact X.
Qed.
End Divide.
