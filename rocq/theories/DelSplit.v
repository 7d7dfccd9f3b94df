(** divideEdge keeps a mesh consistent. *)
From Coq Require Import ZArith List Bool Arith Lia.
From Verif Require Import Outcome DelModel DelSpec DelFields DelRewire DelFlip DelFlip2 DelDivide.
Import ListNotations.
Open Scope nat_scope.

Ltac each4 i I := destruct i as [|[|[|[|i]]]]; [clear I|clear I|clear I|clear I|exfalso; clear - I; lia].

Section Split.
Context {P : Type}.
Implicit Types m : mesh P.

Lemma extern0 m t e c x0 x1 : around m t e c x0 x1 -> EV m e 0 <> EV m e 1 -> externSide m e t (EV m e 0) = Ok x0.
Proof.
  intros A AB. unfold externSide. pose proof (a_side _ _ _ _ _ _ A) as S.
  assert (F0 : negb (x0 =? e) && isIncidentE m (EV m e 0) x0 = true).
  { rewrite inc_true by (apply (joins_ends _ _ _ _ _ (a_join0 _ _ _ _ _ _ A)); auto).
    pose proof (a_e0 _ _ _ _ _ _ A) as N. apply not_eq_sym, Nat.eqb_neq in N. rewrite N. reflexivity. }
  assert (F1 : negb (x1 =? e) && isIncidentE m (EV m e 0) x1 = false).
  { rewrite inc_false; [apply andb_false_r|]. apply (side_not m x1 _ _ _ (a_join1 _ _ _ _ _ _ A)); [exact AB|apply not_eq_sym, (a_c0 _ _ _ _ _ _ A)]. }
  assert (FE : negb (e =? e) && isIncidentE m (EV m e 0) e = false) by (rewrite Nat.eqb_refl; reflexivity).
  unfold perm3 in S. cbn [find].
  decompose [or and] S; clear S; repeat match goal with [ H : TE m t _ = _ |- _ ] => rewrite H; clear H end; rewrite ?FE, ?F0, ?F1; try reflexivity.
Qed.

Lemma extern1 m t e c x0 x1 : around m t e c x0 x1 -> EV m e 0 <> EV m e 1 -> externSide m e t (EV m e 1) = Ok x1.
Proof.
  intros A AB. unfold externSide. pose proof (a_side _ _ _ _ _ _ A) as S.
  assert (F0 : negb (x1 =? e) && isIncidentE m (EV m e 1) x1 = true).
  { rewrite inc_true by (apply (joins_ends _ _ _ _ _ (a_join1 _ _ _ _ _ _ A)); auto).
    pose proof (a_e1 _ _ _ _ _ _ A) as N. apply not_eq_sym, Nat.eqb_neq in N. rewrite N. reflexivity. }
  assert (F1 : negb (x0 =? e) && isIncidentE m (EV m e 1) x0 = false).
  { rewrite inc_false; [apply andb_false_r|]. apply (side_not m x0 _ _ _ (a_join0 _ _ _ _ _ _ A)); [congruence|apply not_eq_sym, (a_c1 _ _ _ _ _ _ A)]. }
  assert (FE : negb (e =? e) && isIncidentE m (EV m e 1) e = false) by (rewrite Nat.eqb_refl; reflexivity).
  unfold perm3 in S. cbn [find].
  decompose [or and] S; clear S; repeat match goal with [ H : TE m t _ = _ |- _ ] => rewrite H; clear H end; rewrite ?FE, ?F0, ?F1; try reflexivity.
Qed.

Lemma split_sides_spec e0 n0 x o a i m : x < e0 -> i < 2 ->
  let m' := split_sides e0 n0 x o m a i in
  (nv m' = nv m /\ ne m' = ne m /\ nt m' = nt m /\ POS m' = POS m /\ IDX m' = IDX m /\ EV m' = EV m /\ TV m' = TV m /\ VE m' = VE m /\ VT m' = VT m) /\
  (forall y k, y < e0 -> ET m' y k = ET (rep m x o (n0 + (2 * a + i))) y k) /\
  (forall j k, ET m' (e0 + j) k = if ((j =? 2 + a) && (k =? i)) || ((j =? i) && (k =? a)) then Some (n0 + (2 * a + i)) else ET m (e0 + j) k) /\
  (forall s k, TE m' s k = if s =? n0 + (2 * a + i) then (if k =? 0 then e0 + (2 + a) else if k =? 1 then e0 + i else if k =? 2 then x else TE m s k) else TE m s k).
Proof.
  intros X I2 m'. split; [repeat split; reflexivity|]. unfold m', split_sides. clear m'. set (n := n0 + (2 * a + i)). set (eA := e0 + (2 + a)). set (eI := e0 + i). split; [|split].
  - intros y k Y.
    set (q := setTE (setET (setTE (setET (setTE m n 0 eA) eA i (Some n)) n 1 eI) eI a (Some n)) n 2 x).
    change (ET (rep q x o n) y k = ET (rep m x o n) y k). apply (rep_ext q m x o n e0 X); [|exact Y].
    intros y1 k1 Y1. unfold q. autorewrite with fields. unfold upd2.
    assert (y1 =? eA = false) as -> by (apply Nat.eqb_neq; unfold eA; lia). assert (y1 =? eI = false) as -> by (apply Nat.eqb_neq; unfold eI; lia). reflexivity.
  - intros j k. autorewrite with fields. unfold upd2 at 1. assert (e0 + j =? x = false) as -> by (apply Nat.eqb_neq; lia). cbn [andb]. unfold upd2, eA, eI.
    rewrite !eqb_plus. destruct ((j =? i) && (k =? a)); [rewrite orb_true_r; reflexivity|]. rewrite orb_false_r. reflexivity.
  - intros s k. autorewrite with fields. unfold upd2. destruct (s =? n); cbn [andb]; [|reflexivity].
    destruct k as [|[|[|k]]]; reflexivity.
Qed.

Record split_mesh m (e o0 o1 c d v x00 x01 x10 x11 : nat) (m' : mesh P) : Prop := {
  s_nv : nv m' = nv m; s_ne : ne m' = ne m + 4; s_nt : nt m' = nt m + 4; s_POS : POS m' = POS m; s_IDX : IDX m' = IDX m;
  s_EV : forall y k, y < ne m -> EV m' y k = EV m y k;
  s_EVn : forall j, j < 4 -> EV m' (ne m + j) 0 = v /\ EV m' (ne m + j) 1 = nth j [EV m e 0; EV m e 1; c; d] 0;
  s_TV : forall s k, s < nt m -> TV m' s k = TV m s k;
  s_TVn : forall j, j < 4 -> TV m' (nt m + j) 0 = nth j [EV m e 0; EV m e 1; EV m e 0; EV m e 1] 0 /\ TV m' (nt m + j) 1 = v /\ TV m' (nt m + j) 2 = nth j [c; c; d; d] 0;
  s_TE : forall s k, s < nt m -> TE m' s k = TE m s k;
  s_TEn : forall j, j < 4 -> TE m' (nt m + j) 0 = ne m + nth j [2; 2; 3; 3] 0 /\ TE m' (nt m + j) 1 = ne m + nth j [0; 1; 0; 1] 0 /\ TE m' (nt m + j) 2 = nth j [x00; x01; x10; x11] 0;
  s_ET : forall y k, y < ne m ->
    ET m' y k = ET (rep (rep (rep (rep m x00 o0 (nt m + 0)) x01 o0 (nt m + 1)) x10 o1 (nt m + 2)) x11 o1 (nt m + 3)) y k;
  s_ETn : forall j, j < 4 -> ET m' (ne m + j) 0 = Some (nt m + nth j [0; 1; 0; 2] 0) /\ ET m' (ne m + j) 1 = Some (nt m + nth j [2; 3; 1; 3] 0);
  s_setE : forall u, NoDup (VE m u) -> NoDup (VE m' u);
  s_setT : forall u, NoDup (VT m u) -> NoDup (VT m' u);
  s_VE : forall u y, In y (VE m' u) <-> (In y (VE m u) /\ ~ (y = e /\ (u = EV m e 0 \/ u = EV m e 1))) \/
    exists j, j < 4 /\ y = ne m + j /\ (u = v \/ u = nth j [EV m e 0; EV m e 1; c; d] 0);
  s_VT : forall u s, In s (VT m' u) <-> (In s (VT m u) /\ ~ ((u = EV m e 0 \/ u = EV m e 1) /\ (s = o0 \/ s = o1)) /\ ~ (u = c /\ s = o0) /\ ~ (u = d /\ s = o1)) \/
    exists j, j < 4 /\ s = nt m + j /\ (u = nth j [EV m e 0; EV m e 1; EV m e 0; EV m e 1] 0 \/ u = v \/ u = nth j [c; c; d; d] 0) }.

(** lines 457-474: the triangles of the vertices *)
Lemma split_VT m (inc old apart : nat -> nat) v n0 u s : (forall j a, n0 + j <> old a) ->
  let f2 := fun m a i => split_corners n0 (inc i) (apart a) v m a i in
  let f3 := fun m a => split_forget inc (apart a) (old a) m in
  In s (VT (f3 (f3 (f2 (f2 (f2 (f2 m 0 0) 0 1) 1 0) 1 1) 0) 1) u) <->
   (In s (VT m u) /\ ~ ((u = inc 0 \/ u = inc 1) /\ (s = old 0 \/ s = old 1)) /\ ~ (u = apart 0 /\ s = old 0) /\ ~ (u = apart 1 /\ s = old 1)) \/
    exists j, j < 4 /\ s = n0 + j /\ (u = nth j [inc 0; inc 1; inc 0; inc 1] 0 \/ u = v \/ u = nth j [apart 0; apart 0; apart 1; apart 1] 0).
Proof.
  intros NN f2 f3.
  assert (S2 : forall m a i, In s (VT (f2 m a i) u) <-> (s = n0 + (2 * a + i) /\ (u = inc i \/ u = v \/ u = apart a)) \/ In s (VT m u)).
  { intros q a i. unfold f2, split_corners. rewrite VT_insT, VT_setTV, VT_insT, VT_setTV, VT_insT, VT_setTV. tauto. }
  assert (S3 : forall m a, In s (VT (f3 m a) u) <-> ~ (s = old a /\ (u = inc 0 \/ u = inc 1 \/ u = apart a)) /\ In s (VT m u)).
  { intros q a. unfold f3, split_forget, for2. rewrite !VT_delT. tauto. }
  clearbody f2 f3. rewrite !S3, !S2. clear S2 S3.
  change (2 * 0 + 0) with 0. change (2 * 0 + 1) with 1. change (2 * 1 + 0) with 2. change (2 * 1 + 1) with 3. split.
  - intros (N1 & N0 & [[A B]|[[A B]|[[A B]|[[A B]|I]]]]); [right; exists 3; split; [lia|auto]|right; exists 2; split; [lia|auto]|right; exists 1; split; [lia|auto]|right; exists 0; split; [lia|auto]|left].
    split; [exact I|]. split; [|split].
    + intros [[A|A] [B|B]]; [apply N0|apply N1|apply N0|apply N1]; auto.
    + intros [A B]. apply N0. auto.
    + intros [A B]. apply N1. auto.
  - intros [(I & N & N0 & N1)|(j & J & -> & Q)].
    + split; [intros [A [B|[B|B]]]; [apply N|apply N|apply N1]; auto|]. split; [intros [A [B|[B|B]]]; [apply N|apply N|apply N0]; auto|]. auto 10.
    + split; [intros [A _]; exact (NN _ _ A)|]. split; [intros [A _]; exact (NN _ _ A)|].
      each4 j J; cbn [nth] in Q; [right; right; right; left|right; right; left|right; left|left]; auto.
Qed.

(** lines 476-494: the edges of the vertices *)
Lemma split_VE m (inc apart : nat -> nat) v e e0 u y : (forall j, e0 + j <> e) ->
  let f4 := fun m i => split_inc e0 (inc i) v e m i in
  let f5 := fun m a => split_apart e0 (apart a) v m a in
  In y (VE (f5 (f5 (f4 (f4 m 0) 1) 0) 1) u) <->
   (In y (VE m u) /\ ~ (y = e /\ (u = inc 0 \/ u = inc 1))) \/
    exists j, j < 4 /\ y = e0 + j /\ (u = v \/ u = nth j [inc 0; inc 1; apart 0; apart 1] 0).
Proof.
  intros NN f4 f5.
  assert (S4 : forall m i, In y (VE (f4 m i) u) <-> ~ (u = inc i /\ y = e) /\ ((y = e0 + i /\ (u = v \/ u = inc i)) \/ In y (VE m u))).
  { intros q i. unfold f4, split_inc. rewrite VE_delE, VE_insE, VE_setEV, VE_insE, VE_setEV. tauto. }
  assert (S5 : forall m a, In y (VE (f5 m a) u) <-> (y = e0 + (2 + a) /\ (u = v \/ u = apart a)) \/ In y (VE m u)).
  { intros q a. unfold f5, split_apart. rewrite VE_insE, VE_setEV, VE_insE, VE_setEV. tauto. }
  clearbody f4 f5. rewrite !S5, !S4. clear S4 S5. change (2 + 0) with 2. change (2 + 1) with 3. split.
  - intros [[A B]|[[A B]|(N1 & [[A B]|(N0 & [[A B]|I])])]]; [right; exists 3; split; [lia|auto]|right; exists 2; split; [lia|auto]|right; exists 1; split; [lia|auto]|right; exists 0; split; [lia|auto]|left].
    split; [exact I|]. intros [A [B|B]]; [apply N0|apply N1]; auto.
  - intros [(I & N)|(j & J & -> & Q)].
    + right. right. split; [intros [A B]; apply N; auto|]. right. split; [intros [A B]; apply N; auto|]. auto.
    + assert (NE : forall q, ~ (u = q /\ e0 + j = e)) by (intros q [_ A]; exact (NN _ A)).
      each4 j J; cbn [nth] in Q; [right; right; split; [apply NE|]; right; split; [apply NE|]; left|right; right; split; [apply NE|]; left|right; left|left]; auto.
Qed.

Lemma split_computes m e v o0 o1 c d x00 x01 x10 x11 : consistent m -> edge_of m e ->
  ET m e 0 = Some o0 -> ET m e 1 = Some o1 ->
  around m o0 e c x00 x01 -> around m o1 e d x10 x11 ->
  exists m', divideEdge m e v = Ok m' /\ split_mesh m e o0 o1 c d v x00 x01 x10 x11 m'.
Proof.
  intros C E E0 E1 A0 A1. pose proof (c_edge _ C e E) as AB. unfold divideEdge. rewrite E0, E1, (a_third _ _ _ _ _ _ A0), (a_third _ _ _ _ _ _ A1). cbn [bind].
  change (sel (EV m e 0) (EV m e 1) 0) with (EV m e 0). change (sel (EV m e 0) (EV m e 1) 1) with (EV m e 1).
  rewrite (extern0 _ _ _ _ _ _ A0 AB), (extern1 _ _ _ _ _ _ A0 AB), (extern0 _ _ _ _ _ _ A1 AB), (extern1 _ _ _ _ _ _ A1 AB). cbn [bind].
  set (inc := sel (EV m e 0) (EV m e 1)). set (apart := sel c d). set (old := sel o0 o1).
  set (e0 := ne m). set (n0 := nt m).
  assert (RO0 : o0 < n0) by (apply (c_rangeT _ C), (a_tri _ _ _ _ _ _ A0)).
  assert (RO1 : o1 < n0) by (apply (c_rangeT _ C), (a_tri _ _ _ _ _ _ A1)).
  assert (R00 : x00 < e0) by (apply (c_rangeE _ C), (a_edge0 _ _ _ _ _ _ A0)).
  assert (R01 : x01 < e0) by (apply (c_rangeE _ C), (a_edge1 _ _ _ _ _ _ A0)).
  assert (R10 : x10 < e0) by (apply (c_rangeE _ C), (a_edge0 _ _ _ _ _ _ A1)).
  assert (R11 : x11 < e0) by (apply (c_rangeE _ C), (a_edge1 _ _ _ _ _ _ A1)).
  assert (RE : e < e0) by (apply (c_rangeE _ C), E).
  eexists. split; [reflexivity|].
  match goal with |- split_mesh _ _ _ _ _ _ _ _ _ _ _ (for2 ?f5 (for2 ?f4 (for2 ?f3 (for2 ?f2 (for2 ?f1 ?mm))))) =>
    set (m1 := for2 f1 mm); set (m2 := for2 f2 m1); set (m3 := for2 f3 m2) end.
  assert (M1 : (nv m1 = nv m /\ ne m1 = e0 + 4 /\ nt m1 = n0 + 4 /\ POS m1 = POS m /\ IDX m1 = IDX m /\ EV m1 = EV m /\ TV m1 = TV m /\ VE m1 = VE m /\ VT m1 = VT m) /\
    (forall y k, y < e0 -> ET m1 y k = ET (rep (rep (rep (rep m x00 o0 (n0 + 0)) x01 o0 (n0 + 1)) x10 o1 (n0 + 2)) x11 o1 (n0 + 3)) y k) /\
    (forall j, j < 4 -> ET m1 (e0 + j) 0 = Some (n0 + nth j [0; 1; 0; 2] 0) /\ ET m1 (e0 + j) 1 = Some (n0 + nth j [2; 3; 1; 3] 0)) /\
    (forall s k, s < n0 -> TE m1 s k = TE m s k) /\
    (forall j, j < 4 -> TE m1 (n0 + j) 0 = e0 + nth j [2; 2; 3; 3] 0 /\ TE m1 (n0 + j) 1 = e0 + nth j [0; 1; 0; 1] 0 /\ TE m1 (n0 + j) 2 = nth j [x00; x01; x10; x11] 0)).
  { unfold m1, for2, old. cbn [sel Nat.eqb]. set (q0 := makeEdges (makeTriangles m 4) 4).
    assert (Z0 : nv q0 = nv m /\ ne q0 = e0 + 4 /\ nt q0 = n0 + 4 /\ POS q0 = POS m /\ IDX q0 = IDX m /\ EV q0 = EV m /\ TV q0 = TV m /\ VE q0 = VE m /\ VT q0 = VT m /\ ET q0 = ET m /\ TE q0 = TE m) by (repeat split; reflexivity).
    clearbody q0. destruct Z0 as (Z1 & Z2 & Z3 & Z4 & Z5 & Z6 & Z7 & Z8 & Z9 & Z10 & Z11).
    destruct (split_sides_spec e0 n0 x00 o0 0 0 q0) as ((Y1 & Y2 & Y3 & Y4 & Y5 & Y6 & Y7 & Y8 & Y9) & U1 & U2 & U3); try lia.
    set (q1 := split_sides e0 n0 _ _ q0 0 0) in *. clearbody q1.
    destruct (split_sides_spec e0 n0 x01 o0 0 1 q1) as ((X1 & X2 & X3 & X4 & X5 & X6 & X7 & X8 & X9) & U4 & U5 & U6); try lia.
    set (q2 := split_sides e0 n0 _ _ q1 0 1) in *. clearbody q2.
    destruct (split_sides_spec e0 n0 x10 o1 1 0 q2) as ((W1 & W2 & W3 & W4 & W5 & W6 & W7 & W8 & W9) & U7 & U8 & U9); try lia.
    set (q3 := split_sides e0 n0 _ _ q2 1 0) in *. clearbody q3.
    destruct (split_sides_spec e0 n0 x11 o1 1 1 q3) as ((V1 & V2 & V3 & V4 & V5 & V6 & V7 & V8 & V9) & U10 & U11 & U12); try lia.
    set (q4 := split_sides e0 n0 _ _ q3 1 1) in *. clearbody q4.
    split; [|split; [|split; [|split]]].
    - repeat split; congruence.
    - intros y k Y. rewrite U10 by exact Y. apply (rep_ext _ _ x11 o1 (n0 + 3) e0 R11); [|exact Y]. intros y1 k1 H1. rewrite U7 by exact H1.
      apply (rep_ext _ _ x10 o1 (n0 + 2) e0 R10); [|exact H1]. intros y2 k2 H2. rewrite U4 by exact H2.
      apply (rep_ext _ _ x01 o0 (n0 + 1) e0 R01); [|exact H2]. intros y3 k3 H3. rewrite U1 by exact H3.
      apply (rep_ext _ _ x00 o0 (n0 + 0) e0 R00); [|exact H3]. intros y4 k4 H4. rewrite Z10. reflexivity.
    - intros j J. rewrite !U11, !U8, !U5, !U2. each4 j J; split; reflexivity.
    - intros s k S. rewrite U12, U9, U6, U3, !eqb_less by exact S. rewrite Z11. reflexivity.
    - intros j J. rewrite !U12, !U9, !U6, !U3, !eqb_plus. each4 j J; repeat split. }
  clearbody m1. destruct M1 as ((G1 & G2 & G3 & G4 & G5 & G6 & G7 & G8 & G9) & G10 & G11 & G12 & G13).
  assert (F2 : nv m2 = nv m /\ ne m2 = e0 + 4 /\ nt m2 = n0 + 4 /\ POS m2 = POS m /\ IDX m2 = IDX m /\ EV m2 = EV m /\ TE m2 = TE m1 /\ VE m2 = VE m /\ ET m2 = ET m1).
  { unfold m2, for2, split_corners. autorewrite with fields mesh. auto 12. }
  assert (TV2 : (forall s k, s < n0 -> TV m2 s k = TV m s k) /\
     (forall j, j < 4 -> TV m2 (n0 + j) 0 = nth j [EV m e 0; EV m e 1; EV m e 0; EV m e 1] 0 /\ TV m2 (n0 + j) 1 = v /\ TV m2 (n0 + j) 2 = nth j [c; c; d; d] 0)).
  { assert (EQ : forall s k, TV m2 s k = upd2 (upd2 (upd2 (upd2 (upd2 (upd2 (upd2 (upd2 (upd2 (upd2 (upd2 (upd2 (TV m1) (n0 + 0) 0 (inc 0)) (n0 + 0) 1 v) (n0 + 0) 2 (apart 0))
        (n0 + 1) 0 (inc 1)) (n0 + 1) 1 v) (n0 + 1) 2 (apart 0)) (n0 + 2) 0 (inc 0)) (n0 + 2) 1 v) (n0 + 2) 2 (apart 1)) (n0 + 3) 0 (inc 1)) (n0 + 3) 1 v) (n0 + 3) 2 (apart 1) s k).
    { intros s k. unfold m2, for2, split_corners. autorewrite with fields. reflexivity. }
    clearbody m2. split.
    - intros y k Y. rewrite EQ. unfold upd2. rewrite !eqb_less by exact Y. cbn [andb]. rewrite G7. reflexivity.
    - intros j J. rewrite !EQ. unfold upd2. rewrite !eqb_plus. each4 j J; repeat split. }
  assert (ND2 : forall u, NoDup (VT m u) -> NoDup (VT m2 u)).
  { intros u U. rewrite <- G9 in U. unfold m2, for2, split_corners. nodup_sets. exact U. }
  assert (ND3 : forall u, NoDup (VT m u) -> NoDup (VT m3 u)).
  { intros u U. unfold m3, split_forget, for2. nodup_sets. apply ND2, U. }
  assert (VT3 : forall u s, In s (VT m3 u) <-> (In s (VT m u) /\ ~ ((u = EV m e 0 \/ u = EV m e 1) /\ (s = o0 \/ s = o1)) /\ ~ (u = c /\ s = o0) /\ ~ (u = d /\ s = o1)) \/
    exists j, j < 4 /\ s = n0 + j /\ (u = nth j [EV m e 0; EV m e 1; EV m e 0; EV m e 1] 0 \/ u = v \/ u = nth j [c; c; d; d] 0)).
  { intros u s. rewrite <- G9. apply (split_VT m1 inc old apart v n0 u s). intros j a. unfold old, sel. destruct (a =? 0); lia. }
  assert (F3 : nv m3 = nv m2 /\ ne m3 = ne m2 /\ nt m3 = nt m2 /\ POS m3 = POS m2 /\ IDX m3 = IDX m2 /\ EV m3 = EV m2 /\ TV m3 = TV m2 /\ TE m3 = TE m2 /\ VE m3 = VE m2 /\ ET m3 = ET m2).
  { unfold m3, split_forget, for2. autorewrite with fields mesh. auto 12. }
  clearbody m3. clearbody m2. destruct F2 as (H1 & H2 & H3 & H4 & H5 & H6 & H7 & H8 & H9).
  destruct F3 as (I1 & I2 & I3 & I4 & I5 & I6 & I7 & I8 & I9 & I10).
  match goal with |- split_mesh _ _ _ _ _ _ _ _ _ _ _ ?q => set (m5 := q) end.
  assert (F5 : nv m5 = nv m3 /\ ne m5 = ne m3 /\ nt m5 = nt m3 /\ POS m5 = POS m3 /\ IDX m5 = IDX m3 /\ TV m5 = TV m3 /\ TE m5 = TE m3 /\ VT m5 = VT m3 /\ ET m5 = ET m3).
  { unfold m5, split_inc, split_apart, for2. autorewrite with fields mesh. auto 12. }
  assert (EV5 : (forall y k, y < e0 -> EV m5 y k = EV m y k) /\ (forall j, j < 4 -> EV m5 (e0 + j) 0 = v /\ EV m5 (e0 + j) 1 = nth j [EV m e 0; EV m e 1; c; d] 0)).
  { assert (EQ : forall s k, EV m5 s k = upd2 (upd2 (upd2 (upd2 (upd2 (upd2 (upd2 (upd2 (EV m3) (e0 + 0) 0 v) (e0 + 0) 1 (inc 0)) (e0 + 1) 0 v) (e0 + 1) 1 (inc 1))
        (e0 + 2) 0 v) (e0 + 2) 1 (apart 0)) (e0 + 3) 0 v) (e0 + 3) 1 (apart 1) s k).
    { intros s k. unfold m5, split_inc, split_apart, for2. autorewrite with fields. reflexivity. }
    clearbody m5. split.
    - intros y k Y. rewrite EQ. unfold upd2. rewrite !eqb_less by exact Y. cbn [andb]. rewrite I6, H6. reflexivity.
    - intros j J. rewrite !EQ. unfold upd2. rewrite !eqb_plus. each4 j J; repeat split. }
  assert (ND5 : forall u, NoDup (VE m u) -> NoDup (VE m5 u)).
  { intros u U. rewrite <- H8, <- I9 in U. unfold m5, split_inc, split_apart, for2. nodup_sets. exact U. }
  assert (VE5 : forall u y, In y (VE m5 u) <-> (In y (VE m u) /\ ~ (y = e /\ (u = EV m e 0 \/ u = EV m e 1))) \/
    exists j, j < 4 /\ y = e0 + j /\ (u = v \/ u = nth j [EV m e 0; EV m e 1; c; d] 0)).
  { intros u y. rewrite <- H8, <- I9. apply (split_VE m3 inc apart v e e0 u y). intros j. lia. }
  clearbody m5. destruct F5 as (J1 & J2 & J3 & J4 & J5 & J6 & J7 & J8 & J9).
  constructor; fold e0 n0.
  - congruence.
  - congruence.
  - congruence.
  - congruence.
  - congruence.
  - apply EV5.
  - apply EV5.
  - rewrite J6, I7. apply TV2.
  - rewrite J6, I7. apply TV2.
  - rewrite J7, I8, H7. exact G12.
  - rewrite J7, I8, H7. exact G13.
  - rewrite J9, I10, H9. exact G10.
  - rewrite J9, I10, H9. exact G11.
  - exact ND5.
  - rewrite J8. exact ND3.
  - exact VE5.
  - rewrite J8. exact VT3.
Qed.

Lemma split_rewired m m' e v o0 o1 c d x00 x01 x10 x11 : consistent m -> edge_of m e -> fresh m v ->
  ET m e 0 = Some o0 -> ET m e 1 = Some o1 -> around m o0 e c x00 x01 -> around m o1 e d x10 x11 ->
  split_mesh m e o0 o1 c d v x00 x01 x10 x11 m' ->
  rewired m m' [e] [o0; o1] [ne m + 0; ne m + 1; ne m + 2; ne m + 3] [nt m + 0; nt m + 1; nt m + 2; nt m + 3].
Proof.
  intros C E FV E0 E1 A0 A1 F.
  pose proof (two_tri m e o0 o1 C E E0 E1) as OO. pose proof (apart_distinct m e o0 o1 c d _ _ _ _ C E E0 E1 A0 A1) as CD.
  pose proof (quad_sides m e o0 o1 c d _ _ _ _ C E E0 E1 A0 A1) as (D1 & D2 & D3 & D4 & D5 & D6).
  pose proof (quad_beside m e o0 o1 c d _ _ _ _ C A0 A1) as (B1 & B2 & B3 & B4).
  assert (AB : EV m e 0 <> EV m e 1) by apply (c_edge _ C e E).
  pose proof (a_c0 _ _ _ _ _ _ A0) as CA. pose proof (a_c1 _ _ _ _ _ _ A0) as CB.
  pose proof (a_c0 _ _ _ _ _ _ A1) as DA. pose proof (a_c1 _ _ _ _ _ _ A1) as DB.
  assert (S0 : forall x, side m o0 x <-> x = e \/ x = x00 \/ x = x01) by (intros x; apply (perm3_in _ _ _ _ _ (a_side _ _ _ _ _ _ A0))).
  assert (S1 : forall x, side m o1 x <-> x = e \/ x = x10 \/ x = x11) by (intros x; apply (perm3_in _ _ _ _ _ (a_side _ _ _ _ _ _ A1))).
  assert (C0 : forall x, corner m o0 x <-> x = EV m e 0 \/ x = EV m e 1 \/ x = c) by (intros x; apply (perm3_in _ _ _ _ _ (a_corner _ _ _ _ _ _ A0))).
  assert (C1 : forall x, corner m o1 x <-> x = EV m e 0 \/ x = EV m e 1 \/ x = d) by (intros x; apply (perm3_in _ _ _ _ _ (a_corner _ _ _ _ _ _ A1))).
  pose proof (a_tri _ _ _ _ _ _ A0) as T0. pose proof (a_tri _ _ _ _ _ _ A1) as T1.
  pose proof (a_edge0 _ _ _ _ _ _ A0) as L0. pose proof (a_edge1 _ _ _ _ _ _ A0) as L1.
  pose proof (a_edge0 _ _ _ _ _ _ A1) as L2. pose proof (a_edge1 _ _ _ _ _ _ A1) as L3.
  pose proof (a_e0 _ _ _ _ _ _ A0) as N00. pose proof (a_e1 _ _ _ _ _ _ A0) as N01.
  pose proof (a_e0 _ _ _ _ _ _ A1) as N10. pose proof (a_e1 _ _ _ _ _ _ A1) as N11.
  assert (NV0 : forall u, corner m o0 u -> u <> v) by (intros u U ->; exact (fresh_corner m v o0 C FV T0 U)).
  assert (NV1 : forall u, corner m o1 u -> u <> v) by (intros u U ->; exact (fresh_corner m v o1 C FV T1 U)).
  set (a := EV m e 0) in *. set (b := EV m e 1) in *.
  assert (VC : c < nv m) by (apply (c_corners _ C o0 c T0), C0; auto).
  assert (VD : d < nv m) by (apply (c_corners _ C o1 d T1), C1; auto).
  assert (VA : a < nv m) by (apply (c_corners _ C o1 _ T1), C1; auto).
  assert (VB : b < nv m) by (apply (c_corners _ C o1 _ T1), C1; auto).
  assert (AV : a <> v) by (apply NV0, C0; auto). assert (BV : b <> v) by (apply NV0, C0; auto).
  assert (CV : c <> v) by (apply NV0, C0; auto). assert (DV : d <> v) by (apply NV1, C1; auto).
  assert (V : v < nv m) by apply FV.
  assert (OEV : forall x k, edge_of m x -> EV m' x k = EV m x k) by (intros x k X; apply (s_EV _ _ _ _ _ _ _ _ _ _ _ _ F), (c_rangeE _ C x X)).
  assert (OTV : forall x k, tri_of m x -> TV m' x k = TV m x k) by (intros x k X; apply (s_TV _ _ _ _ _ _ _ _ _ _ _ _ F), (c_rangeT _ C x X)).
  assert (OJ : forall x u w, edge_of m x -> (joins m' x u w <-> joins m x u w)) by (intros x u w X; unfold joins; rewrite !OEV by exact X; tauto).
  set (far := fun j => nth j [a; b; c; d] 0). set (inc := fun j => nth j [a; b; a; b] 0). set (ap := fun j => nth j [c; c; d; d] 0).
  set (sd := fun j => nth j [x00; x01; x10; x11] 0). set (ei := fun j => nth j [0; 1; 0; 1] 0). set (ea := fun j => nth j [2; 2; 3; 3] 0).
  set (old := fun j => nth j [o0; o0; o1; o1] 0).
  assert (FJ : forall j, j < 4 -> far j <> v /\ far j < nv m /\ inc j <> v /\ inc j < nv m /\ ap j <> v /\ ap j < nv m /\ ap j <> inc j /\ far (ei j) = inc j /\ far (ea j) = ap j /\
     ei j < 4 /\ ea j < 4 /\ edge_of m (sd j) /\ e <> sd j /\ joins m (sd j) (inc j) (ap j) /\ beside m (sd j) (old j) /\ In (old j) [o0; o1]).
  { intros j J. each4 j J; cbn; (repeat match goal with |- _ /\ _ => split end); auto; try (apply Nat.ltb_lt; reflexivity); try apply A0; try apply A1. }
  assert (FINJ : forall i j, i < 4 -> j < 4 -> far i = far j -> i = j).
  { intros i j I J Q. each4 i I; each4 j J; cbn in Q; try reflexivity; exfalso; congruence. }
  assert (SINJ : forall i j, i < 4 -> j < 4 -> sd i = sd j -> i = j).
  { intros i j I J Q. each4 i I; each4 j J; cbn in Q; try reflexivity; exfalso; congruence. }
  assert (NJ : forall j, j < 4 -> joins m' (ne m + j) v (far j)) by (intros j J; left; apply (s_EVn _ _ _ _ _ _ _ _ _ _ _ _ F j J)).
  assert (NS : forall j y, j < 4 -> (side m' (nt m + j) y <-> y = ne m + ea j \/ y = ne m + ei j \/ y = sd j)).
  { intros j y J. unfold side. destruct (s_TEn _ _ _ _ _ _ _ _ _ _ _ _ F j J) as (-> & -> & ->). unfold ea, ei, sd. intuition congruence. }
  assert (NC : forall j u, j < 4 -> (corner m' (nt m + j) u <-> u = inc j \/ u = v \/ u = ap j)).
  { intros j y J. unfold corner. destruct (s_TVn _ _ _ _ _ _ _ _ _ _ _ _ F j J) as (-> & -> & ->). unfold inc, ap. fold a b. intuition congruence. }
  assert (IN4 : forall n y, In y [n + 0; n + 1; n + 2; n + 3] <-> exists i, i < 4 /\ y = n + i).
  { intros n y. split; [intros [<-|[<-|[<-|[<-|[]]]]]; [exists 0|exists 1|exists 2|exists 3]; (split; [apply Nat.ltb_lt; reflexivity|reflexivity])|]. intros (i & I & ->). each4 i I; cbn; auto. }
  assert (ROW : forall x, edge_of m x -> (exists j, j < 4 /\ x = sd j /\ forall k, ET m' x k = ET (rep m x (old j) (nt m + j)) x k) \/
                                         ((forall j, j < 4 -> x <> sd j) /\ forall k, ET m' x k = ET m x k)).
  { intros x X. pose proof (fun k => s_ET _ _ _ _ _ _ _ _ _ _ _ _ F x k (c_rangeE _ C x X)) as H.
    destruct (Nat.eq_dec x x00) as [->|X0].
    { left. exists 0. split; [apply Nat.ltb_lt; reflexivity|]. split; [reflexivity|]. intros k. rewrite H. rewrite !rep_other by congruence. reflexivity. }
    destruct (Nat.eq_dec x x01) as [->|X1].
    { left. exists 1. split; [apply Nat.ltb_lt; reflexivity|]. split; [reflexivity|]. intros k. rewrite H, !(rep_other (rep _ _ _ _)) by congruence.
      rewrite (rep_row _ m); [reflexivity|]. intros j. rewrite !rep_other by congruence. reflexivity. }
    destruct (Nat.eq_dec x x10) as [->|X2].
    { left. exists 2. split; [apply Nat.ltb_lt; reflexivity|]. split; [reflexivity|]. intros k. rewrite H, (rep_other _ x11) by congruence.
      rewrite (rep_row _ m); [reflexivity|]. intros j. rewrite !rep_other by congruence. reflexivity. }
    destruct (Nat.eq_dec x x11) as [->|X3].
    { left. exists 3. split; [apply Nat.ltb_lt; reflexivity|]. split; [reflexivity|]. intros k. rewrite H.
      rewrite (rep_row _ m); [reflexivity|]. intros j. rewrite !rep_other by congruence. reflexivity. }
    right. split; [intros j J; each4 j J; assumption|]. intros k. rewrite H, !rep_other by congruence. reflexivity. }
  destruct (relink m m' [e] [o0; o1] [nt m + 0; nt m + 1; nt m + 2; nt m + 3] (fun x o n => exists j, j < 4 /\ x = sd j /\ o = old j /\ n = nt m + j) C) as (Q1 & Q2 & Q3 & Q4).
  { intros t T. apply IN4 in T. destruct T as (j & _ & ->). apply Nat.le_add_r. }
  { intros x o n (j & J & -> & -> & ->). destruct (FJ j J) as (_ & _ & _ & _ & _ & _ & _ & _ & _ & _ & _ & _ & _ & _ & W1 & W2). split; [exact W1|]. split; [exact W2|]. apply IN4. eauto. }
  { intros x o n o' n' (i & I & -> & -> & ->) (j & J & Q & -> & ->). pose proof (SINJ i j I J Q). subst. auto. }
  { intros x X _. destruct (ROW x X) as [(j & J & -> & H)|[H1 H2]].
    - left. exists (old j), (nt m + j). split; [eauto|exact H].
    - right. split; [|exact H2]. intros o n (j & J & Q & _). exact (H1 j J Q). }
  { intros x o X NE OD B. assert (x <> e) by (intros ->; apply NE; left; reflexivity). apply (c_beside _ C x o X) in B. destruct B as [_ B].
    destruct OD as [<-|[<-|[]]].
    - apply S0 in B. destruct B as [B|[B|B]]; [congruence|exists (nt m + 0), 0|exists (nt m + 1), 1]; (split; [apply Nat.ltb_lt; reflexivity|auto]).
    - apply S1 in B. destruct B as [B|[B|B]]; [congruence|exists (nt m + 2), 2|exists (nt m + 3), 3]; (split; [apply Nat.ltb_lt; reflexivity|auto]). }
  { intros x t X NE TN. apply IN4 in TN. destruct TN as (j & J & ->). rewrite NS by exact J. pose proof (c_rangeE _ C x X) as LX. split.
    - intros [Q|[Q|Q]]; [exfalso; clear - Q LX; lia|exfalso; clear - Q LX; lia|]. exists (old j), j. auto.
    - intros (o & i & I & -> & _ & Q). assert (i = j) by (clear - Q; lia). subst i. auto. }
  constructor.
  - apply (s_nv _ _ _ _ _ _ _ _ _ _ _ _ F).
  - rewrite (s_ne _ _ _ _ _ _ _ _ _ _ _ _ F). clear. lia.
  - rewrite (s_nt _ _ _ _ _ _ _ _ _ _ _ _ F). clear. lia.
  - clear; repeat constructor; cbn; intuition lia.
  - clear; repeat constructor; cbn; intuition lia.
  - repeat constructor. intros [].
  - repeat constructor; [intros [H|[]]; congruence|intros []].
  - intros x [<-|[]]. exact E.
  - intros t [<-|[<-|[]]]; assumption.
  - intros y Y. apply IN4 in Y. destruct Y as (i & I & ->). rewrite (s_ne _ _ _ _ _ _ _ _ _ _ _ _ F). clear - I. lia.
  - intros y Y. apply IN4 in Y. destruct Y as (i & I & ->). rewrite (s_nt _ _ _ _ _ _ _ _ _ _ _ _ F). clear - I. lia.
  - intros x X. split; apply OEV, X.
  - intros t T. split; [|split]; apply OTV, T.
  - intros t T. apply (c_rangeT _ C) in T. split; [|split]; apply (s_TE _ _ _ _ _ _ _ _ _ _ _ _ F), T.
  - apply (s_setE _ _ _ _ _ _ _ _ _ _ _ _ F).
  - apply (s_setT _ _ _ _ _ _ _ _ _ _ _ _ F).
  - intros u x U. rewrite (s_VE _ _ _ _ _ _ _ _ _ _ _ _ F). fold a b. rewrite IN4. split.
    + intros [[I N]|(j & J & -> & Q)].
      * left. split; [exact I|]. intros [<-|[]]. apply N. split; [reflexivity|].
        assert (H : end_of m e u) by (apply (c_vertE _ C u e U E), I). destruct H; auto.
      * right. split; [eauto|]. apply (joins_ends _ _ _ _ _ (NJ j J)), Q.
    + intros [[I N]|[(j & J & ->) Q]].
      * left. split; [exact I|]. intros [-> _]. apply N. left. reflexivity.
      * right. exists j. split; [exact J|]. split; [reflexivity|]. apply (joins_ends _ _ _ _ _ (NJ j J)), Q.
  - intros u t U. rewrite (s_VT _ _ _ _ _ _ _ _ _ _ _ _ F). fold a b. rewrite IN4. split.
    + intros [(I & M1 & M2 & M3)|(j & J & -> & Q)].
      * left. split; [exact I|]. intros [<-|[<-|[]]].
        -- apply (c_vertT _ C u o0 U T0), C0 in I. destruct I as [I|[I|I]]; [apply M1; auto|apply M1; auto|apply M2; auto].
        -- apply (c_vertT _ C u o1 U T1), C1 in I. destruct I as [I|[I|I]]; [apply M1; auto|apply M1; auto|apply M3; auto].
      * right. split; [eauto|]. apply NC; [exact J|exact Q].
    + intros [[I N]|[(j & J & ->) Q]].
      * left. split; [exact I|]. split; [|split].
        -- intros [_ [->| ->]]; apply N; [left|right; left]; reflexivity.
        -- intros [_ ->]. apply N. left. reflexivity.
        -- intros [_ ->]. apply N. right. left. reflexivity.
      * right. exists j. split; [exact J|]. split; [reflexivity|]. apply NC in Q; [exact Q|exact J].
  - exact Q1.
  - exact Q2.
  - exact Q3.
  - exact Q4.
  - intros x X. apply IN4 in X. destruct X as (j & J & ->). destruct (FJ j J) as (W1 & W2 & _). destruct (s_EVn _ _ _ _ _ _ _ _ _ _ _ _ F j J) as [-> ->].
    split; [exact V|]. split; [exact W2|]. split; [apply not_eq_sym, W1|].
    destruct (s_ETn _ _ _ _ _ _ _ _ _ _ _ _ F j J) as [Z0 Z1]. exists (nt m + nth j [0; 1; 0; 2] 0), (nt m + nth j [2; 3; 1; 3] 0). split; [exact Z0|]. split; [exact Z1|].
    split; [clear - J; each4 j J; cbn; lia|]. intros t. rewrite IN4. split.
    + intros [(i & I & ->) S]. apply NS in S; [|exact I]. assert (H : sd i < ne m) by (apply (c_rangeE _ C); apply (FJ i I)).
      assert (S' : j = ea i \/ j = ei i) by (clear - S H J; lia). clear - I J S'. each4 i I; each4 j J; cbn in *; lia.
    + assert (X : forall i, i < 4 -> j = ea i \/ j = ei i -> (exists i0, i0 < 4 /\ nt m + i = nt m + i0) /\ side m' (nt m + i) (ne m + j)).
      { intros i I H. split; [eauto|]. apply NS; [exact I|]. destruct H; subst; auto. }
      intros [->| ->]; apply X; clear - J; each4 j J; cbn; lia.
  - intros x t [<-|[]] B. destruct B as [B|B]; [left|right; left]; congruence.
  - intros t T. apply IN4 in T. destruct T as (j & J & ->).
    destruct (FJ j J) as (W1 & W2 & W3 & W4 & W5 & W6 & W7 & W8 & W9 & W10 & W11 & W12 & W13 & W14 & W15 & W16).
    destruct (tri_ok m' (nt m + j) (inc j) v (ap j) (ne m + ei j) (sd j) (ne m + ea j)) as (G1 & G2 & G3 & G4); auto.
    { unfold perm3. destruct (s_TVn _ _ _ _ _ _ _ _ _ _ _ _ F j J) as (-> & -> & ->). auto. }
    { unfold perm3. destruct (s_TEn _ _ _ _ _ _ _ _ _ _ _ _ F j J) as (-> & -> & ->). auto 10. }
    { rewrite <- W8. apply joins_sym, NJ, W10. }
    { apply OJ; [exact W12|exact W14]. }
    { rewrite <- W9. apply NJ, W11. }
    split; [intros u U; apply NC in U; [|exact J]; destruct U as [->|[->| ->]]; assumption|]. split; [exact G1|]. split; [exact G2|]. split; [|split; [exact G3|exact G4]].
    intros x X. apply NS in X; [|exact J]. destruct X as [->|[->| ->]]; [left; apply IN4; eauto|left; apply IN4; eauto|right].
    split; [exact W12|]. intros [Q|[]]. exact (W13 Q).
  - intros y z u w Y Z J1 J2. apply IN4 in Y. destruct Y as (i & I & ->). assert (EV1 : end_of m' (ne m + i) v) by (apply (joins_ends _ _ _ _ _ (NJ i I)); auto).
    apply (joins_ends _ _ _ _ _ J1) in EV1. apply (joins_ends _ _ _ _ _ J2) in EV1. destruct Z as [Z|[Z _]].
    + apply IN4 in Z. destruct Z as (j & J & ->). assert (E2 : end_of m' (ne m + i) (far i)) by (apply (joins_ends _ _ _ _ _ (NJ i I)); auto).
      apply (joins_ends _ _ _ _ _ J1) in E2. apply (joins_ends _ _ _ _ _ J2) in E2. apply (joins_ends _ _ _ _ _ (NJ j J)) in E2.
      destruct E2 as [E2|E2]; [exfalso; exact (proj1 (FJ i I) E2)|]. apply FINJ in E2; auto.
    + exfalso. apply (fresh_end m v z C FV Z). unfold end_of in *. rewrite !OEV in EV1 by exact Z. exact EV1.
  - intros s s' S S' H. apply IN4 in S. destruct S as (i & I & ->). destruct S' as [S'|[S' _]].
    + apply IN4 in S'. destruct S' as (j & J & ->). f_equal.
      assert (K1 : corner m' (nt m + j) (inc i)) by (apply H, NC; auto). assert (K2 : corner m' (nt m + j) (ap i)) by (apply H, NC; auto).
      apply NC in K1; [|exact J]. apply NC in K2; [|exact J]. clear - AB CD CA CB DA DB AV BV CV DV I J K1 K2.
      each4 i I; each4 j J; cbn in K1, K2; try reflexivity; exfalso; destruct K1 as [K1|[K1|K1]]; destruct K2 as [K2|[K2|K2]]; congruence.
    + exfalso. assert (X : corner m' (nt m + i) v) by (apply NC; auto). apply H in X. apply (fresh_corner m v s' C FV S').
      unfold corner in *. rewrite !OTV in X by exact S'. exact X.
Qed.
End Split.
