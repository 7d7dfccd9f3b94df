From Coq Require Import Reals ZArith List Bool Lra Lia Psatz.
From Verif Require Import Pose PoseProofs GeomModel GeomProofs SectorModel ArcModel ArcSpec ArcProofs.
Import ListNotations.
Open Scope R_scope.

(** ** The arcs drawn *)
Lemma pair_eqb_iff a b : pair_eqb a b = true <-> a = b.
Proof.
  unfold pair_eqb. destruct a, b. cbn. rewrite andb_true_iff, !Z.eqb_eq. split; [intros [-> ->]; reflexivity|intro H; injection H; auto].
Qed.
Lemma in_pairs o l : existsb (pair_eqb o) l = true <-> In o l.
Proof.
  rewrite existsb_exists. split; [intros (x & I & E); apply pair_eqb_iff in E; subst; exact I|].
  intro I. exists o. split; [exact I|apply pair_eqb_iff; reflexivity].
Qed.
Lemma sides_in : forall l drawn o, In o (draw_sides l drawn) <-> In o (map ordered l) /\ ~ In o drawn.
Proof.
  induction l as [|e l IH]; intros drawn o; cbn [draw_sides map]; [cbn; tauto|].
  destruct (existsb (pair_eqb (ordered e)) drawn) eqn:D.
  - apply in_pairs in D. rewrite IH. cbn [In]. split; [tauto|]. intros [[<-|I] H]; tauto.
  - assert (N : ~ In (ordered e) drawn) by (intro I; apply in_pairs in I; congruence).
    cbn [In]. rewrite IH. cbn [In]. split; [intros [<-|[A B]]; [tauto|intuition]|].
    intros [[<-|I] H]; [left; reflexivity|]. destruct (pair_eqb (ordered e) o) eqn:E; [left; apply pair_eqb_iff, E|].
    right. split; [exact I|]. intros [Q|C]; [|contradiction]. rewrite Q, (proj2 (pair_eqb_iff o o) eq_refl) in E. discriminate.
Qed.
Lemma sides_nodup : forall l drawn, NoDup (draw_sides l drawn).
Proof.
  induction l as [|e l IH]; intro drawn; cbn [draw_sides]; [constructor|].
  destruct (existsb _ drawn); [apply IH|]. constructor; [|apply IH]. rewrite sides_in. cbn. tauto.
Qed.

Lemma arcs_once secs : NoDup (arcs_drawn secs) /\
  (forall i j, In (i, j) (arcs_drawn secs) <-> (i <= j)%Z /\ neighbours secs i j).
Proof.
  split; [apply sides_nodup|]. intros i j. unfold arcs_drawn. rewrite sides_in, in_map_iff. unfold neighbours. split.
  - intros [((x & y) & O & I) _]. apply in_flat_map in I. destruct I as ([[a b] c] & I & S). cbn [sides In] in S.
    unfold ordered in O. cbn [fst snd] in O.
    destruct (Z.ltb_spec y x) as [L|L]; injection O as <- <-; (split; [lia|]); exists a, b, c; (split; [exact I|]);
      destruct S as [S|[S|[S|[]]]]; injection S as <- <-; tauto.
  - intros [L (a & b & c & I & N)]. split; [|intros []].
    assert (X : exists x y, In (x, y) (sides (a, b, c)) /\ ((x = i /\ y = j) \/ (x = j /\ y = i))).
    { cbn [sides In]. destruct N as [[-> ->]|[[-> ->]|[[-> ->]|[[-> ->]|[[-> ->]|[-> ->]]]]]];
        [exists a, b|exists a, b|exists b, c|exists b, c|exists c, a|exists c, a]; tauto. }
    destruct X as (x & y & S & E). exists (x, y). split; [|apply in_flat_map; exists (a, b, c); split; assumption].
    unfold ordered. cbn [fst snd]. destruct (Z.ltb_spec y x), E as [[-> ->]|[-> ->]]; f_equal; lia.
Qed.

(** ** The test for the hull *)
Section Hull.
Variable solve : vec -> vec -> vec -> vec -> R * R * R.
Variable rays : list vec.
Hypothesis LS : least_squares solve rays.
Hypothesis BS : basic solve rays.
Hypothesis NZ : forall r, In r rays -> r <> vzero.

Lemma dummy_iff ray : isInConvexDummy solve rays ray = true <->
  exists a b c, In a rays /\ In b rays /\ In c rays /\ isInSector solve ray (Sec a b c) = true.
Proof using.
  unfold isInConvexDummy. rewrite existsb_exists. split.
  - intros (a & A & H). apply existsb_exists in H. destruct H as (b & B & H). apply existsb_exists in H. destruct H as (c & C & H).
    exists a, b, c. auto.
  - intros (a & b & c & A & B & C & H). exists a. split; [exact A|]. apply existsb_exists. exists b. split; [exact B|].
    apply existsb_exists. exists c. auto.
Qed.

Lemma dot_comb3 v x y z a b c : dot v (comb x y z a b c) = x * dot v a + y * dot v b + z * dot v c.
Proof using. unfold comb. sring. Qed.

Lemma half_space ray : isInConvexDummy solve rays ray = true <-> exists r, In r rays /\ 0 <= dot r ray.
Proof using LS BS NZ.
  rewrite dummy_iff. split.
  - intros (a & b & c & A & B & C & H). unfold isInSector in H. cbn [s0 s1 s2] in H.
    pose proof (LS a b c ray A B C) as E. destruct (solve a b c ray) as [[x y] z]. destruct E as (E1 & E2 & E3).
    rewrite !andb_true_iff, !leb_iff in H. destruct H as [[X Y] Z].
    destruct (Rle_dec 0 (dot a ray)) as [|NA]; [exists a; auto|]. destruct (Rle_dec 0 (dot b ray)) as [|NB]; [exists b; auto|].
    destruct (Rle_dec 0 (dot c ray)) as [|NC]; [exists c; auto|]. exfalso.
    assert (S : 0 <= x * dot a ray + y * dot b ray + z * dot c ray).
    { rewrite <- E1, <- E2, <- E3. pose proof (dot_self_nonneg (comb x y z a b c)) as P. rewrite dot_comb3 in P.
      rewrite !(GeomProofs.dot_comm (comb x y z a b c)) in P. exact P. }
    assert (x = 0 /\ y = 0 /\ z = 0) as (-> & -> & ->) by nra.
    assert (Z0 : dot a (comb 0 0 0 a b c) = 0) by (rewrite dot_comb3; ring). lra.
  - intros (r & I & D). exists r, r, r. split; [exact I|]. split; [exact I|]. split; [exact I|].
    unfold isInSector. cbn [s0 s1 s2]. pose proof (LS r r r ray I I I) as E. pose proof (BS r ray I) as S.
    destruct (solve r r r ray) as [[x y] z]. destruct E as (E & _). rewrite dot_comb3 in E.
    pose proof (dot_pos0 r (NZ r I)) as P. rewrite !andb_true_iff, !leb_iff.
    destruct S as [[-> ->]|[[-> ->]|[-> ->]]]; nra.
Qed.

Lemma hull_dot v : in_hull rays v -> (forall r, In r rays -> dot r v < 0) -> rays <> [] -> False.
Proof using.
  clear LS BS NZ. intros H N NE.
  assert (P : forall w, in_hull rays w -> dot w v <= 0).
  { induction 1 as [|a r u A I _ IH]; [unfold dot, vzero; cbn; lra|]. specialize (N r I).
    assert (dot (vadd (vscale a r) u) v = a * dot r v + dot u v) as -> by (rewrite dot_add1, dot_lin1; reflexivity). nra. }
  specialize (P v H). pose proof (dot_self_nonneg v) as Q. assert (Z : dot v v = 0) by lra.
  assert (v = vzero) as -> by (apply vnorm_0; unfold vnorm; rewrite Z; apply sqrt_0).
  destruct rays as [|r l]; [contradiction|]. specialize (N r (or_introl eq_refl)).
  assert (dot r vzero = 0) by (unfold dot, vzero; cbn; ring). lra.
Qed.

Lemma hull_found v : in_hull rays v -> rays <> [] -> isInConvexDummy solve rays v = true.
Proof using LS BS NZ.
  intros H NE. apply half_space.
  destruct (existsb (fun r => Rleb 0 (dot r v)) rays) eqn:E.
  - apply existsb_exists in E. destruct E as (r & I & L). exists r. split; [exact I|apply leb_iff, L].
  - exfalso. apply (hull_dot v H); [|exact NE]. intros r I.
    destruct (Rle_dec 0 (dot r v)) as [L|]; [|lra].
    assert (existsb (fun r => Rleb 0 (dot r v)) rays = true) by (apply existsb_exists; exists r; split; [exact I|apply leb_iff, L]). congruence.
Qed.

(** ** Filling *)
Lemma grid_in n x : In x (grid n) <-> (0 <= x < n /\ x mod 10 = 0)%Z.
Proof using.
  unfold grid, step. rewrite in_map_iff. split.
  - intros (k & <- & K). apply in_seq in K. split; [|rewrite Z.mul_comm; apply Z_mod_mult].
    split; [lia|]. destruct (Z.le_gt_cases n 0) as [L|L].
    + assert ((n + 9) / 10 <= 0)%Z by (apply Z.lt_succ_r, Z.div_lt_upper_bound; lia). lia.
    + pose proof (Z.mul_div_le (n + 9) 10). lia.
  - intros [R M]. exists (Z.to_nat (x / 10)). pose proof (Z.div_mod x 10). pose proof (Z.div_pos x 10).
    rewrite Z2Nat.id by lia. split; [lia|]. apply in_seq. split; [lia|]. cbn.
    apply Z2Nat.inj_lt; [lia|apply Z.div_pos; lia|]. apply Z.div_lt_upper_bound; [lia|].
    pose proof (Z.div_mod (n + 9) 10). pose proof (Z.mod_pos_bound (n + 9) 10). lia.
Qed.

Variable unmap : Z -> Z -> vec.
Variables rows cols : Z.

Lemma filled_in c : In c (filled solve unmap rays rows cols) <->
  grid_corner rows cols c /\ exists r, In r rays /\ 0 <= dot r (unmap (fst c) (snd c)).
Proof using LS BS NZ.
  unfold filled. rewrite filter_In, half_space, in_flat_map. unfold grid_corner, inside. split.
  - intros [(y & Y & X) H]. split; [|exact H]. apply in_map_iff in X. destruct X as (x & <- & X). cbn [fst snd].
    apply grid_in in X. apply grid_in in Y. tauto.
  - intros [([X Y] & MX & MY) H]. split; [|exact H]. exists (snd c). split; [apply grid_in; tauto|].
    apply in_map_iff. exists (fst c). split; [destruct c; reflexivity|apply grid_in; tauto].
Qed.

Lemma covers_iff c p : covers rows cols c p = true <-> square_of c p /\ inside rows cols p.
Proof using. clear unmap.
  unfold covers, step, square_of, inside. rewrite !andb_true_iff, !Z.leb_le, !Z.ltb_lt. tauto.
Qed.

Lemma fold_paint {C} (col : C) : forall cs (img : Z * Z -> C) p,
  fold_left (fun im c q => if covers rows cols c q then col else im q) cs img p =
  if existsb (fun c => covers rows cols c p) cs then col else img p.
Proof using.
  induction cs as [|c cs IH]; intros img p; [reflexivity|]. cbn [fold_left existsb]. rewrite IH.
  destruct (existsb _ cs); [rewrite orb_true_r; reflexivity|]. rewrite orb_false_r. reflexivity.
Qed.

Lemma fill_spec {C} (col : C) img p :
  (inside rows cols p /\ (exists c r, grid_corner rows cols c /\ square_of c p /\ In r rays /\ 0 <= dot r (unmap (fst c) (snd c))) ->
   fillUncovered solve unmap rays rows cols col img p = col) /\
  (~ (inside rows cols p /\ exists c r, grid_corner rows cols c /\ square_of c p /\ In r rays /\ 0 <= dot r (unmap (fst c) (snd c))) ->
   fillUncovered solve unmap rays rows cols col img p = img p).
Proof using LS BS NZ.
  unfold fillUncovered. rewrite fold_paint.
  destruct (existsb (fun c => covers rows cols c p) (filled solve unmap rays rows cols)) eqn:E.
  - split; [reflexivity|]. intro H. exfalso. apply H. apply existsb_exists in E. destruct E as (c & I & Cv).
    apply filled_in in I. destruct I as (G & r & R & D). apply covers_iff in Cv. destruct Cv as [S In0]. split; [exact In0|]. exists c, r. auto.
  - split; [|reflexivity]. intros [In0 (c & r & G & S & R & D)]. exfalso.
    assert (X : existsb (fun c => covers rows cols c p) (filled solve unmap rays rows cols) = true); [|congruence].
    apply existsb_exists. exists c. split; [apply filled_in; split; [exact G|exists r; auto]|apply covers_iff; auto].
Qed.
End Hull.

(** ** The axes, with a solver *)
Definition e1 : vec := V3 1 0 0.
Definition e2 : vec := V3 0 1 0.
Definition e3 : vec := V3 0 0 1.
Definition axes : list vec := [e1; e2; e3].
Definition same (a b : vec) : bool :=
  if Req_EM_T (vx a) (vx b) then if Req_EM_T (vy a) (vy b) then if Req_EM_T (vz a) (vz b) then true else false else false else false.
Definition ortho_solve (a b c r : vec) : R * R * R :=
  (dot a r, if same a b then 0 else dot b r, if same a c || same b c then 0 else dot c r).

Lemma same_refl a : same a a = true.
Proof. unfold same. repeat (destruct (Req_EM_T _ _); [|congruence]). reflexivity. Qed.
Lemma same_12 : same e1 e2 = false. Proof. unfold same. cbn. destruct (Req_EM_T 1 0); [lra|reflexivity]. Qed.
Lemma same_13 : same e1 e3 = false. Proof. unfold same. cbn. destruct (Req_EM_T 1 0); [lra|reflexivity]. Qed.
Lemma same_21 : same e2 e1 = false. Proof. unfold same. cbn. destruct (Req_EM_T 0 1); [lra|reflexivity]. Qed.
Lemma same_31 : same e3 e1 = false. Proof. unfold same. cbn. destruct (Req_EM_T 0 1); [lra|reflexivity]. Qed.
Lemma same_23 : same e2 e3 = false. Proof. unfold same. cbn. destruct (Req_EM_T 0 0); [|lra]. destruct (Req_EM_T 1 0); [lra|reflexivity]. Qed.
Lemma same_32 : same e3 e2 = false. Proof. unfold same. cbn. destruct (Req_EM_T 0 0); [|lra]. destruct (Req_EM_T 0 1); [lra|reflexivity]. Qed.

Lemma axes_least : least_squares ortho_solve axes.
Proof.
  intros a b c r A B C. unfold ortho_solve. cbn [axes In] in A, B, C.
  destruct A as [<-|[<-|[<-|[]]]], B as [<-|[<-|[<-|[]]]], C as [<-|[<-|[<-|[]]]];
    rewrite ?same_refl, ?same_12, ?same_13, ?same_21, ?same_31, ?same_23, ?same_32; cbn [orb];
    unfold comb, dot, vadd, vscale, e1, e2, e3; cbn [vx vy vz]; repeat split; ring.
Qed.
Lemma axes_basic : basic ortho_solve axes.
Proof. intros a r _. unfold ortho_solve. rewrite same_refl. cbn [orb]. right. right. auto. Qed.
Lemma axes_nonzero r : In r axes -> r <> vzero.
Proof.
  cbn [axes In]. intros [<-|[<-|[<-|[]]]] H; injection H; lra.
Qed.

(** a ray outside the octant is taken for one in it *)
Lemma outside_found : isInConvexDummy ortho_solve axes (V3 1 (-1) (-1)) = true /\ ~ in_hull axes (V3 1 (-1) (-1)).
Proof.
  split.
  - apply (half_space ortho_solve axes axes_least axes_basic axes_nonzero). exists e1. split; [left; reflexivity|].
    unfold dot, e1. cbn. lra.
  - assert (P : forall v, in_hull axes v -> 0 <= vy v).
    { induction 1 as [|a r v A I _ IH]; [cbn; lra|]. cbn [axes In] in I.
      destruct I as [<-|[<-|[<-|[]]]]; unfold vadd, vscale, e1, e2, e3; cbn [vy]; nra. }
    intro H. specialize (P _ H). cbn in P. lra.
Qed.

(** a quarter of a great circle *)
Lemma quarter : along e1 <> vneg (along e2) /\ rayCur e1 e2 0 = e1 /\ rayCur e1 e2 25 = V3 (/ sqrt 2) (/ sqrt 2) 0 /\ rayCur e1 e2 50 = e2.
Proof.
  assert (N1 : e1 <> vzero) by (apply axes_nonzero; cbn; auto). assert (N2 : e2 <> vzero) by (apply axes_nonzero; cbn; auto).
  assert (U : forall v, dot v v = 1 -> along v = v).
  { intros v H. unfold along. rewrite (unit_vnorm v H), Rinv_1. apply vscale_1. }
  assert (A1 : along e1 = e1) by (apply U; unfold dot, e1; cbn; ring). assert (A2 : along e2 = e2) by (apply U; unfold dot, e2; cbn; ring).
  assert (NO : along e1 <> vneg (along e2)) by (rewrite A1, A2; unfold e1, e2, vneg; cbn; intro H; injection H; lra).
  split; [exact NO|]. destruct (arc_all e1 e2 N1 N2 NO) as (S & E & _). rewrite A1 in S. rewrite A2 in E.
  split; [exact S|]. split; [|exact E].
  assert (NC : cross (along e1) (along e2) <> vzero).
  { rewrite A1, A2. unfold cross, e1, e2, vzero. cbn. intro H. injection H. lra. }
  rewrite (rayCur_arc e1 e2 25 N1 N2 NC), A1, A2. assert (D : dot e1 e2 = 0) by (unfold dot, e1, e2; cbn; ring).
  rewrite D, acos_0. unfold portion. rewrite INR50.
  assert (I25 : INR 25 = 25) by (rewrite INR_IZR_INZ; reflexivity). rewrite I25.
  replace (PI / 2 * 25 / 50) with (PI / 4) by field. replace (PI / 2 - PI / 4) with (PI / 4) by field.
  rewrite sin_PI2, sin_PI4. unfold vadd, vscale, e1, e2. cbn [vx vy vz]. f_equal; field; apply Rgt_not_eq, sqrt_lt_R0; lra.
Qed.
