From Coq Require Import List ZArith QArith Bool Lia Permutation Qround.
From Coq Require Import ZifyBool.
From Verif Require Import Outcome Dbl DistanceMapModel DistanceMapSpec.
Import ListNotations.
Open Scope Z_scope.

(** ** clp2 *)

Lemma smear_step (x y : Z) (n : Z) :
  0 <= x -> 0 <= y -> 1 <= n ->
  (forall i, 0 <= i -> (Z.testbit y i = true <-> exists j, i <= j < i + n /\ Z.testbit x j = true)) ->
  forall i, 0 <= i ->
    (Z.testbit (Z.lor y (Z.shiftr y n)) i = true <->
     exists j, i <= j < i + 2 * n /\ Z.testbit x j = true).
Proof.
  intros Hx Hy Hn H i Hi.
  rewrite Z.lor_spec, Z.shiftr_spec by lia.
  rewrite orb_true_iff, (H i Hi), (H (i + n)) by lia.
  split.
  - intros [[j [Hj Hb]] | [j [Hj Hb]]]; exists j; split; auto; lia.
  - intros [j [Hj Hb]]. destruct (Z_lt_le_dec j (i + n)).
    + left; exists j; split; auto; lia.
    + right; exists j; split; auto; lia.
Qed.

Lemma smear_nonneg y n : 0 <= y -> 0 <= Z.lor y (Z.shiftr y n).
Proof. intros. apply Z.lor_nonneg. split; [lia|]. apply Z.shiftr_nonneg; lia. Qed.

Lemma smear_all x :
  0 < x < 2^32 ->
  (let x1 := Z.lor x (Z.shiftr x 1) in
   let x2 := Z.lor x1 (Z.shiftr x1 2) in
   let x3 := Z.lor x2 (Z.shiftr x2 4) in
   let x4 := Z.lor x3 (Z.shiftr x3 8) in
   Z.lor x4 (Z.shiftr x4 16)) = 2 ^ (Z.log2 x + 1) - 1.
Proof.
  intros Hx. cbv zeta.
  set (x1 := Z.lor x (Z.shiftr x 1)). set (x2 := Z.lor x1 (Z.shiftr x1 2)).
  set (x3 := Z.lor x2 (Z.shiftr x2 4)). set (x4 := Z.lor x3 (Z.shiftr x3 8)).
  assert (H1 : forall i, 0 <= i -> (Z.testbit x1 i = true <-> exists j, i <= j < i + 2 * 1 /\ Z.testbit x j = true)).
  { apply smear_step; try lia. intros i Hi. split.
    - intros Hb. exists i; split; [lia|auto].
    - intros [j [Hj Hb]]. replace i with j by lia; auto. }
  assert (P1 : 0 <= x1) by (apply smear_nonneg; lia).
  assert (H2 : forall i, 0 <= i -> (Z.testbit x2 i = true <-> exists j, i <= j < i + 2 * 2 /\ Z.testbit x j = true)).
  { apply smear_step; try lia. intros i Hi. rewrite (H1 i Hi). reflexivity. }
  assert (P2 : 0 <= x2) by (apply smear_nonneg; lia).
  assert (H3 : forall i, 0 <= i -> (Z.testbit x3 i = true <-> exists j, i <= j < i + 2 * 4 /\ Z.testbit x j = true)).
  { apply smear_step; try lia. intros i Hi. rewrite (H2 i Hi). reflexivity. }
  assert (P3 : 0 <= x3) by (apply smear_nonneg; lia).
  assert (H4 : forall i, 0 <= i -> (Z.testbit x4 i = true <-> exists j, i <= j < i + 2 * 8 /\ Z.testbit x j = true)).
  { apply smear_step; try lia. intros i Hi. rewrite (H3 i Hi). reflexivity. }
  assert (P4 : 0 <= x4) by (apply smear_nonneg; lia).
  assert (H5 : forall i, 0 <= i -> (Z.testbit (Z.lor x4 (Z.shiftr x4 16)) i = true <-> exists j, i <= j < i + 2 * 16 /\ Z.testbit x j = true)).
  { apply smear_step; try lia. intros i Hi. rewrite (H4 i Hi). reflexivity. }
  clearbody x4. clear H1 H2 H3 H4.
  assert (Hl : Z.log2 x < 32) by (apply Z.log2_lt_pow2; lia).
  assert (Hl0 : 0 <= Z.log2 x) by apply Z.log2_nonneg.
  apply Z.bits_inj'. intros i Hi.
  replace (2 ^ (Z.log2 x + 1) - 1) with (Z.ones (Z.log2 x + 1)) by (rewrite Z.ones_equiv; lia).
  apply eq_true_iff_eq. rewrite H5 by lia.
  destruct (Z_lt_le_dec i (Z.log2 x + 1)) as [Hlt|Hge].
  - rewrite Z.ones_spec_low by lia. split; [reflexivity|intros _].
    exists (Z.log2 x). split; [lia|]. apply Z.bit_log2; lia.
  - rewrite Z.ones_spec_high by lia. split; [|discriminate].
    intros [j [Hj Hb]]. rewrite Z.bits_above_log2 in Hb by lia. discriminate.
Qed.

Lemma clp2_spec x : 1 <= x <= 2^31 ->
  pow2 (clp2 x) /\ x <= clp2 x /\ forall p, pow2 p -> x <= p -> clp2 x <= p.
Proof.
  intros Hx.
  destruct (Z.eq_dec x 1) as [->|Hne].
  { split; [exists 0; split; [lia|reflexivity]|]. split; [vm_compute; discriminate|].
    intros p [e [He ->]] _. change (clp2 1) with (2^0). apply Z.pow_le_mono_r; lia. }
  assert (E : clp2 x = 2 ^ (Z.log2 (x - 1) + 1)).
  { pose proof (smear_all (x - 1) ltac:(lia)) as HS. cbv zeta in HS.
    unfold clp2, u32. cbv zeta. rewrite (Z.mod_small (x - 1)) by lia.
    rewrite HS. rewrite Z.sub_add.
    assert (Z.log2 (x - 1) < 31) by (apply Z.log2_lt_pow2; lia).
    assert (0 <= Z.log2 (x - 1)) by apply Z.log2_nonneg.
    assert (2 ^ (Z.log2 (x - 1) + 1) <= 2 ^ 31) by (apply Z.pow_le_mono_r; lia).
    assert (0 < 2 ^ (Z.log2 (x - 1) + 1)) by (apply Z.pow_pos_nonneg; lia).
    apply Z.mod_small; lia. }
  assert (L0 : 0 <= Z.log2 (x - 1)) by apply Z.log2_nonneg.
  destruct (Z.log2_spec (x - 1)) as [La Lb]; [lia|].
  rewrite <- Z.add_1_r in Lb.
  rewrite E. split; [exists (Z.log2 (x - 1) + 1); split; [lia|reflexivity]|].
  split; [lia|].
  intros p [e [He ->]] Hp. apply Z.pow_le_mono_r; [lia|].
  destruct (Z_lt_le_dec (Z.log2 (x-1)) e); [lia|exfalso].
  assert (2 ^ e <= 2 ^ Z.log2 (x - 1)) by (apply Z.pow_le_mono_r; lia). lia.
Qed.

Lemma clp2_zero : clp2 0 = 0.
Proof. vm_compute. reflexivity. Qed.

Lemma clp2_wraps x : 2^31 < x < 2^32 -> clp2 x = 0.
Proof.
  intros Hx. pose proof (smear_all (x - 1) ltac:(lia)) as HS. cbv zeta in HS.
  unfold clp2, u32. cbv zeta. rewrite (Z.mod_small (x - 1)) by lia.
  rewrite HS. rewrite Z.sub_add.
  assert (Z.log2 (x - 1) = 31) as ->.
  { apply Z.log2_unique; lia. }
  reflexivity.
Qed.

(** ** Reading a point's cell *)

Lemma qtrunc_nonneg q : (0 <= q)%Q -> qtrunc q = Qfloor q.
Proof.
  destruct q as [n d]. unfold Qle, qtrunc; simpl. intros H.
  apply Z.quot_div_nonneg; lia.
Qed.

Lemma Qfloor_bounds q : (inject_Z (Qfloor q) <= q /\ q < inject_Z (Qfloor q + 1))%Q.
Proof. split; [apply Qfloor_le | apply Qlt_floor]. Qed.

Lemma Qfloor_unique q z : (inject_Z z <= q)%Q -> (q < inject_Z (z + 1))%Q -> Qfloor q = z.
Proof.
  intros H1 H2. pose proof (Qfloor_le q) as A. pose proof (Qlt_floor q) as B.
  assert (inject_Z z < inject_Z (Qfloor q + 1))%Q by (eapply Qle_lt_trans; eauto).
  assert (inject_Z (Qfloor q) < inject_Z (z + 1))%Q by (eapply Qle_lt_trans; eauto).
  rewrite <- Zlt_Qlt in *. lia.
Qed.

Lemma floor_div_cell q k z : 0 < k ->
  (Qfloor q / k = z <->
   (inject_Z (z * k) <= q)%Q /\ (q < inject_Z ((z + 1) * k))%Q).
Proof.
  intros Hk. pose proof (Qfloor_bounds q) as [A B]. split.
  - intros <-. pose proof (Z.div_mod (Qfloor q) k ltac:(lia)).
    pose proof (Z.mod_pos_bound (Qfloor q) k Hk). split.
    + eapply Qle_trans; [|exact A]. rewrite <- Zle_Qle. lia.
    + eapply Qlt_le_trans; [exact B|]. rewrite <- Zle_Qle. lia.
  - intros [C D].
    assert (inject_Z (z * k) < inject_Z (Qfloor q + 1))%Q by (eapply Qle_lt_trans; eauto).
    assert (inject_Z (Qfloor q) < inject_Z ((z + 1) * k))%Q by (eapply Qle_lt_trans; eauto).
    rewrite <- Zlt_Qlt in *. symmetry. apply Z.div_unique with (Qfloor q - k * z); lia.
Qed.

Lemma dle_Fin x y : dle (Fin x) (Fin y) = true <-> (x <= y)%Q.
Proof. unfold dle, Qle. rewrite Z.leb_le. reflexivity. Qed.
Lemma dlt_Fin x y : dlt (Fin x) (Fin y) = true <-> (x < y)%Q.
Proof. unfold dlt, Qlt. rewrite Z.ltb_lt. reflexivity. Qed.

Lemma seed_inside_spec W H p : seed_inside W H p = true <-> inside_image W H p.
Proof.
  unfold seed_inside, inside_image, of_int. destruct p as [px py]. cbn [fst snd].
  split.
  - rewrite !andb_true_iff. intros [[[A B] C] D].
    destruct px as [px| | |]; try discriminate; destruct py as [py| | |]; try discriminate.
    exists px, py. rewrite dle_Fin in *. rewrite dlt_Fin in *. auto.
  - intros [qx [qy [E [A [B [C D]]]]]]. inversion E; subst.
    rewrite !andb_true_iff. rewrite !dle_Fin, !dlt_Fin. auto.
Qed.

Lemma inside_floor_bounds W q : (0 <= q)%Q -> (q < inject_Z W)%Q -> 0 <= Qfloor q < W.
Proof.
  intros A B. pose proof (Qfloor_bounds q) as [C D].
  split.
  - change 0 with (Qfloor (inject_Z 0)). apply Qfloor_resp_le. exact A.
  - assert (inject_Z (Qfloor q) < inject_Z W)%Q by (eapply Qle_lt_trans; eauto).
    rewrite <- Zlt_Qlt in *. lia.
Qed.

Lemma cell_of_inside W H k p :
  0 < k -> W <= INT_MAX -> H <= INT_MAX -> inside_image W H p ->
  exists cx cy, cell_of k p = Ok (cx, cy) /\ in_cell k p cx cy /\
     (forall x y, in_cell k p x y -> x = cx /\ y = cy) /\
     0 <= cx /\ 0 <= cy /\ cx * k < W /\ cy * k < H.
Proof.
  intros Hk HW HH [px [py [-> [A [B [C D]]]]]].
  pose proof (inside_floor_bounds W px A B) as Bx.
  pose proof (inside_floor_bounds H py C D) as By.
  exists (Qfloor px / k), (Qfloor py / k).
  unfold cell_of; cbn [fst snd to_int].
  rewrite (qtrunc_nonneg px A), (qtrunc_nonneg py C).
  assert (in_int (Qfloor px) = true) as -> by (unfold in_int, INT_MIN, INT_MAX in *; lia).
  assert (in_int (Qfloor py) = true) as -> by (unfold in_int, INT_MIN, INT_MAX in *; lia).
  cbn [bind]. assert (k =? 0 = false) as -> by lia.
  rewrite !Z.quot_div_nonneg by lia.
  split; [reflexivity|].
  pose proof (proj1 (floor_div_cell px k _ Hk) eq_refl) as [E1 E2].
  pose proof (proj1 (floor_div_cell py k _ Hk) eq_refl) as [F1 F2].
  split; [exists px, py; auto|].
  split.
  { intros x y [qx [qy [E [G1 [G2 [G3 G4]]]]]]. inversion E; subst qx qy.
    split; symmetry; apply floor_div_cell; auto. }
  pose proof (Z.div_pos (Qfloor px) k). pose proof (Z.div_pos (Qfloor py) k).
  pose proof (Z.mul_div_le (Qfloor px) k Hk). pose proof (Z.mul_div_le (Qfloor py) k Hk).
  lia.
Qed.

(** ** Breadth-first propagation *)

Definition ing (g : grid) (c : cell) : Prop := in_grid g (fst c) (snd c) = true.
Definition at_ (g : grid) (c : cell) : Z := gat g (fst c) (snd c).
Definition dist_c (a b : cell) : Z := city_block (fst a) (snd a) (fst b) (snd b).
Definition same_size (g g' : grid) : Prop := gw g = gw g' /\ gh g = gh g'.

Lemma same_size_refl g : same_size g g. Proof. split; reflexivity. Qed.
Lemma same_size_trans a b c : same_size a b -> same_size b c -> same_size a c.
Proof. unfold same_size; intuition congruence. Qed.

Lemma ing_same g g' c : same_size g g' -> ing g c -> ing g' c.
Proof. unfold same_size, ing, in_grid. intros [-> ->]. auto. Qed.

Lemma ing_iff g c : ing g c <-> 0 <= fst c < gw g /\ 0 <= snd c < gh g.
Proof. unfold ing, in_grid. lia. Qed.

Lemma gget_ing g c : ing g c -> gget g (fst c) (snd c) = Ok (at_ g c).
Proof. unfold ing, gget, at_. intros ->. reflexivity. Qed.

Lemma gset_ing g c v : ing g c -> exists g', gset g (fst c) (snd c) v = Ok g' /\
   same_size g g' /\ at_ g' c = v /\ (forall c', c' <> c -> at_ g' c' = at_ g c').
Proof.
  unfold ing, gset. intros ->. eexists; split; [reflexivity|].
  split; [split; reflexivity|]. unfold at_; simpl. split.
  - rewrite !Z.eqb_refl. reflexivity.
  - intros [x y] Hne. destruct c as [cx cy]. simpl.
    destruct ((x =? cx) && (y =? cy)) eqn:E; [|reflexivity].
    exfalso. apply Hne. rewrite andb_true_iff, !Z.eqb_eq in E. destruct E; subst; reflexivity.
Qed.

Lemma cell_dec (a b : cell) : {a = b} + {a <> b}.
Proof. destruct a as [a1 a2], b as [b1 b2].
  destruct (Z.eq_dec a1 b1), (Z.eq_dec a2 b2); subst; auto; right; congruence. Qed.


Lemma dist_c_triangle a b c : dist_c a c <= dist_c a b + dist_c b c.
Proof. unfold dist_c, city_block. lia. Qed.
Lemma dist_c_sym a b : dist_c a b = dist_c b a.
Proof. unfold dist_c, city_block. lia. Qed.
Lemma dist_c_nonneg a b : 0 <= dist_c a b.
Proof. unfold dist_c, city_block. lia. Qed.

Definition nbr (a b : cell) : Prop := dist_c a b = 1.

Lemma nbr_cases c n : nbr c n ->
  n = (fst c - 1, snd c) \/ n = (fst c + 1, snd c) \/ n = (fst c, snd c - 1) \/ n = (fst c, snd c + 1).
Proof.
  destruct c as [cx cy], n as [nx ny]. unfold nbr, dist_c, city_block. simpl. intros H.
  assert ((nx = cx - 1 /\ ny = cy) \/ (nx = cx + 1 /\ ny = cy) \/ (nx = cx /\ ny = cy - 1) \/ (nx = cx /\ ny = cy + 1)) by lia.
  intuition (subst; auto).
Qed.

(** Distance to the nearest seed, for a non-empty list [s0 :: l]. *)
Definition D (s0 : cell) (l : list cell) (c : cell) : Z :=
  fold_right (fun s m => Z.min (dist_c c s) m) (dist_c c s0) l.

Lemma D_le s0 l c s : In s (s0 :: l) -> D s0 l c <= dist_c c s.
Proof.
  unfold D. simpl. intros [<-|Hin]; induction l as [|a l IH]; simpl in *; try lia; try tauto.
  destruct Hin as [->|Hin]; [lia|]. specialize (IH Hin). lia.
Qed.

Lemma D_att s0 l c : exists s, In s (s0 :: l) /\ D s0 l c = dist_c c s.
Proof.
  unfold D. induction l as [|a l IH]; simpl.
  - exists s0; auto.
  - destruct IH as [s [Hin E]]. rewrite E.
    destruct (Z.min_spec (dist_c c a) (dist_c c s)) as [[_ ->]|[_ ->]].
    + exists a; simpl; auto.
    + exists s; simpl in *; tauto.
Qed.

Lemma D_nonneg s0 l c : 0 <= D s0 l c.
Proof. destruct (D_att s0 l c) as [s [_ ->]]. apply dist_c_nonneg. Qed.

Lemma D_lip s0 l c n : nbr c n -> D s0 l n <= D s0 l c + 1.
Proof.
  intros Hn. destruct (D_att s0 l c) as [s [Hin E]]. pose proof (D_le s0 l n s Hin).
  pose proof (dist_c_triangle n c s). rewrite (dist_c_sym n c) in *. unfold nbr in Hn. lia.
Qed.

Lemma nbr_sym a b : nbr a b -> nbr b a.
Proof. unfold nbr. rewrite dist_c_sym. auto. Qed.

Lemma D_pred s0 l g c : (forall s, In s (s0 :: l) -> ing g s) -> ing g c -> 0 < D s0 l c ->
  exists n, ing g n /\ nbr n c /\ D s0 l n = D s0 l c - 1.
Proof.
  intros Hs Hc Hpos. destruct (D_att s0 l c) as [s [Hin E]].
  assert (H : exists n, ing g n /\ nbr n c /\ dist_c n s = dist_c c s - 1).
  { pose proof (Hs s Hin) as Hi. rewrite ing_iff in Hi, Hc. destruct c as [cx cy], s as [sx sy].
    unfold dist_c, city_block, nbr in *; simpl in *.
    destruct (Z.lt_trichotomy cx sx) as [Hx|[Hx|Hx]].
    - exists (cx + 1, cy). rewrite ing_iff. unfold dist_c, city_block; simpl. lia.
    - destruct (Z.lt_trichotomy cy sy) as [Hy|[Hy|Hy]].
      + exists (cx, cy + 1). rewrite ing_iff. unfold dist_c, city_block; simpl. lia.
      + lia.
      + exists (cx, cy - 1). rewrite ing_iff. unfold dist_c, city_block; simpl. lia.
    - exists (cx - 1, cy). rewrite ing_iff. unfold dist_c, city_block; simpl. lia. }
  destruct H as [n [A [B C]]]. exists n. split; [exact A|]. split; [exact B|].
  pose proof (D_le s0 l n s Hin). pose proof (D_lip s0 l n c B). lia.
Qed.

Lemma D_bound s0 l g c : (forall s, In s (s0 :: l) -> ing g s) -> ing g c ->
  D s0 l c <= gw g + gh g - 2.
Proof.
  intros Hs Hc. destruct (D_att s0 l c) as [s [Hin ->]].
  pose proof (proj1 (ing_iff _ _) (Hs s Hin)). pose proof (proj1 (ing_iff _ _) Hc).
  unfold dist_c, city_block. lia.
Qed.

(** Number of cells not reached yet. *)
Definition zrange (n : Z) : list Z := map Z.of_nat (seq 0 (Z.to_nat n)).
Definition cells (g : grid) : list cell := list_prod (zrange (gw g)) (zrange (gh g)).
Definition unreached (g : grid) (l : list cell) : nat :=
  length (filter (fun c => at_ g c =? INT_MAX) l).

Lemma in_zrange n z : In z (zrange n) <-> 0 <= z < n.
Proof.
  unfold zrange. rewrite in_map_iff. split.
  - intros [m [<- Hm]]. apply in_seq in Hm. lia.
  - intros Hz. exists (Z.to_nat z). split; [lia|]. apply in_seq. lia.
Qed.

Lemma in_cells g c : In c (cells g) <-> ing g c.
Proof.
  unfold cells. destruct c as [x y]. rewrite ing_iff. cbn [fst snd].
  rewrite <- !in_zrange. exact (in_prod_iff _ _ x y).
Qed.

Lemma cells_same g g' : same_size g g' -> cells g' = cells g.
Proof. unfold cells. intros [-> ->]. reflexivity. Qed.

Lemma unreached_update g g' c l :
  In c l -> at_ g c = INT_MAX -> at_ g' c <> INT_MAX ->
  (forall c', c' <> c -> at_ g' c' = at_ g c') ->
  (S (unreached g' l) <= unreached g l)%nat.
Proof.
  intros Hin E1 E2 Ho.
  assert (Hw : forall l, (unreached g' l <= unreached g l)%nat).
  { clear Hin l. unfold unreached. induction l as [|a l IH]; simpl; [lia|].
    destruct (cell_dec a c) as [->|Hne].
    - rewrite E1, Z.eqb_refl. apply Z.eqb_neq in E2. rewrite E2. simpl. lia.
    - rewrite (Ho a Hne). destruct (at_ g a =? INT_MAX); simpl; lia. }
  unfold unreached in *. induction l as [|a l IH]; simpl in *; [tauto|].
  destruct (cell_dec a c) as [->|Hne].
  - rewrite E1, Z.eqb_refl. apply Z.eqb_neq in E2. rewrite E2. simpl. specialize (Hw l). lia.
  - destruct Hin as [->|Hin]; [congruence|]. specialize (IH Hin). rewrite (Ho a Hne).
    destruct (at_ g a =? INT_MAX); simpl; lia.
Qed.

(** Loop invariant at level [k]: [q1] are the queued cells of level [k], [q2] those of level
    [k+1]; [cur] is the cell being processed, if any. *)
Record inv (s0 : cell) (l : list cell) (g : grid) (k : Z) (q1 q2 : list cell) (cur : option cell)
  : Prop := {
  inv_k : 0 <= k;
  inv_val : forall c, ing g c -> at_ g c = INT_MAX \/ (at_ g c = D s0 l c /\ D s0 l c <= k + 1);
  inv_reached : forall c, ing g c -> D s0 l c <= k -> at_ g c <> INT_MAX;
  inv_q1 : forall c, In c q1 -> ing g c /\ at_ g c = k;
  inv_q2 : forall c, In c q2 -> ing g c /\ at_ g c = k + 1;
  inv_in2 : forall c, ing g c -> at_ g c = k + 1 -> In c q2;
  inv_done : forall c n, ing g c -> at_ g c = k -> ~ In c q1 -> Some c <> cur ->
             ing g n -> nbr c n -> at_ g n <> INT_MAX
}.

Lemma relax_ok s0 l g k q1 q2 cur n ok :
  (forall s, In s (s0 :: l) -> ing g s) ->
  gw g + gh g <= INT_MAX ->
  inv s0 l g k q1 q2 (Some cur) -> ing g cur -> at_ g cur = k -> nbr cur n ->
  (ok = true <-> ing g n) ->
  exists g' q2', relax k (g, q1 ++ q2) n ok = Ok (g', q1 ++ q2') /\ same_size g g' /\
    inv s0 l g' k q1 q2' (Some cur) /\ at_ g' cur = k /\
    (ing g n -> at_ g' n <> INT_MAX) /\
    (forall c, at_ g c <> INT_MAX -> at_ g' c <> INT_MAX) /\
    (length q2' + unreached g' (cells g') <= length q2 + unreached g (cells g))%nat.
Proof.
  intros Hseeds Hsz I Hcur Hk Hn Hok. unfold relax. destruct ok.
  2:{ exists g, q2. split; [reflexivity|]. split; [apply same_size_refl|]. split; [exact I|].
      split; [exact Hk|]. split; [intros Hi; apply Hok in Hi; discriminate|].
      split; [auto|lia]. }
  assert (Hi : ing g n) by (apply Hok; reflexivity).
  rewrite gget_ing by exact Hi. cbn [bind].
  assert (Dcur : D s0 l cur = k).
  { pose proof (D_bound s0 l g cur Hseeds Hcur). 
    destruct (inv_val _ _ _ _ _ _ _ I cur Hcur) as [E|[E _]]; [|lia].
    exfalso. pose proof (inv_reached _ _ _ _ _ _ _ I cur Hcur).
    rewrite Hk in *. rewrite E in *. lia. }
  assert (Kb : k <= INT_MAX - 2) by (pose proof (D_bound s0 l g cur Hseeds Hcur); lia).
  pose proof (inv_k _ _ _ _ _ _ _ I) as Hk0.
  destruct (k + 1 <? at_ g n) eqn:E.
  2:{ exists g, q2. split; [reflexivity|]. split; [apply same_size_refl|]. split; [exact I|].
      split; [exact Hk|]. split; [intros; lia|]. split; [auto|lia]. }
  assert (En : at_ g n = INT_MAX).
  { destruct (inv_val _ _ _ _ _ _ _ I n Hi) as [?|[? ?]]; [auto|lia]. }
  assert (Dn : D s0 l n = k + 1).
  { pose proof (D_lip s0 l cur n Hn).
    destruct (Z_le_gt_dec (D s0 l n) k) as [Hle|]; [|lia].
    exfalso. apply (inv_reached _ _ _ _ _ _ _ I n Hi Hle En). }
  destruct (gset_ing g n (k + 1) Hi) as [g' [Eg [Hs [Hv Ho]]]].
  rewrite Eg. cbn [bind]. exists g', (q2 ++ [n]). rewrite app_assoc.
  assert (Hs' : same_size g' g) by (destruct Hs; split; congruence).
  assert (Hnc : cur <> n) by (intros ->; lia).
  assert (Hfin : forall c, at_ g c <> INT_MAX -> at_ g' c <> INT_MAX).
  { intros c Hc. destruct (cell_dec c n) as [->|Hne]; [congruence|]. rewrite Ho; auto. }
  split; [reflexivity|]. split; [exact Hs|]. split.
  - constructor.
    + exact Hk0.
    + intros c Hc. apply (ing_same _ _ _ Hs') in Hc.
      destruct (cell_dec c n) as [->|Hne]; [right; lia|].
      rewrite Ho by auto. apply (inv_val _ _ _ _ _ _ _ I); auto.
    + intros c Hc Hle. apply (ing_same _ _ _ Hs') in Hc. apply Hfin.
      apply (inv_reached _ _ _ _ _ _ _ I); auto.
    + intros c Hc. destruct (inv_q1 _ _ _ _ _ _ _ I c Hc) as [A B].
      split; [apply (ing_same g); auto|]. rewrite Ho; auto. intros ->. lia.
    + intros c Hc. apply in_app_iff in Hc as [Hc|[<-|[]]].
      * destruct (inv_q2 _ _ _ _ _ _ _ I c Hc) as [A B].
        split; [apply (ing_same g); auto|]. rewrite Ho; auto. intros ->. lia.
      * split; [apply (ing_same g); auto|auto].
    + intros c Hc Ec. apply (ing_same _ _ _ Hs') in Hc. apply in_app_iff.
      destruct (cell_dec c n) as [->|Hne]; [right; left; reflexivity|]. left.
      rewrite Ho in Ec by auto. apply (inv_in2 _ _ _ _ _ _ _ I); auto.
    + intros c m Hc Ec Hnin Hnc' Hm Hnm.
      apply (ing_same _ _ _ Hs') in Hc. apply (ing_same _ _ _ Hs') in Hm.
      apply Hfin. destruct (cell_dec c n) as [->|Hne]; [lia|].
      rewrite Ho in Ec by auto. eapply (inv_done _ _ _ _ _ _ _ I c m); eauto.
  - split; [rewrite Ho; auto|]. split; [intros _; lia|]. split; [exact Hfin|].
    rewrite (cells_same g g' Hs), app_length. simpl.
    pose proof (unreached_update g g' n (cells g) (proj2 (in_cells _ _) Hi) En ltac:(lia) Ho). lia.
Qed.

Lemma bfs_body_ok s0 l g k cur q1 q2 :
  (forall s, In s (s0 :: l) -> ing g s) -> gw g + gh g <= INT_MAX ->
  inv s0 l g k (cur :: q1) q2 None ->
  exists g' q2', bfs_body g cur (q1 ++ q2) = Ok (g', q1 ++ q2') /\ same_size g g' /\
    inv s0 l g' k q1 q2' None /\
    (length q2' + unreached g' (cells g') <= length q2 + unreached g (cells g))%nat.
Proof.
  intros Hseeds Hsz I.
  destruct (inv_q1 _ _ _ _ _ _ _ I cur (or_introl eq_refl)) as [Hcur Hk].
  assert (I0 : inv s0 l g k q1 q2 (Some cur)).
  { destruct I. constructor; auto.
    - intros c Hc; apply inv_q3; right; exact Hc.
    - intros c n A B C Dn. apply inv_done0; auto; [|discriminate].
      intros [->|?]; [apply Dn; reflexivity|contradiction]. }
  assert (Kb : k <= INT_MAX - 2).
  { pose proof (D_bound s0 l g cur Hseeds Hcur).
    destruct (inv_val _ _ _ _ _ _ _ I cur Hcur) as [E|[E _]]; [|lia].
    exfalso. apply (inv_reached _ _ _ _ _ _ _ I cur Hcur); [|exact E].
    lia. }
  clear I. unfold bfs_body. destruct cur as [cx cy].
  pose proof (gget_ing g (cx, cy) Hcur) as Eg. cbn [fst snd] in Eg. rewrite Eg. cbn [bind].
  rewrite Hk. assert (INT_MAX <? k + 1 = false) as -> by lia.
  pose proof (proj1 (ing_iff _ _) Hcur) as Hr. cbn [fst snd] in Hr.
  destruct (relax_ok s0 l g k q1 q2 (cx, cy) (cx - 1, cy) ((0 <=? cx - 1) && (cx - 1 <? gw g)) Hseeds Hsz I0 Hcur Hk)
    as [g1 [p1 [E1 [S1 [I1 [C1 [N1 [F1 T1]]]]]]]].
  { unfold nbr, dist_c, city_block; simpl; lia. }
  { rewrite ing_iff; simpl; lia. }
  rewrite E1. cbn [bind].
  assert (Hseeds1 : forall s, In s (s0 :: l) -> ing g1 s) by (intros; apply (ing_same g); auto).
  destruct (relax_ok s0 l g1 k q1 p1 (cx, cy) (cx + 1, cy) ((0 <=? cx + 1) && (cx + 1 <? gw g)) Hseeds1)
    as [g2 [p2 [E2 [S2 [I2 [C2 [N2 [F2 T2]]]]]]]]; auto.
  { destruct S1 as [<- <-]; auto. }
  { apply (ing_same g); auto. }
  { unfold nbr, dist_c, city_block; simpl; lia. }
  { rewrite ing_iff; destruct S1 as [<- <-]; simpl; lia. }
  rewrite E2. cbn [bind].
  assert (S02 : same_size g g2) by (eapply same_size_trans; eauto).
  assert (Hseeds2 : forall s, In s (s0 :: l) -> ing g2 s) by (intros; apply (ing_same g); auto).
  destruct (relax_ok s0 l g2 k q1 p2 (cx, cy) (cx, cy - 1) ((0 <=? cy - 1) && (cy - 1 <? gh g)) Hseeds2)
    as [g3 [p3 [E3 [S3 [I3 [C3 [N3 [F3 T3]]]]]]]]; auto.
  { destruct S02 as [<- <-]; auto. }
  { apply (ing_same g); auto. }
  { unfold nbr, dist_c, city_block; simpl; lia. }
  { rewrite ing_iff; destruct S02 as [<- <-]; simpl; lia. }
  rewrite E3. cbn [bind].
  assert (S03 : same_size g g3) by (eapply same_size_trans; eauto).
  assert (Hseeds3 : forall s, In s (s0 :: l) -> ing g3 s) by (intros; apply (ing_same g); auto).
  destruct (relax_ok s0 l g3 k q1 p3 (cx, cy) (cx, cy + 1) ((0 <=? cy + 1) && (cy + 1 <? gh g)) Hseeds3)
    as [g4 [p4 [E4 [S4 [I4 [C4 [N4 [F4 T4]]]]]]]]; auto.
  { destruct S03 as [<- <-]; auto. }
  { apply (ing_same g); auto. }
  { unfold nbr, dist_c, city_block; simpl; lia. }
  { rewrite ing_iff; destruct S03 as [<- <-]; simpl; lia. }
  rewrite E4.
  assert (S04 : same_size g g4) by (eapply same_size_trans; eauto).
  exists g4, p4. split; [reflexivity|]. split; [exact S04|]. split; [|lia].
  destruct I4 as [J0 J1 J2 J3 J4 J5 J6]. constructor; auto.
  intros c n A B C _ Hn Hnb. destruct (cell_dec c (cx, cy)) as [->|Hne].
  - assert (S40 : same_size g4 g) by (destruct S04; split; congruence).
    apply (ing_same _ _ _ S40) in Hn.
    apply nbr_cases in Hnb as [->|[->|[->| ->]]]; cbn [fst snd] in *.
    + apply F4, F3, F2, N1, Hn.
    + apply F4, F3, N2. apply (ing_same g); auto.
    + apply F4, N3. apply (ing_same g); auto.
    + apply N4. apply (ing_same g); auto.
  - eapply (J6 c n); auto. intros E. injection E as ->. apply Hne; reflexivity.
Qed.

(** Passing to the next level when the current one is exhausted. *)
Lemma inv_next s0 l g k q2 :
  (forall s, In s (s0 :: l) -> ing g s) -> gw g + gh g <= INT_MAX ->
  inv s0 l g k [] q2 None -> inv s0 l g (k + 1) q2 [] None.
Proof.
  intros Hseeds Hsz I.
  assert (Hle : forall c, ing g c -> at_ g c <> INT_MAX -> at_ g c = D s0 l c /\ D s0 l c <= k + 1).
  { intros c Hc Hne. destruct (inv_val _ _ _ _ _ _ _ I c Hc) as [?|?]; [contradiction|auto]. }
  pose proof (inv_k _ _ _ _ _ _ _ I).
  constructor.
  - lia.
  - intros c Hc. destruct (inv_val _ _ _ _ _ _ _ I c Hc) as [?|[? ?]]; [auto|right; lia].
  - intros c Hc HD. destruct (Z_le_gt_dec (D s0 l c) k) as [Hk|Hk].
    + apply (inv_reached _ _ _ _ _ _ _ I); auto.
    + destruct (D_pred s0 l g c Hseeds Hc ltac:(lia)) as [n [Hn [Hnb HDn]]].
      assert (at_ g n <> INT_MAX) by (apply (inv_reached _ _ _ _ _ _ _ I); auto; lia).
      apply (inv_done _ _ _ _ _ _ _ I n c); auto; [|discriminate].
      destruct (Hle n Hn H0). lia.
  - intros c Hc. apply (inv_q2 _ _ _ _ _ _ _ I); auto.
  - intros c [].
  - intros c Hc E. exfalso. pose proof (D_bound s0 l g c Hseeds Hc).
    destruct (inv_val _ _ _ _ _ _ _ I c Hc) as [E'|[E' ?]]; [|lia].
    pose proof (inv_reached _ _ _ _ _ _ _ I c Hc).
    assert (k + 1 + 1 = INT_MAX) by lia.
    (* D c <= gw+gh-2 <= INT_MAX-2 = k: reached *)
    apply H1; [lia|exact E'].
  - intros c n Hc E Hnin. exfalso. apply Hnin. apply (inv_in2 _ _ _ _ _ _ _ I); auto.
Qed.

Lemma bfs_ok s0 l : forall fuel g k q1 q2,
  (forall s, In s (s0 :: l) -> ing g s) -> gw g + gh g <= INT_MAX ->
  inv s0 l g k q1 q2 None ->
  (length q1 + length q2 + unreached g (cells g) <= fuel)%nat ->
  exists g', bfs fuel g (q1 ++ q2) = Ok g' /\ same_size g g' /\
    (forall c, ing g' c -> at_ g' c = D s0 l c).
Proof.
  induction fuel as [|fuel IH]; intros g k q1 q2 Hseeds Hsz I Hm.
  - assert (q1 = []) as -> by (destruct q1; simpl in *; [auto|lia]).
    assert (q2 = []) as -> by (destruct q2; simpl in *; [auto|lia]).
    simpl. exists g. split; [reflexivity|]. split; [apply same_size_refl|].
    assert (U : unreached g (cells g) = 0%nat) by lia.
    intros c Hc. destruct (inv_val _ _ _ _ _ _ _ I c Hc) as [E|[E _]]; [|auto].
    exfalso. unfold unreached in U. apply length_zero_iff_nil in U.
    assert (In c []) as [].
    rewrite <- U. apply filter_In. split; [apply in_cells; auto|apply Z.eqb_eq; auto].
  - destruct q1 as [|cur q1].
    + destruct q2 as [|cur q2].
      * (* queue empty: everything reached *)
        simpl. exists g. split; [reflexivity|]. split; [apply same_size_refl|].
        assert (Hall : forall m c, ing g c -> D s0 l c = Z.of_nat m -> at_ g c <> INT_MAX).
        { induction m as [|m IHm]; intros c Hc HD.
          - apply (inv_reached _ _ _ _ _ _ _ I); auto. pose proof (inv_k _ _ _ _ _ _ _ I). lia.
          - destruct (D_pred s0 l g c Hseeds Hc ltac:(lia)) as [n [Hn [Hnb HDn]]].
            assert (Fn : at_ g n <> INT_MAX) by (apply IHm; auto; lia).
            destruct (inv_val _ _ _ _ _ _ _ I n Hn) as [?|[En Ln]]; [contradiction|].
            destruct (Z.lt_trichotomy (D s0 l n) k) as [Hlt|[Heq|Hgt]].
            + apply (inv_reached _ _ _ _ _ _ _ I); auto. lia.
            + apply (inv_done _ _ _ _ _ _ _ I n c); auto; [lia|discriminate].
            + exfalso. assert (D s0 l n = k + 1) by lia.
              apply (inv_in2 _ _ _ _ _ _ _ I n Hn). lia. }
        intros c Hc. destruct (inv_val _ _ _ _ _ _ _ I c Hc) as [E|[E _]]; [|auto].
        exfalso. pose proof (D_nonneg s0 l c).
        apply (Hall (Z.to_nat (D s0 l c)) c Hc); [lia|exact E].
      * assert (I' : inv s0 l g (k + 1) (cur :: q2) [] None) by (apply inv_next; auto).
        destruct (bfs_body_ok s0 l g (k + 1) cur q2 [] Hseeds Hsz I') as [g' [q2' [E [S [I2 T]]]]].
        simpl app. cbn [bfs]. rewrite app_nil_r in E. rewrite E. cbn [bind fst snd].
        destruct (IH g' (k + 1) q2 q2') as [g'' [E2 [S2 V]]]; auto.
        { intros s Hin. apply (ing_same g); auto. }
        { destruct S as [<- <-]; auto. }
        { simpl in *. lia. }
        exists g''. split; [exact E2|]. split; [eapply same_size_trans; eauto|exact V].
    + destruct (bfs_body_ok s0 l g k cur q1 q2 Hseeds Hsz I) as [g' [q2' [E [S [I2 T]]]]].
      simpl app. cbn [bfs]. rewrite E. cbn [bind fst snd].
      destruct (IH g' k q1 q2') as [g'' [E2 [S2 V]]]; auto.
      { intros s Hin. apply (ing_same g); auto. }
      { destruct S as [<- <-]; auto. }
      { simpl in *. lia. }
      exists g''. split; [exact E2|]. split; [eapply same_size_trans; eauto|exact V].
Qed.

(** ** The constructor *)

Lemma seeds_fold W H k : 0 < k -> W <= INT_MAX -> H <= INT_MAX ->
  forall pts g q,
  (forall p, In p pts -> inside_image W H p -> forall x y, in_cell k p x y -> ing g (x, y)) ->
  exists g' cs, ofold (seed_step W H k) pts (g, q) = Ok (g', q ++ cs) /\ same_size g g' /\
    (length cs <= length pts)%nat /\
    (forall c, In c cs -> ing g c) /\
    (forall c, In c cs <-> occupied W H k pts (fst c) (snd c)) /\
    (forall c, In c cs -> at_ g' c = 0) /\
    (forall c, ~ In c cs -> at_ g' c = at_ g c).
Proof.
  intros Hk HW HH. induction pts as [|p pts IH]; intros g q Hin.
  - exists g, []. simpl. rewrite app_nil_r. split; [reflexivity|]. split; [apply same_size_refl|].
    split; [lia|]. split; [tauto|]. split; [|tauto].
    intros c; split; [tauto|]. intros [p [[] _]].
  - cbn [ofold]. unfold seed_step at 1.
    destruct (seed_inside W H p) eqn:E; cbn [negb].
    + apply seed_inside_spec in E.
      destruct (cell_of_inside W H k p Hk HW HH E) as [cx [cy [Ec [Hc [Hu _]]]]].
      rewrite Ec. cbn [bind fst snd].
      assert (Hi : ing g (cx, cy)) by (apply (Hin p); auto; left; reflexivity).
      destruct (gset_ing g (cx, cy) 0 Hi) as [g1 [Eg [Hs [Hv Ho]]]]. cbn [fst snd] in Eg.
      rewrite Eg. cbn [bind].
      destruct (IH g1 (q ++ [(cx, cy)])) as [g' [cs [E' [S' [L' [I' [O' [Z' R']]]]]]]].
      { intros p' Hp' Hi' x y Hxy. apply (ing_same g); auto. apply (Hin p'); auto. right; auto. }
      exists g', ((cx, cy) :: cs). rewrite <- app_assoc in E'. split; [exact E'|].
      split; [eapply same_size_trans; eauto|]. split; [simpl; lia|].
      split.
      { intros c [<-|Hc']; auto. apply (ing_same g1); [destruct Hs; split; congruence|]. auto. }
      split.
      { intros c. simpl. rewrite O'. split.
        - intros [<-|[p' [A [B C]]]].
          + exists p. simpl. auto.
          + exists p'. simpl. auto.
        - intros [p' [[<-|A] [B C]]].
          + left. destruct (Hu _ _ C). destruct c; simpl in *; congruence.
          + right. exists p'. auto. }
      destruct (in_dec cell_dec (cx, cy) cs) as [Hd|Hd].
      * split.
        -- intros c [<-|Hc']; auto.
        -- intros c Hc'. simpl in Hc'. rewrite R' by tauto. apply Ho. intros ->. tauto.
      * split.
        -- intros c [<-|Hc']; auto. rewrite R' by auto. exact Hv.
        -- intros c Hc'. simpl in Hc'. rewrite R' by tauto. apply Ho. intros ->. tauto.
    + cbn [bind].
      destruct (IH g q) as [g' [cs [E' [S' [L' [I' [O' [Z' R']]]]]]]].
      { intros p' Hp' Hi' x y Hxy. apply (Hin p'); auto. right; auto. }
      exists g', cs. split; [exact E'|]. split; [auto|]. split; [simpl; lia|].
      split; [auto|]. split; [|auto].
      intros c. rewrite O'. split.
      * intros [p' [A [B C]]]. exists p'. simpl. auto.
      * intros [p' [[<-|A] [B C]]].
        -- apply seed_inside_spec in B. congruence.
        -- exists p'. auto.
Qed.

Lemma cells_length g : length (cells g) = (Z.to_nat (gw g) * Z.to_nat (gh g))%nat.
Proof.
  unfold cells, zrange. rewrite prod_length, !map_length, !seq_length. reflexivity.
Qed.

Lemma filter_length_le' {A} (f : A -> bool) l : (length (filter f l) <= length l)%nat.
Proof. induction l as [|a l IH]; simpl; [lia|]. destruct (f a); simpl; lia. Qed.

Lemma build_ok W H s pts k fuel :
  1 <= W < 2^30 -> 1 <= H < 2^30 -> reduction W H s = Ok k -> 1 <= k ->
  (forall p, In p pts -> inside_image W H p -> inside_image (W / k * k) (H / k * k) p) ->
  (length pts + Z.to_nat (W / k) * Z.to_nat (H / k) <= fuel)%nat ->
  exists m, build fuel W H pts s = Ok m /\ dm_pyrDown m = k /\
    gw (dm_dist m) = W / k /\ gh (dm_dist m) = H / k /\
    forall x y, 0 <= x < W / k -> 0 <= y < H / k ->
      ((forall sx sy, ~ occupied W H k pts sx sy) -> gat (dm_dist m) x y = INT_MAX) /\
      ((exists sx sy, occupied W H k pts sx sy) ->
         nearest (occupied W H k pts) x y (gat (dm_dist m) x y)).
Proof.
  intros HW HH Hr Hk Hin Hf. unfold build. rewrite Hr. cbn [bind].
  assert (k =? 0 = false) as -> by lia.
  rewrite !Z.quot_div_nonneg by lia.
  set (g0 := {| gw := W / k; gh := H / k; gat := fun _ _ => INT_MAX |}).
  assert (A1 : 0 <= W / k) by (apply Z.div_pos; lia).
  assert (A2 : 0 <= H / k) by (apply Z.div_pos; lia).
  assert (B1 : W / k <= W) by (apply Z.div_le_upper_bound; nia).
  assert (B2 : H / k <= H) by (apply Z.div_le_upper_bound; nia).
  destruct (seeds_fold W H k ltac:(lia) ltac:(unfold INT_MAX; lia) ltac:(unfold INT_MAX; lia) pts g0 [])
    as [g1 [cs [E [S [L [I [O [Zr R]]]]]]]].
  { intros p Hp Hi x y Hc. specialize (Hin p Hp Hi).
    assert (W / k * k <= W) by (pose proof (Z.mul_div_le W k ltac:(lia)); lia).
    assert (H / k * k <= H) by (pose proof (Z.mul_div_le H k ltac:(lia)); lia).
    destruct (cell_of_inside (W / k * k) (H / k * k) k p ltac:(lia)
                ltac:(unfold INT_MAX; lia) ltac:(unfold INT_MAX; lia) Hin)
      as [cx [cy [_ [_ [Hu [P1 [P2 [P3 P4]]]]]]]].
    destruct (Hu x y Hc) as [-> ->]. apply ing_iff. simpl. nia. }
  rewrite E. cbn [bind fst snd]. rewrite app_nil_l.
  destruct S as [Sw Sh]. simpl in Sw, Sh.
  destruct cs as [|s0 l].
  - assert (bfs fuel g1 [] = Ok g1) as -> by (destruct fuel; reflexivity).
    cbn [bind]. eexists; split; [reflexivity|]. simpl. split; [reflexivity|].
    split; [auto|]. split; [auto|]. intros x y Hx Hy. split.
    + intros _. specialize (R (x, y) (fun h => h)). exact R.
    + intros [sx [sy Ho]]. apply (O (sx, sy)) in Ho. destruct Ho.
  - assert (I1 : forall c, In c (s0 :: l) -> ing g1 c).
    { intros c Hc. apply (ing_same g0); [split; auto|]. auto. }
    assert (Dz : forall c, D s0 l c <= 0 <-> In c (s0 :: l)).
    { intros c. split.
      - intros Hd. destruct (D_att s0 l c) as [s' [Hi' Ed]].
        assert (c = s') as ->; [|exact Hi'].
        rewrite Ed in Hd. unfold dist_c, city_block in Hd.
        destruct c, s'; simpl in *. f_equal; lia.
      - intros Hc. pose proof (D_le s0 l c c Hc). unfold dist_c, city_block in H0. lia. }
    assert (J : inv s0 l g1 0 (s0 :: l) [] None).
    { constructor.
      - lia.
      - intros c Hc. destruct (in_dec cell_dec c (s0 :: l)) as [Hd|Hd].
        + right. rewrite (Zr c Hd). pose proof (proj2 (Dz c) Hd). pose proof (D_nonneg s0 l c). lia.
        + left. apply (R c Hd).
      - intros c Hc Hd. apply Dz in Hd. rewrite (Zr c Hd). discriminate.
      - intros c Hc. split; auto.
      - intros c [].
      - intros c Hc Ec. destruct (in_dec cell_dec c (s0 :: l)) as [Hd|Hd].
        + rewrite (Zr c Hd) in Ec. discriminate.
        + rewrite (R c Hd) in Ec. unfold at_, g0, INT_MAX in Ec. simpl in Ec. discriminate.
      - intros c n Hc Ec Hnin. exfalso. apply Hnin.
        destruct (in_dec cell_dec c (s0 :: l)) as [Hd|Hd]; [exact Hd|].
        rewrite (R c Hd) in Ec. discriminate Ec. }
    destruct (bfs_ok s0 l fuel g1 0 (s0 :: l) [] I1) as [g2 [Eb [[S2w S2h] V]]].
    { rewrite <- Sw, <- Sh. unfold INT_MAX. lia. }
    { exact J. }
    { unfold unreached. pose proof (filter_length_le' (fun c => at_ g1 c =? INT_MAX) (cells g1)).
      pose proof (cells_length g1) as CL. rewrite <- Sw, <- Sh in CL. simpl length in *.
      rewrite CL in *. revert H0 Hf L. generalize (Z.to_nat (W / k) * Z.to_nat (H / k))%nat.
      intros; lia. }
    rewrite app_nil_r in Eb. rewrite Eb. cbn [bind]. eexists; split; [reflexivity|]. simpl.
    split; [reflexivity|]. split; [congruence|]. split; [congruence|].
    intros x y Hx Hy. split.
    + intros Hno. exfalso. apply (Hno (fst s0) (snd s0)). apply O. left; reflexivity.
    + intros _. assert (Hg : ing g2 (x, y)) by (apply ing_iff; simpl; lia).
      specialize (V (x, y) Hg). unfold at_ in V; simpl in V. rewrite V.
      split.
      * destruct (D_att s0 l (x, y)) as [s' [Hi' Ed]]. exists (fst s'), (snd s').
        split; [apply O; exact Hi'|]. exact Ed.
      * intros sx sy Ho. apply (O (sx, sy)) in Ho. apply (D_le s0 l (x, y) (sx, sy) Ho).
Qed.

(** ** The reduction factor *)

Definition limits_ok (s : dm_settings) : Prop := (1 <= maxWidth s)%Q /\ (1 <= maxHeight s)%Q.

Lemma side_div_ok W mx : 1 <= W < 2^30 -> (1 <= mx)%Q ->
  exists d, side_div W mx = Ok d /\ 1 <= d <= W /\
    (inject_Z (d - 1) * mx <= inject_Z (W - 1))%Q /\ (inject_Z (W - 1) < inject_Z d * mx)%Q.
Proof.
  intros HW Hm. unfold side_div.
  assert (Hpos : (0 < mx)%Q) by (eapply Qlt_le_trans; [|exact Hm]; reflexivity).
  assert (Qeq_bool mx 0 = false) as ->.
  { destruct (Qeq_bool mx 0) eqn:E; [|reflexivity]. apply Qeq_bool_iff in E. rewrite E in Hpos.
    exfalso. exact (Qlt_irrefl 0 Hpos). }
  set (q := (inject_Z (W - 1) / mx)%Q).
  assert (Hq0 : (0 <= q)%Q).
  { unfold q. apply Qle_shift_div_l; [exact Hpos|]. rewrite Qmult_0_l. 
    change 0%Q with (inject_Z 0). rewrite <- Zle_Qle. lia. }
  assert (H1q : (0 <= 1 + q)%Q).
  { eapply Qle_trans; [exact Hq0|]. rewrite <- (Qplus_0_l q) at 1. apply Qplus_le_compat; [discriminate|apply Qle_refl]. }
  unfold to_int. rewrite (qtrunc_nonneg _ H1q).
  pose proof (Qfloor_bounds (1 + q)) as [Fa Fb].
  set (d := Qfloor (1 + q)) in *.
  assert (Hqm : (q * mx == inject_Z (W - 1))%Q).
  { unfold q. field. intros E. rewrite E in Hpos. exact (Qlt_irrefl 0 Hpos). }
  assert (Hd1 : (inject_Z (d - 1) <= q)%Q).
  { replace (d - 1) with (d + (- 1)) by lia. rewrite inject_Z_plus.
    apply (Qplus_le_l _ _ 1). change (inject_Z (-1)) with (-1)%Q.
    setoid_replace (inject_Z d + -1 + 1)%Q with (inject_Z d) by ring.
    rewrite (Qplus_comm q 1). exact Fa. }
  assert (Hd2 : (q < inject_Z d)%Q).
  { rewrite inject_Z_plus in Fb. change (inject_Z 1) with 1%Q in Fb.
    apply (Qplus_lt_l _ _ 1). rewrite (Qplus_comm q 1). exact Fb. }
  assert (Hdpos : 1 <= d).
  { assert (inject_Z 0 < inject_Z d)%Q by (eapply Qle_lt_trans; [exact Hq0|exact Hd2]).
    rewrite <- Zlt_Qlt in H. lia. }
  assert (HqW : (q <= inject_Z (W - 1))%Q).
  { unfold q. apply Qle_shift_div_r; [exact Hpos|].
    setoid_replace (inject_Z (W - 1)) with (inject_Z (W - 1) * 1)%Q at 1 by ring.
    rewrite !(Qmult_comm (inject_Z (W - 1))). apply Qmult_le_compat_r; [exact Hm|].
    change 0%Q with (inject_Z 0). rewrite <- Zle_Qle. lia. }
  assert (HdW : d <= W).
  { assert (inject_Z (d - 1) <= inject_Z (W - 1))%Q by (eapply Qle_trans; eauto).
    rewrite <- Zle_Qle in H. lia. }
  assert (in_int d = true) as -> by (unfold in_int, INT_MIN, INT_MAX; lia).
  exists d. split; [reflexivity|]. split; [lia|].
  rewrite <- Hqm. split.
  - apply Qmult_le_compat_r; [exact Hd1|apply Qlt_le_weak; exact Hpos].
  - apply Qmult_lt_compat_r; auto.
Qed.

Lemma pow2_min a b : pow2 a -> pow2 b -> pow2 (Z.min a b).
Proof. intros. destruct (Z.min_spec a b) as [[_ ->]|[_ ->]]; auto. Qed.

Lemma reduction_ok W H s : 1 <= W < 2^30 -> 1 <= H < 2^30 -> limits_ok s ->
  exists k dw dh, reduction W H s = Ok k /\ 1 <= k /\ pow2 k /\
    side_div W (maxWidth s) = Ok dw /\ side_div H (maxHeight s) = Ok dh /\
    k = Z.min (clp2 dw) (clp2 dh) /\ 1 <= dw <= W /\ 1 <= dh <= H.
Proof.
  intros HW HH [Hw Hh].
  destruct (side_div_ok W _ HW Hw) as [dw [Ew [Bw _]]].
  destruct (side_div_ok H _ HH Hh) as [dh [Eh [Bh _]]].
  exists (Z.min (clp2 dw) (clp2 dh)), dw, dh.
  assert (P : pow2 (2^30)) by (exists 30; split; [lia|reflexivity]).
  destruct (clp2_spec dw ltac:(lia)) as [W1 [W2 W3]].
  destruct (clp2_spec dh ltac:(lia)) as [H1 [H2 H3]].
  pose proof (W3 _ P ltac:(lia)). pose proof (H3 _ P ltac:(lia)).
  unfold reduction. rewrite Ew, Eh. cbn [bind]. unfold u32.
  rewrite !Z.mod_small by lia. unfold to_signed32.
  assert (Z.min (clp2 dw) (clp2 dh) <? 2^31 = true) as -> by lia.
  split; [reflexivity|]. split; [lia|]. split; [apply pow2_min; auto|]. auto.
Qed.

(** ** choose *)

Lemma choose_entries_ok W H m : forall pts i,
  (0 < dm_pyrDown m) -> W <= INT_MAX -> H <= INT_MAX ->
  gw (dm_dist m) * dm_pyrDown m = W -> gh (dm_dist m) * dm_pyrDown m = H ->
  (forall p, In p pts -> inside_image W H p) ->
  exists es, choose_entries m i pts = Ok es.
Proof.
  induction pts as [|p pts IH]; intros i Hk HW HH Ew Eh Hin; simpl; [eauto|].
  destruct (cell_of_inside W H (dm_pyrDown m) p Hk HW HH (Hin p (or_introl eq_refl)))
    as [cx [cy [Ec [_ [_ [A [B [C Dd]]]]]]]].
  unfold choose_entry. rewrite Ec. cbn [bind].
  assert (Hg : in_grid (dm_dist m) cx cy = true) by (unfold in_grid; nia).
  destruct ((0 <=? cx) && (cx <=? gw (dm_dist m)) && (0 <=? cy) && (cy <=? gh (dm_dist m))) eqn:E.
  - unfold gget. rewrite Hg. cbn [bind].
    destruct (IH (S i) Hk HW HH Ew Eh (fun q Hq => Hin q (or_intror Hq))) as [es ->].
    cbn [bind]. eauto.
  - cbn [bind]. destruct (IH (S i) Hk HW HH Ew Eh (fun q Hq => Hin q (or_intror Hq))) as [es ->].
    cbn [bind]. eauto.
Qed.

(** Shape of the entries: the i-th entry is (i, score of the i-th point). *)
Lemma choose_entries_shape m : forall pts i es, choose_entries m i pts = Ok es ->
  length es = length pts /\ map fst es = seq i (length pts) /\
  forall j e, nth_error es j = Some e ->
    exists p, nth_error pts j = Some p /\ choose_entry m (i + j) p = Ok e.
Proof.
  induction pts as [|p pts IH]; intros i es E; simpl in E.
  - inversion E; subst. simpl. split; [auto|]. split; [auto|]. intros [|j] e; discriminate.
  - apply bind_ok_inv in E as [e [Ee E]]. apply bind_ok_inv in E as [es' [Ees E]].
    inversion E; subst es. destruct (IH (S i) es' Ees) as [A [B C]]. simpl. split; [lia|].
    split.
    + rewrite B. f_equal. unfold choose_entry in Ee. apply bind_ok_inv in Ee as [[x y] [_ Ee]].
      destruct (_ && _); [apply bind_ok_inv in Ee as [d [_ Ee]]|]; inversion Ee; reflexivity.
    + intros [|j] e' He; simpl in He.
      * inversion He; subst e'. exists p. rewrite Nat.add_0_r. auto.
      * destruct (C j e' He) as [p' [P1 P2]]. exists p'. split; [exact P1|].
        replace (i + S j)%nat with (S i + j)%nat by lia. exact P2.
Qed.

Lemma firstn_skipn_perm {A} (n : nat) (l : list A) x : In x l -> In x (firstn n l) \/ In x (skipn n l).
Proof. rewrite <- (firstn_skipn n l) at 1. apply in_app_iff. Qed.

Lemma NoDup_firstn {A} n (l : list A) : NoDup l -> NoDup (firstn n l).
Proof.
  revert n. induction l as [|a l IH]; intros [|n] H; simpl; try constructor.
  - inversion H; subst. intros Hin. apply H2. rewrite <- (firstn_skipn n l). apply in_app_iff; auto.
  - inversion H; subst; auto.
Qed.

Lemma NoDup_map_filter {A B} (f : A -> B) (p : A -> bool) l : NoDup (map f l) -> NoDup (map f (filter p l)).
Proof.
  induction l as [|a l IH]; simpl; auto. intros H; inversion H; subst.
  destruct (p a); simpl; auto. constructor; auto.
  rewrite in_map_iff. intros [x [E Hx]]. apply filter_In in Hx as [Hx _].
  apply H2. rewrite <- E. apply in_map; auto.
Qed.

(** Abstract form of the choice: [score i] is the value computed for point [i]. *)
Lemma choose_spec nth m pts need es res :
  nth_element_ok nth -> 0 <= need ->
  choose_entries m 0 pts = Ok es -> choose nth m pts need = Ok res ->
  NoDup res /\ (length res <= Z.to_nat need)%nat /\
  (forall i, In i res -> exists d, In (i, d) es /\ d <> -1) /\
  (forall i di j dj, In i res -> In (i, di) es -> In (j, dj) es -> ~ In j res -> dj <= di \/ dj = -1) /\
  ((exists j dj, In (j, dj) es /\ dj <> -1 /\ ~ In j res) ->
     (forall e, In e es -> -1 <= snd e) -> Z.of_nat (length res) = need).
Proof.
  intros Hnth Hneed Ees Hc. unfold choose in Hc. rewrite Ees in Hc. cbn [bind] in Hc.
  assert (Z.min need (Z.of_nat (length pts)) <? 0 = false) as E0 by lia.
  rewrite E0 in Hc. inversion Hc; subst res; clear Hc E0.
  destruct (choose_entries_shape m pts 0 es Ees) as [Hl [Hf _]].
  set (n := Z.to_nat (Z.min need (Z.of_nat (length pts)))).
  assert (Hn : (n <= length es)%nat) by (unfold n; lia).
  destruct (Hnth n es Hn) as [Hp Hs].
  set (es' := nth n es) in *.
  assert (ND : NoDup (map fst es)) by (rewrite Hf; apply seq_NoDup).
  assert (ND' : NoDup (map fst es')) by (eapply Permutation_NoDup; [apply Permutation_map; exact Hp|exact ND]).
  assert (Uniq : forall i d d', In (i, d) es' -> In (i, d') es' -> d = d').
  { clear -ND'. induction es' as [|[a b] l IH]; simpl; [tauto|]. inversion ND'; subst.
    rename H1 into Hni.
    intros i d d' [E1|G1] [E2|G2].
    - congruence.
    - inversion E1; subst. exfalso. apply Hni. apply in_map_iff. exists (i, d'); auto.
    - inversion E2; subst. exfalso. apply Hni. apply in_map_iff. exists (i, d); auto.
    - eauto. }
  assert (Hres : forall i, In i (map fst (filter (fun e => negb (snd e =? -1)) (firstn n es'))) <->
             exists d, In (i, d) (firstn n es') /\ d <> -1).
  { intros i. rewrite in_map_iff. split.
    - intros [[a d] [E Hx]]. simpl in E; subst a. apply filter_In in Hx as [Hx Hd]. simpl in Hd.
      exists d. split; auto. lia.
    - intros [d [Hx Hd]]. exists (i, d). split; [reflexivity|]. apply filter_In. split; [auto|]. simpl. lia. }
  assert (Sub : forall e, In e (firstn n es') -> In e es').
  { intros e He. rewrite <- (firstn_skipn n es'). apply in_app_iff; auto. }
  split; [|split; [|split; [|split]]].
  - apply NoDup_map_filter. rewrite <- firstn_map. apply NoDup_firstn. exact ND'.
  - rewrite map_length. pose proof (filter_length_le' (fun e : nat * Z => negb (snd e =? -1)) (firstn n es')).
    pose proof (firstn_le_length n es'). rewrite firstn_length in *. unfold n in *. lia.
  - intros i Hi. apply Hres in Hi as [d [Hd Hne]]. exists d. split; [|exact Hne].
    apply (Permutation_in _ (Permutation_sym Hp)). auto.
  - intros i di j dj Hi Hdi Hdj Hj. apply Hres in Hi as [d [Hd Hne]].
    assert (di = d) as ->.
    { apply (Uniq i); [apply (Permutation_in _ Hp); exact Hdi|auto]. }
    destruct (firstn_skipn_perm n es' (j, dj) (Permutation_in _ Hp Hdj)) as [Hin|Hin].
    + right. destruct (Z.eq_dec dj (-1)); auto. exfalso. apply Hj, Hres. eauto.
    + left. apply (Hs (i, d) (j, dj)); auto.
  - intros [j [dj [Hdj [Hne Hj]]]] Hge.
    assert (Hjs : In (j, dj) (skipn n es')).
    { destruct (firstn_skipn_perm n es' (j, dj) (Permutation_in _ Hp Hdj)) as [Hin|Hin]; auto.
      exfalso. apply Hj, Hres. eauto. }
    assert (Hlen : length es' = length es) by (symmetry; apply Permutation_length; exact Hp).
    assert (n < length es')%nat.
    { destruct (Nat.lt_ge_cases n (length es')) as [|Hge']; auto.
      rewrite skipn_all2 in Hjs by lia. destruct Hjs. }
    assert (Hall : filter (fun e => negb (snd e =? -1)) (firstn n es') = firstn n es').
    { clear Hres. 
      assert (forall l, (forall e, In e l -> snd e <> -1) -> filter (fun e : nat * Z => negb (snd e =? -1)) l = l).
      { induction l as [|a l IH]; simpl; auto. intros Ha.
        pose proof (Ha a (or_introl eq_refl)). assert (negb (snd a =? -1) = true) as -> by lia.
        f_equal. apply IH. intros; apply Ha; auto. }
      apply H0. intros e He. pose proof (Hs e (j, dj) He Hjs) as Hle. simpl in Hle.
      assert (-1 <= dj) by (apply (Hge (j, dj)); auto). lia. }
    rewrite Hall, map_length, firstn_length. unfold n in *. lia.
Qed.

(** ** Fuel independence *)

Lemma bfs_mono : forall f n g q, bfs f g q <> NoFuel -> bfs (f + n) g q = bfs f g q.
Proof.
  induction f as [|f IH]; intros n g q Hne.
  - destruct q; simpl in *; [destruct n; reflexivity|congruence].
  - destruct q as [|c q]; [reflexivity|]. simpl in *.
    destruct (bfs_body g c q) as [[g' q']| | | |]; simpl in *; auto.
Qed.

Lemma build_mono f n W H pts s : build f W H pts s <> NoFuel -> build (f + n) W H pts s = build f W H pts s.
Proof.
  unfold build. destruct (reduction W H s) as [k| | | |]; simpl; auto.
  destruct (k =? 0); auto.
  destruct (ofold (seed_step W H k) pts _) as [[g q]| | | |]; simpl; auto.
  intros Hne. rewrite bfs_mono; auto.
  destruct (bfs f g q); simpl in *; congruence.
Qed.

Lemma divide_mul k W : 1 <= k -> (k | W) -> W / k * k = W.
Proof. intros Hk [z ->]. rewrite Z.div_mul by lia. reflexivity. Qed.

Lemma build_ok_divisible W H s pts k fuel :
  1 <= W < 2^30 -> 1 <= H < 2^30 -> reduction W H s = Ok k -> 1 <= k -> (k | W) -> (k | H) ->
  (length pts + Z.to_nat (W / k) * Z.to_nat (H / k) <= fuel)%nat ->
  exists m, build fuel W H pts s = Ok m /\ dm_pyrDown m = k /\
    gw (dm_dist m) = W / k /\ gh (dm_dist m) = H / k /\
    forall x y, 0 <= x < W / k -> 0 <= y < H / k ->
      ((forall sx sy, ~ occupied W H k pts sx sy) -> gat (dm_dist m) x y = INT_MAX) /\
      ((exists sx sy, occupied W H k pts sx sy) ->
         nearest (occupied W H k pts) x y (gat (dm_dist m) x y)).
Proof.
  intros. apply build_ok; auto. intros p _. rewrite !divide_mul by auto. auto.
Qed.

Lemma build_safe W H s pts k fuel :
  1 <= W < 2^30 -> 1 <= H < 2^30 -> reduction W H s = Ok k -> 1 <= k -> (k | W) -> (k | H) ->
  build fuel W H pts s = NoFuel \/ exists m, build fuel W H pts s = Ok m.
Proof.
  intros HW HH Hr Hk D1 D2.
  destruct (build_ok_divisible W H s pts k (fuel + (length pts + Z.to_nat (W / k) * Z.to_nat (H / k))) HW HH Hr Hk D1 D2 ltac:(lia)) as [m [E _]].
  destruct (build fuel W H pts s) eqn:E'; eauto;
    rewrite build_mono in E by congruence; rewrite E' in E; discriminate.
Qed.

Lemma build_any_fuel W H s pts k fuel m :
  1 <= W < 2^30 -> 1 <= H < 2^30 -> reduction W H s = Ok k -> 1 <= k -> (k | W) -> (k | H) ->
  build fuel W H pts s = Ok m ->
    dm_pyrDown m = k /\
    gw (dm_dist m) = W / k /\ gh (dm_dist m) = H / k /\
    forall x y, 0 <= x < W / k -> 0 <= y < H / k ->
      ((forall sx sy, ~ occupied W H k pts sx sy) -> gat (dm_dist m) x y = INT_MAX) /\
      ((exists sx sy, occupied W H k pts sx sy) ->
         nearest (occupied W H k pts) x y (gat (dm_dist m) x y)).
Proof.
  intros HW HH Hr Hk D1 D2 E.
  destruct (build_ok_divisible W H s pts k (fuel + (length pts + Z.to_nat (W / k) * Z.to_nat (H / k))) HW HH Hr Hk D1 D2 ltac:(lia)) as [m' [E' R]].
  rewrite build_mono in E' by congruence. assert (m = m') by congruence. subst. exact R.
Qed.

Lemma nearest_unique S x y d d' : nearest S x y d -> nearest S x y d' -> d = d'.
Proof.
  intros [[sx [sy [A B]]] C] [[sx' [sy' [A' B']]] C'].
  specialize (C _ _ A'). specialize (C' _ _ A). lia.
Qed.

Lemma choose_farthest nth W H s k seeds fuel m cand need :
  nth_element_ok nth -> 1 <= W < 2^30 -> 1 <= H < 2^30 -> reduction W H s = Ok k -> 1 <= k ->
  (k | W) -> (k | H) -> build fuel W H seeds s = Ok m -> 0 <= need ->
  (forall p, In p cand -> inside_image W H p) ->
  exists res, choose nth m cand need = Ok res /\ NoDup res /\
    (forall i, In i res -> (i < length cand)%nat) /\
    Z.of_nat (length res) = Z.min need (Z.of_nat (length cand)) /\
    (forall i j pi pj xi yi xj yj di dj,
       In i res -> ~ In j res -> nth_error cand i = Some pi -> nth_error cand j = Some pj ->
       in_cell k pi xi yi -> in_cell k pj xj yj ->
       nearest (occupied W H k seeds) xi yi di -> nearest (occupied W H k seeds) xj yj dj ->
       dj <= di).
Proof.
  intros Hnth HW HH Hr Hk D1 D2 Hb Hneed Hin.
  destruct (build_any_fuel W H s seeds k fuel m HW HH Hr Hk D1 D2 Hb) as [Ek [Ew [Eh Hv]]].
  assert (BW : W / k * k = W) by (apply divide_mul; auto).
  assert (BH : H / k * k = H) by (apply divide_mul; auto).
  destruct (choose_entries_ok W H m cand 0) as [es Ees]; auto.
  { lia. } { unfold INT_MAX; lia. } { unfold INT_MAX; lia. } { congruence. } { congruence. }
  destruct (choose nth m cand need) as [res| | | |] eqn:Ec;
    try (unfold choose in Ec; rewrite Ees in Ec; cbn [bind] in Ec;
         assert (Z.min need (Z.of_nat (length cand)) <? 0 = false) as E0 by lia;
         rewrite E0 in Ec; discriminate).
  exists res. split; [reflexivity|].
  destruct (choose_entries_shape m cand 0 es Ees) as [Hl [Hf Hsh]].
  (* value of an entry *)
  assert (Hval : forall j d, In (j, d) es -> exists p x y, nth_error cand j = Some p /\
              in_cell k p x y /\ 0 <= x < W / k /\ 0 <= y < H / k /\ d = gat (dm_dist m) x y).
  { intros j d Hj. apply In_nth_error in Hj as [j' Hj'].
    destruct (Hsh j' (j, d) Hj') as [p [Hp He]]. simpl in He.
    destruct (cell_of_inside W H k p ltac:(lia) ltac:(unfold INT_MAX; lia) ltac:(unfold INT_MAX; lia)
                (Hin p (nth_error_In _ _ Hp))) as [cx [cy [Ecell [Hcell [_ [A [B [C Dd]]]]]]]].
    unfold choose_entry in He. rewrite Ek, Ecell in He. cbn [bind] in He.
    assert (R1 : 0 <= cx < W / k) by nia. assert (R2 : 0 <= cy < H / k) by nia.
    assert ((0 <=? cx) && (cx <=? gw (dm_dist m)) && (0 <=? cy) && (cy <=? gh (dm_dist m)) = true) as Et by lia.
    rewrite Et in He. unfold gget, in_grid in He.
    assert ((0 <=? cx) && (cx <? gw (dm_dist m)) && (0 <=? cy) && (cy <? gh (dm_dist m)) = true) as Et' by lia.
    rewrite Et' in He. cbn [bind] in He. inversion He; subst j d.
    exists p, cx, cy. auto. }
  assert (Hge : forall e, In e es -> 0 <= snd e).
  { intros [j d] Hj. destruct (Hval j d Hj) as [p [x [y [_ [_ [Hx [Hy ->]]]]]]]. simpl.
    destruct (Hv x y Hx Hy) as [V1 V2].
    assert (Dec : (exists sx sy, occupied W H k seeds sx sy) \/ (forall sx sy, ~ occupied W H k seeds sx sy)).
    { clear -Hk HW HH D1 D2 BW BH.
      induction seeds as [|p ps IH].
      - right. intros sx sy [p [[] _]].
      - destruct IH as [[sx [sy [p' [A B]]]]|IH].
        + left. exists sx, sy, p'. simpl; auto.
        + destruct (seed_inside W H p) eqn:E.
          * left. apply seed_inside_spec in E.
            destruct (cell_of_inside W H k p ltac:(lia) ltac:(unfold INT_MAX; lia) ltac:(unfold INT_MAX; lia) E)
              as [cx [cy [_ [Hc _]]]]. exists cx, cy, p. simpl; auto.
          * right. intros sx sy [p' [[<-|A] [B C]]].
            -- apply seed_inside_spec in B. congruence.
            -- apply (IH sx sy). exists p'. auto. }
    destruct Dec as [De|De].
    - destruct (V2 De) as [[sx [sy [_ ->]]] _]. unfold city_block; lia.
    - rewrite (V1 De). unfold INT_MAX; lia. }
  destruct (choose_spec nth m cand need es res Hnth Hneed Ees Ec) as [R1 [R2 [R3 [R4 R5]]]].
  assert (Hidx : forall i, In i res -> (i < length cand)%nat).
  { intros i Hi. destruct (R3 i Hi) as [d [Hd _]]. destruct (Hval i d Hd) as [p [x [y [Hp _]]]].
    apply nth_error_Some. congruence. }
  assert (Hlen_le : (length res <= length cand)%nat).
  { rewrite <- (seq_length (length cand) 0). apply NoDup_incl_length; auto.
    intros i Hi. apply in_seq. specialize (Hidx i Hi). lia. }
  split; [exact R1|]. split; [exact Hidx|]. split.
  - (* size *)
    destruct (Z_le_gt_dec (Z.of_nat (length cand)) (Z.of_nat (length res))) as [Hfull|Hpart].
    + lia.
    + assert (Hex : exists j, In j (seq 0 (length cand)) /\ ~ In j res).
      { assert (Hdec : forall l, (forall j, In j l -> In j res) \/ exists j, In j l /\ ~ In j res).
        { induction l as [|a l IH].
          - left. intros j [].
          - destruct IH as [IH|[j [A B]]].
            + destruct (in_dec Nat.eq_dec a res) as [Ha|Ha].
              * left. intros j [<-|Hj]; auto.
              * right. exists a. split; [left; reflexivity|exact Ha].
            + right. exists j. split; [right; exact A|exact B]. }
        destruct (Hdec (seq 0 (length cand))) as [Hall|Hsome]; [|exact Hsome].
        exfalso. assert (length (seq 0 (length cand)) <= length res)%nat.
        { apply NoDup_incl_length; [apply seq_NoDup|exact Hall]. }
        rewrite seq_length in *. lia. }
      destruct Hex as [j [Hj1 Hj2]].
      assert (exists dj, In (j, dj) es) as [dj Hdj].
      { rewrite <- Hf in Hj1. apply in_map_iff in Hj1 as [[a d] [E Hd]]. simpl in E; subst. eauto. }
      assert (Z.of_nat (length res) = need); [|lia].
      apply R5.
      * exists j, dj. split; [exact Hdj|]. split; [|exact Hj2].
        pose proof (Hge _ Hdj) as Hg0. simpl in Hg0. lia.
      * intros e He. pose proof (Hge e He). lia.
  - intros i j pi pj xi yi xj yj di dj Hi Hj Hpi Hpj Hci Hcj Hni Hnj.
    destruct (R3 i Hi) as [d [Hd _]].
    assert (exists d', In (j, d') es) as [d' Hd'].
    { assert (Hjs : In j (map fst es)).
      { rewrite Hf. apply in_seq. assert (nth_error cand j <> None) by congruence.
        apply nth_error_Some in H0. lia. }
      apply in_map_iff in Hjs as [[a d'] [E Hd']]. simpl in E; subst. eauto. }
    assert (Hsame : forall i p x y d dd, In (i, d) es -> nth_error cand i = Some p -> in_cell k p x y ->
              nearest (occupied W H k seeds) x y dd -> d = dd).
    { clear -Hval Hv Hk HW HH Hin BW BH D1 D2. intros i p x y d dd Hd Hp Hc Hn.
      destruct (Hval i d Hd) as [p' [x' [y' [Hp' [Hc' [Hx' [Hy' ->]]]]]]].
      assert (p' = p) by congruence. subst p'.
      destruct (cell_of_inside W H k p ltac:(lia) ltac:(unfold INT_MAX; lia) ltac:(unfold INT_MAX; lia)
                (Hin p (nth_error_In _ _ Hp))) as [cx [cy [_ [_ [Hu _]]]]].
      destruct (Hu _ _ Hc) as [-> ->]. destruct (Hu _ _ Hc') as [-> ->].
      destruct (Hv cx cy Hx' Hy') as [_ V2].
      apply (nearest_unique (occupied W H k seeds) cx cy); [|exact Hn].
      apply V2. destruct Hn as [[sx [sy [Ho _]]] _]. eauto. }
    rewrite <- (Hsame i pi xi yi d di Hd Hpi Hci Hni).
    rewrite <- (Hsame j pj xj yj d' dj Hd' Hpj Hcj Hnj).
    destruct (R4 i d j d' Hi Hd Hd' Hj) as [Hle| ->]; [exact Hle|].
    pose proof (Hge _ Hd). simpl in *. lia.
Qed.

(** ** Size of the reduced grid *)

Lemma one_side_fits W H s k mw mh :
  1 <= W < 2^30 -> 1 <= H < 2^30 -> 1 <= mw -> 1 <= mh ->
  s = {| maxWidth := inject_Z mw; maxHeight := inject_Z mh |} ->
  reduction W H s = Ok k -> W / k <= mw \/ H / k <= mh.
Proof.
  intros HW HH Hmw Hmh -> Hr.
  set (s := {| maxWidth := inject_Z mw; maxHeight := inject_Z mh |}) in *.
  assert (L : limits_ok s).
  { split; simpl; change 1%Q with (inject_Z 1); rewrite <- Zle_Qle; lia. }
  destruct (reduction_ok W H s HW HH L) as [k' [dw [dh [Er [Hk [_ [Ew [Eh [Ek [Bw Bh]]]]]]]]]].
  assert (k' = k) by congruence. subst k'. clear Er.
  assert (Gen : forall V mx d, 1 <= V < 2^30 -> 1 <= mx -> side_div V (inject_Z mx) = Ok d ->
                 clp2 d = k -> V / k <= mx).
  { intros V mx d HV Hmx Ed Ec.
    assert (Hq : (1 <= inject_Z mx)%Q) by (change 1%Q with (inject_Z 1); rewrite <- Zle_Qle; lia).
    destruct (side_div_ok V (inject_Z mx) HV Hq) as [d' [Ed' [Bd [_ Hlt]]]].
    assert (d' = d) by congruence. subst d'.
    rewrite <- inject_Z_mult, <- Zlt_Qlt in Hlt.
    destruct (clp2_spec d ltac:(lia)) as [_ [Hge _]]. rewrite Ec in Hge.
    assert (d * mx <= k * mx) by (apply Z.mul_le_mono_nonneg_r; lia).
    assert (V <= k * mx) by lia.
    apply Z.div_le_upper_bound; lia. }
  destruct (Z.min_spec (clp2 dw) (clp2 dh)) as [[_ Em]|[_ Em]].
  - left. apply (Gen W mw dw); auto. congruence.
  - right. apply (Gen H mh dh); auto. congruence.
Qed.

(** ** Witnesses *)

Lemma reduction_total W H s : 1 <= W < 2^30 -> 1 <= H < 2^30 -> limits_ok s ->
  exists k, reduction W H s = Ok k /\ 1 <= k /\ pow2 k.
Proof.
  intros HW HH L. destruct (reduction_ok W H s HW HH L) as [k [_ [_ [A [B [C _]]]]]]. eauto.
Qed.

Lemma choose_negative nth m cand es need :
  choose_entries m 0 cand = Ok es -> need < 0 -> choose nth m cand need = UB.
Proof.
  intros E Hn. unfold choose. rewrite E. cbn [bind].
  assert (Z.min need (Z.of_nat (length cand)) <? 0 = true) as -> by lia. reflexivity.
Qed.

Lemma build_oob : exists W H p, inside_image W H p /\ forall fuel, build fuel W H [p] dm_default = UB.
Proof.
  exists 1922, 1208, (Fin (1921#1), Fin (0#1)). split.
  - exists (1921#1), (0#1). split; [reflexivity|]. repeat split; discriminate.
  - intros fuel. unfold build.
    assert (reduction 1922 1208 dm_default = Ok 4) as -> by (vm_compute; reflexivity).
    vm_compute. reflexivity.
Qed.

Lemma choose_oob : exists W H m p, build 0 W H [] dm_default = Ok m /\
    p = (of_int W, of_int 0) /\ forall nth, choose nth m [p] 1 = UB.
Proof.
  exists 480, 302. eexists. eexists. split; [vm_compute; reflexivity|]. split; [reflexivity|].
  intros nth. vm_compute. reflexivity.
Qed.

Lemma wide_map : exists W H k, reduction W H dm_default = Ok k /\ 480 < W / k.
Proof. exists 4800, 302, 1. split; vm_compute; reflexivity. Qed.

(** ** A function meeting the contract of nth_element exists (sorting) *)

Fixpoint ins (e : nat * Z) (l : list (nat * Z)) : list (nat * Z) :=
  match l with
  | [] => [e]
  | a :: l' => if snd a <=? snd e then e :: a :: l' else a :: ins e l'
  end.
Definition sort_desc (l : list (nat * Z)) := fold_right ins [] l.

Lemma ins_perm e l : Permutation (e :: l) (ins e l).
Proof.
  induction l as [|a l IH]; simpl; auto. destruct (snd a <=? snd e); auto.
  eapply perm_trans; [apply perm_swap|]. constructor. exact IH.
Qed.

Fixpoint desc (l : list (nat * Z)) : Prop :=
  match l with [] => True | a :: l' => (forall b, In b l' -> snd b <= snd a) /\ desc l' end.

Lemma ins_desc e l : desc l -> desc (ins e l).
Proof.
  induction l as [|a l IH]; simpl; [tauto|]. intros [H1 H2].
  destruct (snd a <=? snd e) eqn:E; simpl.
  - split; [|auto]. intros b [<-|Hb]; [lia|]. specialize (H1 b Hb). lia.
  - split; [|auto]. intros b Hb. apply (Permutation_in _ (Permutation_sym (ins_perm e l))) in Hb.
    destruct Hb as [<-|Hb]; [lia|auto].
Qed.

Lemma sort_desc_perm l : Permutation l (sort_desc l).
Proof. induction l as [|a l IH]; simpl; auto. eapply perm_trans; [constructor; exact IH|apply ins_perm]. Qed.

Lemma sort_desc_desc l : desc (sort_desc l).
Proof. induction l as [|a l IH]; simpl; auto. apply ins_desc. exact IH. Qed.

Lemma desc_split n : forall l a b, desc l -> In a (firstn n l) -> In b (skipn n l) -> snd b <= snd a.
Proof.
  induction n as [|n IH]; intros [|x l] a b Hd Ha Hb; simpl in *; try tauto.
  destruct Hd as [H1 H2]. destruct Ha as [<-|Ha]; [|eauto].
  apply H1. rewrite <- (firstn_skipn n l). apply in_app_iff; auto.
Qed.

Lemma sort_nth_ok : nth_element_ok (fun _ l => sort_desc l).
Proof.
  intros n l _. split; [apply sort_desc_perm|]. intros a b. apply desc_split. apply sort_desc_desc.
Qed.

(** ** Choice among arbitrary candidates *)

Lemma qtrunc_range q k W : 1 <= k -> (k | W) ->
  0 <= Z.quot (qtrunc q) k < W / k -> (inject_Z (- k) < q)%Q /\ (q < inject_Z W)%Q.
Proof.
  intros Hk D [A B]. destruct q as [n d]. unfold qtrunc in *; simpl in *.
  set (t := Z.quot n (Zpos d)) in *.
  assert (BW : W / k * k = W) by (apply divide_mul; auto).
  assert (T1 : - k < t).
  { destruct (Z_lt_le_dec (- k) t) as [|Hle]; [assumption|exfalso].
    assert (Z.quot t k <= Z.quot (- k) k) by (apply Z.quot_le_mono; lia).
    rewrite Z.quot_opp_l, Z.quot_same in H by lia. lia. }
  assert (T2 : t < W).
  { destruct (Z_lt_le_dec t W) as [|Hle]; [assumption|exfalso].
    assert (Z.quot W k <= Z.quot t k) by (apply Z.quot_le_mono; lia).
    assert (Z.quot W k = W / k).
    { rewrite <- BW at 1. rewrite Z.quot_mul by lia. reflexivity. } lia. }
  pose proof (Z.quot_rem' n (Zpos d)) as QR. fold t in QR.
  pose proof (Z.rem_bound_abs n (Zpos d) ltac:(lia)) as RB.
  unfold Qlt; simpl. split; nia.
Qed.

Lemma occ_dec W H k seeds : 1 <= W < 2^30 -> 1 <= H < 2^30 -> 1 <= k ->
  (exists sx sy, occupied W H k seeds sx sy) \/ (forall sx sy, ~ occupied W H k seeds sx sy).
Proof.
  intros HW HH Hk. induction seeds as [|p ps IH].
  - right. intros sx sy [p [[] _]].
  - destruct IH as [[sx [sy [p' [A B]]]]|IH].
    + left. exists sx, sy, p'. simpl; auto.
    + destruct (seed_inside W H p) eqn:E.
      * left. apply seed_inside_spec in E.
        destruct (cell_of_inside W H k p ltac:(lia) ltac:(unfold INT_MAX; lia) ltac:(unfold INT_MAX; lia) E)
          as [cx [cy [_ [Hc _]]]]. exists cx, cy, p. simpl; auto.
      * right. intros sx sy [p' [[<-|A] [B C]]].
        -- apply seed_inside_spec in B. congruence.
        -- apply (IH sx sy). exists p'. auto.
Qed.

Lemma choose_general nth W H s k seeds fuel m cand need res :
  nth_element_ok nth -> 1 <= W < 2^30 -> 1 <= H < 2^30 -> reduction W H s = Ok k -> 1 <= k ->
  (k | W) -> (k | H) -> build fuel W H seeds s = Ok m -> 0 <= need ->
  choose nth m cand need = Ok res ->
  NoDup res /\ (Z.of_nat (length res) <= need) /\
  (forall i, In i res -> exists p, nth_error cand i = Some p /\ reaches_grid W H k p) /\
  ((exists j p, nth_error cand j = Some p /\ inside_image W H p /\ ~ In j res) ->
     Z.of_nat (length res) = need) /\
  (forall i j pi pj xi yi xj yj di dj,
       In i res -> ~ In j res -> nth_error cand i = Some pi -> nth_error cand j = Some pj ->
       inside_image W H pi -> inside_image W H pj ->
       in_cell k pi xi yi -> in_cell k pj xj yj ->
       nearest (occupied W H k seeds) xi yi di -> nearest (occupied W H k seeds) xj yj dj ->
       dj <= di).
Proof.
  intros Hnth HW HH Hr Hk D1 D2 Hb Hneed Hc.
  destruct (build_any_fuel W H s seeds k fuel m HW HH Hr Hk D1 D2 Hb) as [Ek [Ew [Eh Hv]]].
  assert (BW : W / k * k = W) by (apply divide_mul; auto).
  assert (BH : H / k * k = H) by (apply divide_mul; auto).
  assert (exists es, choose_entries m 0 cand = Ok es) as [es Ees].
  { unfold choose in Hc. apply bind_ok_inv in Hc as [es [E _]]. eauto. }
  destruct (choose_entries_shape m cand 0 es Ees) as [Hl [Hf Hsh]].
  assert (Hat : forall j p, nth_error cand j = Some p -> exists d, In (j, d) es /\ choose_entry m j p = Ok (j, d)).
  { intros j p Hp. destruct (nth_error es j) as [[a d]|] eqn:E.
    - destruct (Hsh j _ E) as [p' [P1 P2]]. simpl in P2. rewrite Hp in P1; inversion P1; subst p'.
      assert (a = j).
      { assert (nth_error (map fst es) j = Some a) as E' by (erewrite map_nth_error; eauto; reflexivity).
        assert ((j < length cand)%nat) by (apply nth_error_Some; congruence).
        rewrite Hf in E'. rewrite nth_error_nth' with (d := 0%nat) in E' by (rewrite seq_length; auto).
        rewrite seq_nth in E' by auto. inversion E'. reflexivity. }
      subst a. exists d. split; [eapply nth_error_In; eauto|exact P2].
    - apply nth_error_None in E. assert ((j < length cand)%nat) by (apply nth_error_Some; congruence). lia. }
  assert (Hinv : forall j d, In (j, d) es -> exists p, nth_error cand j = Some p /\ choose_entry m j p = Ok (j, d)).
  { intros j d Hj. pose proof Hj as Hj0. apply In_nth_error in Hj as [j' Hj'].
    destruct (Hsh j' (j, d) Hj') as [p [Hp He]]. simpl in He.
    assert (j' = j).
    { unfold choose_entry in He. apply bind_ok_inv in He as [[x y] [_ He]].
      destruct (_ && _); [apply bind_ok_inv in He as [d' [_ He]]|]; inversion He; reflexivity. }
    subst j'. eauto. }
  assert (Gnn : forall x y, 0 <= x < W / k -> 0 <= y < H / k -> 0 <= gat (dm_dist m) x y).
  { intros x y Hx Hy. destruct (Hv x y Hx Hy) as [V1 V2].
    destruct (occ_dec W H k seeds HW HH Hk) as [De|De].
    - destruct (V2 De) as [[sx [sy [_ ->]]] _]. unfold city_block; lia.
    - rewrite (V1 De). unfold INT_MAX; lia. }
  assert (Hval : forall j d p, choose_entry m j p = Ok (j, d) ->
     d = -1 \/ (0 <= d /\ reaches_grid W H k p)).
  { intros j d p He. unfold choose_entry in He. apply bind_ok_inv in He as [[x y] [Ecell He]].
    destruct (_ && _); [|inversion He; auto].
    apply bind_ok_inv in He as [d' [Eg He]]. inversion He; subst d'. right.
    unfold gget in Eg. destruct (in_grid (dm_dist m) x y) eqn:Eg'; [|discriminate].
    inversion Eg; subst d. unfold in_grid in Eg'. rewrite Ew, Eh in Eg'.
    assert (Hx : 0 <= x < W / k) by lia. assert (Hy : 0 <= y < H / k) by lia.
    split; [auto|]. unfold cell_of in Ecell. rewrite Ek in Ecell.
    apply bind_ok_inv in Ecell as [cx [Ex Ecell]]. apply bind_ok_inv in Ecell as [cy [Ey Ecell]].
    destruct (k =? 0); [discriminate|]. inversion Ecell; subst x y.
    destruct p as [[px| | |] [py| | |]]; simpl in Ex, Ey; try discriminate.
    destruct (in_int (qtrunc px)); [|discriminate]. destruct (in_int (qtrunc py)); [|discriminate].
    inversion Ex; inversion Ey; subst cx cy. exists px, py.
    destruct (qtrunc_range px k W Hk D1 Hx). destruct (qtrunc_range py k H Hk D2 Hy). auto. }
  assert (Hins : forall j d p, choose_entry m j p = Ok (j, d) -> inside_image W H p ->
     exists x y, in_cell k p x y /\ 0 <= x < W / k /\ 0 <= y < H / k /\ d = gat (dm_dist m) x y).
  { intros j d p He Hi.
    destruct (cell_of_inside W H k p ltac:(lia) ltac:(unfold INT_MAX; lia) ltac:(unfold INT_MAX; lia)
                Hi) as [cx [cy [Ecell [Hcell [_ [A [B [C Dd]]]]]]]].
    unfold choose_entry in He. rewrite Ek, Ecell in He. cbn [bind] in He.
    assert (R1 : 0 <= cx < W / k) by nia. assert (R2 : 0 <= cy < H / k) by nia.
    assert ((0 <=? cx) && (cx <=? gw (dm_dist m)) && (0 <=? cy) && (cy <=? gh (dm_dist m)) = true) as Et by lia.
    rewrite Et in He. unfold gget, in_grid in He.
    assert ((0 <=? cx) && (cx <? gw (dm_dist m)) && (0 <=? cy) && (cy <? gh (dm_dist m)) = true) as Et' by lia.
    rewrite Et' in He. cbn [bind] in He. inversion He. eauto 10. }
  destruct (choose_spec nth m cand need es res Hnth Hneed Ees Hc) as [R1 [R2 [R3 [R4 R5]]]].
  split; [exact R1|]. split; [lia|]. split; [|split].
  - intros i Hi. destruct (R3 i Hi) as [d [Hd Hne]]. destruct (Hinv i d Hd) as [p [Hp He]].
    exists p. split; [auto|]. destruct (Hval i d p He) as [|[_ ?]]; [congruence|auto].
  - intros [j [p [Hp [Hi Hj]]]]. destruct (Hat j p Hp) as [d [Hd He]].
    apply R5.
    + exists j, d. split; [auto|]. split; [|auto].
      destruct (Hins j d p He Hi) as [x [y [_ [Hx [Hy ->]]]]]. pose proof (Gnn x y Hx Hy). lia.
    + intros [j' d'] He'. destruct (Hinv j' d' He') as [p' [Hp' Hc']]. simpl.
      destruct (Hval _ _ _ Hc') as [->|[? _]]; lia.
  - intros i j pi pj xi yi xj yj di dj Hi Hj Hpi Hpj Ii Ij Hci Hcj Hni Hnj.
    destruct (Hat i pi Hpi) as [d [Hd He]]. destruct (Hat j pj Hpj) as [d' [Hd' He']].
    destruct (Hins _ _ _ He Ii) as [x [y [Hc1 [Hx [Hy Ed]]]]].
    destruct (Hins _ _ _ He' Ij) as [x' [y' [Hc2 [Hx' [Hy' Ed']]]]].
    assert (U : forall p a b a' b', inside_image W H p -> in_cell k p a b -> in_cell k p a' b' -> a = a' /\ b = b').
    { intros p a b a' b' I C1 C2.
      destruct (cell_of_inside W H k p ltac:(lia) ltac:(unfold INT_MAX; lia) ltac:(unfold INT_MAX; lia) I)
        as [cx [cy [_ [_ [Un _]]]]]. destruct (Un _ _ C1), (Un _ _ C2). split; congruence. }
    destruct (U pi x y xi yi Ii Hc1 Hci) as [-> ->]. destruct (U pj x' y' xj yj Ij Hc2 Hcj) as [-> ->].
    assert (O : exists sx sy, occupied W H k seeds sx sy).
    { destruct Hni as [[sx [sy [O _]]] _]. eauto. }
    destruct (Hv xi yi Hx Hy) as [_ V]. destruct (Hv xj yj Hx' Hy') as [_ V'].
    rewrite (nearest_unique _ _ _ _ _ Hni (V O)), (nearest_unique _ _ _ _ _ Hnj (V' O)), <- Ed, <- Ed'.
    destruct (R4 i d j d' Hi Hd Hd' Hj) as [|E]; [auto|].
    pose proof (Gnn _ _ Hx' Hy'). pose proof (Gnn _ _ Hx Hy). lia.
Qed.

Lemma choose_outside :
  exists m, build 10 8 8 [] dm_default = Ok m /\ ~ inside_image 8 8 (Fin (-1#2), Fin (1#2)) /\
  forall nth, nth_element_ok nth -> choose nth m [(Fin (-1#2), Fin (1#2))] 1 = Ok [0%nat].
Proof.
  eexists. split; [vm_compute; reflexivity|]. split.
  - intros [px [py [E [A _]]]]. inversion E; subst. revert A. unfold Qle; simpl. lia.
  - intros nth Hn. unfold choose, choose_entries, choose_entry. simpl.
    destruct (Hn 1%nat [(0%nat, 2147483647)] ltac:(simpl; lia)) as [Hp _].
    apply Permutation_length_1_inv in Hp. unfold Pos.to_nat; simpl. rewrite Hp. reflexivity.
Qed.
