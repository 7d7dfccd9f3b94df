(** Proofs for pixel selection. *)
From Coq Require Import List ZArith QArith Bool Lia Permutation ZifyBool.
From Verif Require Import Outcome Dbl PixelSelectorModel PixelSelectorSpec.
Import ListNotations.
Open Scope Z_scope.

(** ** Lists *)

Lemma NoDup_app' {A} (l l' : list A) : NoDup l -> NoDup l' -> (forall x, In x l -> ~ In x l') -> NoDup (l ++ l').
Proof.
  induction l as [|a l IH]; simpl; auto. intros H H' D. inversion H; subst. constructor.
  - rewrite in_app_iff. intros [?|?]; [auto|]. eapply D; eauto.
  - apply IH; auto.
Qed.

Lemma Forall2_len {A B} (R : A -> B -> Prop) l l' : Forall2 R l l' -> length l = length l'.
Proof. induction 1; simpl; congruence. Qed.

Lemma Forall2_cons_r {A B} (R : A -> B -> Prop) l b l' : Forall2 R l (b :: l') -> exists a m, l = a :: m /\ R a b.
Proof. intros H. inversion H; subst. eauto. Qed.

Lemma NoDup_flat_map {A B} (f : A -> list B) l :
  NoDup l -> (forall a, In a l -> NoDup (f a)) ->
  (forall a b x, In a l -> In b l -> In x (f a) -> In x (f b) -> a = b) -> NoDup (flat_map f l).
Proof.
  induction l as [|a l IH]; simpl; intros Hn Hf Hd; [constructor|]. inversion Hn; subst.
  apply NoDup_app'; [auto| |].
  - apply IH; auto. intros a0 b x Ha Hb. apply Hd; auto.
  - intros x Hx Hx'. apply in_flat_map in Hx' as [b [Hb Hxb]].
    assert (a = b) by (eapply Hd; eauto). subst. contradiction.
Qed.

(** ** The loops *)

Lemma qltb_lt a b : qltb a b = true <-> (a < b)%Q.
Proof. unfold qltb, Qlt. lia. Qed.

Section S.
Variable maxloc : image -> Z -> Z -> Z -> Z * Z.
Variable shuffle : nat -> list (Z * Z) -> list (Z * Z).
Hypothesis Hmax : maxloc_ok maxloc.
Hypothesis Hsh : shuffle_ok shuffle.

Definition loc_of (g : image) (i j s : Z) : Z * Z :=
  (j + fst (maxloc g i j s), i + snd (maxloc g i j s)).
Definition item (g : image) (s : Z) (thr : Q) (i j : Z) : list (Z * Z) :=
  if qltb (block_sum g i j s / inject_Z (s * s) + thr)%Q (im_at g (fst (loc_of g i j s)) (snd (loc_of g i j s)))
  then [loc_of g i j s] else [].

Lemma block_step_item g s thr i j acc : 1 <= s ->
  block_step maxloc g s thr i j acc = Ok (acc ++ item g s thr i j).
Proof.
  intros Hs. unfold block_step. assert (s <? 0 = false) as -> by lia. assert (s =? 0 = false) as -> by lia.
  unfold item, loc_of; simpl. destruct (qltb _ _); [reflexivity|rewrite app_nil_r; reflexivity].
Qed.

Definition steps (n : nat) (j s : Z) : list Z := map (fun b => j + Z.of_nat b * s) (seq 0 n).

Lemma steps_S n j s : steps (S n) j s = j :: steps n (j + s) s.
Proof.
  unfold steps. simpl. f_equal; [lia|]. rewrite <- seq_shift, map_map. apply map_ext. intros; lia.
Qed.

Lemma count_step c j s : 1 <= s -> 0 <= j ->
  (j + s < c -> Z.to_nat ((c - 1 - j) / s) = S (Z.to_nat ((c - 1 - (j + s)) / s))) /\
  (~ j + s < c -> Z.to_nat ((c - 1 - j) / s) = 0%nat).
Proof.
  intros Hs Hj. split; intros H.
  - replace (c - 1 - j) with (c - 1 - (j + s) + 1 * s) by lia. rewrite Z.div_add by lia.
    assert (0 <= (c - 1 - (j + s)) / s) by (apply Z.div_pos; lia). lia.
  - assert ((c - 1 - j) / s < 1) by (apply Z.div_lt_upper_bound; lia). lia.
Qed.

Lemma layer_cols_ok g s thr i : 1 <= s -> forall fuel j acc,
  0 <= j -> (Z.to_nat ((im_cols g - 1 - j) / s) <= fuel)%nat ->
  layer_cols maxloc fuel g s thr i j acc =
    Ok (acc ++ flat_map (item g s thr i) (steps (Z.to_nat ((im_cols g - 1 - j) / s)) j s)).
Proof.
  intros Hs. induction fuel as [|f IH]; intros j acc Hj Hf;
    destruct (count_step (im_cols g) j s Hs Hj) as [C1 C2]; simpl;
    destruct (j + s <? im_cols g) eqn:E.
  - rewrite C1 in Hf by lia. lia.
  - rewrite C2 by lia. simpl. rewrite app_nil_r. reflexivity.
  - rewrite block_step_item by auto. cbn [bind]. rewrite IH by (rewrite ?C1 in Hf by lia; lia).
    rewrite C1 by lia. rewrite steps_S. cbn [flat_map]. rewrite app_assoc. reflexivity.
  - rewrite C2 by lia. simpl. rewrite app_nil_r. reflexivity.
Qed.

Definition row_items g s thr i :=
  flat_map (item g s thr i) (steps (Z.to_nat ((im_cols g - 1) / s)) 0 s).

Lemma layer_rows_ok g s thr : 1 <= s -> forall fuel0 fuel i acc,
  0 <= i -> (Z.to_nat ((im_cols g - 1) / s) <= fuel0)%nat ->
  (Z.to_nat ((im_rows g - 1 - i) / s) <= fuel)%nat ->
  layer_rows maxloc fuel0 fuel g s thr i acc =
    Ok (acc ++ flat_map (row_items g s thr) (steps (Z.to_nat ((im_rows g - 1 - i) / s)) i s)).
Proof.
  intros Hs fuel0. induction fuel as [|f IH]; intros i acc Hi Hf0 Hf;
    destruct (count_step (im_rows g) i s Hs Hi) as [C1 C2]; simpl;
    destruct (i + s <? im_rows g) eqn:E.
  - rewrite C1 in Hf by lia. lia.
  - rewrite C2 by lia. simpl. rewrite app_nil_r. reflexivity.
  - assert (E0 : im_cols g - 1 - 0 = im_cols g - 1) by lia.
    rewrite layer_cols_ok by (rewrite ?E0; lia). cbn [bind]. rewrite E0.
    rewrite IH by (rewrite ?C1 in Hf by lia; lia).
    rewrite C1 by lia. rewrite steps_S. cbn [flat_map]. fold (row_items g s thr i).
    rewrite app_assoc. reflexivity.
  - rewrite C2 by lia. simpl. rewrite app_nil_r. reflexivity.
Qed.

Definition layer_list g s thr :=
  flat_map (row_items g s thr) (steps (Z.to_nat ((im_rows g - 1) / s)) 0 s).

Lemma count_le c s : 1 <= s -> (Z.to_nat ((c - 1) / s) <= Z.to_nat c)%nat.
Proof.
  intros Hs. destruct (Z_lt_le_dec c 1).
  - assert ((c - 1) / s < 1) by (apply Z.div_lt_upper_bound; lia). lia.
  - assert ((c - 1) / s <= c - 1).
    { destruct (Z.eq_dec s 1) as [->|]; [rewrite Z.div_1_r; lia|].
      apply Z.div_le_upper_bound; nia. } lia.
Qed.

Lemma select_layer_ok fuel g s thr : 1 <= s ->
  (Z.to_nat (im_rows g) <= fuel)%nat -> (Z.to_nat (im_cols g) <= fuel)%nat ->
  select_layer maxloc fuel g s thr = Ok (layer_list g s thr).
Proof.
  intros Hs H1 H2. unfold select_layer.
  pose proof (count_le (im_rows g) s Hs). pose proof (count_le (im_cols g) s Hs).
  rewrite layer_rows_ok; rewrite ?Z.sub_0_r; try lia. reflexivity.
Qed.

Lemma in_steps n s i : In i (steps n 0 s) <-> exists a, (a < n)%nat /\ i = Z.of_nat a * s.
Proof.
  unfold steps. rewrite in_map_iff. split.
  - intros [a [<- H]]. apply in_seq in H. exists a. lia.
  - intros [a [H ->]]. exists a. split; [lia|]. apply in_seq. lia.
Qed.

Lemma in_count c s a : 1 <= s -> 0 <= a ->
  (Z.to_nat a < Z.to_nat ((c - 1) / s))%nat <-> a * s + s < c.
Proof.
  intros Hs Ha. split; intros H.
  - assert (a + 1 <= (c - 1) / s) by lia.
    assert (s * ((c - 1) / s) <= c - 1) by (apply Z.mul_div_le; lia). nia.
  - assert (a + 1 <= (c - 1) / s) by (apply Z.div_le_lower_bound; lia). lia.
Qed.

Lemma block_grid_steps g s i j : 1 <= s ->
  (In i (steps (Z.to_nat ((im_rows g - 1) / s)) 0 s) /\
   In j (steps (Z.to_nat ((im_cols g - 1) / s)) 0 s)) <-> block_of_grid g s i j.
Proof.
  intros Hs. rewrite !in_steps. unfold block_of_grid. split.
  - intros [[a [Ha ->]] [b [Hb ->]]].
    pose proof (proj1 (in_count (im_rows g) s (Z.of_nat a) Hs ltac:(lia))).
    pose proof (proj1 (in_count (im_cols g) s (Z.of_nat b) Hs ltac:(lia))).
    rewrite !Nat2Z.id in *.
    split; [|split; auto]. exists (Z.of_nat a), (Z.of_nat b). lia.
  - intros [[a [b [Ha [Hb [-> ->]]]]] [H1 H2]].
    apply in_count in H1; auto. apply in_count in H2; auto.
    split; [exists (Z.to_nat a)|exists (Z.to_nat b)]; rewrite Z2Nat.id by auto; auto.
Qed.

Lemma in_layer g s thr p : 1 <= s ->
  In p (layer_list g s thr) <-> exists i j, block_of_grid g s i j /\ In p (item g s thr i j).
Proof.
  intros Hs. unfold layer_list, row_items. rewrite in_flat_map. split.
  - intros [i [Hi Hp]]. apply in_flat_map in Hp as [j [Hj Hp]]. exists i, j. split; [|auto].
    apply block_grid_steps; auto.
  - intros [i [j [Hb Hp]]]. apply block_grid_steps in Hb as [Hi Hj]; auto.
    exists i. split; [auto|]. apply in_flat_map. eauto.
Qed.

Lemma in_item g s thr i j p : In p (item g s thr i j) -> p = loc_of g i j s.
Proof. unfold item. destruct (qltb _ _); simpl; intuition. Qed.

Lemma loc_of_max g i j s : 1 <= s -> block_max g i j s (loc_of g i j s).
Proof. intros Hs. apply (Hmax g i j s Hs). Qed.

Lemma fold_plus_acc (f : nat -> Q) l acc :
  (fold_right (fun d a => f d + a) acc l == fold_right (fun d a => f d + a) 0 l + acc)%Q.
Proof.
  induction l as [|a l IH]; simpl; [ring|]. rewrite IH. ring.
Qed.

Lemma fold_right_map {A B C} (f : B -> C -> C) (h : A -> B) l c :
  fold_right f c (map h l) = fold_right (fun a => f (h a)) c l.
Proof. induction l; simpl; congruence. Qed.

Lemma block_sum_spec g i j s :
  (block_sum g i j s == sum_upto s (fun dy => sum_upto s (fun dx => im_at g (j + dx) (i + dy))))%Q.
Proof.
  unfold block_sum, sum_upto, zrange. rewrite fold_right_map.
  assert (forall l acc acc', (acc == acc')%Q ->
    (fold_right (fun (a : nat) acc => fold_right (fun dx acc' => im_at g (j + dx) (i + Z.of_nat a) + acc') acc (map Z.of_nat (seq 0 (Z.to_nat s)))) acc l ==
    fold_right (fun k acc => fold_right (fun k0 acc0 => im_at g (j + Z.of_nat k0) (i + Z.of_nat k) + acc0) 0 (seq 0 (Z.to_nat s)) + acc) acc' l)%Q) as H.
  { induction l as [|a l IH]; intros acc acc' E; simpl; [exact E|].
    rewrite fold_right_map.
    rewrite (fold_plus_acc (fun k0 => im_at g (j + Z.of_nat k0) (i + Z.of_nat a))).
    rewrite (IH _ _ E). reflexivity. }
  apply H. reflexivity.
Qed.

Lemma mean_exists g i j s : 1 <= s -> block_mean g i j s (block_sum g i j s / inject_Z (s * s)).
Proof.
  intros Hs. unfold block_mean. rewrite <- block_sum_spec. field.
  unfold Qeq; simpl. nia.
Qed.

Lemma mean_unique g i j s m m' : 1 <= s -> block_mean g i j s m -> block_mean g i j s m' -> (m == m')%Q.
Proof.
  unfold block_mean. intros Hs H H'. rewrite <- H' in H.
  assert (~ inject_Z (s * s) == 0)%Q by (unfold Qeq; simpl; nia).
  apply (Qmult_inj_r _ _ (inject_Z (s * s))); auto.
Qed.

Lemma layer_genuine g s thr p : 1 <= s -> In p (layer_list g s thr) -> genuine g s thr p.
Proof.
  intros Hs Hp. apply in_layer in Hp as [i [j [Hb Hp]]]; auto.
  exists i, j, (block_sum g i j s / inject_Z (s * s))%Q.
  pose proof (in_item _ _ _ _ _ _ Hp) as ->. split; [auto|]. split; [apply loc_of_max; auto|].
  split; [apply mean_exists; auto|]. apply qltb_lt. unfold item in Hp.
  destruct (qltb _ _); [auto|destruct Hp].
Qed.

(** Every block with a pixel that qualifies is represented. *)
Lemma layer_complete g s thr i j m p : 1 <= s -> block_of_grid g s i j -> block_mean g i j s m ->
  in_block i j s p -> (m + thr < im_at g (fst p) (snd p))%Q ->
  exists q, In q (layer_list g s thr) /\ block_max g i j s q.
Proof.
  intros Hs Hb Hm Hp Hlt. exists (loc_of g i j s). pose proof (loc_of_max g i j s Hs) as Hx. split; [|auto].
  apply in_layer; auto. exists i, j. split; [auto|]. unfold item.
  assert (qltb (block_sum g i j s / inject_Z (s * s) + thr) (im_at g (fst (loc_of g i j s)) (snd (loc_of g i j s))) = true)%Q as ->.
  { apply qltb_lt. eapply Qlt_le_trans; [|apply (proj2 Hx p Hp)].
    rewrite <- (mean_unique g i j s m _ Hs Hm (mean_exists g i j s Hs)). exact Hlt. }
  left; reflexivity.
Qed.

Lemma steps_NoDup n s : 1 <= s -> NoDup (steps n 0 s).
Proof.
  intros Hs. unfold steps. apply FinFun.Injective_map_NoDup; [|apply seq_NoDup].
  intros a b H. nia.
Qed.

Lemma mult_disjoint a b s x : 1 <= s -> a * s <= x < a * s + s -> b * s <= x < b * s + s -> a = b.
Proof. intros. nia. Qed.

Lemma layer_NoDup g s thr : 1 <= s -> NoDup (layer_list g s thr).
Proof.
  intros Hs. unfold layer_list. apply NoDup_flat_map; [apply steps_NoDup; auto| |].
  - intros i Hi. unfold row_items. apply NoDup_flat_map; [apply steps_NoDup; auto| |].
    + intros j Hj. unfold item. destruct (qltb _ _); repeat constructor; simpl; auto.
    + intros a b x Ha Hb Hx Hx'. apply in_item in Hx. apply in_item in Hx'.
      pose proof (loc_of_max g i a s Hs) as [[M1 _] _]. pose proof (loc_of_max g i b s Hs) as [[M2 _] _].
      rewrite <- Hx in M1. rewrite <- Hx' in M2.
      apply in_steps in Ha as [a' [_ ->]]. apply in_steps in Hb as [b' [_ ->]].
      f_equal. eapply mult_disjoint; eauto.
  - intros a b x Ha Hb Hx Hx'.
    apply in_flat_map in Hx as [j [_ Hx]]. apply in_flat_map in Hx' as [j' [_ Hx']].
    apply in_item in Hx. apply in_item in Hx'.
    pose proof (loc_of_max g a j s Hs) as [[_ M1] _]. pose proof (loc_of_max g b j' s Hs) as [[_ M2] _].
    rewrite <- Hx in M1. rewrite <- Hx' in M2.
    apply in_steps in Ha as [a' [_ ->]]. apply in_steps in Hb as [b' [_ ->]].
    f_equal. eapply mult_disjoint; eauto.
Qed.

Lemma layer_one g s thr i j p q : 1 <= s -> block_of_grid g s i j -> in_block i j s p -> in_block i j s q ->
  In p (layer_list g s thr) -> In q (layer_list g s thr) -> p = q.
Proof.
  intros Hs [[a [b [Ha [Hb [-> ->]]]]] _] Bp Bq Hp Hq.
  assert (U : forall r, in_block (a * s) (b * s) s r -> In r (layer_list g s thr) -> r = loc_of g (a * s) (b * s) s).
  { intros r Br Hr. apply in_layer in Hr as [i [j [[[a' [b' [Ha' [Hb' [-> ->]]]]] _] Hr]]]; auto.
    apply in_item in Hr. pose proof (loc_of_max g (a' * s) (b' * s) s Hs) as [M _]. rewrite <- Hr in M.
    destruct Br, M.
    assert (a = a') by (eapply mult_disjoint; eauto). assert (b = b') by (eapply mult_disjoint; eauto).
    subst. reflexivity. }
  rewrite (U p), (U q); auto.
Qed.

Fixpoint cand_lists (g : image) (block : Z) (n : nat) (ths : list Q) : list (list (Z * Z)) :=
  match ths with
  | [] => []
  | thr :: ths' => layer_list g (2 ^ Z.of_nat n * block) thr :: cand_lists g block (S n) ths'
  end.

Fixpoint shuffled (n : nat) (ls : list (list (Z * Z))) : list (list (Z * Z)) :=
  match ls with [] => [] | l :: ls' => shuffle n l :: shuffled (S n) ls' end.

Lemma pow_block n block : 1 <= block -> 1 <= 2 ^ Z.of_nat n * block.
Proof. intros. assert (0 < 2 ^ Z.of_nat n) by (apply Z.pow_pos_nonneg; lia). nia. Qed.

Lemma layers_ok fuel g block : 1 <= block ->
  (Z.to_nat (im_rows g) <= fuel)%nat -> (Z.to_nat (im_cols g) <= fuel)%nat -> forall ths n,
  layers maxloc shuffle fuel g block n ths = Ok (shuffled n (cand_lists g block n ths)).
Proof.
  intros Hb H1 H2. induction ths as [|thr ths IH]; intros n; [reflexivity|].
  cbn [layers]. rewrite select_layer_ok by (auto; apply pow_block; auto). cbn [bind].
  rewrite IH. reflexivity.
Qed.

Lemma shuffled_perm : forall ls n, Forall2 (@Permutation (Z * Z)) ls (shuffled n ls).
Proof. induction ls; intros n; simpl; constructor; auto. Qed.

Lemma total_perm ls ls' : Forall2 (@Permutation (Z * Z)) ls ls' -> total ls = total ls'.
Proof. induction 1 as [|a b l l' H H' IH]; [reflexivity|]. simpl. rewrite IH. rewrite (Permutation_length H). reflexivity. Qed.

(** ** Cutting down *)

Lemma total_nonneg ls : 0 <= total ls.
Proof. induction ls; simpl; lia. Qed.

Lemma total_concat ls : total ls = Z.of_nat (length (concat ls)).
Proof. induction ls; simpl; [reflexivity|]. rewrite app_length. lia. Qed.

Definition cutn (T needed : Z) (l : list (Z * Z)) := Z.to_nat (Z.of_nat (length l) * needed / T).

Lemma cutn_le T needed l : 0 <= needed < T -> (cutn T needed l <= length l)%nat.
Proof.
  intros H. unfold cutn.
  assert (Z.of_nat (length l) * needed / T <= Z.of_nat (length l)); [|lia].
  apply Z.div_le_upper_bound; nia.
Qed.

Lemma resize_small n l : (n <= length l)%nat -> resize n l = firstn n l.
Proof. intros. unfold resize. replace (n - length l)%nat with 0%nat by lia. apply app_nil_r. Qed.

Lemma resize_length n l : length (resize n l) = n.
Proof. unfold resize. rewrite app_length, firstn_length, repeat_length. lia. Qed.

(** The sum of the rounded-down shares. *)
Lemma total_cut T needed rest : 0 <= needed < T ->
  let rest' := map (fun l => resize (cutn T needed l) l) rest in
  total rest' * T <= total rest * needed /\
  total rest * needed <= total rest' * T + Z.of_nat (length rest) * (T - 1).
Proof.
  intros H. induction rest as [|l rest [IH1 IH2]]; cbn [map total fold_right length]; [lia|].
  fold (total (map (fun l => resize (cutn T needed l) l) rest)). fold (total rest).
  rewrite resize_length. unfold cutn.
  assert (0 <= Z.of_nat (length l) * needed / T) by (apply Z.div_pos; nia).
  rewrite Z2Nat.id by auto.
  pose proof (Z.div_mod (Z.of_nat (length l) * needed) T ltac:(lia)).
  pose proof (Z.mod_pos_bound (Z.of_nat (length l) * needed) T ltac:(lia)).
  fold (cutn T needed) in *.
  change (fun l0 : list (Z * Z) => resize (Z.to_nat (Z.of_nat (length l0) * needed / T)) l0) with (fun l0 => resize (cutn T needed l0) l0).
  set (X := total (map (fun l0 => resize (cutn T needed l0) l0) rest)) in *.
  set (Y := total rest) in *. set (d := Z.of_nat (length l) * needed / T) in *.
  set (r := (Z.of_nat (length l) * needed) mod T) in *. nia.
Qed.

Lemma cut_ok ls needed l0 rest : ls = l0 :: rest -> 0 <= needed ->
  exists kept f, cut ls needed = Ok (match kept with [] => [] | k :: ks => (k ++ repeat (0,0) f) :: ks end) /\
    Forall2 (fun k l => k = firstn (length k) l) kept ls /\
    (f <= length ls - 2)%nat /\
    (0 < f -> exists k ks, kept = k :: ks /\ k = l0)%nat /\
    (total ls <= needed -> kept = ls /\ f = 0%nat) /\
    (total kept + Z.of_nat f = Z.min needed (total ls)).
Proof.
  intros -> Hn. set (ls := l0 :: rest). unfold cut. subst ls.
  set (T := total (l0 :: rest)).
  destruct (needed <? T) eqn:E.
  - set (rest' := map (fun l => resize (cutn T needed l) l) rest).
    change (map (fun l => resize (Z.to_nat (Z.of_nat (length l) * needed / T)) l) rest) with rest'.
    destruct (total_cut T needed rest ltac:(lia)) as [A B]. fold rest' in A, B.
    assert (ET : T = Z.of_nat (length l0) + total rest) by reflexivity.
    pose proof (total_nonneg rest). pose proof (total_nonneg rest').
    assert (N0 : 0 <= needed - total rest') by nia.
    assert (needed - total rest' <? 0 = false) as -> by lia.
    set (n0 := Z.to_nat (needed - total rest')).
    exists (firstn n0 l0 :: rest'), (n0 - length l0)%nat. split; [reflexivity|].
    split.
    { constructor.
      - rewrite firstn_length. destruct (Nat.le_ge_cases n0 (length l0)).
        + rewrite Nat.min_l by auto. reflexivity.
        + rewrite Nat.min_r by auto. rewrite firstn_all. apply firstn_all2. auto.
      - unfold rest'. clear -E Hn. clearbody T. induction rest as [|l rest IH]; simpl; constructor; auto.
        rewrite resize_small by (apply cutn_le; lia). rewrite firstn_length.
        rewrite Nat.min_l by (apply cutn_le; lia). reflexivity. }
    split.
    { cbn [length].
      assert (Z.of_nat n0 - Z.of_nat (length l0) <= Z.of_nat (length rest) - 1 \/ (n0 <= length l0)%nat); [|lia].
      destruct (Z_le_gt_dec (Z.of_nat n0) (Z.of_nat (length l0))); [lia|left].
      assert (Z.of_nat n0 = needed - total rest') by lia.
      set (R' := total rest') in *. set (R := total rest) in *. set (L := Z.of_nat (length rest)) in *.
      set (z0 := Z.of_nat (length l0)) in *.
      assert (0 <= L) by lia. assert (0 <= z0) by lia.
      (* (needed - R' - z0) * T <= L (T-1) *)
      assert ((needed - R' - z0) * T <= L * (T - 1)) by nia.
      destruct (Z.eq_dec L 0) as [El|].
      { exfalso. assert (needed - R' - z0 >= 1) by lia. nia. }
      assert (needed - R' - z0 < L) by nia. lia. }
    split.
    { intros Hf. exists (firstn n0 l0), rest'. split; [reflexivity|]. apply firstn_all2. lia. }
    split; [lia|].
    assert (total (firstn n0 l0 :: rest') = Z.of_nat (Nat.min n0 (length l0)) + total rest') as ->.
    { cbn. rewrite firstn_length. reflexivity. }
    lia.
  - exists (l0 :: rest), 0%nat. split; [cbn; rewrite app_nil_r; reflexivity|]. split.
    { generalize (l0 :: rest). intros l. induction l; constructor; auto. rewrite firstn_all. reflexivity. }
    split; [lia|]. split; [lia|]. split; [auto|]. change (total (l0 :: rest)) with T. lia.
Qed.

(** ** The theorem *)

Lemma nth_error_cand g block : forall ths n k c thr,
  nth_error (cand_lists g block n ths) k = Some c -> nth_error ths k = Some thr ->
  c = layer_list g (2 ^ Z.of_nat (n + k) * block) thr.
Proof.
  induction ths as [|t ths IH]; intros n [|k] c thr H H'; simpl in *; try discriminate.
  - inversion H; inversion H'; subst. rewrite Nat.add_0_r. reflexivity.
  - rewrite (IH (S n) k c thr H H'). do 3 f_equal. lia.
Qed.

Lemma cand_length g block : forall ths n, length (cand_lists g block n ths) = length ths.
Proof. induction ths; simpl; auto. Qed.

Lemma internal_ok fuel s g needed block :
  thresholds s <> [] -> 1 <= block -> 0 <= needed ->
  (Z.to_nat (im_rows g) <= fuel)%nat -> (Z.to_nat (im_cols g) <= fuel)%nat ->
  exists res found cands kept f,
    select_internal maxloc shuffle fuel s g needed block = Ok (res, found) /\
    length cands = length (thresholds s) /\
    (forall k c thr, nth_error cands k = Some c -> nth_error (thresholds s) k = Some thr ->
       let side := 2 ^ Z.of_nat k * block in
       NoDup c /\ (forall p, In p c -> genuine g side thr p) /\
       (forall i j p q, block_of_grid g side i j -> in_block i j side p -> in_block i j side q ->
          In p c -> In q c -> p = q) /\
       (forall i j m p, block_of_grid g side i j -> block_mean g i j side m -> in_block i j side p ->
          (m + thr < im_at g (fst p) (snd p))%Q -> exists q, In q c /\ block_max g i j side q)) /\
    found = Z.of_nat (length (concat cands)) /\
    Z.of_nat (length res) = Z.min needed found /\
    Forall2 part_of kept cands /\
    Permutation res (concat kept ++ repeat (0, 0) f) /\
    (f <= length (thresholds s) - 2)%nat /\
    (0 < f -> exists k0 ks c0 cs, kept = k0 :: ks /\ cands = c0 :: cs /\ Permutation k0 c0)%nat /\
    (found <= needed -> f = 0%nat /\ Permutation res (concat cands)).
Proof.
  intros Hth Hb Hn F1 F2. unfold select_internal.
  destruct (thresholds s) as [|t0 ths] eqn:Et; [congruence|].
  assert (needed <? 0 = false) as -> by lia.
  rewrite layers_ok by auto. cbn [bind].
  set (cands := cand_lists g block 0 (t0 :: ths)).
  set (sh := shuffled 0 cands).
  pose proof (shuffled_perm cands 0) as PS. fold sh in PS.
  assert (Esh : exists l0 rest, sh = l0 :: rest) by (eexists; eexists; reflexivity).
  destruct Esh as [l0 [rest Esh]].
  destruct (cut_ok sh needed l0 rest Esh Hn) as [kept [f [Ec [K1 [K2 [K3 [K4 K5]]]]]]].
  rewrite Ec. cbn [bind].
  assert (Lc : length cands = S (length ths)) by (apply cand_length).
  assert (Ls : length sh = length cands) by (symmetry; eapply Forall2_len; exact PS).
  eexists. exists (total sh), cands, kept, f. split; [reflexivity|].
  split; [exact Lc|].
  split.
  { intros k c thr Hc Ht. pose proof (nth_error_cand g block _ _ _ _ _ Hc Ht) as ->.
    simpl Nat.add in *. pose proof (pow_block k block Hb). set (side := 2 ^ Z.of_nat k * block) in *.
    split; [apply layer_NoDup; auto|]. split; [intros; apply layer_genuine; auto|].
    split; [intros i j p q; apply layer_one; auto|].
    intros. eapply layer_complete; eauto. }
  assert (Tot : total sh = total cands) by (symmetry; apply total_perm; exact PS).
  split; [rewrite Tot; apply total_concat|].
  assert (PP : Permutation (concat (match kept with [] => [] | k :: ks => (k ++ repeat (0,0) f) :: ks end))
                 (concat kept ++ repeat (0, 0) f)).
  { destruct kept as [|k ks].
    - exfalso. rewrite Esh in K1. inversion K1.
    - simpl. rewrite <- !app_assoc. apply Permutation_app_head. apply Permutation_app_comm. }
  split.
  { rewrite (Permutation_length PP), app_length, repeat_length.
    rewrite total_concat in K5. lia. }
  split.
  { clear -K1 PS. clearbody sh. clearbody cands. revert cands PS. induction K1 as [|k l ks ls Hk Hks IH]; intros cands PS.
    - inversion PS. constructor.
    - inversion PS; subst. constructor; [|apply IH; auto].
      exists (skipn (length k) l). eapply Permutation_trans; [eassumption|].
      rewrite <- (firstn_skipn (length k) l) at 1. rewrite <- Hk. reflexivity. }
  split; [exact PP|]. split; [rewrite Ls, Lc in K2; exact K2|]. split.
  { intros Hf. destruct (K3 Hf) as [k [ks [E1 E2]]]. subst k.
    rewrite Esh in PS. destruct (Forall2_cons_r _ _ _ _ PS) as [c0 [cs [E3 E4]]].
    exists l0, ks, c0, cs. split; [exact E1|]. split; [exact E3|]. apply Permutation_sym. auto. }
  intros Hle. destruct (K4 Hle) as [-> ->]. split; [reflexivity|].
  eapply Permutation_trans; [exact PP|]. cbn [repeat]. rewrite app_nil_r.
  clear -PS. clearbody sh. clearbody cands. induction PS as [|a b l l' H H' IH]; simpl; [constructor|].
  apply Permutation_app; [apply Permutation_sym; exact H|exact IH].
Qed.

(** ** Non-termination with block size zero *)

Lemma layer_cols_zero g thr i : 0 < im_cols g -> forall fuel acc,
  layer_cols maxloc fuel g 0 thr i 0 acc = NoFuel.
Proof.
  intros Hc. induction fuel as [|f IH]; intros acc; simpl; assert (0 <? im_cols g = true) as -> by lia; auto.
Qed.

Lemma select_layer_zero g thr fuel : 0 < im_cols g -> 0 < im_rows g ->
  select_layer maxloc fuel g 0 thr = NoFuel.
Proof.
  intros Hc Hr. unfold select_layer. destruct fuel as [|f]; cbn [layer_rows];
    assert (0 + 0 <? im_rows g = true) as -> by lia; [reflexivity|].
  rewrite layer_cols_zero by auto. reflexivity.
Qed.

Lemma internal_zero fuel s g needed : thresholds s <> [] -> 0 <= needed ->
  0 < im_rows g -> 0 < im_cols g ->
  select_internal maxloc shuffle fuel s g needed 0 = NoFuel.
Proof.
  intros Ht Hn Hr Hc. unfold select_internal. destruct (thresholds s) as [|t ts]; [congruence|].
  assert (needed <? 0 = false) as -> by lia. cbn [layers]. rewrite Z.mul_0_r.
  rewrite select_layer_zero by auto. reflexivity.
Qed.

Lemma adapted_zero s st needed : (0 < adaptTo s)%Q -> 1 <= needed -> lastFound st = 0 ->
  adapted_block s st needed = Ok 0.
Proof.
  intros Ha Hn Hf. unfold adapted_block. rewrite Hf.
  assert (Qle_bool (inject_Z needed * adaptTo s) 0 = false) as ->.
  { destruct (Qle_bool _ _) eqn:E; auto. apply Qle_bool_iff in E.
    exfalso. revert E. unfold Qle; simpl. revert Ha. unfold Qlt; simpl. nia. }
  rewrite Z.mul_0_r. change (0 <? 0) with false. cbv iota zeta.
  assert (E : forall q, Qnum (inject_Z 0 / q) = 0).
  { intros [n d]. unfold Qdiv, Qinv; simpl. destruct n; reflexivity. }
  rewrite E, Z.div_0_l by lia. change (Z.sqrt 0) with 0. rewrite Z.mul_0_r. reflexivity.
Qed.

(** No pixel of a uniform image exceeds its block mean. *)
Lemma sum_const n c : (sum_upto n (fun _ => c) == inject_Z (Z.max 0 n) * c)%Q.
Proof.
  unfold sum_upto. replace (Z.max 0 n) with (Z.of_nat (Z.to_nat n)) by lia.
  generalize (Z.to_nat n). intros k.
  assert (forall m, (fold_right (fun _ acc => c + acc) 0 (seq m k) == inject_Z (Z.of_nat k) * c)%Q) as H; [|apply H].
  induction k as [|k IH]; intros m; [simpl; ring|].
  cbn [seq fold_right]. rewrite IH. rewrite Nat2Z.inj_succ. unfold Z.succ. rewrite inject_Z_plus. ring.
Qed.

Lemma sum_ext n f h : (forall k, (f k == h k)%Q) -> (sum_upto n f == sum_upto n h)%Q.
Proof.
  intros H. unfold sum_upto. induction (seq 0 (Z.to_nat n)) as [|a l IH]; simpl; [reflexivity|].
  rewrite (H (Z.of_nat a)), IH. reflexivity.
Qed.

Lemma uniform_empty g c s thr : 1 <= s -> (0 <= thr)%Q ->
  (forall x y, (im_at g x y == c)%Q) -> layer_list g s thr = [].
Proof.
  intros Hs Ht Hc. destruct (layer_list g s thr) as [|p l] eqn:E; auto. exfalso.
  assert (Hp : In p (layer_list g s thr)) by (rewrite E; left; reflexivity).
  apply layer_genuine in Hp as [i [j [m [Hb [Hmx [Hm Hlt]]]]]]; auto.
  assert (m == c)%Q.
  { unfold block_mean in Hm.
    assert (sum_upto s (fun dy => sum_upto s (fun dx => im_at g (j + dx) (i + dy))) == inject_Z (s * s) * c)%Q as E1.
    { rewrite (sum_ext s _ (fun _ => inject_Z s * c)%Q).
      - rewrite sum_const. replace (Z.max 0 s) with s by lia. rewrite inject_Z_mult. ring.
      - intros k. rewrite (sum_ext s _ (fun _ => c)) by (intros; apply Hc).
        rewrite sum_const. replace (Z.max 0 s) with s by lia. reflexivity. }
    rewrite E1 in Hm. apply (Qmult_inj_r _ _ (inject_Z (s * s))); [unfold Qeq; simpl; nia|].
    rewrite Hm. ring. }
  rewrite Hc, H in Hlt. apply (Qlt_irrefl c). eapply Qle_lt_trans; [|exact Hlt].
  rewrite <- (Qplus_0_r c) at 1. apply Qplus_le_r. exact Ht.
Qed.

Lemma uniform_none g c block : 1 <= block -> (forall x y, (im_at g x y == c)%Q) -> forall ths n,
  Forall (fun t => 0 <= t)%Q ths -> concat (cand_lists g block n ths) = [].
Proof.
  intros Hb Hc. induction ths as [|t ths IH]; intros n Ht; [reflexivity|]. inversion Ht; subst. simpl.
  rewrite (uniform_empty g c) by (auto; apply pow_block; auto). apply IH. auto.
Qed.

Lemma total_shuffled ls n : total (shuffled n ls) = total ls.
Proof. symmetry. apply total_perm. apply shuffled_perm. Qed.

(** One uniform image, then every later call diverges. *)
Lemma uniform_then_stuck s st needed1 needed2 g1 g2 c block fuel1 :
  thresholds s <> [] -> Forall (fun t => 0 <= t)%Q (thresholds s) -> (0 < adaptTo s)%Q ->
  adapted_block s st needed1 = Ok block -> 1 <= block -> 0 <= needed1 -> 1 <= needed2 ->
  (forall x y, (im_at g1 x y == c)%Q) ->
  (Z.to_nat (im_rows g1) <= fuel1)%nat -> (Z.to_nat (im_cols g1) <= fuel1)%nat ->
  0 < im_rows g2 -> 0 < im_cols g2 ->
  exists st', select maxloc shuffle fuel1 s st g1 needed1 = Ok ([], st') /\
    forall fuel2, select maxloc shuffle fuel2 s st' g2 needed2 = NoFuel.
Proof.
  intros Ht Hpos Ha Eb Hb Hn1 Hn2 Hc F1 F2 R2 C2.
  exists {| lastBlock := block; lastFound := 0 |}. split.
  - unfold select. rewrite Eb. cbn [bind]. unfold select_internal.
    destruct (thresholds s) as [|t ts] eqn:Et; [congruence|].
    assert (needed1 <? 0 = false) as -> by lia. rewrite layers_ok by auto. cbn [bind].
    assert (T0 : total (shuffled 0 (cand_lists g1 block 0 (t :: ts))) = 0).
    { rewrite total_shuffled, total_concat. rewrite (uniform_none g1 c) by auto. reflexivity. }
    destruct (shuffled 0 (cand_lists g1 block 0 (t :: ts))) as [|l0 rest] eqn:Es; [discriminate|].
    unfold cut. rewrite T0. assert (needed1 <? 0 = false) as -> by lia. cbn [bind fst snd].
    f_equal. f_equal.
    + rewrite total_concat in T0. destruct (concat (l0 :: rest)); [reflexivity|simpl in T0; lia].
  - intros fuel2. unfold select. rewrite adapted_zero by auto. cbn [bind].
    rewrite internal_zero by (auto; lia). reflexivity.
Qed.

End S.

(** ** The contracts are satisfiable *)

Definition better (g : image) (i j : Z) (a b : Z * Z) : Z * Z :=
  if Qle_bool (im_at g (j + fst b) (i + snd b)) (im_at g (j + fst a) (i + snd a)) then a else b.
Definition first_max (g : image) (i j s : Z) : Z * Z :=
  fold_left (better g i j) (flat_map (fun dy => map (fun dx => (dx, dy)) (zrange s)) (zrange s)) (0, 0).

Lemma in_zrange n k : In k (zrange n) <-> 0 <= k < n.
Proof.
  unfold zrange. rewrite in_map_iff. split.
  - intros [a [<- H]]. apply in_seq in H. lia.
  - intros H. exists (Z.to_nat k). split; [lia|]. apply in_seq. lia.
Qed.

Lemma first_max_ok : maxloc_ok first_max.
Proof.
  intros g i j s Hs.
  set (v := fun p : Z * Z => im_at g (j + fst p) (i + snd p)).
  set (cells := flat_map (fun dy => map (fun dx => (dx, dy)) (zrange s)) (zrange s)).
  assert (Hin : forall p, In p cells <-> 0 <= fst p < s /\ 0 <= snd p < s).
  { intros [x y]. unfold cells. rewrite in_flat_map. split.
    - intros [dy [Hy Hp]]. apply in_map_iff in Hp as [dx [E Hx]]. inversion E; subst.
      apply in_zrange in Hx. apply in_zrange in Hy. simpl. lia.
    - simpl. intros [Hx Hy]. exists y. split; [apply in_zrange; auto|].
      apply in_map_iff. exists x. split; [reflexivity|apply in_zrange; auto]. }
  assert (H : forall l a, (0 <= fst a < s /\ 0 <= snd a < s) -> (forall p, In p l -> In p cells) ->
     let r := fold_left (better g i j) l a in
     (0 <= fst r < s /\ 0 <= snd r < s) /\ (v a <= v r)%Q /\ forall p, In p l -> (v p <= v r)%Q).
  { induction l as [|b l IH]; intros a Ha Hl; cbn [fold_left].
    - split; [auto|]. split; [apply Qle_refl|]. intros p [].
    - set (c := better g i j a b).
      assert (Hc : (0 <= fst c < s /\ 0 <= snd c < s) /\ (v a <= v c)%Q /\ (v b <= v c)%Q).
      { unfold c, better. destruct (Qle_bool _ _) eqn:E.
        - apply Qle_bool_iff in E. split; [auto|]. split; [apply Qle_refl|exact E].
        - split; [apply Hin, Hl; left; reflexivity|]. split; [|apply Qle_refl].
          destruct (Qlt_le_dec (v a) (v b)) as [?|Hle]; [apply Qlt_le_weak; auto|].
          exfalso. apply Qle_bool_iff in Hle. unfold v in Hle. congruence. }
      destruct Hc as [C1 [C2 C3]].
      destruct (IH c C1 (fun p Hp => Hl p (or_intror Hp))) as [D1 [D2 D3]].
      split; [exact D1|]. split; [eapply Qle_trans; eauto|].
      intros p [<-|Hp]; [eapply Qle_trans; eauto|auto]. }
  destruct (H cells (0, 0) ltac:(simpl; lia) (fun p Hp => Hp)) as [R1 [_ R3]].
  cbv zeta. unfold first_max. fold cells.
  set (r := fold_left (better g i j) cells (0, 0)) in *. split.
  - unfold in_block; simpl. lia.
  - intros [qx qy] [Q1 Q2]. simpl in *. specialize (R3 (qx - j, qy - i)).
    unfold v in R3; simpl in R3.
    replace (j + (qx - j)) with qx in R3 by lia. replace (i + (qy - i)) with qy in R3 by lia.
    apply R3. apply Hin. simpl. lia.
Qed.

Definition no_shuffle (n : nat) (l : list (Z * Z)) := l.
Lemma no_shuffle_ok : shuffle_ok no_shuffle.
Proof. intros n l. apply Permutation_refl. Qed.

(** ** Witnesses *)

(** A filler point: two bright pixels seen by the two coarse layers only. *)
Definition spots (l : list (Z * Z)) (r c : Z) (v : Q) : image :=
  {| im_rows := r; im_cols := c;
     im_at := fun x y => if existsb (fun p => (fst p =? x) && (snd p =? y)) l then v else 0%Q |}.

(** Case distinctions on coordinates in the witnesses are decided by computation. *)
Definition filler_image : image :=
  {| im_rows := 5; im_cols := 9;
     im_at := fun x y => if (x =? 1) && (y =? 1) then 12#1 else if (x =? 5) && (y =? 1) then 8#1 else 0%Q |}.

Lemma filler_case :
  select first_max no_shuffle 10 ps_default {| lastBlock := 2; lastFound := 1 |} filler_image 2
    = Ok ([(0, 0); (1, 1)], {| lastBlock := 1; lastFound := 3 |}).
Proof. vm_compute. reflexivity. Qed.

Lemma filler_not_genuine : forall k thr, nth_error (thresholds ps_default) k = Some thr ->
  ~ genuine filler_image (2 ^ Z.of_nat k * 1) thr (0, 0).
Proof.
  intros k thr Hk [i [j [m [Hb [[Hin Hmx] [Hm Hlt]]]]]].
  simpl in Hlt.
  assert (Hp : (0 < thr)%Q).
  { destruct k as [|[|[|k]]]; simpl in Hk; inversion Hk; try reflexivity. destruct k; discriminate. }
  set (s := 2 ^ Z.of_nat k * 1) in *.
  assert (Hs : 1 <= s) by (unfold s; apply pow_block; lia).
  assert (0 <= m)%Q.
  { unfold block_mean in Hm.
    assert (Hpos : (0 <= sum_upto s (fun dy => sum_upto s (fun dx => im_at filler_image (j + dx) (i + dy))))%Q).
    { assert (SP : forall n f, (forall k, (0 <= f k)%Q) -> (0 <= sum_upto n f)%Q).
      { intros n f Hf. unfold sum_upto. induction (seq 0 (Z.to_nat n)) as [|a l IH]; simpl; [apply Qle_refl|].
        change (0 + 0 <= f (Z.of_nat a) + fold_right (fun (k : nat) (acc : Q) => (f (Z.of_nat k) + acc)%Q) 0%Q l)%Q.
        apply Qplus_le_compat; auto. }
      apply SP. intros. apply SP. intros. unfold filler_image; simpl.
      destruct (_ && _); [discriminate|]. destruct (_ && _); discriminate. }
    rewrite <- Hm in Hpos. destruct (Qlt_le_dec m 0) as [Hneg|]; [exfalso|auto].
    revert Hpos Hneg. unfold Qle, Qlt; simpl. nia. }
  apply (Qlt_irrefl 0). eapply Qlt_le_trans with (m + thr)%Q; [|apply Qlt_le_weak; exact Hlt].
  revert Hp H. clear. intros Hp H. destruct m as [a b], thr as [c d].
  revert Hp H. unfold Qlt, Qle, Qplus; simpl. nia.
Qed.

Definition twice_image : image :=
  {| im_rows := 5; im_cols := 5; im_at := fun x y => if (x =? 1) && (y =? 1) then 30#1 else 0%Q |}.
Lemma twice_case :
  select first_max no_shuffle 10 ps_default {| lastBlock := 2; lastFound := 3 |} twice_image 2
    = Ok ([(1, 1); (1, 1)], {| lastBlock := 2; lastFound := 2 |}).
Proof. vm_compute. reflexivity. Qed.

(** A pixel two away from the right border of a 1920-wide image, as used for C38. *)
Lemma select_ok maxloc shuffle fuel s st g needed block :
  maxloc_ok maxloc -> shuffle_ok shuffle ->
  thresholds s <> [] -> adapted_block s st needed = Ok block -> 1 <= block -> 0 <= needed ->
  (Z.to_nat (im_rows g) <= fuel)%nat -> (Z.to_nat (im_cols g) <= fuel)%nat ->
  exists res found cands kept f,
    select maxloc shuffle fuel s st g needed = Ok (res, {| lastBlock := block; lastFound := found |}) /\
    length cands = length (thresholds s) /\
    (forall k c thr, nth_error cands k = Some c -> nth_error (thresholds s) k = Some thr ->
       let side := 2 ^ Z.of_nat k * block in
       NoDup c /\ (forall p, In p c -> genuine g side thr p) /\
       (forall i j p q, block_of_grid g side i j -> in_block i j side p -> in_block i j side q ->
          In p c -> In q c -> p = q) /\
       (forall i j m p, block_of_grid g side i j -> block_mean g i j side m -> in_block i j side p ->
          (m + thr < im_at g (fst p) (snd p))%Q -> exists q, In q c /\ block_max g i j side q)) /\
    found = Z.of_nat (length (concat cands)) /\
    Z.of_nat (length res) = Z.min needed found /\
    Forall2 part_of kept cands /\
    Permutation res (concat kept ++ repeat (0, 0) f) /\
    (f <= length (thresholds s) - 2)%nat /\
    (0 < f -> exists k0 ks c0 cs, kept = k0 :: ks /\ cands = c0 :: cs /\ Permutation k0 c0)%nat /\
    (found <= needed -> f = 0%nat /\ Permutation res (concat cands)).
Proof.
  intros M S T A B N F1 F2.
  destruct (internal_ok maxloc shuffle M S fuel s g needed block T B N F1 F2) as [res [found [cands [kept [f [E R]]]]]].
  exists res, found, cands, kept, f. split; [|exact R].
  unfold select. rewrite A. cbn [bind]. rewrite E. reflexivity.
Qed.

(** Every returned point lies in the image, not on the last row or column. *)
Lemma genuine_inside g s thr p : 1 <= s -> genuine g s thr p ->
  0 <= fst p <= im_cols g - 2 /\ 0 <= snd p <= im_rows g - 2.
Proof.
  intros Hs [i [j [m [[[a [b [Ha [Hb [-> ->]]]]] [H1 H2]] [[[P1 P2] _] _]]]]]. nia.
Qed.

Lemma select_inside maxloc shuffle fuel s st g needed block :
  maxloc_ok maxloc -> shuffle_ok shuffle ->
  thresholds s <> [] -> adapted_block s st needed = Ok block -> 1 <= block -> 0 <= needed ->
  (Z.to_nat (im_rows g) <= fuel)%nat -> (Z.to_nat (im_cols g) <= fuel)%nat ->
  exists res st', select maxloc shuffle fuel s st g needed = Ok (res, st') /\
    forall p, In p res -> 0 <= fst p <= im_cols g - 2 /\ 0 <= snd p <= im_rows g - 2.
Proof.
  intros M S T A B N F1 F2.
  destruct (select_ok maxloc shuffle fuel s st g needed block M S T A B N F1 F2)
    as [res [found [cands [kept [f [E [Lc [Hc [Hfound [Hlen [Hpart [Hperm [Hf [Hf0 Hall]]]]]]]]]]]]]].
  exists res, {| lastBlock := block; lastFound := found |}. split; [exact E|].
  assert (Hgen : forall p, In p (concat cands) -> 0 <= fst p <= im_cols g - 2 /\ 0 <= snd p <= im_rows g - 2).
  { intros p Hp. apply in_concat in Hp as [c [Hc1 Hc2]]. apply In_nth_error in Hc1 as [k Hk].
    destruct (nth_error (thresholds s) k) as [thr|] eqn:Et.
    - destruct (Hc k c thr Hk Et) as [_ [G _]]. eapply genuine_inside; [|apply G; exact Hc2].
      apply pow_block; auto.
    - apply nth_error_None in Et. assert (k < length cands)%nat by (apply nth_error_Some; congruence). lia. }
  assert (Hkept : forall p, In p (concat kept) -> In p (concat cands)).
  { clear -Hpart. induction Hpart as [|k c ks cs [dr Hp] _ IH]; simpl; [auto|].
    intros p Hin. apply in_app_iff in Hin as [Hin|Hin]; apply in_app_iff; [left|right; auto].
    apply (Permutation_in _ (Permutation_sym Hp)). apply in_app_iff; auto. }
  intros p Hp. apply (Permutation_in _ Hperm) in Hp. apply in_app_iff in Hp as [Hp|Hp]; [auto|].
  (* a filler needs a candidate, hence an image of at least two rows and columns *)
  destruct (concat cands) as [|q qs] eqn:Eq.
  - exfalso. destruct (Hall ltac:(simpl in Hfound; lia)) as [-> _]. destruct Hp.
  - apply repeat_spec in Hp. subst p. simpl. destruct (Hgen q (or_introl eq_refl)). lia.
Qed.
