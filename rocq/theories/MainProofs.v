(** Proofs of C97: the closed form of the keyframes and the state of the drawers. *)
From Coq Require Import List ZArith Bool Lia Sorting.Sorted ZifyBool.
From Verif Require Import Outcome Dbl DsoModel DsoSpec DsoHistory DsoProofs DsoFinal UtilModel AliveSpec
  AliveProofs MainModel MainSpec.
Import ListNotations.
Open Scope Z_scope.

(** ** Images of one tracked frame *)
Lemma seen_from n k : forall tail,
  ofold (level_tracked n) (rev (seq 0 k)) (repeat CEmpty k ++ tail) = Ok (map (CRes n) (seq 0 k) ++ tail).
Proof.
  induction k as [|k IH]; intros tail; [reflexivity|].
  rewrite seq_snoc, rev_app_distr. cbn [rev app ofold].
  assert (E : repeat CEmpty (S k) ++ tail = repeat CEmpty k ++ CEmpty :: tail).
  { replace (S k) with (k + 1)%nat by lia. rewrite List.repeat_app, <- app_assoc. reflexivity. }
  rewrite E. unfold level_tracked at 1. rewrite app_length, repeat_length. cbn [length].
  destruct (Nat.ltb_spec k (k + S (length tail))); [|lia].
  rewrite firstn_app, repeat_length, Nat.sub_diag, firstn_all2 by (rewrite repeat_length; lia).
  rewrite skipn_app, repeat_length, skipn_all2 by (rewrite repeat_length; lia).
  replace (S k - k)%nat with 1%nat by lia. cbn [firstn skipn app bind]. rewrite app_nil_r.
  rewrite IH, map_app, <- app_assoc. reflexivity.
Qed.

Lemma track_seen_ok levels n : track_seen levels n = Ok (map (CRes n) (seq 0 levels)).
Proof.
  unfold track_seen, start_tracking. rewrite <- (app_nil_r (repeat CEmpty levels)), seen_from, app_nil_r. reflexivity.
Qed.

(** ** Observers *)
Section Observers.
Variable fl : main_flags.
Notation all := (main_observers fl ++ created_observers fl).

Lemma obs0 : existsb (Nat.eqb 0) all = fl_write fl && fl_pyr fl.
Proof.
  unfold main_observers, created_observers, debug_registered.
  destruct (fl_write fl), (fl_pyr fl), (fl_track fl), (fl_debug fl); reflexivity.
Qed.
Lemma obs1 : existsb (Nat.eqb 1) all = fl_write fl || fl_track fl.
Proof.
  unfold main_observers, created_observers, debug_registered.
  destruct (fl_write fl), (fl_pyr fl), (fl_track fl), (fl_debug fl); reflexivity.
Qed.
Lemma obs2 : existsb (Nat.eqb 2) all = debug_registered fl.
Proof.
  unfold main_observers, created_observers, debug_registered.
  destruct (fl_write fl), (fl_pyr fl), (fl_track fl), (fl_debug fl); reflexivity.
Qed.
End Observers.

(** ** Frame numbers and keyframes of consecutive frames *)
Definition asked (start : Z) (k : nat) : list Z := map (fun i => start + Z.of_nat i) (seq 0 k).

Lemma asked_S start k : asked start (S k) = asked start k ++ [start + Z.of_nat k].
Proof. unfold asked. rewrite seq_snoc, map_app. reflexivity. Qed.
Lemma asked_length start k : length (asked start k) = k.
Proof. unfold asked. rewrite map_length, seq_length. reflexivity. Qed.

Lemma due_abs shift k n : due (Z.abs shift) k n = due shift k n.
Proof.
  unfold due. f_equal. destruct (Z.abs_spec shift) as [[_ ->]|[_ ->]]; [reflexivity|].
  destruct (Z.eq_dec shift 0) as [->|H]; [reflexivity|].
  rewrite eq_iff_eq_true, !Z.eqb_eq. rewrite !Z.mod_divide by lia.
  split; intros [q Hq]; exists (- q); lia.
Qed.
Lemma cadence_abs shift l : forall k, cadence (Z.abs shift) k l = cadence shift k l.
Proof. induction l as [|n l IH]; intros k; simpl; [reflexivity|]. rewrite due_abs, !IH. reflexivity. Qed.
Lemma due_zero k n : due 0 k n = false.
Proof. unfold due. rewrite Zmod_0_r. lia. Qed.
Lemma cadence_zero l : forall k, cadence 0 k l = [].
Proof. induction l as [|n l IH]; intros k; simpl; [reflexivity|]. rewrite due_zero. apply IH. Qed.

Section Closed.
Variables start skip shift : Z.
Variables last cont : bool.
Notation sk := (skip_count skip).
Notation m := (init_frame start skip).
Notation p := (period shift).
Notation newest := (newest start skip shift cont).
Notation base_at := (base_at start skip shift last cont).
Notation new_base := (new_base start skip shift cont).

Definition before_newest (n : Z) : Z := if newest n =? m then start else newest n - p.

Lemma p_pos : 0 <= p. Proof. unfold period. lia. Qed.

Lemma asked_split k : (S (S sk) <= k)%nat ->
  exists r, asked start k = start :: r /\ skipn sk r = m :: consecutive m (k - S (S sk)).
Proof.
  intros Hk. exists (map (fun i => start + Z.of_nat i) (seq 1 (k - 1))). split.
  - destruct k; [lia|]. unfold asked. cbn [seq map]. replace (S k - 1)%nat with k by lia. f_equal. lia.
  - rewrite <- (firstn_skipn sk (seq 1 (k - 1))), map_app, skipn_app, map_length, firstn_length, seq_length.
    replace (sk - Nat.min sk (k - 1))%nat with 0%nat by lia.
    rewrite skipn_all2 by (rewrite map_length, firstn_length, seq_length; lia). cbn [skipn app].
    replace (k - 1)%nat with (sk + S (k - S (S sk)))%nat by lia.
    rewrite seq_app, skipn_app, seq_length, Nat.sub_diag, skipn_all2 by (rewrite seq_length; lia).
    cbn [skipn app seq map]. f_equal; [unfold init_frame; lia|].
    unfold consecutive. generalize (k - S (S sk))%nat. intros j.
    assert (G : forall a b, map (fun i => start + Z.of_nat i) (seq (S (1 + sk) + a) b) =
                          map (fun i => m + 1 + Z.of_nat i) (seq a b)).
    { intros a b. revert a. induction b as [|b IH]; intros a; [reflexivity|]. cbn [seq map].
      f_equal; [unfold init_frame; lia|]. rewrite <- IH. do 2 f_equal. lia. }
    specialize (G 0%nat j). rewrite Nat.add_0_r in G. exact G.
Qed.

Lemma expected_last k : (S (S sk) <= k)%nat ->
  let n := start + Z.of_nat k - 1 in
  exists pre, expected_kfs skip shift cont (asked start k) = pre ++ [before_newest n; newest n].
Proof.
  intros Hk n. destruct (asked_split k Hk) as (r & E1 & E2). unfold expected_kfs. rewrite E1, E2.
  assert (Hcnt : n - m = Z.of_nat (k - S (S sk))) by (unfold n, init_frame; lia).
  unfold before_newest, MainSpec.newest. destruct cont.
  2:{ exists []. rewrite Z.eqb_refl. reflexivity. }
  rewrite Hcnt. pose proof p_pos as Hp. destruct (Z.eq_dec p 0) as [E0|E0].
  - assert (shift = 0) as -> by exact (proj1 (Z.abs_0_iff shift) E0). rewrite cadence_zero.
    exists []. unfold period. cbn [Z.abs]. rewrite Z.mul_0_l, Z.add_0_r, Z.eqb_refl. reflexivity.
  - rewrite <- cadence_abs. change (Z.abs shift) with p. rewrite cadence_consecutive by lia.
    set (q := ((k - S (S sk)) / Z.to_nat p)%nat).
    assert (Hq : Z.of_nat (k - S (S sk)) / p = Z.of_nat q).
    { unfold q. rewrite Nat2Z.inj_div. f_equal. lia. }
    rewrite Hq. clearbody q.
    destruct q as [|q].
    + exists []. rewrite Z.mul_0_r, Z.add_0_r, Z.eqb_refl. reflexivity.
    + replace (m + p * Z.of_nat (S q) =? m) with false by nia.
      rewrite seq_snoc, map_app. cbn [map].
      destruct q as [|q].
      * exists [start]. cbn [seq map app]. replace (m + p * Z.of_nat 1 - p) with m by lia. reflexivity.
      * exists (start :: m :: map (fun j => m + p * Z.of_nat (S j)) (seq 0 q)).
        rewrite seq_snoc, map_app. cbn [map app]. rewrite <- app_assoc. cbn [app].
        replace (m + p * Z.of_nat (S (S q)) - p) with (m + p * Z.of_nat (S q)) by lia. reflexivity.
Qed.

(** A frame is due exactly if the tracker gets a new base. *)
Lemma newest_lt n : m < n -> newest (n - 1) < n /\ m <= newest (n - 1).
Proof.
  intros H. unfold MainSpec.newest. destruct cont; [|lia]. pose proof p_pos as Hp.
  destruct (Z.eq_dec p 0) as [E0|E0]; [rewrite E0; lia|].
  pose proof (Z.div_mod (n - 1 - m) p ltac:(lia)). pose proof (Z.mod_pos_bound (n - 1 - m) p ltac:(lia)).
  pose proof (Z.div_pos (n - 1 - m) p ltac:(lia) ltac:(lia)). nia.
Qed.

Lemma due_new_base n : m < n -> cont && due shift (newest (n - 1)) n = new_base n.
Proof.
  intros H. unfold MainSpec.new_base. replace (n =? m) with false by lia. cbn [orb].
  destruct (newest_lt n H) as [Hl Hm]. destruct cont eqn:Ec; [|reflexivity]. cbn [andb].
  rewrite <- due_abs. change (Z.abs shift) with p. unfold due. f_equal; [lia|].
  unfold MainSpec.newest. pose proof p_pos as Hp.
  destruct (Z.eq_dec p 0) as [E0|E0]; [rewrite E0, Z.mul_0_l, Z.add_0_r; reflexivity|].
  f_equal. replace (n - (m + p * ((n - 1 - m) / p))) with (n - m + (- ((n - 1 - m) / p)) * p) by lia.
  rewrite Z.mod_add by lia. reflexivity.
Qed.

Lemma base_same n : m < n -> new_base n = false -> base_at n = base_at (n - 1).
Proof.
  intros H. unfold MainSpec.new_base. replace (n =? m) with false by lia. cbn [orb].
  intros Hb. assert (E : newest n = newest (n - 1)).
  { unfold MainSpec.newest. destruct cont; [|reflexivity]. cbn [andb] in Hb.
    replace (m <? n) with true in Hb by lia. cbn [andb] in Hb. pose proof p_pos as Hp.
    destruct (Z.eq_dec p 0) as [E0|E0]; [rewrite E0; lia|]. f_equal. f_equal.
    pose proof (Z.div_mod (n - m) p ltac:(lia)). pose proof (Z.mod_pos_bound (n - m) p ltac:(lia)).
    apply (Z.div_unique (n - 1 - m) p ((n - m) / p) ((n - m) mod p - 1)); lia. }
  unfold MainSpec.base_at. rewrite E. reflexivity.
Qed.

Lemma newest_init : newest m = m.
Proof. unfold MainSpec.newest. destruct cont; [|reflexivity]. rewrite Z.sub_diag, Zdiv_0_l. lia. Qed.
End Closed.
