From Coq Require Import Reals ZArith List Bool Lia Ascii ZifyBool.
From Verif Require Import Outcome Dbl Pose GeomModel CalModel GtModel PixelSelectorModel PlyModel SnapshotModel SnapshotProofs StatModel StatSpec.
Import ListNotations.
Open Scope Z_scope.
Open Scope outcome_scope.

Lemma flat_map_ext_in {A B} (h k : A -> list B) l : (forall a, In a l -> h a = k a) -> flat_map h l = flat_map k l.
Proof. intros H. rewrite !flat_map_concat_map. f_equal. now apply map_ext_in. Qed.

Section S.
Variable G : Type.
Variable F : worker G -> Z -> outcome (list row * worker G).
Variable start : Z.

(** The errors a task has still to append *)
Fixpoint tagged (w : worker G) (todo : list Z) : outcome (list (Z * row)) :=
  match todo with
  | [] => Ok []
  | i :: rest =>
      let* (a, w') := F w (start + i) in
      let* b := tagged w' rest in Ok (map (fun r => (i, r)) a ++ b)
  end.
Definition rest_of (t : task G) : outcome (list (Z * row)) :=
  let* b := tagged (k_worker t) (k_todo t) in Ok (k_pending t ++ b).
Definition idx (t : task G) : list Z := map fst (k_pending t) ++ k_todo t.

Lemma tagged_idx : forall todo w out i r, tagged w todo = Ok out -> In (i, r) out -> In i todo.
Proof.
  induction todo as [|a todo IH]; cbn [tagged]; intros w out i r H I.
  - inversion H; subst; destruct I.
  - apply bind_ok_inv in H. destruct H as [[x w'] [_ H]]. apply bind_ok_inv in H. destruct H as [b [Hb H]].
    inversion H; subst. apply in_app_or in I. destruct I as [I|I].
    + apply in_map_iff in I. destruct I as [q [E _]]. inversion E. left; auto.
    + right. eapply IH; eauto.
Qed.

Lemma tagged_turn : forall todo w,
  in_turn F w (map (fun i => start + i) todo) = let* o := tagged w todo in Ok (map snd o).
Proof.
  induction todo as [|a todo IH]; cbn [tagged in_turn map]; intros w; [reflexivity|].
  destruct (F w (start + a)) as [[x w']| | | |]; cbn [bind]; auto.
  rewrite IH. destruct (tagged w' todo); cbn [bind]; auto.
  rewrite map_app, map_map. cbn. now rewrite map_id.
Qed.

Definition sel (j : Z) (l : list (Z * row)) : list row := map snd (filter (fun x => fst x =? j) l).
Lemma sel_app j a b : sel j (a ++ b) = sel j a ++ sel j b.
Proof. unfold sel. now rewrite filter_app, map_app. Qed.
Lemma sel_same j l : sel j (map (fun r => (j, r)) l) = l.
Proof. unfold sel. induction l as [|r l IH]; cbn; auto. rewrite Z.eqb_refl. cbn. now rewrite IH. Qed.
Lemma sel_none j l : (forall r, ~ In (j, r) l) -> sel j l = [].
Proof.
  intros H. unfold sel. induction l as [|[i r] l IH]; cbn; auto.
  destruct (i =? j) eqn:E; [exfalso; apply (H r); left; f_equal; lia|].
  apply IH. intros q Q. apply (H q). now right.
Qed.

Lemma sel_all : forall todo w out, NoDup todo -> tagged w todo = Ok out ->
  flat_map (fun j => sel j out) todo = map snd out.
Proof.
  induction todo as [|a todo IH]; cbn [tagged]; intros w out N H; [inversion H; reflexivity|].
  apply bind_ok_inv in H. destruct H as [[x w'] [_ H]]. apply bind_ok_inv in H. destruct H as [b [Hb H]].
  inversion H; subst. inversion N as [|? ? Na Nt]; subst. cbn [flat_map]. rewrite map_app, map_map. cbn. rewrite map_id.
  f_equal.
  - rewrite sel_app, sel_same, (sel_none a b); [apply app_nil_r|].
    intros r I. apply Na. eapply tagged_idx; eauto.
  - rewrite <- (IH _ _ Nt Hb). apply flat_map_ext_in. intros j J. rewrite sel_app.
    rewrite (sel_none j (map _ x)); [reflexivity|]. intros r I. apply in_map_iff in I. destruct I as [q [E _]].
    inversion E; subst. contradiction.
Qed.
End S.

Section Run.
Variable Img G : Type.
Variable maxloc : image -> Z -> Z -> Z -> Z * Z.
Variable shuffle : nat -> list (Z * Z) -> list (Z * Z).
Variable gradient : Img -> image.
Variable trace : Img -> Img -> se3 -> Z * Z -> tpoint.
Variable gen0 : G.
Variable gauss : R -> R -> G -> (vec * vec) * G.
Variable fuel : nat.
Variable f : flags.
Variable rd : reader Img.
Notation F := (frame_errors Img G maxloc shuffle gradient trace gauss fuel f rd).
Notation step := (step Img G maxloc shuffle gradient trace gauss fuel f rd).
Notation exec := (exec Img G maxloc shuffle gradient trace gauss fuel f rd).
Notation collect := (collect Img G maxloc shuffle gradient trace gen0 gauss fuel f rd).
Notation rest := (rest_of G F (f_start f)).
Notation idx := (idx G).
Notation W0 := (worker0 G gen0).

Lemma rest_finished t : finished G t = true -> rest t = Ok [].
Proof.
  unfold finished, rest_of. destruct t as [todo p w]. cbn. destruct todo, p; cbn; try discriminate. reflexivity.
Qed.

(** A step: what is appended is the next thing of what is left. *)
Lemma step_back t e t' e' out' : step t e = Ok (t', e') -> rest t' = Ok out' ->
  (rest t = Ok out' /\ e' = e) \/ (exists i r, rest t = Ok ((i, r) :: out') /\ e' = push e i r).
Proof.
  unfold StatModel.step, rest_of. destruct t as [todo p w]. cbn [k_todo k_pending k_worker].
  destruct p as [|[i r] p].
  - destruct todo as [|i todo].
    + intros H; inversion H; subst. cbn. auto.
    + intros H. apply bind_ok_inv in H. destruct H as [[a w'] [Ha H]]. inversion H; subst.
      cbn [k_todo k_pending k_worker tagged]. rewrite Ha. cbn [bind]. intros R.
      apply bind_ok_inv in R. destruct R as [b [Hb R]]. inversion R; subst. left. rewrite Hb. auto.
  - intros H; inversion H; subst. cbn [k_todo k_pending k_worker]. intros R.
    apply bind_ok_inv in R. destruct R as [b [Hb R]]. inversion R; subst. right. exists i, r. rewrite Hb. auto.
Qed.

Definition weight (t : task G) (out : list (Z * row)) : nat := length (k_todo t) + length out.

Lemma step_fwd t e out : rest t = Ok out ->
  exists t' e' out', step t e = Ok (t', e') /\ rest t' = Ok out' /\ weight t' out' = (weight t out - 1)%nat.
Proof.
  unfold StatModel.step, rest_of, weight. destruct t as [todo p w]. cbn [k_todo k_pending k_worker].
  destruct p as [|[i r] p].
  - destruct todo as [|i todo]; cbn [tagged bind app].
    + intros H; inversion H; subst. do 3 eexists. split; [reflexivity|]. cbn. auto.
    + intros H. apply bind_ok_inv in H. destruct H as [o [H E]]. inversion E; subst.
      apply bind_ok_inv in H. destruct H as [[a w'] [Ha H]]. apply bind_ok_inv in H. destruct H as [b [Hb H]]. inversion H; subst.
      rewrite Ha. cbn [bind]. do 3 eexists. split; [reflexivity|]. cbn [k_todo k_pending k_worker]. rewrite Hb. cbn [bind].
      split; [reflexivity|]. cbn. lia.
  - intros H. apply bind_ok_inv in H. destruct H as [b [Hb H]]. inversion H; subst.
    do 3 eexists. split; [reflexivity|]. cbn [k_todo k_pending k_worker]. rewrite Hb. cbn [bind]. split; [reflexivity|].
    cbn. rewrite app_length. lia.
Qed.

Lemma step_idx t e t' e' : step t e = Ok (t', e') -> forall j, In j (idx t') -> In j (idx t).
Proof.
  unfold StatModel.step, StatProofs.idx. destruct t as [todo p w]. cbn [k_todo k_pending k_worker].
  destruct p as [|[i r] p].
  - destruct todo as [|i todo]; [intros H; inversion H; subst; auto|].
    intros H. apply bind_ok_inv in H. destruct H as [[a w'] [Ha H]]. inversion H; subst.
    cbn [k_todo k_pending k_worker]. intros j J. cbn. apply in_app_or in J. destruct J as [J|J]; [|now right].
    rewrite map_map in J. apply in_map_iff in J. destruct J as [x [E _]]. left. exact E.
  - intros H; inversion H; subst. cbn [k_todo k_pending k_worker]. intros j J. cbn. right. exact J.
Qed.

Lemma step_other t e t' e' j : step t e = Ok (t', e') -> ~ In j (idx t) -> e' j = e j.
Proof.
  unfold StatModel.step, StatProofs.idx. destruct t as [todo p w]. cbn [k_todo k_pending k_worker].
  destruct p as [|[i r] p].
  - destruct todo as [|i todo]; [intros H; inversion H; subst; auto|].
    intros H. apply bind_ok_inv in H. destruct H as [[a w'] [Ha H]]. inversion H; subst. auto.
  - intros H; inversion H; subst. intros N. unfold push. destruct (j =? i) eqn:E; auto.
    exfalso. apply N. cbn. left. lia.
Qed.

Lemma nth_set ts n t m : (n < length ts)%nat ->
  nth_error (set_task G ts n t) m = if (m =? n)%nat then Some t else nth_error ts m.
Proof.
  revert n m. induction ts as [|x ts IH]; intros n m H; [cbn in H; lia|].
  destruct n, m; cbn; auto. apply IH. cbn in H. lia.
Qed.
Lemma set_len ts n t : length (set_task G ts n t) = length ts.
Proof. revert n. induction ts as [|x ts IH]; intros [|n]; cbn; auto. Qed.

Lemma exec_len : forall sched ts e ts' e', exec sched ts e = Ok (ts', e') -> length ts' = length ts.
Proof.
  induction sched as [|n sched IH]; cbn; intros ts e ts' e' H; [inversion H; auto|].
  destruct (nth_error ts n) as [t|]; [|eauto].
  apply bind_ok_inv in H. destruct H as [[t1 e1] [_ H]]. apply IH in H. now rewrite set_len in H.
Qed.

(** Executed backwards: if all tasks end well, they had something definite to do, and an index of one
    task alone receives what that task had for it. *)
Lemma exec_back : forall sched ts e ts' e', exec sched ts e = Ok (ts', e') ->
  (forall m t, nth_error ts' m = Some t -> finished G t = true) ->
  forall k t, nth_error ts k = Some t -> exists out, rest t = Ok out /\
    forall j, (forall m u, m <> k -> nth_error ts m = Some u -> ~ In j (idx u)) -> e' j = e j ++ sel j out.
Proof.
  induction sched as [|n sched IH]; cbn; intros ts e ts' e' H D k t K.
  - inversion H; subst. exists []. split; [apply rest_finished; eauto|]. intros. symmetry. apply app_nil_r.
  - destruct (nth_error ts n) as [u|] eqn:Eu; [|eauto].
    apply bind_ok_inv in H. destruct H as [[u1 e1] [Hs H]].
    assert (Ln : (n < length ts)%nat) by (apply nth_error_Some; congruence).
    specialize (IH _ _ _ _ H D).
    destruct (Nat.eq_dec k n) as [->|Nk].
    + rewrite Eu in K. inversion K; subst u. clear K.
      destruct (IH n u1) as [out' [R P]]; [rewrite nth_set, Nat.eqb_refl by auto; auto|].
      assert (O : forall j, (forall m u, m <> n -> nth_error ts m = Some u -> ~ In j (idx u)) ->
                  forall m u, m <> n -> nth_error (set_task G ts n u1) m = Some u -> ~ In j (idx u)).
      { intros j Hj m v Nm Em. rewrite nth_set in Em by auto. destruct (m =? n)%nat eqn:X; [apply Nat.eqb_eq in X; congruence|].
        eapply Hj; eauto. }
      destruct (step_back _ _ _ _ _ Hs R) as [[R0 ->]|[i [r [R0 ->]]]].
      * exists out'. split; [exact R0|]. intros j Hj. apply P, O, Hj.
      * exists ((i, r) :: out'). split; auto. intros j Hj. rewrite (P j (O j Hj)). unfold push, sel. cbn [filter map fst snd].
        destruct (j =? i) eqn:X.
        -- rewrite (proj2 (Z.eqb_eq i j)) by lia. cbn. now rewrite <- app_assoc.
        -- rewrite (proj2 (Z.eqb_neq i j)) by lia. reflexivity.
    + destruct (IH k t) as [out [R P]].
      { rewrite nth_set by auto. destruct (k =? n)%nat eqn:X; [apply Nat.eqb_eq in X; congruence|auto]. }
      exists out. split; auto. intros j Hj. rewrite P.
      * f_equal. apply (step_other _ _ _ _ j Hs). apply (Hj n u); auto.
      * intros m v Nm Em. rewrite nth_set in Em by auto. destruct (m =? n)%nat eqn:X.
        -- inversion Em; subst. apply Nat.eqb_eq in X. subst m. intros I. apply (Hj n u); auto. eapply step_idx; eauto.
        -- eapply Hj; eauto.
Qed.

(** Executed forwards: no step fails, and every step of a task is one less to do. *)
Lemma exec_fwd : forall sched ts e,
  (forall k t, nth_error ts k = Some t -> exists out, rest t = Ok out) ->
  exists ts' e', exec sched ts e = Ok (ts', e') /\
    forall k t out, nth_error ts k = Some t -> rest t = Ok out ->
      exists t' out', nth_error ts' k = Some t' /\ rest t' = Ok out' /\ weight t' out' = (weight t out - turns sched k)%nat.
Proof.
  induction sched as [|n sched IH]; intros ts e H.
  - exists ts, e. split; [reflexivity|]. intros k t out K R. exists t, out. cbn. rewrite Nat.sub_0_r. auto.
  - cbn [StatModel.exec]. destruct (nth_error ts n) as [u|] eqn:Eu.
    + destruct (H n u Eu) as [out Ro]. destruct (step_fwd u e out Ro) as [u1 [e1 [out1 [Hs [R1 W1]]]]].
      rewrite Hs. cbn [bind]. assert (Ln : (n < length ts)%nat) by (apply nth_error_Some; congruence).
      destruct (IH (set_task G ts n u1) e1) as [ts' [e' [X P]]].
      { intros k t K. rewrite nth_set in K by auto. destruct (k =? n)%nat; [inversion K; subst; eauto|eauto]. }
      exists ts', e'. split; [exact X|]. intros k t o K R. unfold turns. cbn [count_occ]. destruct (Nat.eq_dec n k) as [->|Nk].
      * rewrite Eu in K. inversion K; subst u. rewrite Ro in R. inversion R; subst o.
        destruct (P k u1 out1) as [t' [o' [A [B C]]]]; [rewrite nth_set, Nat.eqb_refl by auto; auto|auto|].
        exists t', o'. repeat split; auto. rewrite C, W1. unfold turns. lia.
      * apply (P k t o); auto. rewrite nth_set by auto. destruct (k =? n)%nat eqn:E; [apply Nat.eqb_eq in E; congruence|auto].
    + destruct (IH ts e H) as [ts' [e' [X P]]]. exists ts', e'. split; [exact X|].
      intros k t o K R. unfold turns. cbn [count_occ]. destruct (Nat.eq_dec n k) as [->|Nk]; [congruence|]. apply (P k t o); auto.
Qed.

Lemma weight0 t out : rest t = Ok out -> weight t out = 0%nat -> finished G t = true.
Proof.
  unfold weight, finished, rest_of. destruct t as [todo p w]. cbn [k_todo k_pending k_worker]. intros R H.
  destruct todo; [|cbn in H; lia]. cbn in R. inversion R; subst. rewrite app_nil_r in H. destruct p; auto. cbn in H. lia.
Qed.

(** The indices of a range *)
Definition range (r : Z * Z) : list Z := map (fun i => fst r + Z.of_nat i) (seq 0 (Z.to_nat (snd r - fst r))).
Lemma in_range r j : In j (range r) <-> fst r <= j < snd r.
Proof.
  unfold range. rewrite in_map_iff. split.
  - intros [i [E I]]. apply in_seq in I. lia.
  - intros H. exists (Z.to_nat (j - fst r)). split; [lia|]. apply in_seq. lia.
Qed.
Lemma range_nodup r : NoDup (range r).
Proof. unfold range. apply FinFun.Injective_map_NoDup; [intros a b; lia|apply seq_NoDup]. Qed.
Lemma frames_range r : frames (f_start f) r = map (fun i => f_start f + i) (range r).
Proof. unfold frames, range. rewrite map_map. apply map_ext. intros. lia. Qed.

Lemma tiles_le : forall parts a b, tiles a parts b -> a <= b.
Proof. induction parts as [|r p IH]; cbn; intros a b H; [lia|]. destruct H as [? [? H]]. apply IH in H. lia. Qed.
Lemma tiles_in : forall parts a b k r, tiles a parts b -> nth_error parts k = Some r -> a <= fst r /\ fst r < snd r /\ snd r <= b.
Proof.
  induction parts as [|x p IH]; intros a b k r H K; [destruct k; discriminate|].
  destruct H as [A [B C]]. destruct k; cbn in K.
  - inversion K; subst. apply tiles_le in C. lia.
  - destruct (IH _ _ _ _ C K) as [? [? ?]]. lia.
Qed.
Lemma tiles_apart : forall parts a b k m r q, tiles a parts b -> k <> m -> nth_error parts k = Some r -> nth_error parts m = Some q ->
  snd r <= fst q \/ snd q <= fst r.
Proof.
  induction parts as [|x p IH]; intros a b k m r q H N K M; [destruct k; discriminate|].
  destruct H as [A [B C]]. destruct k, m; cbn in K, M; try congruence.
  - inversion K; subst. left. apply (tiles_in _ _ _ _ _ C M).
  - inversion M; subst. right. apply (tiles_in _ _ _ _ _ C K).
  - apply (IH _ _ k m r q C); auto.
Qed.
Lemma tiles_flat {A} (h : Z -> list A) : forall parts a b, 0 <= a -> tiles a parts b ->
  flat_map (fun i => h (a + Z.of_nat i)) (seq 0 (Z.to_nat (b - a))) = flat_map (fun r => flat_map h (range r)) parts.
Proof.
  assert (Sh : forall (k : Z -> list A) a c n, flat_map (fun i => k (a + Z.of_nat i)) (seq c n) = flat_map (fun i => k (a + Z.of_nat c + Z.of_nat i)) (seq 0 n)).
  { intros k a c n. revert c. induction n as [|n IH]; intros c; cbn; auto. f_equal; [f_equal; lia|].
    rewrite IH. rewrite <- seq_shift, !flat_map_concat_map, map_map. f_equal. apply map_ext. intros. f_equal. lia. }
  induction parts as [|r p IH]; cbn; intros a b A0 H.
  - subst. now rewrite Z.sub_diag.
  - destruct H as [E [L H]]. subst a. pose proof (tiles_le _ _ _ H) as L2.
    replace (Z.to_nat (b - fst r)) with (Z.to_nat (snd r - fst r) + Z.to_nat (b - snd r))%nat by lia.
    rewrite seq_app, flat_map_app. f_equal.
    + unfold range. rewrite !flat_map_concat_map, map_map. reflexivity.
    + rewrite Nat.add_0_l, Sh. rewrite <- (IH (snd r) b) by (auto; lia). apply flat_map_ext. intros i. f_equal. lia.
Qed.

Lemma rest_task r : rest (task_of G gen0 r) = tagged G F (f_start f) W0 (range r).
Proof.
  unfold rest_of, task_of. cbn [k_todo k_pending k_worker]. fold (range r).
  destruct (tagged G F (f_start f) W0 (range r)); reflexivity.
Qed.

Lemma forallb_nth (ts : list (task G)) : forallb (finished G) ts = true <-> (forall m t, nth_error ts m = Some t -> finished G t = true).
Proof.
  rewrite forallb_forall. split.
  - intros H m t E. apply H. eapply nth_error_In; eauto.
  - intros H t I. apply In_nth_error in I. destruct I as [m E]. eauto.
Qed.

Lemma nth_tasks parts k t : nth_error (map (task_of G gen0) parts) k = Some t ->
  exists r, nth_error parts k = Some r /\ t = task_of G gen0 r.
Proof.
  revert k. induction parts as [|x p IH]; intros [|k]; cbn; try discriminate.
  - intros H; inversion H. eauto.
  - apply IH.
Qed.

Lemma Forall2_nth {A B} (P : A -> B -> Prop) : forall (l : list A) , (forall k a, nth_error l k = Some a -> exists b, P a b) ->
  exists l', Forall2 P l l'.
Proof.
  induction l as [|a l IH]; intros H; [exists []; constructor|].
  destruct (H 0%nat a eq_refl) as [b Hb]. destruct IH as [l' Hl]; [intros k x K; apply (H (S k) x K)|].
  exists (b :: l'). now constructor.
Qed.

(** The result of any execution: the ranges one after another, each by itself. *)
Theorem collect_ok parts sched n rows : test_count f = Ok n -> tiles 0 parts n -> collect parts sched = Ok rows ->
  exists rss, Forall2 (fun r rs => in_turn F W0 (frames (f_start f) r) = Ok rs) parts rss /\ rows = concat rss.
Proof.
  intros Hn Ht H. unfold StatModel.collect in H. rewrite Hn in H. cbn [bind] in H.
  apply bind_ok_inv in H. destruct H as [[ts e] [Hx H]]. destruct (forallb (finished G) ts) eqn:D; [|discriminate].
  inversion H; subst rows; clear H.
  pose proof (exec_back _ _ _ _ _ Hx (proj1 (forallb_nth ts) D)) as B.
  assert (S : forall k r, nth_error parts k = Some r -> exists out, tagged G F (f_start f) W0 (range r) = Ok out /\
              flat_map e (range r) = map snd out).
  { intros k r K. destruct (B k (task_of G gen0 r)) as [out [R P]].
    { rewrite nth_error_map, K. reflexivity. }
    rewrite rest_task in R. exists out. split; auto.
    rewrite <- (sel_all _ _ _ _ _ _ (range_nodup r) R). apply flat_map_ext_in. intros j J.
    rewrite P; [reflexivity|]. intros m u Nm Em I. apply nth_tasks in Em. destruct Em as [q [Q ->]].
    unfold StatProofs.idx, task_of in I. cbn in I. fold (range q) in I. apply in_range in I. apply in_range in J.
    destruct (tiles_apart _ _ _ _ _ _ _ Ht (not_eq_sym Nm) K Q); lia. }
  assert (E : flat_map (fun i => e (Z.of_nat i)) (seq 0 (Z.to_nat n)) = flat_map (fun r => flat_map e (range r)) parts).
  { rewrite <- (tiles_flat e parts 0 n) by (auto; lia). rewrite Z.sub_0_r. reflexivity. }
  rewrite E. clear - S.
  assert (Q : exists rss, Forall2 (fun r rs => in_turn F W0 (frames (f_start f) r) = Ok rs /\ flat_map e (range r) = rs) parts rss).
  { apply Forall2_nth. intros k r K. destruct (S k r K) as [out [T U]]. exists (map snd out). split; [|exact U].
    rewrite frames_range, tagged_turn, T. reflexivity. }
  destruct Q as [rss Q]. exists rss. split.
  - clear S. induction Q as [|r rs p l [A _] Q IH]; constructor; auto.
  - clear S. induction Q as [|r rs p l [_ A] Q IH]; cbn; auto. now rewrite A, IH.
Qed.

(** If every range by itself is in order, then no execution goes wrong, and one that gives each its turns
    ends. *)
Theorem collect_live parts sched n rss : test_count f = Ok n -> tiles 0 parts n ->
  Forall2 (fun r rs => in_turn F W0 (frames (f_start f) r) = Ok rs) parts rss ->
  (collect parts sched = NoFuel \/ collect parts sched = Ok (concat rss)) /\
  ((forall k r rs, nth_error parts k = Some r -> nth_error rss k = Some rs ->
      (Z.to_nat (snd r - fst r) + length rs <= turns sched k)%nat) -> collect parts sched = Ok (concat rss)).
Proof.
  intros Hn Ht Q.
  assert (S : forall k r, nth_error parts k = Some r -> exists out rs, nth_error rss k = Some rs /\
              tagged G F (f_start f) W0 (range r) = Ok out /\ map snd out = rs).
  { clear - Q. intros k. revert parts rss Q. induction k as [|k IH]; intros parts rss Q r K; destruct Q as [|x y p l A Q]; try discriminate.
    - cbn in K. inversion K; subst. rewrite frames_range, tagged_turn in A. apply bind_ok_inv in A. destruct A as [o [To E]].
      inversion E. exists o, (map snd o). auto.
    - cbn in K. apply (IH _ _ Q r K). }
  assert (S2 : forall k t, nth_error (map (task_of G gen0) parts) k = Some t -> exists out, rest t = Ok out).
  { intros k t K. apply nth_tasks in K. destruct K as [r [K ->]]. destruct (S k r K) as [o [rs [_ [T _]]]].
    exists o. now rewrite rest_task. }
  destruct (exec_fwd sched (map (task_of G gen0) parts) (fun _ => []) S2) as [ts [e [Hx P]]].
  assert (Same : collect parts sched = NoFuel \/ collect parts sched = Ok (concat rss)).
  { destruct (collect parts sched) as [rows| | | |] eqn:C; auto.
    - right. destruct (collect_ok _ _ _ _ Hn Ht C) as [rss' [Q' ->]]. do 2 f_equal.
      clear - Q Q'. revert rss' Q'. induction Q as [|r rs p l A Q IH]; intros rss' Q'; inversion Q' as [|? y ? l' A' Q2]; subst; auto.
      f_equal; [congruence|auto].
    - exfalso. unfold StatModel.collect in C. rewrite Hn in C. cbn [bind] in C. rewrite Hx in C. cbn [bind] in C.
      destruct (forallb (finished G) ts); discriminate.
    - exfalso. unfold StatModel.collect in C. rewrite Hn in C. cbn [bind] in C. rewrite Hx in C. cbn [bind] in C.
      destruct (forallb (finished G) ts); discriminate.
    - exfalso. unfold StatModel.collect in C. rewrite Hn in C. cbn [bind] in C. rewrite Hx in C. cbn [bind] in C.
      destruct (forallb (finished G) ts); discriminate. }
  split; [exact Same|]. intros Fair. destruct Same as [C|C]; [|exact C]. exfalso.
  unfold StatModel.collect in C. rewrite Hn in C. cbn [bind] in C. rewrite Hx in C. cbn [bind] in C.
  destruct (forallb (finished G) ts) eqn:D; [discriminate|]. clear C.
  assert (D' : forallb (finished G) ts = true); [|congruence].
  apply forallb_nth. intros k t' K'.
  assert (Lk : (k < length parts)%nat).
  { rewrite <- (map_length (task_of G gen0) parts), <- (exec_len _ _ _ _ _ Hx). apply nth_error_Some. congruence. }
  destruct (nth_error parts k) as [r|] eqn:K; [|apply nth_error_None in K; lia].
  destruct (S k r K) as [o [rs [Ks [T E]]]].
  destruct (P k (task_of G gen0 r) o) as [t2 [o2 [A [B W]]]].
  { now rewrite nth_error_map, K. }
  { now rewrite rest_task. }
  rewrite K' in A. inversion A; subst t2. apply (weight0 _ _ B). rewrite W. unfold weight, task_of. cbn [k_todo].
  rewrite map_length, seq_length. specialize (Fair k r rs K Ks). rewrite <- E, map_length in Fair. lia.
Qed.
End Run.
