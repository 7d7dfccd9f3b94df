(** A system restored from a snapshot (C26, C27). *)
From Coq Require Import List ZArith Bool Lia Permutation Sorting.Sorted ZifyBool.
From Verif Require Import Outcome Dbl DsoModel DsoSpec DsoHistory DsoProofs.
Import ListNotations.
Open Scope Z_scope.

Lemma repeat_app_map {A B} (f : A -> B) n l : map f (repeat_app n l) = repeat_app n (map f l).
Proof. induction n; simpl; [reflexivity|]. rewrite map_app, IHn. reflexivity. Qed.

Section Flat.
Variables skip shift : Z.
Variable cont : bool.
Notation sk := (skip_count skip).
Notation hist := (history skip shift true cont).

Lemma hall_app h1 h2 : hall (h1 ++ h2) = hall h1 ++ hall h2.
Proof. apply flat_map_app. Qed.

(** Tracking against the newest keyframe keeps the numbers in order. *)
Lemma flat_step h n : h <> [] ->
  hall (rev (history_step shift true cont h n)) = hall (rev h) ++ [n] \/
  (cont = false /\ history_step shift true cont h n = h).
Proof.
  destruct h as [|[k t] h]; [congruence|]. intros _. simpl. destruct (due shift k n).
  - destruct cont; [left|right; auto]. simpl. rewrite hall_app. reflexivity.
  - left. simpl. rewrite !hall_app. simpl. rewrite !app_nil_r, <- app_assoc. reflexivity.
Qed.

Lemma flat_history nums : StronglySorted Z.lt nums ->
  StronglySorted Z.lt (hall (rev (hist nums))) /\ (forall x, In x (hall (rev (hist nums))) -> In x nums) /\
  (cont = true -> hall (rev (hist nums)) = used_frames skip nums).
Proof.
  induction nums as [|n nums IH] using rev_ind; [simpl; split; [constructor|split; [tauto|reflexivity]]|].
  intros Hs. destruct (sorted_snoc _ _ Hs) as [Hs' Hl]. destruct (IH Hs') as (A & B & C).
  destruct (Nat.le_gt_cases (S (S sk)) (length nums)) as [H|H].
  - rewrite history_snoc, used_snoc by lia.
    destruct (flat_step (hist nums) n (history_nonempty _ _ _ _ _ H)) as [E|[E1 E2]].
    + rewrite E. split; [|split].
      * apply sorted_snoc_intro; [exact A|]. apply Forall_forall. intros x Hx. rewrite Forall_forall in Hl. auto.
      * intros x Hx. apply in_app_iff in Hx as [Hx|Hx]; apply in_app_iff; auto.
      * intros Hc. rewrite (C Hc). reflexivity.
    + rewrite E2. split; [exact A|]. split; [intros x Hx; apply in_app_iff; auto|congruence].
  - destruct (Nat.eq_dec (length nums) (S sk)) as [E|E].
    + destruct nums as [|f r]; [simpl in E; discriminate|]. simpl in E. rewrite history_first, used_first by lia. simpl.
      inversion Hl; subst. split; [repeat constructor; auto|]. split; [|reflexivity].
      intros x [<-|[<-|[]]]; [auto|right; apply in_app_iff; simpl; auto].
    + rewrite history_early, used_early by (rewrite app_length; simpl; lia). simpl. split; [constructor|]. split; [tauto|reflexivity].
Qed.
End Flat.

Section Restore.
Variables P : Type.
Variable pid : P.
Variable pmul : P -> P -> P.
Variable pinv : P -> P.
Variables IP OP : Type.
Variable promote : IP -> OP.
Variable ready : IP -> bool.
Variable s : dso_settings.
Notation kf := (kf P IP OP).
Notation state := (state P IP OP).
Notation frame_in := (frame_in P IP OP).
Notation restore := (restore pmul pinv s).
Notation restore_kf := (restore_kf pmul pinv).
Notation add_frame := (add_frame pid pmul pinv promote ready s).
Notation track_frame := (track_frame pmul pinv promote ready s).
Implicit Types st : state.

(** Frame history a restored system gets. *)
Definition restored_numbers (nobs : nat) (kfs : list kf) : list Z :=
  flat_map (fun k => kf_num k :: repeat_app nobs (map fst (kf_tracked k))) kfs.

Lemma adjust_ok size n size' : adjust_size size n = Ok size' -> 0 < n < size' /\ size <= size'.
Proof.
  unfold adjust_size. destruct (Z.leb_spec n 0); [discriminate|]. destruct (Z.leb_spec size n).
  - destruct (n =? INT_MAX); [discriminate|]. intros H1; injection H1 as <-. lia.
  - intros H1; injection H1 as <-. lia.
Qed.

Lemma restore_kf_spec nobs st (k : kf) st' : restore_kf nobs st k = Ok st' ->
  st_inited st' = st_inited st /\ st_kfs st' = st_kfs st /\ st_ftobs st' = st_ftobs st /\
  st_tracker st' = st_tracker st /\ st_log st' = st_log st /\
  st_nums st' = st_nums st ++ kf_num k :: repeat_app nobs (map fst (kf_tracked k)) /\
  st_size st <= st_size st' /\
  (forall n, In n (kf_num k :: repeat_app nobs (map fst (kf_tracked k))) -> 0 < n < st_size st') /\
  (forall n, ~ In n (kf_num k :: repeat_app nobs (map fst (kf_tracked k))) -> st_tbl st' n = st_tbl st n) /\
  (forall n, In n (kf_num k :: repeat_app nobs (map fst (kf_tracked k))) ->
     NoDup (kf_num k :: map fst (kf_tracked k)) ->
     (n = kf_num k -> st_tbl st' n = Some (pinv (kf_pose k))) /\
     (forall p, In (n, p) (kf_tracked k) -> st_tbl st' n = Some (pmul p (pinv (kf_pose k))))).
Proof.
  unfold DsoModel.restore_kf. intros H. inv_bind. apply adjust_ok in E as [E1 E2]. apply tbl_set_ok in E0 as [_ ->].
  rewrite <- repeat_app_map.
  match type of H with ofold ?f _ ?a = _ => set (F := f) in H; set (a0 := a) in H end.
  assert (G : forall l (a st' : state), ofold F l a = Ok st' ->
    st_inited st' = st_inited a /\ st_kfs st' = st_kfs a /\ st_ftobs st' = st_ftobs a /\
    st_tracker st' = st_tracker a /\ st_log st' = st_log a /\ st_nums st' = st_nums a ++ map fst l /\
    st_size a <= st_size st' /\ (forall n, In n (map fst l) -> 0 < n < st_size st') /\
    (forall n, ~ In n (map fst l) -> st_tbl st' n = st_tbl a n) /\
    (forall n, In n (map fst l) -> exists p, In (n, p) l /\ st_tbl st' n = Some (pmul p (pinv (kf_pose k))))).
  { induction l as [|[n p] l IH]; intros a st1 H1; simpl in H1.
    - injection H1 as <-. simpl. rewrite app_nil_r. repeat (split; [reflexivity || lia || tauto|]). simpl; tauto.
    - apply bind_ok_inv in H1 as (a1 & Fa & H1). unfold F in Fa. cbn [fst snd] in Fa.
      apply bind_ok_inv in Fa as (sz & Ea & Fa). apply bind_ok_inv in Fa as (t' & Et & Fa). injection Fa as <-.
      apply adjust_ok in Ea as [Ea1 Ea2]. apply tbl_set_ok in Et as [_ ->].
      destruct (IH _ _ H1) as (J1 & J2 & J3 & J4 & J5 & J6 & J7 & J8 & J9 & J10). simpl in *.
      rewrite J1, J2, J3, J4, J5, J6, <- app_assoc. repeat (split; [reflexivity|]). split; [lia|]. split; [|split].
      + intros m [<-|Hm]; [lia|]. apply J8; auto.
      + intros m Hm. rewrite J9 by tauto. destruct (Z.eqb_spec m n); [subst; tauto|reflexivity].
      + intros m Hm. destruct (in_dec Z.eq_dec m (map fst l)) as [Hi|Hi].
        * destruct (J10 m Hi) as (q & Hq & Eq). exists q. auto.
        * destruct Hm as [<-|Hm]; [|tauto]. exists p. split; [auto|]. rewrite J9 by exact Hi. rewrite Z.eqb_refl. reflexivity. }
  destruct (G _ _ _ H) as (J1 & J2 & J3 & J4 & J5 & J6 & J7 & J8 & J9 & J10). unfold a0 in *. simpl in *.
  rewrite J1, J2, J3, J4, J5, J6, <- app_assoc. repeat (split; [reflexivity|]). split; [lia|]. split; [|split].
  - intros n [<-|Hn]; [lia|]. apply J8; auto.
  - intros n Hn. rewrite J9 by tauto. destruct (Z.eqb_spec n (kf_num k)); [subst; tauto|reflexivity].
  - intros n Hn ND. inversion ND as [|? ? N1 N2]; subst.
    assert (Hsub : forall m, In m (map fst (repeat_app nobs (kf_tracked k))) -> In m (map fst (kf_tracked k))).
    { intros m. rewrite repeat_app_map. clear. induction nobs; simpl; [tauto|]. rewrite in_app_iff. tauto. }
    split.
    + intros ->. rewrite J9 by (intros Hi; apply Hsub in Hi; tauto). rewrite Z.eqb_refl. reflexivity.
    + intros p Hp. destruct Hn as [<-|Hn]; [exfalso; apply N1; apply (in_map fst) in Hp; exact Hp|].
      destruct (J10 n Hn) as (q & Hq & ->). f_equal. f_equal.
      assert (Hq' : In (n, q) (kf_tracked k)).
      { clear - Hq. induction nobs; simpl in Hq; [destruct Hq|]. apply in_app_iff in Hq. tauto. }
      clear - Hp Hq' N2. induction (kf_tracked k) as [|[m r] l IH]; [destruct Hp|]. simpl in *. inversion N2; subst.
      destruct Hp as [Ep|Hp], Hq' as [Eq|Hq].
      * congruence.
      * injection Ep as -> ->. exfalso. apply H1. apply (in_map fst) in Hq. exact Hq.
      * injection Eq as -> ->. exfalso. apply H1. apply (in_map fst) in Hp. exact Hp.
      * auto.
Qed.

Lemma restore_spec nobs ctorObs createdObs (kfs : list kf) st : restore nobs ctorObs createdObs kfs = Ok st ->
  (2 <= length kfs)%nat /\ st_inited st = true /\ st_kfs st = kfs /\ st_nums st = restored_numbers nobs kfs /\
  st_ftobs st = ctorObs ++ createdObs /\ st_tracker st = Some ctorObs /\ st_log st = [] /\
  Forall (fun n => 0 < n < st_size st) (st_nums st) /\
  (NoDup (hall (map shape kfs)) -> forall k, In k kfs ->
     st_tbl st (kf_num k) = Some (pinv (kf_pose k)) /\
     forall n p, In (n, p) (kf_tracked k) ->
       st_tbl st n = match nobs with O => None | S _ => Some (pmul p (pinv (kf_pose k))) end).
Proof.
  unfold DsoModel.restore. destruct (Nat.ltb_spec (length kfs) 2) as [L|L]; [discriminate|]. intros H. inv_bind.
  rename x into st1.
  assert (st = set_tracker st1 (Some ctorObs)) as ->.
  { destruct (kf_tracked x0); [destruct (kf_tracked x1); [discriminate|]|]; injection H as <-; reflexivity. }
  clear H E0 E1. simpl. split; [exact L|].
  match type of E with ofold _ _ ?a = _ => set (a0 := a) in E end.
  assert (G : forall l (a st' : state), ofold (restore_kf nobs) l a = Ok st' ->
    st_inited st' = st_inited a /\ st_kfs st' = st_kfs a /\ st_ftobs st' = st_ftobs a /\ st_log st' = st_log a /\
    st_nums st' = st_nums a ++ restored_numbers nobs l /\ st_size a <= st_size st' /\
    (forall n, In n (restored_numbers nobs l) -> 0 < n < st_size st') /\
    (forall n, ~ In n (restored_numbers nobs l) -> st_tbl st' n = st_tbl a n) /\
    (NoDup (hall (map shape l)) -> forall k, In k l ->
     st_tbl st' (kf_num k) = Some (pinv (kf_pose k)) /\
     forall n p, In (n, p) (kf_tracked k) ->
       st_tbl st' n = match nobs with O => st_tbl a n | S _ => Some (pmul p (pinv (kf_pose k))) end)).
  { assert (Sub : forall k n, In n (repeat_app nobs (map fst (@kf_tracked P IP OP k))) -> In n (map fst (kf_tracked k))).
    { intros k m. clear. induction nobs; simpl; [tauto|]. rewrite in_app_iff. tauto. }
    assert (SubL : forall l n, In n (restored_numbers nobs l) -> In n (hall (map shape l))).
    { intros l n. unfold restored_numbers, hall. rewrite !in_flat_map. intros (k & Hk & Hn). exists (shape k).
      split; [apply in_map; auto|]. simpl. destruct Hn as [Hn|Hn]; auto. }
    induction l as [|k l IH]; intros a st' H; simpl in H.
    - injection H as <-. simpl. rewrite app_nil_r. do 8 (split; [reflexivity || lia || tauto|]). intros _ ? [].
    - inv_bind. destruct (restore_kf_spec _ _ _ _ E0) as (K1 & K2 & K3 & K4 & K5 & K6 & K7 & K8 & K9 & K10).
      destruct (IH _ _ H) as (J1 & J2 & J3 & J5 & J6 & J7 & J8 & J9 & J10).
      rewrite J1, J2, J3, J5, J6, K1, K2, K3, K5, K6. unfold restored_numbers at 2. cbn [flat_map]. rewrite <- app_assoc.
      repeat (split; [reflexivity|]). split; [lia|]. split; [|split].
      + intros n Hn. unfold restored_numbers in Hn. cbn [flat_map] in Hn. apply in_app_iff in Hn as [Hn|Hn]; [apply K8 in Hn; lia|]. apply J8; auto.
      + intros n Hn. unfold restored_numbers in Hn. cbn [flat_map] in Hn. rewrite in_app_iff in Hn.
        rewrite J9 by tauto. apply K9. tauto.
      + intros ND. unfold hall in ND. cbn [map flat_map] in ND. fold (hall (map shape l)) in ND. simpl fst in ND. simpl snd in ND.
        assert (NDl : NoDup (hall (map shape l))) by (eapply NoDup_app_r; eauto).
        assert (NDk : NoDup (kf_num k :: map fst (kf_tracked k))).
        { clear - ND. remember (kf_num k :: map fst (kf_tracked k)) as l1. clear Heql1. revert ND. induction l1; simpl; intros H; constructor; inversion H as [|? ? Ha Hb]; subst; [rewrite in_app_iff in Ha; tauto|auto]. }
        assert (Dis : forall n, In n (kf_num k :: map fst (kf_tracked k)) -> ~ In n (hall (map shape l))).
        { clear - ND. remember (kf_num k :: map fst (kf_tracked k)) as l1. clear Heql1. revert ND. induction l1; simpl; intros H; [tauto|].
          inversion H; subst. intros n [->|Hn]; [rewrite in_app_iff in H2; tauto|]. apply IHl1; auto. }
        intros k' [<-|Hk'].
        * split.
          -- rewrite J9 by (intros Hi; apply SubL in Hi; revert Hi; apply Dis; left; reflexivity).
             apply K10; auto. left; reflexivity.
          -- intros n p Hp. assert (Hn : In n (map fst (kf_tracked k))) by (apply (in_map fst) in Hp; exact Hp).
             rewrite J9 by (intros Hi; apply SubL in Hi; revert Hi; apply Dis; right; exact Hn).
             destruct nobs as [|m].
             ++ apply K9. simpl. intros [Hk|[]]. inversion NDk; subst. tauto.
             ++ destruct (K10 n) as [_ K]; auto. right. simpl. apply in_app_iff. left; exact Hn.
        * destruct (J10 NDl k' Hk') as [A B]. split; [exact A|]. intros n p Hp. rewrite (B _ _ Hp).
          destruct nobs as [|m]; [|reflexivity]. apply K9. simpl. intros [Hk|[]].
          apply (Dis n); [left; auto|]. eapply in_hall_tracked; eauto. }
  destruct (G _ _ _ E) as (J1 & J2 & J3 & J5 & J6 & J7 & J8 & J9 & J10). unfold a0 in *. simpl in *.
  rewrite J1, J2, J3, J5, J6. repeat (split; [reflexivity|]). split; [apply Forall_forall; exact J8|].
  intros ND k Hk. destruct (J10 ND k Hk) as [A B]. split; [exact A|]. intros n p Hp. rewrite (B n p Hp). destruct nobs; reflexivity.
Qed.

(** C26: exactly one observer. *)
Lemma restored_one (kfs : list kf) : restored_numbers 1 kfs = hall (map shape kfs).
Proof.
  unfold restored_numbers, hall. induction kfs as [|k l IH]; [reflexivity|]. cbn [flat_map map]. rewrite IH.
  simpl. rewrite app_nil_r. reflexivity.
Qed.

Lemma restored_none (kfs : list kf) : restored_numbers 0 kfs = map kf_num kfs.
Proof. unfold restored_numbers. induction kfs as [|k l IH]; [reflexivity|]. cbn [flat_map map]. rewrite IH. reflexivity. Qed.

Lemma repeat_count n l (x : Z) : count_occ Z.eq_dec (repeat_app n l) x = (n * count_occ Z.eq_dec l x)%nat.
Proof. induction n; simpl; [reflexivity|]. rewrite count_occ_app, IHn. reflexivity. Qed.

Lemma restored_many nobs (kfs : list kf) x : NoDup (hall (map shape kfs)) ->
  (exists k p, In k kfs /\ In (x, p) (kf_tracked k)) ->
  count_occ Z.eq_dec (restored_numbers nobs kfs) x = nobs.
Proof.
  induction kfs as [|k l IH]; intros ND (k' & p & Hk & Hp); [destruct Hk|].
  unfold hall in ND. cbn [map flat_map] in ND. fold (hall (map shape l)) in ND. simpl fst in ND. simpl snd in ND.
  unfold restored_numbers. cbn [flat_map]. fold (restored_numbers nobs l). rewrite count_occ_app.
  assert (Sub : forall n, In n (restored_numbers nobs l) -> In n (hall (map shape l))).
  { intros n. unfold restored_numbers, hall. rewrite !in_flat_map. intros (k0 & Hk0 & Hn). exists (shape k0).
    split; [apply in_map; auto|]. simpl. destruct Hn as [Hn|Hn]; [auto|]. right. revert Hn. clear. induction nobs; simpl; [tauto|]. rewrite in_app_iff; tauto. }
  assert (Dis : forall n, In n (kf_num k :: map fst (kf_tracked k)) -> ~ In n (hall (map shape l))).
  { clear - ND. remember (kf_num k :: map fst (kf_tracked k)) as l1. clear Heql1. revert ND. induction l1; simpl; intros H; [tauto|].
    inversion H; subst. intros n [->|Hn]; [rewrite in_app_iff in H2; tauto|]. apply IHl1; auto. }
  assert (NDk : NoDup (kf_num k :: map fst (kf_tracked k))).
  { clear - ND. remember (kf_num k :: map fst (kf_tracked k)) as l1. clear Heql1. revert ND. induction l1; simpl; intros H; constructor; inversion H as [|? ? Ha Hb]; subst; [rewrite in_app_iff in Ha; tauto|auto]. }
  destruct Hk as [<-|Hk].
  - assert (Hx : In x (map fst (kf_tracked k))) by (apply (in_map fst) in Hp; exact Hp).
    assert (count_occ Z.eq_dec (restored_numbers nobs l) x = 0%nat) as ->.
    { apply count_occ_not_In. intros Hi. apply Sub in Hi. apply (Dis x); [right; auto|auto]. }
    inversion NDk; subst. rewrite count_occ_cons_neq by congruence. rewrite repeat_count.
    assert (count_occ Z.eq_dec (map fst (kf_tracked k)) x = 1%nat) as ->.
    { apply NoDup_count_occ'; auto. }
    lia.
  - rewrite (IH ltac:(eapply NoDup_app_r; eauto)) by eauto.
    assert (In x (hall (map shape l))) by (eapply in_hall_tracked; eauto).
    assert (count_occ Z.eq_dec (kf_num k :: repeat_app nobs (map fst (kf_tracked k))) x = 0%nat) as ->; [|reflexivity].
    apply count_occ_not_In. intros Hi. apply (Dis x); [|auto]. destruct Hi as [Hi|Hi]; [left; auto|right].
    revert Hi. clear. induction nobs; simpl; [tauto|]. rewrite in_app_iff; tauto.
Qed.

Lemma restored_tail n (l : list kf) (k : kf) t p : kf_tracked k = [(t, p)] ->
  restored_numbers (S (S n)) (l ++ [k]) = restored_numbers (S (S n)) l ++ kf_num k :: repeat t n ++ [t; t].
Proof.
  intros H. unfold restored_numbers. rewrite flat_map_app. simpl. rewrite H. simpl. rewrite app_nil_r.
  f_equal. f_equal. induction n; simpl; [reflexivity|]. f_equal. rewrite <- IHn. reflexivity.
Qed.

Lemma restored_zero_gap nobs ctorObs createdObs l (k : kf) t p st fi st' r :
  (2 <= nobs)%nat -> kf_tracked k = [(t, p)] -> restore nobs ctorObs createdObs (l ++ [k]) = Ok st ->
  add_frame st fi = Ok (st', r) ->
  exists a b, In (EvPredict t t a b (t - fi_num fi) 0) (st_log st').
Proof.
  intros Hn Hk Hr Ha. destruct (restore_spec _ _ _ _ _ Hr) as (R0 & R1 & R2 & R3 & R4 & R5 & R6 & _).
  destruct nobs as [|[|n]]; try lia. rewrite (restored_tail _ _ _ _ _ Hk) in R3.
  unfold DsoModel.add_frame in Ha. inv_bind. rewrite R1 in Ha.
  destruct (begin_spec _ _ _ _ _ _ _ E) as (Hp & Hl & B1 & B2 & B3 & B4 & B5 & B6 & B7 & B8 & B9).
  destruct (track_spec _ _ _ _ _ _ _ _ _ _ _ _ Ha) as (b & l2 & obs & pose & n1 & n2 & n3 & rest & need & st2 & Hb2 & Hl2 & Ht2 & Hps & Hrev & Hsz & -> & Hneed & I1 & I2 & I3 & I4 & I5 & I6 & I7 & I8 & I9 & I10 & Hc).
  rewrite B1, R3, rev_app_distr, rev_app_distr in Hrev. simpl in Hrev. rewrite !rev_app_distr in Hrev. simpl in Hrev.
  injection Hrev as <- <- <- _.
  rewrite Z.sub_diag in I10. do 2 eexists.
  destruct Hc as [[Hc ->]|[Hc Hpr]].
  - rewrite I10. apply in_app_iff. right. right. left. reflexivity.
  - destruct (promote_spec _ _ _ _ _ _ _ _ _ _ _ _ _ Hpr) as (imm & gone & kept & kfs & bk & P1 & P2 & P3 & P4 & Q1 & Q2 & Q3 & Q4 & Q5 & Q6 & Q7 & Q8 & Q9).
    rewrite Q8, I10. apply in_app_iff. left. apply in_app_iff. right. right. left. reflexivity.
Qed.

(** C27: observers of a restored system. *)
Lemma restored_tracker nobs ctorObs createdObs (kfs : list kf) st fi st' r :
  restore nobs ctorObs createdObs kfs = Ok st -> add_frame st fi = Ok (st', r) ->
  In (EvTracked (fi_num fi) ctorObs) (st_log st') /\
  (forall obs, In (EvTracked (fi_num fi) obs) (st_log st') -> obs = ctorObs) /\
  st_tracker st' = Some (if continueChoosing s && (length (st_log st) + 3 <? length (st_log st'))%nat
                         then ctorObs ++ createdObs else ctorObs).
Proof.
  intros Hr Ha. destruct (restore_spec _ _ _ _ _ Hr) as (R0 & R1 & R2 & R3 & R4 & R5 & R6 & _).
  unfold DsoModel.add_frame in Ha. inv_bind. rewrite R1 in Ha.
  destruct (begin_spec _ _ _ _ _ _ _ E) as (Hp & Hl & B1 & B2 & B3 & B4 & B5 & B6 & B7 & B8 & B9).
  destruct (track_spec _ _ _ _ _ _ _ _ _ _ _ _ Ha) as (b & l2 & obs & pose & n1 & n2 & n3 & rest & need & st2 & Hb2 & Hl2 & Ht2 & Hps & Hrev & Hsz & -> & Hneed & I1 & I2 & I3 & I4 & I5 & I6 & I7 & I8 & I9 & I10 & Hc).
  rewrite B7, R5 in Ht2. injection Ht2 as <-. rewrite B8, R6 in I10. simpl in I10.
  destruct Hc as [[Hc ->]|[Hc Hpr]].
  - rewrite I10. split; [simpl; auto|]. split.
    + intros o [Hi|[Hi|[Hi|[]]]]; try discriminate. congruence.
    + rewrite I7, B7, R5, R6. simpl. rewrite andb_false_r. reflexivity.
  - destruct (promote_spec _ _ _ _ _ _ _ _ _ _ _ _ _ Hpr) as (imm & gone & kept & kfs' & bk & P1 & P2 & P3 & P4 & Q1 & Q2 & Q3 & Q4 & Q5 & Q6 & Q7 & Q8 & Q9).
    rewrite Q8, I10. split; [simpl; auto|]. split.
    + intros o Hi. apply in_app_iff in Hi as [[Hi|[Hi|[Hi|[]]]]|Hi]; try discriminate; [congruence|].
      destruct gone; simpl in Hi; intuition discriminate.
    + rewrite Q7, I6, B6, R4, R6. apply andb_prop in Hc as [-> _]. destruct gone; reflexivity.
Qed.

(** A snapshot without tracked frames in its two newest keyframes cannot be restored. *)
Lemma restore_no_tracked nobs ctorObs createdObs (l : list kf) (k1 k2 : kf) :
  kf_tracked k1 = [] -> kf_tracked k2 = [] -> ~ is_ok (restore nobs ctorObs createdObs (l ++ [k1; k2])).
Proof.
  intros H1 H2 [st H]. unfold DsoModel.restore in H. rewrite app_length in H. simpl in H.
  destruct (Nat.ltb_spec (length l + 2) 2); [lia|]. inv_bind. rewrite lbo_kf_snoc in E1. injection E1 as <-.
  change (l ++ [k1; k2]) with (l ++ [k1] ++ [k2]) in E0. rewrite app_assoc, last_kf_snoc in E0. injection E0 as <-.
  rewrite H1, H2 in H. discriminate.
Qed.

(** The history of a system that continues after a restore. *)
Notation run := (run pid pmul pinv promote ready s).
Notation hstep := (history_step (shiftBetweenKeyFrames s) (trackFromLastKf s) (continueChoosing s)).

Lemma hstep_nums h n : (forall x, In x (hall (hstep h n)) -> x = n \/ In x (hall h)).
Proof.
  intros x. destruct h as [|[k t] h]; [simpl; auto|]. simpl.
  destruct (due (shiftBetweenKeyFrames s) k n).
  - destruct (continueChoosing s); simpl; intuition.
  - destruct (trackFromLastKf s); simpl.
    + rewrite !in_app_iff. simpl. intuition.
    + destruct h as [|[k2 t2] h]; simpl; [intuition|]. rewrite !in_app_iff. simpl. rewrite !in_app_iff. simpl. intuition.
Qed.

Lemma hstep_keys h n : (forall x, In x (hall h) -> x < n) -> NoDup (map fst h) -> NoDup (map fst (hstep h n)).
Proof.
  intros Hlt ND. destruct h as [|[k t] h]; [constructor|]. simpl in *.
  destruct (due (shiftBetweenKeyFrames s) k n).
  - destruct (continueChoosing s); [|exact ND]. simpl. constructor; [|exact ND].
    intros [E|Hin]; [specialize (Hlt k (or_introl eq_refl)); lia|].
    assert (n < n); [|lia]. apply Hlt. right. apply in_app_iff. right. apply in_map_iff in Hin as (e & <- & He).
    unfold hall. apply in_flat_map. exists e. split; [auto|left; reflexivity].
  - destruct (trackFromLastKf s); [exact ND|]. destruct h as [|[k2 t2] h]; exact ND.
Qed.

Lemma restored_history ctorObs createdObs (kfs : list kf) st1 cs st :
  StronglySorted Z.lt (hall (map shape kfs)) ->
  restore 1 ctorObs createdObs kfs = Ok st1 -> run cs st1 = Ok st ->
  map shape (reported (destroy st)) = rev (fold_left hstep (numbers cs) (rev (map shape kfs))) /\
  st_nums st = hall (map shape kfs) ++ numbers cs /\ StronglySorted Z.lt (st_nums st).
Proof.
  intros So Hr Hrun. destruct (restore_spec _ _ _ _ _ Hr) as (R0 & R1 & R2 & R3 & R4 & R5 & R6 & _).
  rewrite restored_one in R3. rewrite reported_destroy.
  assert (NDk : NoDup (map fst (rev (map shape kfs)))).
  { rewrite map_rev. apply NoDup_rev. rewrite map_map. clear - So. apply nodup_sorted in So.
    induction kfs as [|k l IH]; simpl; [constructor|]. unfold hall in So. simpl in So. inversion So as [|? ? A B]; subst. constructor.
    - intros Hin. apply A. apply in_app_iff. right. apply in_map_iff in Hin as (k' & E & Hk). simpl in E. rewrite <- E.
      change (In (kf_num k') (hall (map shape l))). apply in_hall_num; auto.
    - apply IH. unfold hall. eapply NoDup_app_r; eauto. }
  enough (G : st_inited st = true /\
    map shape (reported (st_log st) ++ st_kfs st) = rev (fold_left hstep (numbers cs) (rev (map shape kfs))) /\
    st_nums st = hall (map shape kfs) ++ numbers cs /\ StronglySorted Z.lt (st_nums st) /\
    NoDup (map fst (fold_left hstep (numbers cs) (rev (map shape kfs)))) /\
    forall x, In x (hall (fold_left hstep (numbers cs) (rev (map shape kfs)))) -> In x (st_nums st)).
  { tauto. }
  revert st Hrun. induction cs as [|c cs IH] using rev_ind; intros st Hrun.
  - injection Hrun as <-. simpl. rewrite R6, R2, R3, rev_involutive, app_nil_r. simpl.
    repeat (split; [auto|]). intros x Hx. revert Hx. unfold hall. rewrite !in_flat_map. intros (e & He & Hx). exists e. split; [apply in_rev; auto|auto].
  - rewrite run_snoc in Hrun. inv_bind. destruct (IH _ E) as (G1 & G2 & G3 & G4 & G5 & G6). clear IH.
    rewrite numbers_app, fold_left_app. destruct c as [fi|o].
    2:{ injection Hrun as <-. simpl. rewrite app_nil_r. auto 10. }
    cbn [DsoModel.do_call] in Hrun. inv_bind. destruct x0 as [x0 r]. injection Hrun as <-. simpl fst.
    unfold DsoModel.add_frame in E0. inv_bind. rewrite G1 in E0.
    destruct (begin_spec _ _ _ _ _ _ _ E1) as (Hp & Hl & B1 & B2 & B3 & B4 & B5 & B6 & B7 & B8 & B9).
    destruct (track_fields _ _ _ _ _ _ _ _ _ _ _ _ E0) as (T1 & T2 & T3 & T4 & T5 & T6).
    assert (Hlt : Forall (fun x => x < fi_num fi) (st_nums x)) by (apply sorted_all_lt; auto).
    assert (Hlt2 : forall y, In y (hall (fold_left hstep (numbers cs) (rev (map shape kfs)))) -> y < fi_num fi).
    { intros y Hy. rewrite Forall_forall in Hlt. apply Hlt, G6, Hy. }
    assert (KN : map kf_num (reported (st_log x) ++ st_kfs x) = map fst (rev (fold_left hstep (numbers cs) (rev (map shape kfs))))).
    { rewrite <- G2, map_map. reflexivity. }
    split. { rewrite T1. destruct B9 as [(C1 & C2 & _)|[(C1 & _)|(f & C1 & _)]]; congruence. }
    split.
    { simpl numbers. cbn [fold_left]. eapply track_shape; [| | |exact E0].
      - rewrite B8, B4, KN, map_rev. apply NoDup_rev. exact G5.
      - rewrite B4. intros k Hk. apply Hlt2. apply (in_map kf_num) with (l := st_kfs x) in Hk as Hk2.
        assert (In (kf_num k) (map kf_num (reported (st_log x) ++ st_kfs x))) by (rewrite map_app; apply in_app_iff; auto).
        rewrite KN in H. apply in_map_iff in H as (e & <- & He). unfold hall. apply in_flat_map. exists e. split; [apply in_rev; auto|left; reflexivity].
      - rewrite B8, B4. exact G2. }
    rewrite T2, B1, G3. simpl numbers. split; [rewrite app_assoc; reflexivity|].
    split; [rewrite <- G3; apply sorted_snoc_intro; auto|].
    cbn [fold_left]. split; [apply hstep_keys; auto|].
    intros y Hy. apply hstep_nums in Hy as [->|Hy]; [apply in_app_iff; simpl; auto|]. apply in_app_iff. left. rewrite <- G3. apply G6; auto.
Qed.

End Restore.
