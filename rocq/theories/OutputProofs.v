(** Proofs about TrajectoryWriter over the event log of a run (C19, C20). *)
From Coq Require Import List ZArith Bool Lia Permutation Sorting.Sorted.
From Verif Require Import Outcome Dbl DsoModel DsoSpec DsoHistory DsoProofs DsoRestore DsoFinal OutputModel OutputSpec.
Import ListNotations.
Open Scope Z_scope.

(** ** Lists *)
Lemma ss_app (l1 l2 : list Z) : StronglySorted Z.lt (l1 ++ l2) <->
  StronglySorted Z.lt l1 /\ StronglySorted Z.lt l2 /\ (forall x y, In x l1 -> In y l2 -> x < y).
Proof.
  induction l1 as [|a l1 IH]; simpl.
  - split; [intros H; split; [constructor|split; [exact H|tauto]]|tauto].
  - split.
    + intros H. inversion H as [|? ? H1 H2]; subst. apply IH in H1 as (A & B & C). apply Forall_app in H2 as [H2 H3].
      split; [constructor; auto|]. split; [exact B|]. intros x y [<-|Hx] Hy; [|auto]. rewrite Forall_forall in H3. auto.
    + intros (A & B & C). inversion A; subst. constructor; [apply IH; split; [auto|split; auto]|].
      apply Forall_app. split; [auto|]. apply Forall_forall. intros y Hy. apply C; auto.
Qed.

Lemma NoDup_app_l {A} (l1 l2 : list A) : NoDup (l1 ++ l2) -> NoDup l1.
Proof.
  induction l1; simpl; intros H; [constructor|]. inversion H; subst. constructor; auto. intros Hin. apply H2, in_app_iff; auto.
Qed.

Section TW.
Variable P : Type.
Variable pmul : P -> P -> P.
Variable pinv : P -> P.
Variables IP OP : Type.
Notation kf := (kf P IP OP).
Notation outs := (out_frames pmul pinv).

Lemma outs_fst (l : list kf) : map fst (outs l) = frames_of l.
Proof.
  unfold out_frames, frames_of. induction l as [|k l IH]; [reflexivity|]. cbn [flat_map]. rewrite map_app, IH. f_equal.
  cbn [map fst]. f_equal. rewrite map_map. reflexivity.
Qed.

Lemma outs_app (l1 l2 : list kf) : outs (l1 ++ l2) = outs l1 ++ outs l2.
Proof. apply flat_map_app. Qed.
Lemma frames_app (l1 l2 : list kf) : frames_of (l1 ++ l2) = frames_of l1 ++ frames_of l2.
Proof. apply flat_map_app. Qed.

Lemma set_insert_in x l y : In y (set_insert x l) <-> y = x \/ In y l.
Proof.
  induction l as [|a l IH]; simpl; [intuition congruence|]. destruct (Z.ltb_spec x a); [simpl; intuition congruence|].
  destruct (Z.eqb_spec x a); [subst; simpl; intuition congruence|]. simpl. rewrite IH. tauto.
Qed.

Lemma set_insert_sorted x l : StronglySorted Z.lt l -> StronglySorted Z.lt (set_insert x l).
Proof.
  induction 1 as [|a l H IH F]; simpl; [repeat constructor|].
  destruct (Z.ltb_spec x a); [constructor; [constructor; auto|]; constructor; auto; eapply Forall_impl; [|exact F]; simpl; lia|].
  destruct (Z.eqb_spec x a); [constructor; auto|]. constructor; auto. apply Forall_forall. intros y Hy.
  apply set_insert_in in Hy as [->|Hy]; [lia|]. rewrite Forall_forall in F. auto.
Qed.

Lemma set_erase_in x l y : In y (set_erase x l) <-> In y l /\ y <> x.
Proof. unfold set_erase. rewrite filter_In. destruct (Z.eqb_spec y x); simpl; intuition congruence. Qed.

Lemma filter_sorted (f : Z -> bool) l : StronglySorted Z.lt l -> StronglySorted Z.lt (filter f l).
Proof.
  induction 1 as [|a l H IH F]; simpl; [constructor|]. destruct (f a); [|exact IH]. constructor; auto.
  apply Forall_forall. intros y Hy. apply filter_In in Hy as [Hy _]. rewrite Forall_forall in F. auto.
Qed.

Lemma erase_all_in (l : list kf) : forall c y,
  In y (fold_left (fun c k => set_erase (kf_num k) c) l c) <-> In y c /\ ~ In y (map kf_num l).
Proof.
  induction l as [|k l IH]; intros c y; simpl; [tauto|]. rewrite IH, set_erase_in. intuition congruence.
Qed.
Lemma erase_all_sorted (l : list kf) : forall c, StronglySorted Z.lt c ->
  StronglySorted Z.lt (fold_left (fun c k => set_erase (kf_num k) c) l c).
Proof. induction l as [|k l IH]; intros c H; simpl; auto. apply IH, filter_sorted; auto. Qed.

Lemma map_insert_perm n (p : P) l : ~ In n (map fst l) -> Permutation (map_insert P n p l) ((n, p) :: l).
Proof.
  induction l as [|a l IH]; simpl; intros H; [reflexivity|]. destruct (Z.ltb_spec n (fst a)); [reflexivity|].
  destruct (Z.eqb_spec n (fst a)); [intuition congruence|]. rewrite IH by tauto. apply perm_swap.
Qed.

Lemma map_insert_sorted n (p : P) l : StronglySorted Z.lt (map fst l) -> StronglySorted Z.lt (map fst (map_insert P n p l)).
Proof.
  induction l as [|a l IH]; simpl; intros H; [repeat constructor|]. inversion H as [|? ? H1 H2]; subst.
  destruct (Z.ltb_spec n (fst a)).
  { simpl. constructor; auto. constructor; auto. eapply Forall_impl; [|exact H2]. simpl; lia. }
  destruct (Z.eqb_spec n (fst a)); [simpl; auto|]. simpl. constructor; [auto|].
  apply Forall_forall. intros y Hy. rewrite Forall_forall in H2.
  assert (G : forall l, In y (map fst (map_insert P n p l)) -> y = n \/ In y (map fst l)).
  { clear. induction l as [|b l IH]; simpl; [intuition congruence|]. destruct (n <? fst b); [simpl; intuition congruence|].
    destruct (n =? fst b); simpl; [tauto|]. intuition. }
  apply G in Hy as [->|Hy]; [lia|auto].
Qed.

Definition put1 pool (e : Z * P) := map_insert P (fst e) (snd e) pool.

Lemma pool_kf_puts pool (k : kf) : pool_kf P pmul pinv IP OP pool k = fold_left put1 (outs [k]) pool.
Proof.
  unfold pool_kf, out_frames. cbn [flat_map]. rewrite app_nil_r. cbn [fold_left]. 
  change (put1 pool (kf_num k, kf_pose k)) with (map_insert P (kf_num k) (kf_pose k) pool).
  generalize (map_insert P (kf_num k) (kf_pose k) pool). induction (kf_tracked k) as [|e t IH]; intros q; [reflexivity|].
  cbn [fold_left map]. apply IH.
Qed.

Lemma pool_puts (l : list kf) : forall pool, fold_left (pool_kf P pmul pinv IP OP) l pool = fold_left put1 (outs l) pool.
Proof.
  induction l as [|k l IH]; intros pool; [reflexivity|]. cbn [fold_left]. rewrite IH, pool_kf_puts, <- fold_left_app.
  rewrite <- outs_app. reflexivity.
Qed.

Lemma puts_spec es : forall pool, NoDup (map fst pool ++ map fst es) -> StronglySorted Z.lt (map fst pool) ->
  Permutation (fold_left put1 es pool) (pool ++ es) /\ StronglySorted Z.lt (map fst (fold_left put1 es pool)).
Proof.
  induction es as [|e es IH]; intros pool ND S; [simpl; rewrite app_nil_r; auto|]. cbn [fold_left].
  simpl in ND. assert (N1 : ~ In (fst e) (map fst pool)).
  { apply NoDup_remove_2 in ND. intros H. apply ND, in_app_iff; auto. }
  pose proof (map_insert_perm (fst e) (snd e) pool N1) as Pm. fold (put1 pool e) in Pm.
  destruct (IH (put1 pool e)) as [A B].
  - eapply Permutation_NoDup; [|exact ND]. rewrite <- Permutation_middle.
    change (fst e :: map fst pool ++ map fst es) with ((map fst ((fst e, snd e) :: pool)) ++ map fst es).
    apply Permutation_app_tail. apply Permutation_map, Permutation_sym, Pm.
  - apply map_insert_sorted; auto.
  - split; [|exact B]. rewrite A, Pm. destruct e. simpl. apply Permutation_middle.
Qed.

Lemma take_spec t pool : StronglySorted Z.lt (map fst pool) ->
  exists a b, take_below P t pool = (a, b) /\ pool = a ++ b /\
    (forall e, In e a -> fst e < t) /\ (forall e, In e b -> t <= fst e).
Proof.
  induction pool as [|e r IH]; simpl; intros H; [exists [], []; simpl; tauto|]. inversion H as [|? ? H1 H2]; subst.
  destruct (IH H1) as (a & b & A & B & C & D). rewrite A. destruct (Z.ltb_spec (fst e) t).
  - exists (e :: a), b. split; [reflexivity|]. split; [rewrite B; reflexivity|]. split; [|exact D].
    intros x [<-|Hx]; auto.
  - exists [], (e :: r). split; [reflexivity|]. split; [reflexivity|]. split; [intros ? []|].
    intros x [<-|Hx]; [auto|]. rewrite Forall_forall in H2. specialize (H2 (fst x) (in_map fst _ _ Hx)). lia.
Qed.

(** ** One flush *)
Notation tw := (tw P).
Definition all_of (w : tw) : list (Z * P) := tw_written w ++ tw_pool w.

Lemma marg_spec conv (w w' : tw) (l : list kf) :
  StronglySorted Z.lt (map fst (all_of w)) -> StronglySorted Z.lt (tw_cur w) ->
  NoDup (map fst (tw_pool w) ++ frames_of l) ->
  (forall x y, In x (map fst (tw_written w)) -> In y (frames_of l) -> x < y) ->
  tw_marg P pmul pinv IP OP conv w l = Ok w' ->
  StronglySorted Z.lt (map fst (all_of w')) /\ StronglySorted Z.lt (tw_cur w') /\
  Permutation (all_of w') (all_of w ++ outs l) /\
  (forall y, In y (tw_cur w') <-> In y (tw_cur w) /\ ~ In y (map kf_num l)) /\
  exists t a, (match tw_cur w' with [] => conv | x :: _ => Ok x end) = Ok t /\
    tw_written w' = tw_written w ++ a /\ (forall e, In e a -> fst e < t /\ In e (tw_pool w ++ outs l)) /\
    (forall e, In e (tw_pool w') -> t <= fst e).
Proof.
  intros S Sc ND Hlt H. unfold tw_marg in H.
  assert (S0 := S). unfold all_of in S. rewrite map_app in S. apply ss_app in S as (S1 & S2 & S3).
  rewrite pool_puts in H. destruct (puts_spec (outs l) (tw_pool w)) as [Pm So]; [rewrite outs_fst; exact ND|exact S2|].
  set (pool := fold_left put1 (outs l) (tw_pool w)) in *. clearbody pool.
  set (cur := fold_left _ l (tw_cur w)) in *.
  apply bind_ok_inv in H as (t & Ht & H). destruct (take_spec t pool So) as (a & b & E1 & E2 & E3 & E4).
  rewrite E1 in H. injection H as <-. unfold all_of. cbn [tw_cur tw_pool tw_written]. rewrite <- !app_assoc, <- E2.
  assert (HP : forall x, In x (map fst pool) -> In x (map fst (tw_pool w)) \/ In x (frames_of l)).
  { intros x Hx. apply in_app_iff. rewrite <- outs_fst, <- map_app. eapply Permutation_in; [apply Permutation_map, Pm|exact Hx]. }
  split. { rewrite map_app. apply ss_app. split; [auto|]. split; [auto|]. intros x y Hx Hy. apply HP in Hy as [Hy|Hy]; auto. }
  split. { apply erase_all_sorted; auto. }
  split. { apply Permutation_app_head, Pm. }
  split. { intros y. apply erase_all_in. }
  exists t, a. split; [exact Ht|]. split; [reflexivity|]. split; [|auto].
  intros e He. split; [auto|]. eapply Permutation_in; [exact Pm|]. rewrite E2. apply in_app_iff; auto.
Qed.

Lemma marg_ok v (w : tw) (l : list kf) : exists w', tw_marg P pmul pinv IP OP (Ok v) w l = Ok w'.
Proof.
  unfold tw_marg. destruct (fold_left _ l (tw_cur w)); cbn [bind]; destruct (take_below P _ _); eauto.
Qed.
End TW.

Section View.
Variables P : Type.
Variable pid : P.
Variable pmul : P -> P -> P.
Variable pinv : P -> P.
Variables IP OP : Type.
Variable promote : IP -> OP.
Variable ready : IP -> bool.
Variable s : dso_settings.
Variables obsA obsB : list nat.
Notation kf := (kf P IP OP).
Notation state := (state P IP OP).
Notation call := (call P IP OP).
Notation event := (event P IP OP).
Notation frame_in := (frame_in P IP OP).
Notation run := (run pid pmul pinv promote ready s).
Notation do_call := (do_call pid pmul pinv promote ready s).
Notation add_frame := (add_frame pid pmul pinv promote ready s).
Notation st0 := (init s obsA obsB : state).
Notation inv := (inv P IP OP s obsA obsB).
Implicit Types st : state.

Definition quiet (e : event) : Prop :=
  match e with EvNewFrame _ | EvPredict _ _ _ _ _ _ | EvTracked _ _ | EvInitialized _ => True | _ => False end.

(** What one call does to the window and to the log. *)
Inductive view st st' : Prop :=
| VQuiet tail : st_log st' = st_log st ++ tail -> Forall quiet tail ->
    map kf_num (st_kfs st') = map kf_num (st_kfs st) -> view st st'
| VInit k0 k1 : st_kfs st = [] -> st_log st = [] -> st_kfs st' = [k0; k1] -> kf_num k0 < kf_num k1 ->
    st_log st' = [EvInitialized (st_kfs st'); EvNewKf (if trackFromLastKf s then k1 else k0)] -> view st st'
| VPromote tail gone kept bk n : Forall quiet tail -> continueChoosing s = true -> st_kfs st <> [] ->
    map kf_num (gone ++ kept) = map kf_num (st_kfs st) ++ [n] ->
    map shape (gone ++ kept) = map shape (st_kfs st) ++ [(n, [])] ->
    st_log st' = st_log st ++ tail ++ (match gone with [] => [] | _ => [EvMarg gone] end) ++ [EvNewKf bk] ->
    map shape (st_kfs st') = map shape kept ->
    (if trackFromLastKf s then exists l, map kf_num kept = l ++ [kf_num bk]
     else exists l x, map kf_num kept = l ++ [kf_num bk; x]) ->
    (gone = [] \/ Z.of_nat (length kept) = maxKeyFrames s) -> view st st'.

Lemma marginalize_exact (l gone kept : list kf) : marginalize s l = (gone, kept) ->
  gone = [] \/ Z.of_nat (length kept) = maxKeyFrames s.
Proof.
  unfold marginalize. destruct (_ && _) eqn:E; intros H; injection H as <- <-; [|auto].
  right. rewrite skipn_length. lia.
Qed.

Lemma step_view cs st c st' : inv cs st -> do_call st c = Ok st' -> view st st'.
Proof.
  intros Hinv H. destruct c as [fi|o].
  2:{ injection H as <-. apply (VQuiet _ _ []); simpl; rewrite ?app_nil_r; auto. }
  cbn [DsoModel.do_call] in H. apply bind_ok_inv in H as ((x & r) & E & H). injection H as <-. cbn [fst].
  destruct (add_frame_cases _ _ _ _ _ _ _ _ _ _ _ _ _ _ _ _ Hinv E) as (st1 & Hb & Hlt & Hcase).
  destruct (begin_spec _ _ _ _ _ _ _ Hb) as (Hn & Hl & B1 & B2 & B3 & B4 & B5 & B6 & B7 & B8 & B9).
  destruct Hcase as [(Pw & L & -> & ->)|[(Pw & L & Hi & Hf)|(Pr & Ht)]].
  - apply (VQuiet _ _ []); rewrite ?app_nil_r; [auto|constructor|]. rewrite B4. reflexivity.
  - destruct Pw as (W1 & W2 & W3 & W4 & W5 & W6 & W7 & W8).
    destruct B9 as [(C1 & _)|[(C1 & C2 & C3 & C4 & C5)|(f & C1 & C2 & C3 & C4)]]; try congruence.
    assert (Hff : f < fi_num fi).
    { rewrite W7 in C2. destruct (numbers cs); [discriminate|]. injection C2 as ->. inversion Hlt; auto. }
    destruct (finish_spec _ _ _ _ _ _ _ _ _ _ _ (eq_trans B4 W3) C3 Hff Hf) as (m & imm0 & imm1 & F1 & F2 & F3 & F4 & F5 & F6 & _).
    rewrite B8, W4 in F6. eapply VInit; [exact W3|exact W4|exact F5| |exact F6]. simpl. exact Hff.
  - destruct (track_spec _ _ _ _ _ _ _ _ _ _ _ _ Ht) as (b & l & obs & pose & n1 & n2 & n3 & rest & need & st2 & Hb2 & Hl2 & Ht2 & Hp & Hrev & Hsz & -> & Hneed & I1 & I2 & I3 & I4 & I5 & I6 & I7 & I8 & I9 & I10 & Hc).
    rewrite B8 in I10. rewrite B4 in I9.
    assert (Hnum : map kf_num (st_kfs st2) = map kf_num (st_kfs st)).
    { rewrite I9. destruct need; unfold upd_kf; rewrite !map_map; apply map_ext; intros k; simpl; [reflexivity|]. destruct (_ =? _); reflexivity. }
    destruct Hc as [[Hc ->]|[Hc Hpr]].
    + eapply VQuiet; [exact I10| repeat constructor |exact Hnum].
    + apply andb_true_iff in Hc as [Hc Hneed1]. rewrite Hneed1 in I9.
      assert (Hsh : map shape (st_kfs st2) = map shape (st_kfs st)) by (rewrite I9, map_map; reflexivity).
      destruct (promote_spec _ _ _ _ _ _ _ _ _ _ _ _ _ Hpr) as (imm & gone & kept & kfs & bk & P1 & P2 & P3 & P4 & Q1 & Q2 & Q3 & Q4 & Q5 & Q6 & Q7 & Q8 & Q9).
      pose proof (marginalize_exact _ _ _ P2) as Hex. apply marginalize_app in P2.
      rewrite insert_kf_end in P2.
      2:{ simpl. intros k Hk. apply (in_map kf_num) in Hk. rewrite Hnum in Hk. apply in_map_iff in Hk as (k' & <- & Hk').
          destruct (inv_kf_nums _ _ _ _ _ _ _ _ Hinv Pr) as [_ Hin]. rewrite Forall_forall in Hlt. apply Hlt, Hin, in_app_iff; auto. }
      apply activate_skel in P3. apply skel_shape in P3. rewrite I10, <- app_assoc in Q8.
      eapply (VPromote _ _ _ gone kept bk (fi_num fi)); [ | exact Hc | | | | exact Q8 | | | exact Hex].
      * repeat constructor.
      * apply last_kf_inv in Hl2 as [l0 Hl2]. rewrite <- B4, Hl2. destruct l0; discriminate.
      * rewrite P2, map_app, Hnum. reflexivity.
      * rewrite P2, map_app, Hsh. reflexivity.
      * destruct Q9 as [(_ & -> & _)|(_ & _ & -> & _)]; [exact P3|]. rewrite map_map. exact P3.
      * rewrite <- (shape_num _ _ _ _ _ P3). unfold base_kf in P4. destruct (trackFromLastKf s).
        -- apply last_kf_inv in P4 as [l0 ->]. rewrite map_app. exists (map kf_num l0). reflexivity.
        -- apply lbo_kf_inv in P4 as (l0 & y & ->). rewrite map_app. exists (map kf_num l0), (kf_num y). reflexivity.
Qed.

(** ** Facts about the frames of a run *)
Notation hist := (history (firstFramesSkip s) (shiftBetweenKeyFrames s) (trackFromLastKf s) (continueChoosing s)).

Lemma history_tracked skip shift last cont nums : StronglySorted Z.lt nums ->
  forall k t x, In (k, t) (history skip shift last cont nums) -> In x t -> k < x.
Proof.
  induction nums as [|n nums IH] using rev_ind; [simpl; tauto|]. intros Hs. destruct (sorted_snoc _ _ Hs) as [Hs' Hl].
  specialize (IH Hs'). destruct (Nat.le_gt_cases (S (S (skip_count skip))) (length nums)) as [H|H].
  - rewrite history_snoc by lia. intros k t x Hk Hx.
    assert (Hb : forall k t, In (k, t) (history skip shift last cont nums) -> k < n).
    { intros k' t' Hk'. rewrite Forall_forall in Hl. apply Hl.
      destruct (history_hall skip shift last cont _ Hs') as [_ G]. apply G. unfold hall. apply in_flat_map. exists (k', t'). split; [auto|left; reflexivity]. }
    destruct (history skip shift last cont nums) as [|[k1 t1] h]; [destruct Hk|]. cbn [history_step] in Hk.
    destruct (due shift k1 n).
    { destruct cont; [|eauto]. destruct Hk as [Hk|Hk]; [injection Hk as <- <-; destruct Hx|eauto]. }
    destruct last.
    + destruct Hk as [Hk|Hk]; [|eapply IH; [right; eauto|auto]]. injection Hk as <- <-. apply in_app_iff in Hx as [Hx|[<-|[]]].
      * eapply IH; [left; reflexivity|auto].
      * eapply Hb; left; reflexivity.
    + destruct h as [|[k2 t2] h]; [eauto|]. destruct Hk as [Hk|[Hk|Hk]].
      * injection Hk as <- <-. eapply IH; [left; reflexivity|auto].
      * injection Hk as <- <-. apply in_app_iff in Hx as [Hx|[<-|[]]].
        -- eapply IH; [right; left; reflexivity|auto].
        -- eapply Hb; right; left; reflexivity.
      * eapply IH; [right; right; eauto|auto].
  - destruct (Nat.eq_dec (length nums) (S (skip_count skip))) as [E|E].
    + destruct nums as [|f r]; [simpl in E; discriminate|]. simpl in E. rewrite history_first by lia.
      intros k t x [Hk|[Hk|[]]] Hx; injection Hk as <- <-; destruct Hx.
    + rewrite history_early by (rewrite app_length; simpl; lia). intros k t x [].
Qed.

Definition facts st : Prop :=
  let l := reported (st_log st) ++ st_kfs st in
  NoDup (frames_of l) /\ (trackFromLastKf s = true -> StronglySorted Z.lt (frames_of l)) /\
  (forall k x, In k l -> In x (map fst (kf_tracked k)) -> kf_num k < x) /\
  StronglySorted Z.lt (map kf_num l).

Lemma inv_facts cs st : run cs st0 = Ok st -> facts st.
Proof.
  intros H. pose proof (all_reported _ _ _ _ _ _ _ _ _ _ _ _ _ H) as A. rewrite reported_destroy in A.
  destruct (accepted_sorted _ _ _ _ _ _ _ _ _ _ _ _ _ H) as [So _].
  unfold facts. set (l := reported (st_log st) ++ st_kfs st) in *. rewrite frames_hall, A. repeat split.
  - destruct (history_hall (firstFramesSkip s) (shiftBetweenKeyFrames s) (trackFromLastKf s) (continueChoosing s) _ So) as [ND _].
    eapply Permutation_NoDup; [apply Permutation_sym, hall_rev|exact ND].
  - intros Hl. rewrite Hl. apply flat_history; auto.
  - intros k x Hk Hx. apply (in_map shape) in Hk. rewrite A, <- in_rev in Hk.
    eapply history_tracked; [exact So|exact Hk|exact Hx].
  - pose proof (final_reported _ _ _ _ _ _ _ _ _ _ _ _ _ H) as [_ G]. rewrite reported_destroy in G. exact G.
Qed.

(** ** The invariant of the writer *)
Notation tw := (tw P).
Notation outs := (out_frames pmul pinv).
Notation trun conv := (tw_run pmul pinv conv).
Definition J st (w : tw) : Prop :=
  StronglySorted Z.lt (map fst (all_of P w)) /\ StronglySorted Z.lt (tw_cur w) /\
  Permutation (all_of P w) (outs (reported (st_log st))) /\
  (forall x y, In x (map fst (tw_written w)) -> In y (map kf_num (st_kfs st)) -> x < y) /\
  (forall y, In y (tw_cur w) -> In y (map kf_num (st_kfs st))) /\
  (if trackFromLastKf s then forall y, In y (tl (map kf_num (st_kfs st))) -> In y (tw_cur w)
   else forall y, In y (removelast (map kf_num (st_kfs st))) -> In y (tw_cur w)) /\
  (maxKeyFrames s <> 1 -> st_kfs st = [] \/ (2 <= length (st_kfs st))%nat).

Lemma trun_app conv (l1 l2 : list event) : trun conv (l1 ++ l2) =
  bind (trun conv l1) (ofold (tw_event P pmul pinv IP OP conv) l2).
Proof. apply ofold_app. Qed.

Lemma quiet_run conv tail : Forall quiet tail -> forall w, ofold (tw_event P pmul pinv IP OP conv) tail w = Ok w.
Proof. induction 1 as [|e l H F IH]; intros w; [reflexivity|]. cbn [ofold]. destruct e; try destruct H; apply IH. Qed.

Lemma quiet_reported (tail : list event) : Forall quiet tail -> reported tail = [].
Proof. induction 1 as [|e l H F IH]; [reflexivity|]. unfold reported in *. cbn [flat_map]. rewrite IH. destruct e; try destruct H; reflexivity. Qed.

Lemma in_frames (l : list kf) y : In y (frames_of l) <-> exists k, In k l /\ (y = kf_num k \/ In y (map fst (kf_tracked k))).
Proof.
  unfold frames_of. rewrite in_flat_map. split; intros (k & Hk & H); exists k; (split; [auto|]); simpl in *; intuition.
Qed.

Lemma num_frames (l : list kf) y : In y (map kf_num l) -> In y (frames_of l).
Proof. intros H. apply in_map_iff in H as (k & <- & Hk). apply in_frames. eauto. Qed.

Lemma shape_frames (l l' : list kf) : map shape l = map shape l' -> frames_of l = frames_of l'.
Proof. intros H. rewrite !frames_hall, H. reflexivity. Qed.

Notation ordered := (ordered s).

(** One promotion with a flush. *)
Lemma marg_step conv st st' w gone kept bk n : facts st' -> J st w -> ordered -> continueChoosing s = true ->
  st_kfs st <> [] -> gone <> [] ->
  map kf_num (gone ++ kept) = map kf_num (st_kfs st) ++ [n] ->
  reported (st_log st') = reported (st_log st) ++ gone ->
  map shape (st_kfs st') = map shape kept ->
  (if trackFromLastKf s then exists l, map kf_num kept = l ++ [kf_num bk]
   else exists l x, map kf_num kept = l ++ [kf_num bk; x]) ->
  Z.of_nat (length kept) = maxKeyFrames s ->
  (flush_free s -> exists w', tw_marg P pmul pinv IP OP conv w gone = Ok w') /\
  forall w', tw_marg P pmul pinv IP OP conv w gone = Ok w' -> J st' (tw_new_kf P IP OP w' bk).
Proof.
  intros F (J1 & J2 & J3 & J4 & J5 & J6 & J7) Ho Hc Hne Hg En Er Es Eb El.
  destruct F as (F1 & F2 & F3 & F4). rewrite Er, <- app_assoc in F1, F2, F3, F4.
  assert (En' : map kf_num (st_kfs st') = map kf_num kept) by (apply shape_num; exact Es).
  assert (Ef' : frames_of (st_kfs st') = frames_of kept) by (apply shape_frames; exact Es).
  assert (Hk : kept <> []).
  { intros ->. destruct (trackFromLastKf s); [destruct Eb as [l Eb]|destruct Eb as (l & x & Eb)]; destruct l; discriminate Eb. }
  destruct (exists_last Hk) as (kept0 & kl & Ekept).
  assert (Eold : map kf_num (st_kfs st) = map kf_num gone ++ map kf_num kept0).
  { rewrite Ekept, app_assoc, !map_app in En. apply app_inj_tail in En as [En _]. symmetry. exact En. }
  assert (Hgone : forall y, In y (map kf_num gone) -> In y (map kf_num (st_kfs st))) by (intros y Hy; rewrite Eold; apply in_app_iff; auto).
  rewrite !frames_app in F1. rewrite !map_app in F4. rewrite En' in F4. apply ss_app in F4 as (_ & F4 & _). apply ss_app in F4 as (F5 & F6 & F7).
  assert (Hmem : forall y, In y (map kf_num kept0) -> In y (tw_cur w) -> In y (tw_cur w) /\ ~ In y (map kf_num gone)).
  { intros y Hy Hc'. split; [auto|]. intros Hy2. specialize (F7 y y Hy2). rewrite Ekept, map_app in F7. specialize (F7 ltac:(apply in_app_iff; auto)). lia. }
  (* the oldest kept keyframe is registered *)
  assert (Hka : flush_free s -> exists y, In y (map kf_num kept0) /\ In y (tw_cur w)).
  { intros [Hx|[(Hx & Hm)|(Hx & Hm)]]; [congruence| |]; rewrite Hx in *.
    - assert (L2 : (2 <= length (st_kfs st))%nat) by (destruct (J7 Hm); [contradiction|auto]).
      assert (Hk0 : kept0 <> []). { intros ->. rewrite Ekept in El. simpl in El. lia. }
      destruct (exists_last Hk0) as (k1 & ky & Ek0). exists (kf_num ky). split; [rewrite Ek0, map_app; apply in_app_iff; right; left; reflexivity|].
      apply J6. rewrite Eold, Ek0, map_app, app_assoc. cbn [map].
      destruct (map kf_num gone ++ map kf_num k1) as [|z zs] eqn:Ez.
      { apply app_eq_nil in Ez as [Ez _]. destruct gone; [contradiction|discriminate]. }
      cbn [app tl]. apply in_app_iff. right; left; reflexivity.
    - destruct Eb as (l & x & Eb). rewrite Ekept, map_app in Eb.
      change (l ++ [kf_num bk; x]) with (l ++ [kf_num bk] ++ [x]) in Eb. rewrite app_assoc in Eb. apply app_inj_tail in Eb as [Eb _].
      assert (Ll : l <> []).
      { intros ->. assert (length kept = 2%nat); [|lia]. rewrite Ekept, app_length. apply (f_equal (@length _)) in Eb. rewrite map_length in Eb. simpl in *. lia. }
      destruct l as [|z zs]; [contradiction|]. exists z. split; [rewrite Eb; left; reflexivity|].
      apply J6. rewrite Eold, Eb, app_assoc, removelast_last. apply in_app_iff. right; left; reflexivity. }
  split.
  { intros Hff. destruct (Hka Hff) as (y & Hy1 & Hy2). unfold tw_marg.
    assert (Hcur : In y (fold_left (fun c k => set_erase (kf_num k) c) gone (tw_cur w))) by (apply erase_all_in; apply Hmem; auto).
    destruct (fold_left _ gone (tw_cur w)) as [|t c]; [destruct Hcur|]. cbn [bind]. destruct (take_below P t _). eauto. }
  intros w' Hw.
  destruct (marg_spec P pmul pinv IP OP conv w w' gone) as (M1 & M2 & M3 & M4 & t & a & T1 & T2 & T3 & T4); auto.
  - assert (ND : NoDup (map fst (all_of P w) ++ frames_of gone)).
    { rewrite app_assoc in F1. apply NoDup_app_l in F1.
      eapply Permutation_NoDup; [|exact F1]. rewrite <- (outs_fst P pmul pinv IP OP (reported _)). apply Permutation_app_tail.
      apply Permutation_map, Permutation_sym, J3. }
    unfold all_of in ND. rewrite map_app, <- app_assoc in ND. eapply NoDup_app_r; exact ND.
  - intros x y Hx Hy. apply in_frames in Hy as (k & Hk1 & Hy).
    assert (x < kf_num k) by (apply J4; [auto|apply Hgone, in_map; auto]).
    destruct Hy as [->|Hy]; [auto|]. assert (kf_num k < y); [|lia]. apply (F3 k y); [|auto]. rewrite !in_app_iff. auto.
  - unfold J, tw_new_kf, all_of. cbn [tw_cur tw_pool tw_written]. rewrite En'. repeat split.
    + exact M1.
    + apply set_insert_sorted; auto.
    + rewrite Er, outs_app. fold (all_of P w'). rewrite M3. apply Permutation_app_tail, J3.
    + intros x y Hx Hy. rewrite T2, map_app in Hx. apply in_app_iff in Hx as [Hx|Hx].
      * rewrite Ekept, map_app in Hy. apply in_app_iff in Hy as [Hy|Hy].
        -- apply J4; auto. rewrite Eold. apply in_app_iff; auto.
        -- destruct Hy as [<-|[]]. destruct gone as [|g0 gone]; [contradiction|].
           assert (x < kf_num g0) by (apply J4; [auto|apply Hgone; left; reflexivity]).
           assert (kf_num g0 < kf_num kl); [|lia]. apply F7; [left; reflexivity|]. rewrite Ekept, map_app. apply in_app_iff. right; left; reflexivity.
      * apply in_map_iff in Hx as (e & <- & He). destruct (T3 _ He) as [Tt Tin].
        destruct (trackFromLastKf s) eqn:Hlast.
        -- specialize (F2 eq_refl). rewrite !frames_app, Ef' in F2. rewrite app_assoc in F2. apply ss_app in F2 as (_ & _ & F2).
           apply F2; [|apply num_frames; auto]. apply (in_map fst) in Tin. rewrite map_app, outs_fst in Tin.
           apply in_app_iff. apply in_app_iff in Tin as [Tin|Tin]; [left|right; auto].
           rewrite <- (outs_fst P pmul pinv IP OP). eapply Permutation_in; [apply Permutation_map, J3|]. unfold all_of. rewrite map_app. apply in_app_iff; auto.
        -- destruct Hka as (z & Hz1 & Hz2). { right; right. split; auto. }
           assert (Hz3 : In z (tw_cur w')) by (apply M4; apply Hmem; auto).
           assert (Tz : t <= z).
           { destruct (tw_cur w') as [|t' c]; [destruct Hz3|]. injection T1 as ->. inversion M2 as [|? ? _ Fc]; subst.
             destruct Hz3 as [->|Hz3]; [lia|]. rewrite Forall_forall in Fc. specialize (Fc _ Hz3). lia. }
           (* z is the oldest kept keyframe only up to order: take the head *)
           destruct (map kf_num kept) as [|ka kr] eqn:Ekn; [destruct kept; [contradiction|discriminate]|].
           assert (Hka2 : In ka (tw_cur w')).
           { destruct Eb as (l & x & Eb). rewrite <- Ekn, Ekept, map_app in Eb.
             change (l ++ [kf_num bk; x]) with (l ++ [kf_num bk] ++ [x]) in Eb. rewrite app_assoc in Eb. apply app_inj_tail in Eb as [Eb Ex].
             assert (Ll : l <> []).
             { intros ->. assert (length kept = 2%nat); [|specialize (Ho Hc Hlast); lia]. rewrite Ekept, app_length. apply (f_equal (@length _)) in Eb. rewrite map_length in Eb. simpl in *. lia. }
             destruct l as [|z0 zs]; [contradiction|]. assert (z0 = ka). { rewrite Ekept, map_app, Eb in Ekn. simpl in Ekn. congruence. }
             subst z0. apply M4. apply Hmem; [rewrite Eb; left; reflexivity|].
             apply J6. rewrite Eold, Eb, app_assoc, removelast_last. apply in_app_iff. right; left; reflexivity. }
           assert (Tka : t <= ka).
           { destruct (tw_cur w') as [|t' c]; [destruct Hka2|]. injection T1 as ->. inversion M2 as [|? ? _ Fc]; subst.
             destruct Hka2 as [->|Hz4]; [lia|]. rewrite Forall_forall in Fc. specialize (Fc _ Hz4). lia. }
           destruct Hy as [<-|Hy]; [lia|]. inversion F6 as [|? ? _ Fc]; subst. rewrite Forall_forall in Fc. specialize (Fc _ Hy). lia.
    + intros y Hy. apply set_insert_in in Hy as [->|Hy].
      * destruct (trackFromLastKf s); [destruct Eb as [l ->]|destruct Eb as (l & x & ->)]; apply in_app_iff; right; left; reflexivity.
      * apply M4 in Hy as [Hy Hng]. apply J5 in Hy. rewrite Eold in Hy. apply in_app_iff in Hy as [Hy|Hy]; [contradiction|].
        rewrite Ekept, map_app. apply in_app_iff; auto.
    + destruct (trackFromLastKf s) eqn:Hlast.
      * intros y Hy. apply set_insert_in. destruct Eb as [l Eb]. rewrite Eb in Hy. rewrite Ekept, map_app in Eb. apply app_inj_tail in Eb as [Eb _].
        destruct l as [|z zs]; [destruct Hy|]. cbn [app tl] in Hy. apply in_app_iff in Hy as [Hy|[<-|[]]]; [right|auto].
        apply M4. apply Hmem; [rewrite Eb; right; auto|]. apply J6. rewrite Eold, Eb. destruct gone as [|g0 gone]; [contradiction|].
        cbn [map app tl]. apply in_app_iff. right; right; auto.
      * intros y Hy. apply set_insert_in. destruct Eb as (l & x & Eb). rewrite Eb in Hy.
        change (l ++ [kf_num bk; x]) with (l ++ [kf_num bk] ++ [x]) in *. rewrite app_assoc in *. rewrite removelast_last in Hy.
        rewrite Ekept, map_app in Eb. apply app_inj_tail in Eb as [Eb _].
        apply in_app_iff in Hy as [Hy|[<-|[]]]; [right|auto].
        apply M4. apply Hmem; [rewrite Eb; apply in_app_iff; auto|]. apply J6. rewrite Eold, Eb, app_assoc, removelast_last. apply in_app_iff; auto.
    + intros Hm. right. apply (f_equal (@length _)) in En'. rewrite !map_length in En'. rewrite En'.
      destruct kept; [contradiction|]. simpl in *. lia.
Qed.

Lemma J_init st : st_kfs st = [] -> st_log st = [] -> J st (tw_new P).
Proof.
  intros E1 E2. unfold J, tw_new, all_of. rewrite E1, E2. cbn. split; [constructor|]. split; [constructor|]. split; [constructor|].
  split; [tauto|]. split; [tauto|]. split; [destruct (trackFromLastKf s); tauto|]. auto.
Qed.

Lemma J_step conv cs st c st' : ordered -> run cs st0 = Ok st -> do_call st c = Ok st' ->
  (forall w, trun conv (st_log st) = Ok w -> J st w) ->
  ((exists v, conv = Ok v) \/ flush_free s -> is_ok (trun conv (st_log st)) -> is_ok (trun conv (st_log st'))) /\
  (forall w, trun conv (st_log st') = Ok w -> J st' w).
Proof.
  intros Ho H Hc HJ.
  assert (H' : run (cs ++ [c]) st0 = Ok st') by (rewrite run_snoc, H; exact Hc).
  pose proof (inv_facts _ _ H') as F'. pose proof (inv_run _ _ _ _ _ _ _ _ _ _ _ _ _ H) as Hinv.
  destruct (step_view _ _ _ _ Hinv Hc) as [tail V1 V2 V3|k0 k1 V1 V2 V3 V4 V5|tail gone kept bk n V1 V2 V3 V4 V5 V6 V7 V8 V9].
  - rewrite V1, trun_app. split.
    + intros _ [w Hw]. rewrite Hw. cbn [bind]. exists w. apply quiet_run; auto.
    + intros w Hw. apply bind_ok_inv in Hw as (w1 & Hw1 & Hw). rewrite quiet_run in Hw by auto. injection Hw as <-.
      destruct (HJ _ Hw1) as (J1 & J2 & J3 & J4 & J5 & J6 & J7). unfold J. rewrite V3. rewrite V1, reported_app, (quiet_reported tail) by auto.
      rewrite app_nil_r. split; [auto|]. split; [auto|]. split; [auto|]. split; [auto|]. split; [auto|]. split; [auto|].
      intros Hm. apply (f_equal (@length _)) in V3. rewrite !map_length in V3. rewrite V3. destruct (J7 Hm) as [E|E]; [left|auto].
      rewrite E in V3. destruct (st_kfs st'); [reflexivity|discriminate].
  - rewrite V5. split.
    + intros _ _. eexists. reflexivity.
    + intros w Hw. injection Hw as <-. unfold J, all_of, tw_new_kf, tw_new. cbn [tw_cur tw_pool tw_written]. rewrite V3, V5.
      cbn. split; [constructor|]. split; [repeat constructor|]. split; [constructor|]. split; [tauto|].
      split; [destruct (trackFromLastKf s); intuition|]. split; [destruct (trackFromLastKf s); intuition|]. intros _. right. lia.
  - assert (Er : reported (st_log st') = reported (st_log st) ++ gone).
    { rewrite V6, !reported_app, (quiet_reported tail) by auto. cbn [app]. f_equal. destruct gone; cbn; rewrite ?app_nil_r; reflexivity. }
    rewrite V6, trun_app. destruct gone as [|g0 gr] eqn:Eg.
    + (* nothing retired *)
      assert (Step : forall w, ofold (tw_event P pmul pinv IP OP conv) (tail ++ [] ++ [EvNewKf bk]) w = Ok (tw_new_kf P IP OP w bk)).
      { intros w. rewrite ofold_app, quiet_run by auto. reflexivity. }
      split.
      * intros _ [w Hw]. rewrite Hw. cbn [bind]. rewrite Step. eexists; reflexivity.
      * intros w Hw. apply bind_ok_inv in Hw as (w1 & Hw1 & Hw). rewrite Step in Hw. injection Hw as <-.
        destruct (HJ _ Hw1) as (J1 & J2 & J3 & J4 & J5 & J6 & J7). cbn [app] in V4.
        assert (En' : map kf_num (st_kfs st') = map kf_num kept) by (apply shape_num; exact V7).
        destruct F' as (_ & _ & _ & F4). rewrite Er, app_nil_r, map_app, En', V4 in F4.
        unfold J, tw_new_kf, all_of. cbn [tw_cur tw_pool tw_written]. rewrite En', Er, app_nil_r, V4. rewrite V4 in V8.
        split; [auto|]. split; [apply set_insert_sorted; auto|]. split; [auto|]. split.
        { intros x y Hx Hy. apply in_app_iff in Hy as [Hy|[<-|[]]]; [auto|].
          apply ss_app in F4 as (_ & F4 & _). apply ss_app in F4 as (_ & _ & F4). destruct (st_kfs st) as [|q qs] eqn:Eq; [contradiction|].
          assert (x < kf_num q) by (apply J4; [auto|left; reflexivity]). specialize (F4 (kf_num q) n ltac:(left; reflexivity) ltac:(left; reflexivity)). lia. }
        split.
        { intros y Hy. apply set_insert_in in Hy as [->|Hy]; [|apply in_app_iff; auto].
          destruct (trackFromLastKf s); [destruct V8 as [l ->]|destruct V8 as (l & x & ->)]; apply in_app_iff; right; left; reflexivity. }
        split.
        { destruct (trackFromLastKf s).
          - destruct V8 as [l V8]. apply app_inj_tail in V8 as [V8 V8']. intros y Hy. apply set_insert_in.
            destruct (map kf_num (st_kfs st)) as [|z zs]; [destruct Hy|]. cbn [app tl] in Hy. apply in_app_iff in Hy as [Hy|[<-|[]]]; [right; apply J6; auto|left; auto].
          - destruct V8 as (l & x & V8). change (l ++ [kf_num bk; x]) with (l ++ [kf_num bk] ++ [x]) in V8. rewrite app_assoc in V8.
            apply app_inj_tail in V8 as [V8 V8']. intros y Hy. rewrite removelast_last in Hy. apply set_insert_in. rewrite V8 in Hy, J6.
            apply in_app_iff in Hy as [Hy|[<-|[]]]; [right|auto]. apply J6. rewrite removelast_last. auto. }
        { intros _. right. apply (f_equal (@length _)) in En'. rewrite V4, app_length, !map_length in En'. rewrite En'.
          destruct (st_kfs st); [contradiction|]. simpl. lia. }
    + rewrite <- Eg in *. assert (Hg : gone <> []) by (rewrite Eg; discriminate).
      assert (El : Z.of_nat (length kept) = maxKeyFrames s) by (destruct V9; [contradiction|auto]).
      replace (match gone with [] => [] | _ => [EvMarg gone] end) with [@EvMarg P IP OP gone] by (destruct gone; [contradiction|reflexivity]).
      assert (Step : forall w, ofold (tw_event P pmul pinv IP OP conv) (tail ++ [EvMarg gone] ++ [EvNewKf bk]) w =
        bind (tw_marg P pmul pinv IP OP conv w gone) (fun w' => Ok (tw_new_kf P IP OP w' bk))).
      { intros w. rewrite ofold_app, quiet_run by auto. cbn. destruct (tw_marg P pmul pinv IP OP conv w gone); reflexivity. }
      split.
      * intros Hs [w Hw]. rewrite Hw. cbn [bind]. rewrite Step.
        destruct (marg_step conv _ _ _ _ _ bk _ F' (HJ _ Hw) Ho V2 V3 Hg V4 Er V7 V8 El) as [M _].
        assert (Hm : exists w', tw_marg P pmul pinv IP OP conv w gone = Ok w').
        { destruct Hs as [[v ->]|Hs]; [apply marg_ok|auto]. }
        destruct Hm as [w' ->]. eexists; reflexivity.
      * intros w Hw. apply bind_ok_inv in Hw as (w1 & Hw1 & Hw). rewrite Step in Hw. apply bind_ok_inv in Hw as (w2 & Hw2 & Hw). injection Hw as <-.
        destruct (marg_step conv _ _ _ _ _ bk _ F' (HJ _ Hw1) Ho V2 V3 Hg V4 Er V7 V8 El) as [_ M]. auto.
Qed.

Lemma J_run conv cs st : ordered -> run cs st0 = Ok st ->
  ((exists v, conv = Ok v) \/ flush_free s -> is_ok (trun conv (st_log st))) /\
  (forall w, trun conv (st_log st) = Ok w -> J st w).
Proof.
  intros Ho. revert cs st.
  apply (run_ind2 P pid pmul pinv IP OP promote ready s obsA obsB (fun cs st =>
    ((exists v, conv = Ok v) \/ flush_free s -> is_ok (trun conv (st_log st))) /\
    (forall w, trun conv (st_log st) = Ok w -> J st w))).
  - split; [intros _; eexists; reflexivity|]. intros w Hw. injection Hw as <-. apply J_init; reflexivity.
  - intros cs st c st' H _ [A B] Hc _. destruct (J_step conv cs st c st' Ho H Hc B) as [C D]. split; auto.
Qed.

(** ** C19 *)
Lemma destroy_spec conv cs st w : ordered -> run cs st0 = Ok st -> trun conv (destroy st) = Ok w ->
  StronglySorted Z.lt (map fst (all_of P w)) /\ Permutation (all_of P w) (outs (reported (destroy st))) /\
  exists v, conv = Ok v /\ (forall e, In e (tw_pool w) -> v <= fst e) /\
    exists w1, trun conv (st_log st) = Ok w1 /\ J st w1 /\
      exists a, tw_written w = tw_written w1 ++ a /\ (forall e, In e a -> fst e < v).
Proof.
  intros Ho H Hw. unfold destroy in Hw. rewrite trun_app in Hw. apply bind_ok_inv in Hw as (w1 & Hw1 & Hw).
  cbn [ofold tw_event] in Hw. apply bind_ok_inv in Hw as (w2 & Hw2 & Hw). injection Hw as <-.
  destruct (J_run conv _ _ Ho H) as [_ Hj]. pose proof (Hj _ Hw1) as HJ. pose proof HJ as (J1 & J2 & J3 & J4 & J5 & J6 & J7).
  destruct (inv_facts _ _ H) as (F1 & F2 & F3 & F4).
  destruct (marg_spec P pmul pinv IP OP conv w1 w2 (st_kfs st)) as (M1 & M2 & M3 & M4 & t & a & T1 & T2 & T3 & T4); auto.
  - assert (ND : NoDup (map fst (all_of P w1) ++ frames_of (st_kfs st))).
    { rewrite frames_app in F1. eapply Permutation_NoDup; [|exact F1]. rewrite <- (outs_fst P pmul pinv IP OP (reported _)).
      apply Permutation_app_tail, Permutation_map, Permutation_sym, J3. }
    unfold all_of in ND. rewrite map_app, <- app_assoc in ND. eapply NoDup_app_r; exact ND.
  - intros x y Hx Hy. apply in_frames in Hy as (k & Hk & Hy). assert (x < kf_num k) by (apply J4; [auto|apply in_map; auto]).
    destruct Hy as [->|Hy]; [auto|]. assert (kf_num k < y); [|lia]. apply (F3 k y); [apply in_app_iff; auto|auto].
  - split; [exact M1|]. rewrite reported_destroy, outs_app. split; [rewrite M3; apply Permutation_app_tail, J3|].
    assert (Ec : tw_cur w2 = []). { destruct (tw_cur w2) as [|y c] eqn:E; [reflexivity|]. exfalso.
      destruct (proj1 (M4 y) (or_introl eq_refl)) as [A B]. apply B, J5, A. }
    rewrite Ec in T1. exists t. split; [exact T1|]. split; [auto|]. exists w1. split; [auto|]. split; [exact HJ|].
    exists a. split; [auto|]. intros e He. apply T3; auto.
Qed.

Lemma app_sorted_l (l1 l2 : list (Z * P)) : StronglySorted Z.lt (map fst (l1 ++ l2)) -> StronglySorted Z.lt (map fst l1).
Proof. rewrite map_app. intros H. apply ss_app in H. tauto. Qed.

Theorem written_increasing v cs st : ordered -> run cs st0 = Ok st -> forall log, log = st_log st \/ log = destroy st ->
  exists w, trun (Ok v) log = Ok w /\ StronglySorted Z.lt (map fst (tw_written w)) /\
    (forall e, In e (tw_written w) -> In e (outs (reported log))).
Proof.
  intros Ho H log Hlog. destruct (J_run (Ok v) _ _ Ho H) as [A B]. destruct (A ltac:(left; eauto)) as [w1 Hw1].
  pose proof (B _ Hw1) as HJ. destruct Hlog as [->| ->].
  - exists w1. destruct HJ as (J1 & J2 & J3 & _). split; [auto|]. split; [eapply app_sorted_l; exact J1|].
    intros e He. eapply Permutation_in; [exact J3|]. apply in_app_iff; auto.
  - assert (E : exists w, trun (Ok v) (destroy st) = Ok w).
    { unfold destroy. rewrite trun_app, Hw1. cbn. destruct (marg_ok P pmul pinv IP OP v w1 (st_kfs st)) as [w ->]. eexists; reflexivity. }
    destruct E as [w Hw]. exists w. split; [auto|]. destruct (destroy_spec _ _ _ _ Ho H Hw) as (D1 & D2 & _).
    split; [eapply app_sorted_l; exact D1|]. intros e He. eapply Permutation_in; [exact D2|]. apply in_app_iff; auto.
Qed.

Theorem no_early_flush cs st : flush_free s -> run cs st0 = Ok st -> is_ok (trun inf_to_int (st_log st)).
Proof.
  intros Hf H. assert (Ho : ordered). { intros Hc Hl. destruct Hf as [Hf|[[Hf _]|[_ Hf]]]; congruence. }
  apply (proj1 (J_run inf_to_int _ _ Ho H)). auto.
Qed.

(** What the faithful conversion produces is what any conversion value produces. *)
Lemma conv_mono v log : forall w w', ofold (tw_event P pmul pinv IP OP inf_to_int) log w = Ok w' ->
  ofold (tw_event P pmul pinv IP OP (Ok v)) log w = Ok w'.
Proof.
  induction log as [|e log IH]; intros w w'; cbn [ofold]; [auto|]. intros H.
  apply bind_ok_inv in H as (w1 & A & B).
  assert (A' : tw_event P pmul pinv IP OP (Ok v) w e = Ok w1).
  { destruct e; cbn [tw_event] in *; auto; unfold tw_marg in *; destruct (fold_left _ _ _); auto; cbn [bind inf_to_int] in A; discriminate. }
  rewrite A'. cbn [bind]. auto.
Qed.

Theorem faithful_before_shutdown cs st : flush_free s -> run cs st0 = Ok st ->
  exists w, trun inf_to_int (st_log st) = Ok w /\ StronglySorted Z.lt (map fst (tw_written w)) /\
    (forall e, In e (tw_written w) -> In e (outs (reported (st_log st)))).
Proof.
  intros Hf H. destruct (no_early_flush _ _ Hf H) as [w Hw]. exists w. split; [exact Hw|].
  assert (Ho : ordered). { intros Hc Hl. destruct Hf as [Hf|[[Hf _]|[_ Hf]]]; congruence. }
  destruct (written_increasing 0 _ _ Ho H _ (or_introl eq_refl)) as (w' & A & B & C).
  unfold tw_run in Hw. apply (conv_mono 0) in Hw. unfold tw_run in A. rewrite Hw in A. injection A as <-. auto.
Qed.

(** ** C20 *)
Theorem complete_at_shutdown v cs st : ordered -> run cs st0 = Ok st ->
  (forall n, In n (numbers cs) -> n < v) ->
  exists w, trun (Ok v) (destroy st) = Ok w /\ Permutation (tw_written w) (outs (reported (destroy st))) /\
    StronglySorted Z.lt (map fst (tw_written w)).
Proof.
  intros Ho H Hv. destruct (written_increasing v _ _ Ho H _ (or_intror eq_refl)) as (w & Hw & A & B).
  exists w. split; [auto|]. destruct (destroy_spec _ _ _ _ Ho H Hw) as (D1 & D2 & v' & Ev & D3 & _). injection Ev as <-.
  assert (Ep : tw_pool w = []).
  { destruct (tw_pool w) as [|e r] eqn:E; [reflexivity|]. exfalso. specialize (D3 e (or_introl eq_refl)).
    assert (Hin : In e (outs (reported (destroy st)))).
    { eapply Permutation_in; [exact D2|]. unfold all_of. rewrite E. apply in_app_iff. right; left; reflexivity. }
    apply (in_map fst) in Hin. rewrite outs_fst, frames_hall in Hin.
    rewrite (all_reported _ _ _ _ _ _ _ _ _ _ _ _ _ H) in Hin. apply (Permutation_in _ (hall_rev _)) in Hin.
    destruct (accepted_sorted _ _ _ _ _ _ _ _ _ _ _ _ _ H) as [So _].
    apply (history_hall _ _ _ _ _ So) in Hin. specialize (Hv _ Hin). lia. }
  unfold all_of in D2. rewrite Ep, app_nil_r in D2. auto.
Qed.

Theorem nothing_at_shutdown v cs st : ordered -> run cs st0 = Ok st ->
  (forall n, In n (numbers cs) -> v <= n) ->
  exists w1 w, trun (Ok v) (st_log st) = Ok w1 /\ trun (Ok v) (destroy st) = Ok w /\ tw_written w = tw_written w1.
Proof.
  intros Ho H Hv. destruct (written_increasing v _ _ Ho H _ (or_intror eq_refl)) as (w & Hw & A & B).
  destruct (destroy_spec _ _ _ _ Ho H Hw) as (D1 & D2 & v' & Ev & D3 & w1 & Hw1 & _ & a & Ea & Ha). injection Ev as <-.
  exists w1, w. split; [auto|]. split; [auto|]. destruct a as [|e a]; [rewrite Ea, app_nil_r; reflexivity|].
  exfalso. specialize (Ha e (or_introl eq_refl)).
  assert (Hin : In e (outs (reported (destroy st)))) by (apply B; rewrite Ea; apply in_app_iff; right; left; reflexivity).
  apply (in_map fst) in Hin. rewrite outs_fst, frames_hall in Hin.
  rewrite (all_reported _ _ _ _ _ _ _ _ _ _ _ _ _ H) in Hin. apply (Permutation_in _ (hall_rev _)) in Hin.
  destruct (accepted_sorted _ _ _ _ _ _ _ _ _ _ _ _ _ H) as [So _].
  apply (history_hall _ _ _ _ _ So) in Hin. specialize (Hv _ Hin). lia.
Qed.

Lemma cur_held conv cs st : run cs st0 = Ok st -> forall w, trun conv (st_log st) = Ok w ->
  forall y, In y (tw_cur w) -> In y (map kf_num (st_kfs st)).
Proof.
  revert cs st. apply (run_ind2 P pid pmul pinv IP OP promote ready s obsA obsB (fun cs st =>
    forall w, trun conv (st_log st) = Ok w -> forall y, In y (tw_cur w) -> In y (map kf_num (st_kfs st)))).
  - intros w Hw. injection Hw as <-. intros y [].
  - intros cs st c st' H Hinv IH Hc _ w Hw y Hy.
    destruct (step_view _ _ _ _ Hinv Hc) as [tail V1 V2 V3|k0 k1 V1 V2 V3 V4 V5|tail gone kept bk n V1 V2 V3 V4 V5 V6 V7 V8 V9].
    + rewrite V1, trun_app in Hw. apply bind_ok_inv in Hw as (w1 & Hw1 & Hw). rewrite quiet_run in Hw by auto. injection Hw as <-.
      rewrite V3. eauto.
    + rewrite V5 in Hw. injection Hw as <-. cbn in Hy. destruct Hy as [<-|[]]. rewrite V3. destruct (trackFromLastKf s); simpl; auto.
    + rewrite (shape_num _ _ _ _ _ V7). rewrite V6, trun_app in Hw. apply bind_ok_inv in Hw as (w1 & Hw1 & Hw).
      rewrite ofold_app, quiet_run in Hw by auto. cbn [bind] in Hw.
      assert (Hbk : In (kf_num bk) (map kf_num kept)).
      { destruct (trackFromLastKf s); [destruct V8 as [l ->]|destruct V8 as (l & x & ->)]; apply in_app_iff; right; left; reflexivity. }
      assert (Hold : forall z, In z (tw_cur w1) -> ~ In z (map kf_num gone) -> In z (map kf_num kept)).
      { intros z Hz Hng. assert (Hz' : In z (map kf_num (gone ++ kept))) by (rewrite V4; apply in_app_iff; left; eauto).
        rewrite map_app in Hz'. apply in_app_iff in Hz' as [Hz'|Hz']; [contradiction|auto]. }
      destruct gone as [|g0 gr] eqn:Eg.
      * injection Hw as <-. cbn in Hy. apply set_insert_in in Hy as [->|Hy]; [auto|]. apply Hold; auto.
      * rewrite <- Eg in *. cbn [app ofold] in Hw. apply bind_ok_inv in Hw as (w2 & Hw2 & Hw). cbn in Hw. injection Hw as <-.
        cbn in Hy. apply set_insert_in in Hy as [->|Hy]; [auto|].
        cbn [tw_event] in Hw2. unfold tw_marg in Hw2. apply bind_ok_inv in Hw2 as (t & Ht & Hw2).
        destruct (take_below P t _). injection Hw2 as <-. cbn [tw_cur] in Hy. apply erase_all_in in Hy as [Hy1 Hy2]. auto.
Qed.

Theorem shutdown_undefined cs st : run cs st0 = Ok st -> trun inf_to_int (destroy st) = UB.
Proof.
  intros H. unfold destroy. rewrite trun_app.
  assert (Abn : forall log w, ofold (tw_event P pmul pinv IP OP inf_to_int) log w = UB \/
    exists w', ofold (tw_event P pmul pinv IP OP inf_to_int) log w = Ok w').
  { assert (M : forall w l, tw_marg P pmul pinv IP OP inf_to_int w l = UB \/ exists w', tw_marg P pmul pinv IP OP inf_to_int w l = Ok w').
    { intros w l. unfold tw_marg. destruct (fold_left _ l (tw_cur w)); cbn [bind]; [left; reflexivity|]. destruct (take_below P _ _). eauto. }
    induction log as [|e log IH]; intros w; [right; eexists; reflexivity|]. cbn [ofold].
    destruct e; cbn [tw_event]; try apply IH; destruct (M w l) as [->|[w' ->]]; cbn [bind]; auto. }
  destruct (Abn (st_log st) (tw_new P)) as [E|[w1 Hw1]]; [unfold tw_run; rewrite E; reflexivity|].
  unfold tw_run at 1. rewrite Hw1. cbn [bind ofold tw_event]. 
  pose proof (cur_held inf_to_int _ _ H w1 Hw1) as Hcur.
  unfold tw_marg. destruct (fold_left _ (st_kfs st) (tw_cur w1)) as [|y c] eqn:E; [reflexivity|].
  exfalso. assert (Hy : In y (y :: c)) by (left; reflexivity). rewrite <- E in Hy. apply erase_all_in in Hy as [A B]. auto.
Qed.
End View.
