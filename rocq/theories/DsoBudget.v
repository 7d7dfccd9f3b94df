(** The budget of optimised points (C09) and absence of abnormal outcomes (C65). *)
From Coq Require Import List ZArith Bool Lia Permutation Sorting.Sorted ZifyBool.
From Verif Require Import Outcome Dbl DsoModel DsoSpec DsoHistory DsoProofs DsoActivate.
Import ListNotations.
Open Scope Z_scope.

Section Budget.
Variables P : Type.
Variable pid : P.
Variable pmul : P -> P -> P.
Variable pinv : P -> P.
Variables IP OP : Type.
Variable promote : IP -> OP.
Variable ready : IP -> bool.
Variable s : dso_settings.
Variables obsA obsB : list nat.
Notation kf := (kf P IP OP).
Notation state := (state P IP OP).
Notation call := (call P IP OP).
Notation frame_in := (frame_in P IP OP).
Notation run := (run pid pmul pinv promote ready s).
Notation do_call := (do_call pid pmul pinv promote ready s).
Notation add_frame := (add_frame pid pmul pinv promote ready s).
Notation promote_kf := (promote_kf pmul pinv promote ready s).
Notation track_frame := (track_frame pmul pinv promote ready s).
Notation finish_init := (finish_init pid pinv s).
Notation st0 := (init s obsA obsB : state).
Notation sk := (skip_count (firstFramesSkip s)).
Notation inv := (inv P IP OP s obsA obsB).
Notation phase_run := (phase_run P IP OP s).
Notation phase_wait := (phase_wait P IP OP s).
Implicit Types st : state.

Lemma opt_count_app (l1 l2 : list kf) : opt_count (l1 ++ l2) = opt_count l1 + opt_count l2.
Proof. unfold opt_count. induction l1; simpl; lia. Qed.
Lemma opt_count_nonneg (l : list kf) : 0 <= opt_count l.
Proof. unfold opt_count. induction l; simpl; lia. Qed.
Lemma opt_count_ext (l l' : list kf) : map (fun k => length (kf_opt k)) l = map (fun k => length (kf_opt k)) l' -> opt_count l = opt_count l'.
Proof.
  revert l'. induction l as [|k l IH]; intros [|k' l'] H; simpl in H; try discriminate; [reflexivity|].
  injection H as H1 H2. unfold opt_count in *. simpl. rewrite H1, (IH _ H2). reflexivity.
Qed.

(** Only the number of successful steps matters for the budget. *)
Lemma activate_one_count pos (l l' : list kf) i : NoDup (map kf_num l) ->
  activate_one promote pos l i = Ok l' -> opt_count l' = opt_count l + 1.
Proof.
  intros ND. unfold activate_one. destruct (nth_error pos i) as [[n ind]|]; [|discriminate].
  destruct (find (fun k => kf_num k =? n) l) as [k|] eqn:Ef; [|discriminate].
  destruct (nth_error (kf_imm k) ind) as [ip|]; [|discriminate]. intros H. inv_bind. injection H as <-.
  apply find_some in Ef as [Hin Hn]. apply Z.eqb_eq in Hn. subst n. apply in_split in Hin as (l1 & l2 & ->).
  rewrite upd_kf_at by exact ND. rewrite !opt_count_app. unfold opt_count at 2 4. simpl. rewrite app_length. simpl. lia.
Qed.

Lemma ofold_count pos is (l l' : list kf) : NoDup (map kf_num l) ->
  ofold (activate_one promote pos) is l = Ok l' -> opt_count l' = opt_count l + Z.of_nat (length is).
Proof.
  revert l. induction is as [|i is IH]; intros l ND H; simpl in H.
  - injection H as <-. simpl. lia.
  - inv_bind. rewrite (IH _ ltac:(rewrite (shape_num _ _ _ _ _ (skel_shape _ _ _ _ _ (activate_one_skel _ _ _ _ _ _ _ _ E))); exact ND) H).
    rewrite (activate_one_count _ _ _ _ ND E). simpl length. lia.
Qed.

Lemma activate_count (fi : frame_in) (l l' : list kf) : NoDup (map kf_num l) -> choice_ok fi -> sort_ok fi ->
  opt_count l <= maxOptimizedPoints s ->
  activate promote ready s fi l = Ok l' -> opt_count l' <= maxOptimizedPoints s.
Proof.
  intros ND Hc Hs Hb H. unfold activate in H. inv_bind. rewrite (ofold_count _ _ _ _ ND H).
  assert (H0 : 0 <= maxOptimizedPoints s - opt_count l) by lia.
  destruct (Hc _ _ _ H0 E) as (_ & _ & Hl).
  destruct (Hs (ready_positions ready l) x) as [Pm _]. rewrite <- (Permutation_length Pm). lia.
Qed.

Lemma kept_nodup cs st (fi : frame_in) bp btt imm gone kept : inv cs st -> phase_run cs st ->
  Forall (fun x => x < fi_num fi) (numbers cs) ->
  forall l, map kf_num l = map kf_num (st_kfs st) ->
  marginalize s (insert_kf (new_kf _ pmul pinv IP OP (fi_num fi) bp btt imm) l) = (gone, kept) ->
  NoDup (map kf_num kept) /\ gone ++ kept = l ++ [new_kf _ pmul pinv IP OP (fi_num fi) bp btt imm].
Proof.
  intros Hinv Pr Hlt l El Hm. destruct (inv_kf_nums _ _ _ _ _ _ _ _ Hinv Pr) as [ND IN].
  apply marginalize_app in Hm. rewrite insert_kf_end in Hm.
  2:{ intros x Hx. simpl. apply (in_map kf_num) in Hx. rewrite El in Hx. apply in_map_iff in Hx as (y & <- & Hy).
      rewrite Forall_forall in Hlt. apply Hlt, IN. apply in_app_iff; auto. }
  split; [|exact Hm].
  assert (ND2 : NoDup (map kf_num (gone ++ kept))).
  { rewrite Hm, map_app, El. simpl. rewrite map_app in ND.
    apply NoDup_app_intro; [eapply NoDup_app_r; eauto|repeat constructor; simpl; tauto|].
    intros x Hx [E|[]]. subst x. apply in_map_iff in Hx as (y & Ey & Hy). rewrite Forall_forall in Hlt.
    assert (kf_num y < fi_num fi). { apply Hlt, IN. apply in_app_iff; auto. } lia. }
  rewrite map_app in ND2. eapply NoDup_app_r; eauto.
Qed.

(** C09 *)
Theorem budget cs st : 0 <= maxOptimizedPoints s ->
  calls_ok (fun fi => choice_ok fi /\ sort_ok fi /\ ba_ok fi) cs ->
  run cs st0 = Ok st -> opt_count (st_kfs st) <= maxOptimizedPoints s.
Proof.
  intros Hm Hok Hrun. revert Hok. revert cs st Hrun.
  apply (run_ind2 P pid pmul pinv IP OP promote ready s obsA obsB (fun cs st => calls_ok (fun fi => choice_ok fi /\ sort_ok fi /\ ba_ok fi) cs -> opt_count (st_kfs st) <= maxOptimizedPoints s)).
  - intros _. simpl. exact Hm.
  - intros cs st c st' _ Hinv Q H Hinv' Hok. destruct c as [fi|o].
    2:{ injection H as <-. apply Q. intros fi Hin. apply Hok, in_app_iff; auto. }
    cbn [DsoModel.do_call] in H. inv_bind. destruct x as [x r]. injection H as <-. cbn [fst] in *.
    assert (Q0 : opt_count (st_kfs st) <= maxOptimizedPoints s) by (apply Q; intros fi' Hin; apply Hok, in_app_iff; auto).
    destruct (Hok fi) as (Hch & Hso & Hba). { apply in_app_iff. right. left. reflexivity. }
    destruct (add_frame_cases _ _ _ _ _ _ _ _ _ _ _ _ _ _ _ _ Hinv E) as (st1 & Hb & Hlt & Hcase).
    destruct (begin_spec _ _ _ _ _ _ _ Hb) as (Hn & Hl & B1 & B2 & B3 & B4 & B5 & B6 & B7 & B8 & B9).
    destruct Hcase as [(Pw & L & -> & ->)|[(Pw & L & Hi & Hf)|(Pr & Ht)]].
    + rewrite B4. exact Q0.
    + destruct Pw as (W1 & W2 & W3 & W4 & W5 & W6 & W7 & W8).
      destruct B9 as [(C1 & _)|[(C1 & C2 & C3 & C4 & C5)|(f & C1 & C2 & C3 & C4)]]; try congruence.
      assert (Hff : f < fi_num fi).
      { rewrite W7 in C2. destruct (numbers cs); [discriminate|]. injection C2 as ->. inversion Hlt; auto. }
      destruct (finish_spec _ _ _ _ _ _ _ _ _ _ _ (eq_trans B4 W3) C3 Hff Hf) as (m & imm0 & imm1 & F1 & F2 & F3 & F4 & F5 & F6).
      rewrite F5. unfold opt_count. simpl. exact Hm.
    + destruct (track_spec _ _ _ _ _ _ _ _ _ _ _ _ Ht) as (b & l & obs & pose & n1 & n2 & n3 & rest & need & st2 & Hb2 & Hl2 & Ht2 & Hp & Hrev & Hsz & -> & Hneed & I1 & I2 & I3 & I4 & I5 & I6 & I7 & I8 & I9 & I10 & Hc).
      assert (C2 : opt_count (st_kfs st2) = opt_count (st_kfs st)).
      { apply opt_count_ext. rewrite I9, B4. destruct need; unfold upd_kf; rewrite !map_map; [reflexivity|].
        apply map_ext. intros k. simpl. destruct (kf_num k =? kf_num b); reflexivity. }
      destruct Hc as [[Hc ->]|[Hc Hpr]]; [lia|].
      destruct (promote_spec _ _ _ _ _ _ _ _ _ _ _ _ _ Hpr) as (imm & gone & kept & kfs & bk & P1 & P2 & P3 & P4 & Q1 & Q2 & Q3 & Q4 & Q5 & Q6 & Q7 & Q8 & Q9).
      apply andb_prop in Hc as [Hc1 Hc2]. rewrite Hc2 in I9.
      destruct (kept_nodup cs st fi (kf_pose b) pose imm gone kept Hinv Pr Hlt (st_kfs st2)) as [NDk Hgk].
      { rewrite I9, B4, map_map. reflexivity. }
      { exact P2. }
      assert (Ck : opt_count kept <= maxOptimizedPoints s).
      { assert (opt_count (gone ++ kept) = opt_count (st_kfs st2) + 0) by (rewrite Hgk, opt_count_app; reflexivity).
        rewrite opt_count_app in H. pose proof (opt_count_nonneg gone). lia. }
      pose proof (activate_count _ _ _ NDk Hch Hso Ck P3) as Ca.
      destruct Q9 as [(_ & -> & _)|(_ & _ & -> & _)]; [exact Ca|].
      erewrite opt_count_ext; [exact Ca|]. rewrite map_map. apply map_ext. intros k. simpl. apply Hba.
Qed.

(** ** C65 *)
Lemma marginalize_keeps (l gone kept : list kf) : marginalize s l = (gone, kept) -> 1 <= maxKeyFrames s ->
  Z.of_nat (length kept) = Z.min (maxKeyFrames s) (Z.of_nat (length l)).
Proof.
  unfold marginalize. intros H Hm. replace (0 <=? maxKeyFrames s) with true in H by lia.
  destruct (Z.ltb_spec (maxKeyFrames s) (Z.of_nat (length l))); simpl in H; injection H as <- <-; [rewrite skipn_length|]; lia.
Qed.

Lemma base_ok (l : list kf) : settings_ok s -> Z.min 2 (maxKeyFrames s) <= Z.of_nat (length l) -> is_ok (base_kf s l).
Proof.
  intros (S1 & S2 & S3 & S4 & S5) H. unfold base_kf. destruct (trackFromLastKf s).
  - destruct l as [|k l] using rev_ind; [simpl in H; lia|]. rewrite last_kf_snoc. eexists; reflexivity.
  - specialize (S4 eq_refl). destruct l as [|k l] using rev_ind; [simpl in H; lia|]. clear IHl. rewrite app_length in H.
    destruct l as [|k2 l] using rev_ind; [simpl in H; lia|]. rewrite <- app_assoc. simpl. rewrite lbo_kf_snoc. eexists; reflexivity.
Qed.

Lemma last_ok (l : list kf) : (1 <= length l)%nat -> is_ok (last_kf l).
Proof. intros H. destruct l as [|k l] using rev_ind; [simpl in H; lia|]. rewrite last_kf_snoc. eexists; reflexivity. Qed.

Lemma writes_ok size ws : forall t : Z -> option P, (forall n, In n (map fst ws) -> 0 <= n < size) -> is_ok (ofold (write P size) ws t).
Proof.
  induction ws as [|[n p] ws IH]; intros t H; [eexists; reflexivity|]. cbn [ofold]. unfold write at 1. simpl.
  rewrite tbl_set_in by (apply H; left; reflexivity). simpl. apply IH. intros m Hm. apply H. right; auto.
Qed.

Definition window_min st : Prop := Z.min 2 (maxKeyFrames s) <= Z.of_nat (length (st_kfs st)).

Lemma window_min_run cs st : settings_ok s -> run cs st0 = Ok st -> phase_run cs st -> window_min st.
Proof.
  intros Sok. revert cs st. apply (run_ind2 P pid pmul pinv IP OP promote ready s obsA obsB (fun cs st => phase_run cs st -> window_min st)).
  - intros (R & _). discriminate.
  - intros cs st c st' _ Hinv Q H Hinv' Pr'. destruct c as [fi|o].
    2:{ injection H as <-. apply Q. destruct Pr' as (R1 & R2 & R3 & R4). simpl in *. 
        pose proof Hinv as (_ & _ & _ & _ & _ & [W|R]); [|exact R]. destruct W. congruence. }
    cbn [DsoModel.do_call] in H. inv_bind. destruct x as [x r]. injection H as <-. cbn [fst] in *.
    destruct (add_frame_cases _ _ _ _ _ _ _ _ _ _ _ _ _ _ _ _ Hinv E) as (st1 & Hb & Hlt & Hcase).
    destruct (begin_spec _ _ _ _ _ _ _ Hb) as (Hn & Hl & B1 & B2 & B3 & B4 & B5 & B6 & B7 & B8 & B9).
    destruct Hcase as [(Pw & L & -> & ->)|[(Pw & L & Hi & Hf)|(Pr & Ht)]].
    + exfalso. destruct Pr' as (_ & R2 & _). rewrite numbers_app, app_length in R2. simpl in R2. lia.
    + destruct Pw as (W1 & W2 & W3 & W4 & W5 & W6 & W7 & W8).
      destruct B9 as [(C1 & _)|[(C1 & C2 & C3 & C4 & C5)|(f & C1 & C2 & C3 & C4)]]; try congruence.
      assert (Hff : f < fi_num fi).
      { rewrite W7 in C2. destruct (numbers cs); [discriminate|]. injection C2 as ->. inversion Hlt; auto. }
      destruct (finish_spec _ _ _ _ _ _ _ _ _ _ _ (eq_trans B4 W3) C3 Hff Hf) as (m & imm0 & imm1 & F1 & F2 & F3 & F4 & F5 & F6).
      unfold window_min. rewrite F5. simpl. lia.
    + specialize (Q Pr). unfold window_min in *.
      destruct (track_spec _ _ _ _ _ _ _ _ _ _ _ _ Ht) as (b & l & obs & pose & n1 & n2 & n3 & rest & need & st2 & Hb2 & Hl2 & Ht2 & Hp & Hrev & Hsz & -> & Hneed & I1 & I2 & I3 & I4 & I5 & I6 & I7 & I8 & I9 & I10 & Hc).
      assert (L2 : length (st_kfs st2) = length (st_kfs st)).
      { rewrite I9, B4. destruct need; unfold upd_kf; rewrite !map_length; reflexivity. }
      destruct Hc as [[Hc ->]|[Hc Hpr]]; [lia|].
      destruct (promote_spec _ _ _ _ _ _ _ _ _ _ _ _ _ Hpr) as (imm & gone & kept & kfs & bk & P1 & P2 & P3 & P4 & Q1 & Q2 & Q3 & Q4 & Q5 & Q6 & Q7 & Q8 & Q9).
      apply andb_prop in Hc as [Hc1 Hc2]. rewrite Hc2 in I9.
      pose proof (marginalize_keeps _ _ _ P2 ltac:(apply Sok)) as Lk.
      destruct (kept_nodup cs st fi (kf_pose b) pose imm gone kept Hinv Pr Hlt (st_kfs st2)) as [NDk Hgk].
      { rewrite I9, B4, map_map. reflexivity. }
      { exact P2. }
      rewrite <- (marginalize_app _ _ _ _ _ _ _ P2), Hgk, app_length in Lk. simpl in Lk.
      apply activate_skel in P3. apply (f_equal (@length _)) in P3. rewrite !map_length in P3.
      destruct Q9 as [(_ & -> & _)|(_ & _ & -> & _)]; rewrite ?map_length, P3; lia.
Qed.

Lemma step_ok cs st fi : settings_ok s -> inputs_ok fi -> run cs st0 = Ok st ->
  opt_count (st_kfs st) <= maxOptimizedPoints s ->
  0 < fi_num fi < INT_MAX -> Forall (fun x => x < fi_num fi) (numbers cs) -> is_ok (add_frame st fi).
Proof.
  intros Sok (O1 & O2 & O3 & O4 & O5 & O6 & O7) Hrun Hbud Hn Hlt.
  pose proof (inv_run _ _ _ _ _ _ _ _ _ _ _ _ _ Hrun) as Hinv.
  pose proof Hinv as (N & So & Si & Sz & Ob & Ph).
  assert (Hbg : exists st1, begin_frame s st (fi_num fi) = Ok st1).
  { unfold begin_frame, adjust_size. replace (fi_num fi <=? 0) with false by lia. replace (fi_num fi =? INT_MAX) with false by lia.
    assert (match rev (st_nums st) with [] => false | m :: _ => fi_num fi <=? m end = false) as ->.
    { rewrite N. destruct (numbers cs) as [|x l] using rev_ind; [reflexivity|]. rewrite rev_app_distr. simpl.
      apply Forall_app in Hlt as [_ F]. inversion F; subst. lia. }
    destruct (st_size st <=? fi_num fi); simpl; destruct (st_inited st); eauto; destruct (st_first st); eauto; destruct (st_skipped st <? firstFramesSkip s); eauto. }
  destruct Hbg as [st1 Hb]. unfold DsoModel.add_frame. rewrite Hb. cbn [bind].
  destruct (begin_spec _ _ _ _ _ _ _ Hb) as (_ & Hl & B1 & B2 & B3 & B4 & B5 & B6 & B7 & B8 & B9).
  destruct Ph as [Pw|Pr].
  - pose proof Pw as (W1 & W2 & W3 & W4 & W5 & W6 & W7 & W8). rewrite W1.
    destruct (st_inited st1) eqn:Ei; [|eexists; reflexivity].
    destruct B9 as [(C1 & _)|[(C1 & C2 & C3 & C4 & C5)|(f & C1 & C2 & C3 & C4)]]; try congruence.
    destruct O1 as [[[m i0] i1] O1]. unfold DsoModel.finish_init. rewrite O1, C3, B4, W3. simpl.
    assert (Hf : 0 < f < fi_num fi /\ f < st_size st).
    { rewrite W7 in C2. destruct (numbers cs) as [|z zs]; [discriminate|]. injection C2 as ->. inversion Hlt; inversion Si; subst. lia. }
    rewrite tbl_set_in by lia. cbn [bind]. rewrite tbl_set_in by lia. cbn [bind].
    replace (fi_num fi <? f) with false by lia. replace (fi_num fi =? f) with false by lia.
    unfold base_kf, last_kf, lbo_kf. simpl. destruct (trackFromLastKf s); simpl; eexists; reflexivity.
  - pose proof Pr as (R1 & R2 & R3 & R4). rewrite R1.
    pose proof (window_min_run _ _ Sok Hrun Pr) as WM. unfold window_min in WM.
    destruct (base_ok (st_kfs st) Sok WM) as [b Hbase].
    destruct (last_ok (st_kfs st)) as [l Hlast]. { destruct Sok. lia. }
    destruct O2 as [pose O2].
    assert (Hhist : exists rest n3 n2, numbers cs = rest ++ [n3; n2]).
    { destruct (numbers cs) as [|x l0] using rev_ind; [simpl in R2; lia|]. clear IHl0. destruct l0 as [|y l1] using rev_ind; [simpl in R2; lia|].
      exists l1, y, x. rewrite <- app_assoc. reflexivity. }
    destruct Hhist as (rest & n3 & n2 & Hh).
    assert (Hneed : exists need, need_kf s (fi_num fi) (kf_num l) = Ok need /\ need = due (shiftBetweenKeyFrames s) (kf_num l) (fi_num fi)).
    { destruct Sok as (_ & S2 & _). destruct (need_kf s (fi_num fi) (kf_num l)) as [bb| | | |] eqn:En.
      - exists bb. split; [reflexivity|]. eapply need_kf_due; eauto.
      - unfold need_kf in En. destruct (0 <? _); [|discriminate]. destruct (Z.eqb_spec (shiftBetweenKeyFrames s) 0); [congruence|discriminate].
      - unfold need_kf in En. destruct (0 <? _); [|discriminate]. destruct (Z.eqb_spec (shiftBetweenKeyFrames s) 0); discriminate.
      - unfold need_kf in En. destruct (0 <? _); [|discriminate]. destruct (Z.eqb_spec (shiftBetweenKeyFrames s) 0); discriminate.
      - unfold need_kf in En. destruct (0 <? _); [|discriminate]. destruct (Z.eqb_spec (shiftBetweenKeyFrames s) 0); discriminate. }
    destruct Hneed as (need & Hneed & Dneed).
    unfold DsoModel.track_frame. rewrite B4, Hbase. cbn [bind]. rewrite B1, N, Hh, !rev_app_distr. cbn [rev app].
    rewrite Hh in Si. apply Forall_app in Si as [Si1 Si2]. inversion Si2 as [|? ? D1 Si3]; inversion Si3 as [|? ? D2 _]; subst.
    replace ((0 <=? n3) && (n3 <? st_size st1) && (0 <=? n2) && (n2 <? st_size st1)) with true by lia.
    rewrite B7, R4, O2. cbn [bind]. rewrite tbl_set_in by lia. cbn [bind]. rewrite Hlast. cbn [bind]. rewrite Hneed. cbn [bind].
    destruct (continueChoosing s && due (shiftBetweenKeyFrames s) (kf_num l) (fi_num fi)) eqn:Ec; [|eexists; reflexivity].
    apply andb_prop in Ec as [_ Ed]. rewrite Ed. 
    match goal with |- is_ok (bind (DsoModel.promote_kf _ _ _ _ _ ?st2 _ _ _) _) => set (S2 := st2) end.
    cut (is_ok (promote_kf S2 fi (kf_pose b) pose)). { intros [z ->]. eexists; reflexivity. }
    destruct O3 as [imm O3]. unfold DsoModel.promote_kf. rewrite O3. cbn [bind].
    fold (new_kf P pmul pinv IP OP (fi_num fi) (kf_pose b) pose imm).
    destruct (marginalize s (insert_kf (new_kf P pmul pinv IP OP (fi_num fi) (kf_pose b) pose imm) (st_kfs S2))) as [gone kept] eqn:Em.
    destruct (kept_nodup cs st fi (kf_pose b) pose imm gone kept Hinv Pr Hlt (st_kfs S2)) as [NDk Hgk].
    { unfold S2. simpl. rewrite map_map. reflexivity. }
    { exact Em. }
    assert (Ck : opt_count kept <= maxOptimizedPoints s).
    { assert (opt_count (gone ++ kept) = opt_count (st_kfs S2) + 0) by (rewrite Hgk, opt_count_app; reflexivity).
      assert (opt_count (st_kfs S2) = opt_count (st_kfs st)) by (apply opt_count_ext; unfold S2; simpl; rewrite map_map; reflexivity).
      rewrite opt_count_app in H. pose proof (opt_count_nonneg gone). lia. }
    destruct (O4 (length (ready_positions ready kept)) (maxOptimizedPoints s - opt_count kept) ltac:(lia)) as [chosen Hchosen].
    assert (H0 : 0 <= maxOptimizedPoints s - opt_count kept) by lia.
    destruct (O5 _ _ _ H0 Hchosen) as (C1 & C2 & C3).
    destruct (activation_exact P IP OP promote ready s fi kept chosen NDk O6 Hchosen C1 C2) as (kfs & Ha & _).
    rewrite Ha. cbn [bind].
    pose proof (marginalize_keeps _ _ _ Em ltac:(apply Sok)) as Lk.
    pose proof (activate_skel _ _ _ _ _ _ _ _ _ Ha) as Sk. pose proof (f_equal (@length _) Sk) as Lks. rewrite !map_length in Lks.
    rewrite <- (marginalize_app _ _ _ _ _ _ _ Em), Hgk, app_length in Lk. simpl in Lk. rewrite map_length in Lk.
    destruct (base_ok kfs Sok) as [bk Hbk]. { rewrite Lks. lia. }
    rewrite Hbk. cbn [bind]. unfold adjust. destruct (runBA s) eqn:Er; [|eexists; reflexivity].
    cbn [st_kfs set_kfs emit].
    assert (E2 : forall (x : state) es, st_kfs (emit (set_kfs x kfs) es) = kfs) by reflexivity.
    destruct Sok as (S1 & S2' & S3 & S4 & S5). specialize (S5 Er).
    destruct (Nat.ltb_spec (length kfs) 2) as [Hl2|Hl2]; [lia|].
    fold (ba_kf P IP OP fi).
    match goal with |- is_ok (bind (bind (ofold (rewrite_kf pmul pinv ?sz) ?ll ?tt) _) _) =>
      cut (is_ok (ofold (rewrite_kf pmul pinv sz) ll tt)); [intros [z ->]; eexists; reflexivity|];
      assert (Esz : sz = st_size st1) by (destruct gone; reflexivity); rewrite Esz end.
    rewrite rewrite_all_writes. apply writes_ok. rewrite writes_keys.
    intros n Hin.
    assert (Hin2 : In n (hall (map shape kept))).
    { change (map (fun k => ba_kf P IP OP fi k) kfs) with (map (ba_kf P IP OP fi) kfs) in Hin.
      rewrite map_shape_ba in Hin. rewrite (skel_shape _ _ _ _ _ Sk) in Hin. exact Hin. }
    assert (Hin3 : In n (hall (map shape (st_kfs st ++ [new_kf P pmul pinv IP OP (fi_num fi) (kf_pose b) pose imm])))).
    { assert (In n (hall (map shape (gone ++ kept)))). { unfold hall in *. rewrite map_app, flat_map_app. apply in_app_iff; auto. }
      rewrite Hgk in H. unfold S2 in H. simpl in H. unfold hall in *. rewrite map_app, flat_map_app in *.
      rewrite map_map in H. exact H. }
    unfold hall in Hin3. rewrite map_app, flat_map_app in Hin3. apply in_app_iff in Hin3 as [Hin3|[<-|[]]]; [|simpl; lia].
    pose proof (held_hall _ _ _ _ _ _ _ _ _ Hinv Pr Hin3) as Hu.
    assert (Hnum : In n (numbers cs)).
    { destruct (numbers cs) as [|f r0]; [destruct Hu|]. unfold used_frames in Hu. destruct (skipn _ r0) eqn:Es; [destruct Hu|].
      destruct Hu as [<-|Hu]; [left; reflexivity|]. right. rewrite <- (firstn_skipn (skip_count (firstFramesSkip s)) r0), Es. apply in_app_iff; auto. }
    destruct Hinv as (_ & _ & Si' & _). rewrite Forall_forall in Si'. specialize (Si' _ Hnum). lia.
Qed.

Theorem no_abnormal cs : settings_ok s -> calls_ok inputs_ok cs ->
  StronglySorted Z.lt (numbers cs) -> Forall (fun n => 0 < n < INT_MAX) (numbers cs) ->
  is_ok (run cs st0).
Proof.
  intros Sok. induction cs as [|c cs IH] using rev_ind; intros Hok So Hn; [eexists; reflexivity|].
  rewrite numbers_app in So, Hn.
  assert (So1 : StronglySorted Z.lt (numbers cs)).
  { destruct c; simpl in So; [apply sorted_snoc in So; apply So|rewrite app_nil_r in So; exact So]. }
  apply Forall_app in Hn as [Hn1 Hn2].
  assert (Hok1 : calls_ok inputs_ok cs) by (intros fi Hin; apply Hok, in_app_iff; auto).
  destruct (IH Hok1 So1 Hn1) as [st Hst]. rewrite run_snoc, Hst. cbn [bind].
  destruct c as [fi|o]; [|eexists; reflexivity]. simpl in So, Hn2. cbn [DsoModel.do_call].
  apply sorted_snoc in So as [_ Hlt]. inversion Hn2; subst.
  destruct (step_ok cs st fi Sok) as [z ->]; auto.
  - apply Hok, in_app_iff. right; left; reflexivity.
  - apply (budget cs); auto; [apply Sok|]. intros fi' Hin. destruct (Hok1 fi' Hin) as (_ & _ & _ & _ & ? & ? & ?). auto.
  - eexists; reflexivity.
Qed.

End Budget.
