(** Proofs about the keyframe window, the frame history and the notifications of DsoModel.v. *)
From Coq Require Import List ZArith Bool Lia Permutation Sorting.Sorted ZifyBool.
From Verif Require Import Outcome Dbl DsoModel DsoSpec DsoHistory.
Import ListNotations.
Open Scope Z_scope.

Ltac inv_bind :=
  repeat match goal with
         | H : bind ?x _ = Ok _ |- _ =>
             let E := fresh "E" in apply bind_ok_inv in H; destruct H as [? [E H]]
         end.

Lemma ofold_app {A B} (f : A -> B -> outcome A) l1 l2 a :
  ofold f (l1 ++ l2) a = bind (ofold f l1 a) (ofold f l2).
Proof.
  revert a. induction l1 as [|x l1 IH]; intros a; simpl; [reflexivity|].
  destruct (f a x); simpl; auto.
Qed.

Section Basics.
Variables P IP OP : Type.
Notation kf := (kf P IP OP).
Implicit Types l : list kf.

Lemma last_kf_snoc l (k : kf) : last_kf (l ++ [k]) = Ok k.
Proof. unfold last_kf. rewrite rev_app_distr. reflexivity. Qed.

Lemma last_kf_inv l (k : kf) : last_kf l = Ok k -> exists l0, l = l0 ++ [k].
Proof.
  unfold last_kf. intros H. destruct (rev l) as [|x r] eqn:E; [discriminate|]. injection H as <-.
  exists (rev r). rewrite <- (rev_involutive l), E. reflexivity.
Qed.

Lemma lbo_kf_inv l (k : kf) : lbo_kf l = Ok k -> exists l0 x, l = l0 ++ [k; x].
Proof.
  unfold lbo_kf. intros H. destruct (rev l) as [|x [|y r]] eqn:E; try discriminate. injection H as <-.
  exists (rev r), x. rewrite <- (rev_involutive l), E. simpl. rewrite <- app_assoc. reflexivity.
Qed.

Lemma lbo_kf_snoc l (k x : kf) : lbo_kf (l ++ [k; x]) = Ok k.
Proof. unfold lbo_kf. rewrite rev_app_distr. reflexivity. Qed.

Lemma insert_kf_end (k : kf) l : (forall x, In x l -> kf_num x < kf_num k) -> insert_kf k l = l ++ [k].
Proof.
  induction l as [|a l IH]; intros H; [reflexivity|]. simpl.
  pose proof (H a (or_introl eq_refl)).
  destruct (Z.ltb_spec (kf_num k) (kf_num a)); [lia|]. destruct (Z.eqb_spec (kf_num k) (kf_num a)); [lia|].
  rewrite IH; [reflexivity|]. intros x Hx. apply H. right; auto.
Qed.

Lemma upd_kf_other n f l : (forall k, In k l -> kf_num k <> n) -> upd_kf n f l = l.
Proof.
  intros H. unfold upd_kf. rewrite <- (map_id l) at 2. apply map_ext_in. intros k Hk.
  destruct (Z.eqb_spec (kf_num k) n); [|reflexivity]. exfalso. apply (H k); auto.
Qed.

Lemma upd_kf_at f l1 (k : kf) l2 : NoDup (map kf_num (l1 ++ k :: l2)) ->
  upd_kf (kf_num k) f (l1 ++ k :: l2) = l1 ++ f k :: l2.
Proof.
  intros H. rewrite map_app in H. simpl in H. apply NoDup_remove_2 in H.
  unfold upd_kf. rewrite map_app. simpl. rewrite Z.eqb_refl. f_equal; [|f_equal].
  - apply upd_kf_other. intros x Hx E. apply H. apply in_app_iff. left. rewrite <- E. apply in_map; auto.
  - apply upd_kf_other. intros x Hx E. apply H. apply in_app_iff. right. rewrite <- E. apply in_map; auto.
Qed.

(** Skeleton: what tracing, activation and (except for the pose) adjustment leave alone. *)
Definition skel (k : kf) := (kf_num k, kf_pose k, kf_tracked k).

Lemma skel_shape l l' : map skel l = map skel l' -> map shape l = map shape l'.
Proof.
  intros H. assert (forall l, map shape l = map (fun e : Z * P * list (Z * P) => (fst (fst e), map fst (snd e))) (map skel l)) as G.
  { intros x. rewrite map_map. reflexivity. }
  rewrite !G, H. reflexivity.
Qed.

Lemma shape_num l l' : map shape l = map shape l' -> map kf_num l = map kf_num l'.
Proof.
  intros H. assert (forall l, map kf_num l = map fst (map shape l)) as G.
  { intros x. rewrite map_map. reflexivity. }
  rewrite !G, H. reflexivity.
Qed.

Lemma activate_one_skel promote pos l i l' :
  activate_one promote pos l i = Ok l' -> map skel l' = map skel l.
Proof.
  unfold activate_one. destruct (nth_error pos i) as [[n ind]|]; [|discriminate].
  destruct (find _ l) as [k|]; [|discriminate]. destruct (nth_error (kf_imm k) ind); [|discriminate].
  intros H. inv_bind. injection H as <-. unfold upd_kf. rewrite map_map. apply map_ext.
  intros y. destruct (kf_num y =? n); reflexivity.
Qed.

Lemma ofold_skel promote pos is l l' :
  ofold (activate_one promote pos) is l = Ok l' -> map skel l' = map skel l.
Proof.
  revert l. induction is as [|i is IH]; intros l; simpl; [intros H; injection H as <-; reflexivity|].
  intros H. inv_bind. rewrite (IH _ H). eapply activate_one_skel; eauto.
Qed.

Lemma activate_skel promote ready s fi l l' :
  activate promote ready s fi l = Ok l' -> map skel l' = map skel l.
Proof. unfold activate. intros H. inv_bind. eapply ofold_skel; eauto. Qed.

Lemma marginalize_app s l gone kept : marginalize s l = (gone, kept) -> gone ++ kept = l.
Proof.
  unfold marginalize. destruct (_ && _); intros H; injection H as <- <-; [apply firstn_skipn|reflexivity].
Qed.

Lemma marginalize_length s l gone kept : marginalize s l = (gone, kept) -> 0 <= maxKeyFrames s ->
  Z.of_nat (length kept) <= maxKeyFrames s.
Proof.
  unfold marginalize. intros H Hm.
  destruct (Z.leb_spec 0 (maxKeyFrames s)); [|lia].
  destruct (Z.ltb_spec (maxKeyFrames s) (Z.of_nat (length l))); simpl in H; injection H as <- <-; [|lia].
  rewrite skipn_length. lia.
Qed.

Lemma need_kf_due s n k b : need_kf s n k = Ok b -> b = due (shiftBetweenKeyFrames s) k n.
Proof.
  unfold need_kf, due. destruct (Z.ltb_spec 0 (n - k)).
  - destruct (Z.eqb_spec (shiftBetweenKeyFrames s) 0) as [E|E]; [discriminate|]. intros H0; injection H0 as <-.
    replace (k <? n) with true by lia. simpl.
    destruct (Z.eqb_spec (Z.rem (n - k) (shiftBetweenKeyFrames s)) 0) as [R|R];
      destruct (Z.eqb_spec ((n - k) mod shiftBetweenKeyFrames s) 0) as [M|M]; auto; exfalso.
    + apply M. apply Z.mod_divide; auto. apply Z.rem_divide; auto.
    + apply R. apply Z.rem_divide; auto. apply Z.mod_divide; auto.
  - intros H0; injection H0 as <-. replace (k <? n) with false by lia. reflexivity.
Qed.

Lemma tbl_set_ok size (t : Z -> option P) n p t' : tbl_set size t n p = Ok t' ->
  0 <= n < size /\ t' = (fun m => if m =? n then Some p else t m).
Proof. unfold tbl_set. destruct (_ && _) eqn:E; [|discriminate]. intros H; injection H as <-. split; [lia|reflexivity]. Qed.

Lemma tbl_set_in size (t : Z -> option P) n p : 0 <= n < size ->
  tbl_set size t n p = Ok (fun m => if m =? n then Some p else t m).
Proof. intros H. unfold tbl_set. replace ((0 <=? n) && (n <? size)) with true by lia. reflexivity. Qed.

End Basics.
Arguments skel {P IP OP} _.

Section Run.
Variables P : Type.
Variable pid : P.
Variable pmul : P -> P -> P.
Variable pinv : P -> P.
Variables IP OP : Type.
Variable promote : IP -> OP.
Variable ready : IP -> bool.
Variable s : dso_settings.
Variables obsA obsB : list nat.
Notation kf := (kf P IP OP).
Notation state := (state P IP OP).
Notation call := (call P IP OP).
Notation frame_in := (frame_in P IP OP).
Notation run := (run pid pmul pinv promote ready s).
Notation do_call := (do_call pid pmul pinv promote ready s).
Notation add_frame := (add_frame pid pmul pinv promote ready s).
Notation promote_kf := (promote_kf pmul pinv promote ready s).
Notation track_frame := (track_frame pmul pinv promote ready s).
Notation finish_init := (finish_init pid pinv s).
Notation adjust := (adjust pmul pinv s).
Notation st0 := (init s obsA obsB : state).
Notation sk := (skip_count (firstFramesSkip s)).
Notation hist := (history (firstFramesSkip s) (shiftBetweenKeyFrames s) (trackFromLastKf s) (continueChoosing s)).
Implicit Types st : state.

Lemma run_snoc cs c st : run (cs ++ [c]) st = bind (run cs st) (fun st' => do_call st' c).
Proof.
  unfold DsoModel.run. rewrite ofold_app. destruct (ofold _ cs st) as [x| | | |]; try reflexivity.
  simpl. destruct (do_call x c); reflexivity.
Qed.

Lemma run_app cs1 cs2 st : run (cs1 ++ cs2) st = bind (run cs1 st) (run cs2).
Proof. apply ofold_app. Qed.

Lemma numbers_app (cs1 cs2 : list call) : numbers (cs1 ++ cs2) = numbers cs1 ++ numbers cs2.
Proof. unfold numbers. apply flat_map_app. Qed.
Lemma observers_app (cs1 cs2 : list call) :
  observers_added (cs1 ++ cs2) = observers_added cs1 ++ observers_added cs2.
Proof. unfold observers_added. apply flat_map_app. Qed.
Lemma reported_app (l1 l2 : list (event P IP OP)) : reported (l1 ++ l2) = reported l1 ++ reported l2.
Proof. unfold reported. apply flat_map_app. Qed.

(** The keyframes as bundle adjustment leaves them. *)
Definition ba_kf (fi : frame_in) (k : kf) : kf :=
  {| kf_num := kf_num k; kf_pose := fi_ba_pose fi (kf_num k) (kf_pose k);
     kf_tracked := kf_tracked k; kf_imm := kf_imm k; kf_opt := fi_ba_opt fi (kf_num k) (kf_opt k) |}.
Definition trace_kf (fi : frame_in) (k : kf) : kf :=
  {| kf_num := kf_num k; kf_pose := kf_pose k; kf_tracked := kf_tracked k;
     kf_imm := fi_trace fi (kf_num k) (kf_imm k); kf_opt := kf_opt k |}.
Definition push_kf (n : Z) (p : P) (k : kf) : kf :=
  {| kf_num := kf_num k; kf_pose := kf_pose k; kf_tracked := kf_tracked k ++ [(n, p)];
     kf_imm := kf_imm k; kf_opt := kf_opt k |}.
Definition new_kf (n : Z) (basePose baseToThis : P) (imm : list IP) : kf :=
  {| kf_num := n; kf_pose := pmul basePose (pinv baseToThis); kf_tracked := []; kf_imm := imm; kf_opt := [] |}.

Lemma promote_spec st fi bp btt st' : promote_kf st fi bp btt = Ok st' ->
  exists imm gone kept kfs bk,
    fi_select fi = Ok imm /\
    marginalize s (insert_kf (new_kf (fi_num fi) bp btt imm) (st_kfs st)) = (gone, kept) /\
    activate promote ready s fi kept = Ok kfs /\ base_kf s kfs = Ok bk /\
    st_inited st' = st_inited st /\ st_first st' = st_first st /\ st_skipped st' = st_skipped st /\
    st_nums st' = st_nums st /\ st_size st' = st_size st /\ st_ftobs st' = st_ftobs st /\
    st_tracker st' = Some (st_ftobs st) /\
    st_log st' = st_log st ++ (match gone with [] => [] | _ => [EvMarg gone] end) ++ [EvNewKf bk] /\
    ((runBA s = false /\ st_kfs st' = kfs /\ st_tbl st' = st_tbl st) \/
     (runBA s = true /\ (2 <= length kfs)%nat /\ st_kfs st' = map (ba_kf fi) kfs /\
      ofold (rewrite_kf pmul pinv (st_size st)) (map (ba_kf fi) kfs) (st_tbl st) = Ok (st_tbl st'))).
Proof.
  unfold DsoModel.promote_kf. intros H. inv_bind. rename x into imm.
  change {| kf_num := fi_num fi; kf_pose := pmul bp (pinv btt); kf_tracked := []; kf_imm := imm; kf_opt := [] |}
    with (new_kf (fi_num fi) bp btt imm) in H.
  destruct (marginalize s (insert_kf (new_kf (fi_num fi) bp btt imm) (st_kfs st))) as [gone kept] eqn:Em.
  inv_bind. rename x into kfs, x0 into bk, x1 into st2. injection H as <-.
  exists imm, gone, kept, kfs, bk. repeat (split; [assumption || reflexivity|]).
  unfold DsoModel.adjust in E2. destruct (runBA s) eqn:Er.
  - destruct (Nat.ltb_spec (length (st_kfs (emit (set_kfs (match gone with [] => set_kfs st kept | _ :: _ => emit (set_kfs st kept) [EvMarg gone] end) kfs) [EvNewKf bk]))) 2) as [L|L]; [discriminate|].
    inv_bind. injection E2 as <-. simpl in *.
    destruct gone; simpl in *; rewrite ?app_nil_l, <- ?app_assoc; simpl; repeat (split; [reflexivity|]); right; auto.
  - injection E2 as <-. simpl. destruct gone; simpl in *; rewrite ?app_nil_l, <- ?app_assoc; simpl; repeat (split; [reflexivity|]); left; auto.
Qed.

Lemma track_spec st fi st' r : track_frame st fi = Ok (st', r) ->
  exists b l obs pose n1 n2 n3 rest need st1,
    base_kf s (st_kfs st) = Ok b /\ last_kf (st_kfs st) = Ok l /\ st_tracker st = Some obs /\
    fi_track fi = Ok pose /\ rev (st_nums st) = n1 :: n2 :: n3 :: rest /\
    0 <= fi_num fi < st_size st /\ r = Some (fi_num fi) /\
    need = due (shiftBetweenKeyFrames s) (kf_num l) (fi_num fi) /\
    st_inited st1 = st_inited st /\ st_first st1 = st_first st /\ st_skipped st1 = st_skipped st /\
    st_nums st1 = st_nums st /\ st_size st1 = st_size st /\ st_ftobs st1 = st_ftobs st /\
    st_tracker st1 = st_tracker st /\
    st_tbl st1 = (fun m => if m =? fi_num fi then Some (pmul pose (pinv (kf_pose b))) else st_tbl st m) /\
    st_kfs st1 = (if need then map (trace_kf fi) (st_kfs st)
                  else upd_kf (kf_num b) (push_kf (fi_num fi) pose) (map (trace_kf fi) (st_kfs st))) /\
    st_log st1 = st_log st ++ [EvNewFrame (fi_num fi);
                      EvPredict n3 n2 (st_tbl st n3) (st_tbl st n2) (n2 - n1) (n3 - n2);
                      EvTracked (fi_num fi) obs] /\
    ((continueChoosing s && need = false /\ st' = st1) \/
     (continueChoosing s && need = true /\ promote_kf st1 fi (kf_pose b) pose = Ok st')).
Proof.
  unfold DsoModel.track_frame. intros H. inv_bind. rename x into b.
  destruct (rev (st_nums st)) as [|n1 [|n2 [|n3 rest]]] eqn:Er; try discriminate.
  destruct (_ && _) in H; [|discriminate].
  destruct (st_tracker st) as [obs|] eqn:Et; [|discriminate].
  inv_bind. rename x into pose, x0 into t, x1 into l, x2 into need.
  apply tbl_set_ok in E1 as [Hn ->]. apply need_kf_due in E3. subst need.
  exists b, l, obs, pose, n1, n2, n3, rest, (due (shiftBetweenKeyFrames s) (kf_num l) (fi_num fi)).
  destruct (continueChoosing s && due (shiftBetweenKeyFrames s) (kf_num l) (fi_num fi)) eqn:Ec.
  - inv_bind. injection H as <- <-.
    match type of E1 with DsoModel.promote_kf _ _ _ _ _ ?y _ _ _ = _ => exists y end.
    repeat (split; [eassumption || reflexivity|]).
    right. split; [reflexivity|]. simpl. exact E1.
  - injection H as <- <-.
    eexists (emit (set_tbl (set_kfs st _) _) _). repeat (split; [eassumption || reflexivity|]).
    left. split; reflexivity.
Qed.

Lemma begin_spec st n st1 : begin_frame s st n = Ok st1 ->
  0 < n /\ (forall l m, st_nums st = l ++ [m] -> m < n) /\
  st_nums st1 = st_nums st ++ [n] /\ st_size st <= st_size st1 /\ n < st_size st1 /\
  st_kfs st1 = st_kfs st /\ st_tbl st1 = st_tbl st /\ st_ftobs st1 = st_ftobs st /\
  st_tracker st1 = st_tracker st /\ st_log st1 = st_log st /\
  ((st_inited st = true /\ st_inited st1 = true /\ st_first st1 = st_first st /\ st_skipped st1 = st_skipped st) \/
   (st_inited st = false /\ st_first st = None /\ st_inited st1 = false /\ st_first st1 = Some n /\ st_skipped st1 = st_skipped st) \/
   (exists f, st_inited st = false /\ st_first st = Some f /\ st_first st1 = Some f /\
      ((st_skipped st < firstFramesSkip s /\ st_inited st1 = false /\ st_skipped st1 = st_skipped st + 1) \/
       (firstFramesSkip s <= st_skipped st /\ st_inited st1 = true /\ st_skipped st1 = st_skipped st)))).
Proof.
  unfold begin_frame, adjust_size. intros H.
  destruct (Z.leb_spec n 0) as [Hn|Hn]; [discriminate|]. inv_bind.
  assert (Hsz : st_size st <= x /\ n < x).
  { destruct (Z.leb_spec (st_size st) n); [|injection E as <-; lia].
    destruct (n =? INT_MAX); [discriminate|]. injection E as <-. lia. }
  clear E. destruct (match rev (st_nums st) with [] => false | m :: _ => n <=? m end) eqn:Em; [discriminate|].
  split; [exact Hn|]. split.
  { intros l m El. rewrite El, rev_app_distr in Em. simpl in Em. lia. }
  destruct (st_inited st) eqn:Ei.
  { injection H as <-. simpl. repeat (split; [reflexivity || lia|]). left. auto. }
  destruct (st_first st) as [f|] eqn:Ef.
  - destruct (Z.ltb_spec (st_skipped st) (firstFramesSkip s)); injection H as <-; simpl;
      repeat (split; [reflexivity || lia|]); right; right; exists f; repeat (split; [reflexivity|]); [left|right]; auto.
  - injection H as <-. simpl. repeat (split; [reflexivity || lia|]). right; left. auto.
Qed.

(** ** The invariant of a fresh system *)
Definition phase_wait (cs : list call) st : Prop :=
  st_inited st = false /\ (length (numbers cs) <= S sk)%nat /\ st_kfs st = [] /\ st_log st = [] /\
  st_tracker st = None /\ (forall n, st_tbl st n = None) /\ st_first st = hd_error (numbers cs) /\
  st_skipped st = Z.of_nat (length (numbers cs) - 1).
Definition phase_run (cs : list call) st : Prop :=
  st_inited st = true /\ (S (S sk) <= length (numbers cs))%nat /\
  map shape (reported (st_log st) ++ st_kfs st) = rev (hist (numbers cs)) /\
  st_tracker st = Some (st_ftobs st).
Definition inv (cs : list call) st : Prop :=
  st_nums st = numbers cs /\ StronglySorted Z.lt (numbers cs) /\
  Forall (fun n => 0 < n < st_size st) (numbers cs) /\ initialMaxFrame s <= st_size st /\
  st_ftobs st = obsA ++ obsB ++ observers_added cs /\
  (phase_wait cs st \/ phase_run cs st).

Lemma inv_kf_nums cs st : inv cs st -> phase_run cs st ->
  NoDup (map kf_num (reported (st_log st) ++ st_kfs st)) /\
  (forall k, In k (reported (st_log st) ++ st_kfs st) -> In (kf_num k) (numbers cs)).
Proof.
  intros [_ [Hs _]] [_ [_ [Hsh _]]].
  assert (E : map kf_num (reported (st_log st) ++ st_kfs st) = map fst (rev (hist (numbers cs)))).
  { rewrite <- Hsh, map_map. reflexivity. }
  rewrite E. rewrite history_kfs. split.
  - pose proof (expected_sorted (firstFramesSkip s) (shiftBetweenKeyFrames s) (continueChoosing s) _ Hs) as H.
    clear - H. induction H; constructor; auto. rewrite Forall_forall in H0. intros Hin. specialize (H0 _ Hin). lia.
  - intros k Hk. destruct (history_hall (firstFramesSkip s) (shiftBetweenKeyFrames s) (trackFromLastKf s) (continueChoosing s) _ Hs) as [_ Hsub].
    apply Hsub. apply (in_map kf_num) in Hk. rewrite E in Hk. rewrite in_map_iff in Hk. destruct Hk as [e [E1 He]].
    unfold hall. apply in_flat_map. exists e. split; [apply in_rev; auto|]. rewrite <- E1. left; reflexivity.
Qed.

Lemma reported3 n n3 n2 a b g1 g2 obs :
  reported [@EvNewFrame P IP OP n; EvPredict n3 n2 a b g1 g2; EvTracked n obs] = [].
Proof. reflexivity. Qed.

Lemma map_shape_trace fi l : map shape (map (trace_kf fi) l) = map shape l.
Proof. rewrite map_map. reflexivity. Qed.
Lemma map_shape_ba fi l : map shape (map (ba_kf fi) l) = map shape l.
Proof. rewrite map_map. reflexivity. Qed.
Lemma map_num_trace fi l : map kf_num (map (trace_kf fi) l) = map kf_num l.
Proof. rewrite map_map. reflexivity. Qed.

Lemma NoDup_app_r {A} (l1 l2 : list A) : NoDup (l1 ++ l2) -> NoDup l2.
Proof. induction l1; simpl; auto. intros H. inversion H; auto. Qed.

Lemma sorted_all_lt (l : list Z) n : StronglySorted Z.lt l -> (forall l0 m, l = l0 ++ [m] -> m < n) -> Forall (fun x => x < n) l.
Proof.
  intros Hs H. destruct l as [|x l] using rev_ind; [constructor|].
  specialize (H l x eq_refl). apply sorted_snoc in Hs as [_ Hs]. apply Forall_app. split; [|repeat constructor; auto].
  eapply Forall_impl; [|exact Hs]. simpl. intros; lia.
Qed.

Lemma app_inj_last {A} (l1 l2 : list A) x y : l1 ++ [x] = l2 ++ [y] -> l1 = l2 /\ x = y.
Proof. apply app_inj_tail. Qed.

Notation hstep := (history_step (shiftBetweenKeyFrames s) (trackFromLastKf s) (continueChoosing s)).

Lemma rev_eq_snoc {A} (h : list A) l x : l ++ [x] = rev h -> h = x :: rev l.
Proof. intros H. rewrite <- (rev_involutive h), <- H, rev_app_distr. reflexivity. Qed.

Lemma map_inj_last {A B} (f : A -> B) l x : map f (l ++ [x]) = map f l ++ [f x].
Proof. rewrite map_app. reflexivity. Qed.

(** Shapes after one tracked frame. *)
Lemma track_shape st fi st' r h :
  NoDup (map kf_num (reported (st_log st) ++ st_kfs st)) ->
  (forall k, In k (st_kfs st) -> kf_num k < fi_num fi) ->
  map shape (reported (st_log st) ++ st_kfs st) = rev h ->
  track_frame st fi = Ok (st', r) ->
  map shape (reported (st_log st') ++ st_kfs st') = rev (hstep h (fi_num fi)).
Proof.
  intros Hnd Hlt Hh H.
  destruct (track_spec _ _ _ _ H) as (b & l & obs & pose & n1 & n2 & n3 & rest & need & st1 & Hb & Hl & Ht & Hp & Hrev & Hsz & -> & Hneed & I1 & I2 & I3 & I4 & I5 & I6 & I7 & I8 & I9 & I10 & Hc).
  apply last_kf_inv in Hl as [K0 HK]. 
  assert (Hh2 : h = shape l :: rev (map shape (reported (st_log st) ++ K0))).
  { apply rev_eq_snoc. rewrite <- Hh, HK, app_assoc, map_inj_last. reflexivity. }
  assert (R1 : reported (st_log st1) = reported (st_log st)).
  { rewrite I10, reported_app, reported3, app_nil_r. reflexivity. }
  assert (NDK : NoDup (map kf_num (map (trace_kf fi) (st_kfs st)))).
  { rewrite map_num_trace. rewrite map_app in Hnd. eapply NoDup_app_r; eauto. }
  assert (S1 : need = false -> map shape (reported (st_log st1) ++ st_kfs st1) = rev (hstep h (fi_num fi))).
  { intros ->. rewrite R1, I9, Hh2. unfold history_step. unfold shape at 2. rewrite <- Hneed.
    unfold base_kf in Hb. destruct (trackFromLastKf s).
    - rewrite HK, last_kf_snoc in Hb. injection Hb as <-.
      assert (upd_kf (kf_num l) (push_kf (fi_num fi) pose) (map (trace_kf fi) (st_kfs st)) =
              map (trace_kf fi) K0 ++ [push_kf (fi_num fi) pose (trace_kf fi l)]) as ->.
      { rewrite HK, map_inj_last in NDK |- *. apply (upd_kf_at _ _ _ _ _ (trace_kf fi l) [] NDK). }
      cbn [rev]. rewrite rev_involutive, !map_app, map_shape_trace, <- !app_assoc.
      unfold shape at 3. simpl. rewrite map_app. reflexivity.
    - destruct (lbo_kf_inv _ _ _ _ _ Hb) as (K1 & x & HK2). rewrite HK in HK2.
      change (K1 ++ [b; x]) with (K1 ++ [b] ++ [x]) in HK2. rewrite app_assoc in HK2.
      apply app_inj_tail in HK2 as [-> ->].
      assert (upd_kf (kf_num b) (push_kf (fi_num fi) pose) (map (trace_kf fi) (st_kfs st)) =
              map (trace_kf fi) K1 ++ [push_kf (fi_num fi) pose (trace_kf fi b); trace_kf fi x]) as ->.
      { rewrite HK, <- app_assoc, map_app in NDK |- *. apply (upd_kf_at _ _ _ _ _ (trace_kf fi b) [_] NDK). }
      rewrite !map_app, !rev_app_distr. simpl. rewrite !rev_app_distr. simpl. rewrite !rev_involutive, map_shape_trace.
      unfold shape at 3. simpl. rewrite !map_app, <- !app_assoc. reflexivity. }
  destruct Hc as [[Hc ->]|[Hc Hpr]].
  - destruct need; [|apply S1; reflexivity]. destruct (continueChoosing s) eqn:Ec; [discriminate|].
    rewrite R1, I9, map_app, map_shape_trace, <- map_app, Hh, Hh2. unfold history_step, shape at 3. rewrite <- Hneed. reflexivity.
  - apply andb_prop in Hc as [Hc1 Hc2]. rewrite Hc2 in *.
    destruct (promote_spec _ _ _ _ _ Hpr) as (imm & gone & kept & kfs & bk & P1 & P2 & P3 & P4 & Q1 & Q2 & Q3 & Q4 & Q5 & Q6 & Q7 & Q8 & Q9).
    assert (R2 : reported (st_log st') = reported (st_log st) ++ gone).
    { rewrite Q8, !reported_app, R1. f_equal. destruct gone; simpl; rewrite ?app_nil_r; reflexivity. }
    assert (S2 : map shape (st_kfs st') = map shape kept).
    { apply activate_skel in P3. apply skel_shape in P3.
      destruct Q9 as [(_ & -> & _)|(_ & _ & -> & _)]; [exact P3|]. rewrite map_shape_ba. exact P3. }
    apply marginalize_app in P2.
    rewrite R2, map_app, S2, <- map_app, <- app_assoc, P2, I9.
    rewrite insert_kf_end.
    2:{ intros x Hx. apply in_map_iff in Hx as [y [<- Hy]]. simpl. apply Hlt; auto. }
    rewrite Hh2. unfold history_step. unfold shape at 2. rewrite <- Hneed, Hc1.
    change (kf_num l, map fst (kf_tracked l)) with (shape l). rewrite <- Hh2. cbn [rev]. rewrite <- Hh.
    rewrite !map_app, map_shape_trace, <- app_assoc. reflexivity.
Qed.

Lemma inv_init : inv [] st0.
Proof.
  unfold inv, phase_wait, phase_run. simpl. rewrite app_nil_r.
  repeat split; try constructor; try lia; auto. repeat split; simpl; auto; lia.
Qed.

Lemma track_fields st fi st' r : track_frame st fi = Ok (st', r) ->
  st_inited st' = st_inited st /\ st_nums st' = st_nums st /\ st_size st' = st_size st /\
  st_ftobs st' = st_ftobs st /\ (st_tracker st = Some (st_ftobs st) -> st_tracker st' = Some (st_ftobs st)) /\
  r = Some (fi_num fi).
Proof.
  intros H.
  destruct (track_spec _ _ _ _ H) as (b & l & obs & pose & n1 & n2 & n3 & rest & need & st1 & Hb & Hl & Ht & Hp & Hrev & Hsz & -> & Hneed & I1 & I2 & I3 & I4 & I5 & I6 & I7 & I8 & I9 & I10 & Hc).
  destruct Hc as [[Hc ->]|[Hc Hpr]].
  - rewrite I1, I4, I5, I6, I7. auto 10.
  - destruct (promote_spec _ _ _ _ _ Hpr) as (imm & gone & kept & kfs & bk & P1 & P2 & P3 & P4 & Q1 & Q2 & Q3 & Q4 & Q5 & Q6 & Q7 & Q8 & Q9).
    rewrite Q1, Q4, Q5, Q6, Q7, I1, I4, I5, I6. auto 10.
Qed.

Definition init_kf0 (f : Z) (imm : list IP) : kf :=
  {| kf_num := f; kf_pose := pid; kf_tracked := []; kf_imm := imm; kf_opt := [] |}.
Definition init_kf1 (n : Z) (m : P) (imm : list IP) : kf :=
  {| kf_num := n; kf_pose := pinv m; kf_tracked := []; kf_imm := imm; kf_opt := [] |}.

Lemma finish_spec st fi st' r f : st_kfs st = [] -> st_first st = Some f -> f < fi_num fi ->
  finish_init st fi = Ok (st', r) ->
  exists m imm0 imm1, fi_init fi = Ok (m, imm0, imm1) /\ r = Some (fi_num fi) /\
    0 <= f /\ fi_num fi < st_size st /\
    st_kfs st' = [init_kf0 f imm0; init_kf1 (fi_num fi) m imm1] /\
    st_log st' = st_log st ++ [EvInitialized (st_kfs st');
      EvNewKf (if trackFromLastKf s then init_kf1 (fi_num fi) m imm1 else init_kf0 f imm0)] /\
    st_tracker st' = Some (st_ftobs st) /\ st_ftobs st' = st_ftobs st /\ st_size st' = st_size st /\
    st_nums st' = st_nums st /\ st_inited st' = st_inited st /\ st_first st' = st_first st /\
    st_tbl st' = (fun k => if k =? fi_num fi then Some (pinv (pinv m)) else if k =? f then Some (pinv pid) else st_tbl st k).
Proof.
  intros Hk Hf Hlt. unfold DsoModel.finish_init. intros H. inv_bind. destruct x as [[m imm0] imm1].
  rewrite Hf in H. cbv zeta in H. inv_bind. apply tbl_set_ok in E0 as [? ->]. apply tbl_set_ok in E1 as [? ->].
  rewrite Hk in *. cbn [insert_kf kf_num] in *.
  destruct (Z.ltb_spec (fi_num fi) f); [lia|]. destruct (Z.eqb_spec (fi_num fi) f); [lia|].
  exists m, imm0, imm1. unfold last_kf in E3. simpl in E3. injection E3 as <-.
  simpl in *. injection H as <- <-. simpl.
  assert (x1 = (if trackFromLastKf s then init_kf1 (fi_num fi) m imm1 else init_kf0 f imm0)) as ->.
  { unfold base_kf in E2. destruct (trackFromLastKf s); unfold last_kf, lbo_kf in E2; simpl in E2; injection E2 as <-; reflexivity. }
  repeat (split; [assumption || reflexivity || lia|]). reflexivity.
Qed.

Lemma add_frame_cases cs st fi st' r : inv cs st -> add_frame st fi = Ok (st', r) ->
  exists st1, begin_frame s st (fi_num fi) = Ok st1 /\
    Forall (fun x => x < fi_num fi) (numbers cs) /\
    ((phase_wait cs st /\ (length (numbers cs) <= sk)%nat /\ st' = st1 /\ r = None) \/
     (phase_wait cs st /\ length (numbers cs) = S sk /\ st_inited st1 = true /\ finish_init st1 fi = Ok (st', r)) \/
     (phase_run cs st /\ track_frame st1 fi = Ok (st', r))).
Proof.
  intros (N & So & Si & Sz & Ob & Ph) H. unfold DsoModel.add_frame in H. inv_bind.
  exists x. split; [exact E|]. destruct (begin_spec _ _ _ E) as (Hn & Hl & B1 & B2 & B3 & B4 & B5 & B6 & B7 & B8 & B9).
  split. { apply sorted_all_lt; auto. rewrite <- N. auto. }
  destruct Ph as [Pw|Pr].
  - destruct Pw as (W1 & W2 & W3 & W4 & W5 & W6 & W7 & W8). rewrite W1 in H.
    destruct B9 as [(C1 & _)|[(C1 & C2 & C3 & C4 & C5)|(f & C1 & C2 & C3 & C4)]]; [congruence| |].
    + rewrite C3 in H. injection H as <- <-. left.
      rewrite W7 in C2. destruct (numbers cs) as [|z zs] eqn:En; [|discriminate].
      split; [unfold phase_wait; rewrite En; auto 10|]. simpl; repeat split; lia || auto.
    + rewrite W7 in C2. destruct (numbers cs) as [|z zs] eqn:En; [discriminate|]. injection C2 as ->.
      cbn [length] in W2, W8. unfold skip_count in *.
      destruct C4 as [(D1 & D2 & D3)|(D1 & D2 & D3)]; rewrite D2 in H.
      * injection H as <- <-. left. split; [unfold phase_wait; rewrite En; simpl; auto 10|].
        simpl. repeat split; lia.
      * right; left. split; [unfold phase_wait; rewrite En; simpl; auto 10|]. simpl. repeat split; auto. lia.
  - right; right. split; auto. destruct Pr as (R1 & R2). rewrite R1 in H. exact H.
Qed.

Lemma hd_error_app {A} (l : list A) x : l <> [] -> hd_error (l ++ [x]) = hd_error l.
Proof. destruct l; [congruence|reflexivity]. Qed.

Lemma inv_step cs c st st' : inv cs st -> do_call st c = Ok st' -> inv (cs ++ [c]) st'.
Proof.
  intros Hinv H. destruct c as [fi|o].
  - cbn [DsoModel.do_call] in H. inv_bind. destruct x as [x r]. injection H as <-. simpl.
    destruct (add_frame_cases _ _ _ _ _ Hinv E) as (st1 & Hb & Hlt & Hcase).
    pose proof Hinv as (N & So & Si & Sz & Ob & Ph).
    destruct (begin_spec _ _ _ Hb) as (Hn & Hl & B1 & B2 & B3 & B4 & B5 & B6 & B7 & B8 & B9).
    unfold inv. rewrite numbers_app, observers_app. simpl. rewrite app_nil_r.
    assert (So' : StronglySorted Z.lt (numbers cs ++ [fi_num fi])) by (apply sorted_snoc_intro; auto).
    assert (Si' : Forall (fun n => 0 < n < st_size st1) (numbers cs ++ [fi_num fi])).
    { apply Forall_app. split; [|repeat constructor; lia]. eapply Forall_impl; [|exact Si]. simpl; intros; lia. }
    destruct Hcase as [(Pw & L & -> & ->)|[(Pw & L & Hi & Hf)|(Pr & Ht)]].
    + destruct Pw as (W1 & W2 & W3 & W4 & W5 & W6 & W7 & W8).
      repeat (split; [congruence || assumption || lia|]). left.
      unfold phase_wait. rewrite numbers_app. simpl. rewrite app_length. simpl.
      rewrite B4, B5, B7, B8, W3, W4.
      assert (Hi : st_inited st1 = false).
      { destruct B9 as [(C1 & _)|[(C1 & C2 & C3 & C4 & C5)|(f & C1 & C2 & C3 & [(D1 & D2 & D3)|(D1 & D2 & D3)])]]; try congruence.
        exfalso. rewrite W7 in C2. destruct (numbers cs); [discriminate|]. simpl in *. unfold skip_count in *. lia. }
      split; [exact Hi|]. split; [lia|]. do 4 (split; [assumption || reflexivity|]). split.
      * destruct B9 as [(C1 & _)|[(C1 & C2 & C3 & C4 & C5)|(f & C1 & C2 & C3 & C4)]]; [congruence| |].
        -- rewrite C4. rewrite W7 in C2. destruct (numbers cs); [reflexivity|discriminate].
        -- rewrite C3, <- C2, W7. symmetry. apply hd_error_app. intros Hz. rewrite W7, Hz in C2. discriminate.
      * destruct B9 as [(C1 & _)|[(C1 & C2 & C3 & C4 & C5)|(f & C1 & C2 & C3 & [(D1 & D2 & D3)|(D1 & D2 & D3)])]]; try congruence.
        -- rewrite C5, W8. rewrite W7 in C2. destruct (numbers cs); [reflexivity|discriminate].
        -- rewrite D3, W8. rewrite W7 in C2. destruct (numbers cs); [discriminate|]. simpl. lia.
    + destruct Pw as (W1 & W2 & W3 & W4 & W5 & W6 & W7 & W8).
      destruct B9 as [(C1 & _)|[(C1 & C2 & C3 & C4 & C5)|(f & C1 & C2 & C3 & C4)]]; try congruence.
      assert (Hff : f < fi_num fi).
      { rewrite W7 in C2. destruct (numbers cs); [discriminate|]. injection C2 as ->. inversion Hlt; auto. }
      destruct (finish_spec _ _ _ _ _ (eq_trans B4 W3) C3 Hff Hf) as (m & imm0 & imm1 & F1 & F2 & F3 & F4 & F5 & F6 & F7 & F8 & F9 & F10 & F11 & F12 & F13).
      rewrite F8, F9, F10.
      repeat (split; [congruence || assumption || lia|]). right.
      unfold phase_run. rewrite numbers_app. simpl. rewrite app_length. simpl.
      split; [congruence|]. split; [lia|]. split; [|congruence].
      rewrite F6, B8, W4, F5. rewrite W7 in C2. destruct (numbers cs) as [|z zs]; [discriminate|]. injection C2 as ->.
      simpl in L. rewrite history_first by lia. reflexivity.
    + destruct (track_fields _ _ _ _ Ht) as (T1 & T2 & T3 & T4 & T5 & T6).
      destruct (inv_kf_nums _ _ Hinv Pr) as [ND IN].
      pose proof Pr as (R1 & R2 & R3 & R4).
      rewrite T2, T3, T4. repeat (split; [congruence || assumption || lia|]). right.
      unfold phase_run. rewrite numbers_app. simpl. rewrite app_length. simpl.
      split. { rewrite T1. destruct B9 as [(C1 & C2 & _)|[(C1 & _)|(f & C1 & _)]]; congruence. }
      split; [lia|]. split.
      * rewrite history_snoc by lia. eapply track_shape; [| | |exact Ht].
        -- rewrite B8, B4. exact ND.
        -- rewrite B4. intros k Hk. rewrite Forall_forall in Hlt. apply Hlt, IN. apply in_app_iff; auto.
        -- rewrite B8, B4. exact R3.
      * rewrite T4. apply T5. congruence.
  - simpl in H. injection H as <-. unfold inv, phase_wait, phase_run in *. rewrite numbers_app, observers_app. simpl. rewrite app_nil_r.
    destruct Hinv as (N & So & Si & Sz & Ob & Ph). repeat (split; [congruence || assumption || lia|]).
    split. { rewrite Ob, <- !app_assoc. reflexivity. }
    destruct Ph as [(W1 & W2 & W3 & W4 & W5 & W6 & W7 & W8)|(R1 & R2 & R3 & R4)]; [left|right].
    + rewrite W5. auto 10.
    + rewrite R4. auto 10.
Qed.

Theorem inv_run cs st : run cs st0 = Ok st -> inv cs st.
Proof.
  revert st. induction cs as [|c cs IH] using rev_ind; intros st H.
  - injection H as <-. apply inv_init.
  - rewrite run_snoc in H. inv_bind. eapply inv_step; eauto.
Qed.

Lemma run_ind2 (Q : list call -> state -> Prop) :
  Q [] st0 ->
  (forall cs st c st', run cs st0 = Ok st -> inv cs st -> Q cs st -> do_call st c = Ok st' ->
     inv (cs ++ [c]) st' -> Q (cs ++ [c]) st') ->
  forall cs st, run cs st0 = Ok st -> Q cs st.
Proof.
  intros H0 HS cs. induction cs as [|c cs IH] using rev_ind; intros st H.
  - injection H as <-. exact H0.
  - pose proof H as H'. rewrite run_snoc in H. inv_bind.
    eapply HS; eauto; [apply inv_run; eauto|apply inv_run; exact H'].
Qed.

Lemma phase_excl cs st : phase_wait cs st -> phase_run cs st -> False.
Proof. intros (W1 & _) (R1 & _). congruence. Qed.

(** ** C02 and friends *)
Lemma reported_destroy st : reported (destroy st) = reported (st_log st) ++ st_kfs st.
Proof. unfold destroy. rewrite reported_app. simpl. rewrite app_nil_r. reflexivity. Qed.

Lemma all_reported cs st : run cs st0 = Ok st ->
  map shape (reported (destroy st)) = rev (hist (numbers cs)).
Proof.
  intros H. destruct (inv_run _ _ H) as (N & So & Si & Sz & Ob & [W|R]).
  - destruct W as (W1 & W2 & W3 & W4 & _). rewrite reported_destroy, W3, W4, history_early by lia. reflexivity.
  - rewrite reported_destroy. apply R.
Qed.

Lemma all_reported_nums cs st : run cs st0 = Ok st ->
  map kf_num (reported (destroy st)) = expected_kfs (firstFramesSkip s) (shiftBetweenKeyFrames s) (continueChoosing s) (numbers cs).
Proof.
  intros H. rewrite <- (history_kfs _ _ (trackFromLastKf s)). rewrite <- (all_reported _ _ H), map_map. reflexivity.
Qed.

Lemma accepted_sorted cs st : run cs st0 = Ok st ->
  StronglySorted Z.lt (numbers cs) /\ Forall (fun n => 0 < n < st_size st) (numbers cs).
Proof. intros H. destruct (inv_run _ _ H) as (N & So & Si & _). auto. Qed.

(** ** C01 *)
Lemma window_bound cs st : 1 <= maxKeyFrames s -> run cs st0 = Ok st ->
  Z.of_nat (length (st_kfs st)) <= Z.max 2 (maxKeyFrames s).
Proof.
  intros Hm. revert cs st. apply (run_ind2 (fun cs st => Z.of_nat (length (st_kfs st)) <= Z.max 2 (maxKeyFrames s))).
  - simpl. lia.
  - intros cs st c st' _ Hinv Q H _. destruct c as [fi|o].
    2:{ injection H as <-. exact Q. }
    cbn [DsoModel.do_call] in H. inv_bind. destruct x as [x r]. injection H as <-. simpl.
    destruct (add_frame_cases _ _ _ _ _ Hinv E) as (st1 & Hb & Hlt & Hcase).
    destruct (begin_spec _ _ _ Hb) as (Hn & Hl & B1 & B2 & B3 & B4 & B5 & B6 & B7 & B8 & B9).
    destruct Hcase as [(Pw & L & -> & ->)|[(Pw & L & Hi & Hf)|(Pr & Ht)]].
    + rewrite B4. exact Q.
    + destruct Pw as (W1 & W2 & W3 & W4 & W5 & W6 & W7 & W8).
      destruct B9 as [(C1 & _)|[(C1 & C2 & C3 & C4 & C5)|(f & C1 & C2 & C3 & C4)]]; try congruence.
      assert (Hff : f < fi_num fi).
      { rewrite W7 in C2. destruct (numbers cs); [discriminate|]. injection C2 as ->. inversion Hlt; auto. }
      destruct (finish_spec _ _ _ _ _ (eq_trans B4 W3) C3 Hff Hf) as (m & imm0 & imm1 & F1 & F2 & F3 & F4 & F5 & F6).
      rewrite F5. simpl. lia.
    + destruct (track_spec _ _ _ _ Ht) as (b & l & obs & pose & n1 & n2 & n3 & rest & need & st2 & Hb2 & Hl2 & Ht2 & Hp & Hrev & Hsz & -> & Hneed & I1 & I2 & I3 & I4 & I5 & I6 & I7 & I8 & I9 & I10 & Hc).
      destruct Hc as [[Hc ->]|[Hc Hpr]].
      * rewrite I9, B4. destruct need; unfold upd_kf; rewrite ?map_length; exact Q.
      * destruct (promote_spec _ _ _ _ _ Hpr) as (imm & gone & kept & kfs & bk & P1 & P2 & P3 & P4 & Q1 & Q2 & Q3 & Q4 & Q5 & Q6 & Q7 & Q8 & Q9).
        apply activate_skel in P3. apply (f_equal (@length _)) in P3. rewrite !map_length in P3.
        apply marginalize_length in P2; [|lia].
        destruct Q9 as [(_ & -> & _)|(_ & _ & -> & _)]; rewrite ?map_length, P3; lia.
Qed.

(** ** Domain of the pose table *)
Definition kf_writes (k : kf) : list (Z * P) :=
  (kf_num k, pinv (kf_pose k)) :: map (fun e => (fst e, pmul (snd e) (pinv (kf_pose k)))) (kf_tracked k).

Lemma ofold_map {A B C} (f : A -> B -> outcome A) (g : C -> B) l a :
  ofold f (map g l) a = ofold (fun a c => f a (g c)) l a.
Proof. revert a. induction l; intros; simpl; [reflexivity|]. destruct (f a0 (g a)); simpl; auto. Qed.

Definition write size (t : Z -> option P) (e : Z * P) := tbl_set size t (fst e) (snd e).

Lemma rewrite_kf_writes size t (k : kf) :
  rewrite_kf pmul pinv size t k = ofold (write size) (kf_writes k) t.
Proof.
  unfold rewrite_kf, kf_writes. cbn [ofold]. unfold write at 1. simpl.
  destruct (tbl_set size t (kf_num k) (pinv (kf_pose k))) as [t'| | | |]; try reflexivity.
  cbn [bind]. rewrite ofold_map. reflexivity.
Qed.

Lemma rewrite_all_writes size (l : list kf) t :
  ofold (rewrite_kf pmul pinv size) l t = ofold (write size) (flat_map kf_writes l) t.
Proof.
  revert t. induction l as [|k l IH]; intros t; [reflexivity|]. cbn [ofold flat_map]. rewrite ofold_app, rewrite_kf_writes.
  destruct (ofold (write size) (kf_writes k) t); simpl; auto.
Qed.

Lemma writes_keys (l : list kf) : map fst (flat_map kf_writes l) = hall (map shape l).
Proof.
  induction l as [|k l IH]; [reflexivity|]. cbn [flat_map]. rewrite map_app, IH. simpl. f_equal. f_equal.
  rewrite map_map. reflexivity.
Qed.

Lemma writes_result size ws : forall t t', ofold (write size) ws t = Ok t' ->
  (forall n, ~ In n (map fst ws) -> t' n = t n) /\
  (NoDup (map fst ws) -> forall n p, In (n, p) ws -> t' n = Some p) /\
  (forall n, In n (map fst ws) -> t' n <> None).
Proof.
  induction ws as [|[n p] ws IH]; intros t t' H; simpl in H.
  - injection H as <-. simpl. split; [reflexivity|]. split; [|tauto]. intros _ ? ? [].
  - inv_bind. unfold write in E. simpl in E. apply tbl_set_ok in E as [_ ->].
    destruct (IH _ _ H) as (A & B & C). simpl. split; [|split].
    + intros m Hm. rewrite A by tauto. destruct (Z.eqb_spec m n); [subst; tauto|reflexivity].
    + intros ND m q. inversion ND; subst. intros [Hq|Hq].
      * injection Hq as -> ->. rewrite A by assumption. rewrite Z.eqb_refl. reflexivity.
      * apply B; auto.
    + intros m Hm. destruct (in_dec Z.eq_dec m (map fst ws)) as [Hi|Hi]; [apply C; auto|].
      rewrite A by auto. destruct Hm as [<-|Hm]; [rewrite Z.eqb_refl; discriminate|tauto].
Qed.

Lemma held_hall cs st x : inv cs st -> phase_run cs st -> In x (hall (map shape (st_kfs st))) ->
  In x (used_frames (firstFramesSkip s) (numbers cs)).
Proof.
  intros Hi (_ & _ & Hsh & _) Hx. eapply history_used. unfold hall in *.
  apply in_flat_map in Hx as [e [He Hx]]. apply in_flat_map. exists e. split; [|exact Hx].
  apply in_rev. rewrite <- Hsh, map_app. apply in_app_iff; auto.
Qed.

Lemma held_nodup cs st : inv cs st -> phase_run cs st -> NoDup (hall (map shape (st_kfs st))).
Proof.
  intros (_ & So & _) (_ & _ & Hsh & _).
  destruct (history_hall (firstFramesSkip s) (shiftBetweenKeyFrames s) (trackFromLastKf s) (continueChoosing s) _ So) as [ND _].
  assert (Permutation (hall (hist (numbers cs))) (hall (rev (hist (numbers cs))))) as Pm.
  { unfold hall. apply Permutation_flat_map, Permutation_rev. }
  apply (Permutation_NoDup Pm) in ND. rewrite <- Hsh, map_app in ND. unfold hall in *. rewrite flat_map_app in ND.
  eapply NoDup_app_r; eauto.
Qed.

Lemma table_domain cs st : run cs st0 = Ok st ->
  forall n, st_tbl st n <> None <-> In n (used_frames (firstFramesSkip s) (numbers cs)).
Proof.
  revert cs st. apply (run_ind2 (fun cs st => forall n, st_tbl st n <> None <-> In n (used_frames (firstFramesSkip s) (numbers cs)))).
  - simpl. intros n. split; [congruence|tauto].
  - intros cs st c st' _ Hinv Q H Hinv'. destruct c as [fi|o].
    2:{ injection H as <-. rewrite numbers_app. simpl. rewrite app_nil_r. exact Q. }
    cbn [DsoModel.do_call] in H. inv_bind. destruct x as [x r]. injection H as <-. cbn [fst] in *.
    destruct (add_frame_cases _ _ _ _ _ Hinv E) as (st1 & Hb & Hlt & Hcase).
    destruct (begin_spec _ _ _ Hb) as (Hn & Hl & B1 & B2 & B3 & B4 & B5 & B6 & B7 & B8 & B9).
    assert (En : numbers (cs ++ [AddFrame fi]) = numbers cs ++ [fi_num fi]) by (rewrite numbers_app; reflexivity).
    destruct Hcase as [(Pw & L & -> & ->)|[(Pw & L & Hi & Hf)|(Pr & Ht)]].
    + intros n. rewrite B5, En. destruct Pw as (W1 & W2 & W3 & W4 & W5 & W6 & W7 & W8). rewrite W6.
      rewrite used_early by (rewrite app_length; simpl; lia). simpl. split; [congruence|tauto].
    + destruct Pw as (W1 & W2 & W3 & W4 & W5 & W6 & W7 & W8).
      destruct B9 as [(C1 & _)|[(C1 & C2 & C3 & C4 & C5)|(f & C1 & C2 & C3 & C4)]]; try congruence.
      assert (Hff : f < fi_num fi).
      { rewrite W7 in C2. destruct (numbers cs); [discriminate|]. injection C2 as ->. inversion Hlt; auto. }
      destruct (finish_spec _ _ _ _ _ (eq_trans B4 W3) C3 Hff Hf) as (m & imm0 & imm1 & F1 & F2 & F3 & F4 & F5 & F6 & F7 & F8 & F9 & F10 & F11 & F12 & F13).
      intros n. rewrite F13, En. rewrite W7 in C2. destruct (numbers cs) as [|z zs]; [discriminate|]. injection C2 as ->.
      simpl in L. rewrite used_first by lia. simpl. rewrite B5, W6.
      destruct (Z.eqb_spec n (fi_num fi)); [subst; split; [auto|discriminate]|].
      destruct (Z.eqb_spec n f); [subst; split; [auto|discriminate]|].
      split; [congruence|]. intros [?|[?|[]]]; congruence.
    + destruct (track_spec _ _ _ _ Ht) as (b & l & obs & pose & n1 & n2 & n3 & rest & need & st2 & Hb2 & Hl2 & Ht2 & Hp & Hrev & Hsz & -> & Hneed & I1 & I2 & I3 & I4 & I5 & I6 & I7 & I8 & I9 & I10 & Hc).
      rewrite En, used_snoc by apply Pr.
      assert (G : forall n, st_tbl st2 n <> None <-> In n (used_frames (firstFramesSkip s) (numbers cs) ++ [fi_num fi])).
      { intros n. rewrite I8, in_app_iff. simpl. destruct (Z.eqb_spec n (fi_num fi)); [subst; split; [auto|discriminate]|].
        rewrite B5, Q. split; [auto|]. intros [?|[?|[]]]; [auto|congruence]. }
      destruct Hc as [[Hc ->]|[Hc Hpr]]; [exact G|].
      destruct (promote_spec _ _ _ _ _ Hpr) as (imm & gone & kept & kfs & bk & P1 & P2 & P3 & P4 & Q1 & Q2 & Q3 & Q4 & Q5 & Q6 & Q7 & Q8 & Q9).
      destruct Q9 as [(_ & _ & ->)|(_ & _ & Ek & Ew)]; [exact G|].
      rewrite rewrite_all_writes in Ew. destruct (writes_result _ _ _ _ Ew) as (A & B & C).
      assert (Pr' : phase_run (cs ++ [AddFrame fi]) x).
      { destruct Hinv' as (_ & _ & _ & _ & _ & [W|R]); [|exact R]. exfalso. destruct W as (W1 & W2 & _).
        rewrite En, app_length in W2. simpl in W2. destruct Pr as (_ & R2 & _). lia. }
      intros n. destruct (in_dec Z.eq_dec n (map fst (flat_map kf_writes (map (ba_kf fi) kfs)))) as [Hin|Hin].
      * split; [|intros _; apply C; auto]. intros _. rewrite writes_keys, <- Ek in Hin.
        pose proof (held_hall _ _ _ Hinv' Pr' Hin) as HU. rewrite En, used_snoc in HU by apply Pr. exact HU.
      * rewrite A by auto. apply G.
Qed.

(** ** C06 *)
Definition agrees (t : Z -> option P) (k : kf) : Prop :=
  t (kf_num k) = Some (pinv (kf_pose k)) /\
  forall n p, In (n, p) (kf_tracked k) -> t n = Some (pmul p (pinv (kf_pose k))).

Lemma agrees_skel t (k k' : kf) : skel k = skel k' -> agrees t k -> agrees t k'.
Proof. unfold skel, agrees. intros H. injection H as -> -> ->. auto. Qed.

Lemma agrees_other t (k : kf) n p : agrees t k -> kf_num k <> n -> (forall q, ~ In (n, q) (kf_tracked k)) ->
  agrees (fun m => if m =? n then Some p else t m) k.
Proof.
  intros [A B] H1 H2. split.
  - destruct (Z.eqb_spec (kf_num k) n); [congruence|exact A].
  - intros m q Hq. destruct (Z.eqb_spec m n); [subst; exfalso; apply (H2 q Hq)|apply B; auto].
Qed.

Lemma skel_in (l l' : list kf) k : map skel l = map skel l' -> In k l -> exists k', In k' l' /\ skel k' = skel k.
Proof.
  intros H Hin. apply (in_map skel) in Hin. rewrite H in Hin. apply in_map_iff in Hin as [k' [E Hk]]. eauto.
Qed.

Lemma in_hall_num (k : kf) l : In k l -> In (kf_num k) (hall (map shape l)).
Proof. intros H. unfold hall. apply in_flat_map. exists (shape k). split; [apply in_map; auto|left; reflexivity]. Qed.
Lemma in_hall_tracked (k : kf) l n p : In k l -> In (n, p) (kf_tracked k) -> In n (hall (map shape l)).
Proof.
  intros H Ht. unfold hall. apply in_flat_map. exists (shape k). split; [apply in_map; auto|]. right. simpl.
  apply (in_map fst) in Ht. exact Ht.
Qed.

Lemma base_kf_in (l : list kf) b : base_kf s l = Ok b -> In b l.
Proof.
  unfold base_kf. destruct (trackFromLastKf s); intros H.
  - apply last_kf_inv in H as [l0 ->]. apply in_app_iff. right; left; reflexivity.
  - apply lbo_kf_inv in H as (l0 & x & ->). apply in_app_iff. right; left; reflexivity.
Qed.

Lemma table_agrees (PL : pose_laws pid pmul pinv) cs st : run cs st0 = Ok st ->
  forall k, In k (st_kfs st) -> agrees (st_tbl st) k.
Proof.
  revert cs st. apply (run_ind2 (fun cs st => forall k, In k (st_kfs st) -> agrees (st_tbl st) k)).
  - intros k [].
  - intros cs st c st' _ Hinv Q H Hinv'. destruct c as [fi|o].
    2:{ injection H as <-. exact Q. }
    cbn [DsoModel.do_call] in H. inv_bind. destruct x as [x r]. injection H as <-. cbn [fst] in *.
    destruct (add_frame_cases _ _ _ _ _ Hinv E) as (st1 & Hb & Hlt & Hcase).
    destruct (begin_spec _ _ _ Hb) as (Hn & Hl & B1 & B2 & B3 & B4 & B5 & B6 & B7 & B8 & B9).
    destruct Hcase as [(Pw & L & -> & ->)|[(Pw & L & Hi & Hf)|(Pr & Ht)]].
    + rewrite B4, B5. exact Q.
    + destruct Pw as (W1 & W2 & W3 & W4 & W5 & W6 & W7 & W8).
      destruct B9 as [(C1 & _)|[(C1 & C2 & C3 & C4 & C5)|(f & C1 & C2 & C3 & C4)]]; try congruence.
      assert (Hff : f < fi_num fi).
      { rewrite W7 in C2. destruct (numbers cs); [discriminate|]. injection C2 as ->. inversion Hlt; auto. }
      destruct (finish_spec _ _ _ _ _ (eq_trans B4 W3) C3 Hff Hf) as (m & imm0 & imm1 & F1 & F2 & F3 & F4 & F5 & F6 & F7 & F8 & F9 & F10 & F11 & F12 & F13).
      rewrite F5, F13. intros k [<-|[<-|[]]]; (split; [|intros ? ? []]); simpl.
      * destruct (Z.eqb_spec f (fi_num fi)); [lia|]. rewrite Z.eqb_refl. reflexivity.
      * rewrite Z.eqb_refl. reflexivity.
    + destruct (track_spec _ _ _ _ Ht) as (b & l & obs & pose & n1 & n2 & n3 & rest & need & st2 & Hb2 & Hl2 & Ht2 & Hp & Hrev & Hsz & -> & Hneed & I1 & I2 & I3 & I4 & I5 & I6 & I7 & I8 & I9 & I10 & Hc).
      assert (Fresh : forall x, In x (hall (map shape (st_kfs st))) -> x < fi_num fi).
      { intros y Hy. rewrite Forall_forall in Hlt. apply Hlt.
        destruct Hinv as (_ & So & _). destruct (history_hall (firstFramesSkip s) (shiftBetweenKeyFrames s) (trackFromLastKf s) (continueChoosing s) _ So) as [_ Hsub].
        apply Hsub. destruct Pr as (_ & _ & Hsh & _). unfold hall in *. apply in_flat_map in Hy as [e [He Hy]].
        apply in_flat_map. exists e. split; [|auto]. apply in_rev. rewrite <- Hsh, map_app. apply in_app_iff; auto. }
      rewrite B4 in Hb2, Hl2, I9. rewrite B5 in I8.
      pose proof (base_kf_in _ _ Hb2) as Hbin.
      assert (G0 : forall k, In k (st_kfs st) -> agrees (st_tbl st2) k).
      { intros k Hk. rewrite I8. apply agrees_other; [apply Q; auto| |].
        - pose proof (Fresh _ (in_hall_num _ _ Hk)). lia.
        - intros q Hq. pose proof (Fresh _ (in_hall_tracked _ _ _ _ Hk Hq)). lia. }
      assert (G : forall k, In k (st_kfs st2) -> agrees (st_tbl st2) k).
      { intros k Hk. rewrite I9 in Hk. destruct need.
        - apply in_map_iff in Hk as [y [<- Hy]]. apply (agrees_skel _ y); [reflexivity|apply G0; auto].
        - unfold upd_kf in Hk. apply in_map_iff in Hk as [z [Hz Hk]]. apply in_map_iff in Hk as [y [<- Hy]].
          simpl in Hz. destruct (Z.eqb_spec (kf_num y) (kf_num b)) as [Ey|Ey]; subst k.
          + assert (y = b) as ->.
            { assert (NDn : NoDup (map kf_num (st_kfs st))).
              { destruct (inv_kf_nums _ _ Hinv Pr) as [ND _]. rewrite map_app in ND. eapply NoDup_app_r; eauto. }
              clear - NDn Hy Hbin Ey. induction (st_kfs st) as [|a l IH]; [destruct Hy|]. simpl in NDn. inversion NDn as [|? ? Hni ND']; subst.
              destruct Hy as [->|Hy], Hbin as [->|Hbin]; auto.
              - exfalso. apply Hni. rewrite Ey. apply in_map; auto.
              - exfalso. apply Hni. rewrite <- Ey. apply in_map; auto. }
            destruct (G0 _ Hbin) as [A1 A2]. split; [exact A1|]. simpl. intros n p Hnp. apply in_app_iff in Hnp as [Hnp|[Hnp|[]]].
            * apply A2; auto.
            * injection Hnp as <- <-. rewrite I8, Z.eqb_refl. reflexivity.
          + apply (agrees_skel _ y); [reflexivity|apply G0; auto]. }
      destruct Hc as [[Hc ->]|[Hc Hpr]]; [exact G|].
      destruct (promote_spec _ _ _ _ _ Hpr) as (imm & gone & kept & kfs & bk & P1 & P2 & P3 & P4 & Q1 & Q2 & Q3 & Q4 & Q5 & Q6 & Q7 & Q8 & Q9).
      apply activate_skel in P3. apply marginalize_app in P2.
      destruct Q9 as [(_ & Ek & Et)|(_ & _ & Ek & Ew)].
      * rewrite Ek, Et. intros k Hk. destruct (skel_in _ _ _ P3 Hk) as [k' [Hk' Es]].
        apply (agrees_skel _ _ _ Es). assert (Hin : In k' (gone ++ kept)) by (apply in_app_iff; auto).
        rewrite P2 in Hin. rewrite insert_kf_end in Hin.
        2:{ intros y Hy. simpl. rewrite I9 in Hy. apply andb_prop in Hc as [_ ->]. apply in_map_iff in Hy as [z [<- Hz]]. simpl.
            apply Fresh. apply in_hall_num; auto. }
        apply in_app_iff in Hin as [Hin|[<-|[]]]; [apply G; auto|].
        split; [|intros ? ? []]. simpl. rewrite I8, Z.eqb_refl. f_equal.
        destruct PL as [A1 A2 A3 A4 A5].
        assert (inv_u : forall a b, pmul a b = pid -> b = pinv a).
        { intros u v Huv. rewrite <- (A2 v), <- (A4 u), <- A1, Huv, A3. reflexivity. }
        apply inv_u. rewrite A1, <- (A1 _ (pinv pose)), A4, A3, A5. reflexivity.
      * intros k Hk. rewrite rewrite_all_writes in Ew. destruct (writes_result _ _ _ _ Ew) as (A & B & C).
        assert (Pr' : phase_run (cs ++ [AddFrame fi]) x).
        { destruct Hinv' as (_ & _ & _ & _ & _ & [W|R]); [|exact R]. exfalso. destruct W as (W1 & W2 & _).
          rewrite numbers_app, app_length in W2. simpl in W2. destruct Pr as (_ & R2 & _). lia. }
        pose proof (held_nodup _ _ Hinv' Pr') as ND. rewrite Ek in Hk, ND. rewrite <- writes_keys in ND. specialize (B ND).
        split.
        -- apply B. apply in_flat_map. exists k. split; [auto|left; reflexivity].
        -- intros n p Hnp. apply B. apply in_flat_map. exists k. split; [auto|right]. apply in_map_iff. exists (n, p). auto.
Qed.

(** ** Events of tracked frames (C07, C27) *)
Definition log_step_tracked (cs : list call) st (fi : frame_in) (tail : list (event P IP OP)) : Prop :=
  exists pre n3 n2 rest, numbers cs = pre ++ [n3; n2] /\ (sk <= length pre)%nat /\
    tail = EvNewFrame (fi_num fi) ::
           EvPredict n3 n2 (st_tbl st n3) (st_tbl st n2) (n2 - fi_num fi) (n3 - n2) ::
           EvTracked (fi_num fi) (obsA ++ obsB ++ observers_added cs) :: rest /\
    Forall (fun e => match e with EvMarg _ | EvNewKf _ => True | _ => False end) rest.

Lemma log_step cs st fi st' r : inv cs st -> add_frame st fi = Ok (st', r) ->
  exists tail, st_log st' = st_log st ++ tail /\
    (phase_wait cs st -> (length (numbers cs) <= sk)%nat -> tail = []) /\
    (phase_wait cs st -> length (numbers cs) = S sk -> exists b, tail = [EvInitialized (st_kfs st'); EvNewKf b]) /\
    (phase_run cs st -> log_step_tracked cs st fi tail).
Proof.
  intros Hinv E. destruct (add_frame_cases _ _ _ _ _ Hinv E) as (st1 & Hb & Hlt & Hcase).
  pose proof Hinv as (N & So & Si & Sz & Ob & Ph).
  destruct (begin_spec _ _ _ Hb) as (Hn & Hl & B1 & B2 & B3 & B4 & B5 & B6 & B7 & B8 & B9).
  destruct Hcase as [(Pw & L & -> & ->)|[(Pw & L & Hi & Hf)|(Pr & Ht)]].
  - exists []. rewrite app_nil_r. split; [auto|]. split; [auto|]. split; [lia|]. intros R. destruct (phase_excl _ _ Pw R).
  - pose proof Pw as (W1 & W2 & W3 & W4 & W5 & W6 & W7 & W8).
    destruct B9 as [(C1 & _)|[(C1 & C2 & C3 & C4 & C5)|(f & C1 & C2 & C3 & C4)]]; try congruence.
    assert (Hff : f < fi_num fi).
    { rewrite W7 in C2. destruct (numbers cs); [discriminate|]. injection C2 as ->. inversion Hlt; auto. }
    destruct (finish_spec _ _ _ _ _ (eq_trans B4 W3) C3 Hff Hf) as (m & imm0 & imm1 & F1 & F2 & F3 & F4 & F5 & F6 & F7 & F8 & F9 & F10 & F11 & F12 & F13).
    rewrite F6, B8. eexists. split; [reflexivity|]. split; [lia|]. split; [eauto|]. intros R. destruct (phase_excl _ _ Pw R).
  - destruct (track_spec _ _ _ _ Ht) as (b & l & obs & pose & n1 & n2 & n3 & rest & need & st2 & Hb2 & Hl2 & Ht2 & Hp & Hrev & Hsz & -> & Hneed & I1 & I2 & I3 & I4 & I5 & I6 & I7 & I8 & I9 & I10 & Hc).
    assert (Hsplit : numbers cs = rev rest ++ [n3; n2] /\ n1 = fi_num fi).
    { rewrite B1, N, rev_app_distr in Hrev. simpl in Hrev. injection Hrev as <- Hrev. split; [|reflexivity].
      rewrite <- (rev_involutive (numbers cs)), Hrev. simpl. rewrite <- app_assoc. reflexivity. }
    destruct Hsplit as [Hsplit ->].
    assert (Hobs : obs = obsA ++ obsB ++ observers_added cs).
    { destruct Pr as (_ & _ & _ & R4). rewrite B7, R4, Ob in Ht2. congruence. }
    assert (Hlen : (sk <= length (rev rest))%nat).
    { destruct Pr as (_ & R2 & _). rewrite Hsplit, app_length in R2. simpl in R2. lia. }
    rewrite B5 in I10. subst obs.
    destruct Hc as [[Hc ->]|[Hc Hpr]].
    + rewrite I10, B8. eexists. split; [reflexivity|]. split; [intros W; destruct (phase_excl _ _ W Pr)|].
      split; [intros W; destruct (phase_excl _ _ W Pr)|]. intros _. exists (rev rest), n3, n2, []. auto 10.
    + destruct (promote_spec _ _ _ _ _ Hpr) as (imm & gone & kept & kfs & bk & P1 & P2 & P3 & P4 & Q1 & Q2 & Q3 & Q4 & Q5 & Q6 & Q7 & Q8 & Q9).
      rewrite Q8, I10, B8, <- app_assoc. eexists. split; [reflexivity|]. split; [intros W; destruct (phase_excl _ _ W Pr)|].
      split; [intros W; destruct (phase_excl _ _ W Pr)|]. intros _.
      exists (rev rest), n3, n2. eexists. split; [auto|]. split; [auto|]. split; [reflexivity|].
      destruct gone; repeat constructor.
Qed.

Lemma log_prefix cs1 cs2 st1 st2 : run cs1 st0 = Ok st1 -> run cs2 st1 = Ok st2 ->
  exists tail, st_log st2 = st_log st1 ++ tail.
Proof.
  intros H1. revert st2. induction cs2 as [|c cs2 IH] using rev_ind; intros st2 H2.
  - injection H2 as <-. exists []. rewrite app_nil_r. reflexivity.
  - assert (H3 : exists st, run cs2 st1 = Ok st /\ do_call st c = Ok st2).
    { rewrite run_snoc in H2. inv_bind. eauto. }
    destruct H3 as (st & H3 & H4). destruct (IH _ H3) as [tl Htl].
    destruct c as [fi|o].
    + cbn [DsoModel.do_call] in H4. inv_bind. destruct x as [x r]. injection H4 as <-.
      assert (Hi : inv (cs1 ++ cs2) st) by (apply inv_run; rewrite run_app, H1; exact H3).
      destruct (log_step _ _ _ _ _ Hi E) as (t2 & Ht2 & _). simpl. rewrite Ht2, Htl, <- app_assoc. eauto.
    + injection H4 as <-. simpl. rewrite Htl. eauto.
Qed.

Lemma nodup_sorted (l : list Z) : StronglySorted Z.lt l -> NoDup l.
Proof.
  induction 1; constructor; auto. rewrite Forall_forall in H0. intros Hin. specialize (H0 _ Hin). lia.
Qed.

(** Every prediction: which frames it reads, and the gaps. *)
Lemma predictions cs st : run cs st0 = Ok st ->
  forall lbo last plbo plast g1 g2, In (EvPredict lbo last plbo plast g1 g2) (st_log st) ->
  exists pre cur post, numbers cs = pre ++ lbo :: last :: cur :: post /\ (sk <= length pre)%nat /\
    g1 = last - cur /\ g2 = lbo - last /\ g1 < 0 /\ g2 < 0 /\ plast <> None /\
    (plbo = None <-> (length pre = sk /\ sk <> 0%nat)).
Proof.
  revert cs st. apply (run_ind2 (fun cs st => forall lbo last plbo plast g1 g2, In (EvPredict lbo last plbo plast g1 g2) (st_log st) ->
  exists pre cur post, numbers cs = pre ++ lbo :: last :: cur :: post /\ (sk <= length pre)%nat /\
    g1 = last - cur /\ g2 = lbo - last /\ g1 < 0 /\ g2 < 0 /\ plast <> None /\
    (plbo = None <-> (length pre = sk /\ sk <> 0%nat)))).
  - intros ? ? ? ? ? ? [].
  - intros cs st c st' Hrun Hinv Q H Hinv' lbo last plbo plast g1 g2 Hin.
    assert (Old : In (EvPredict lbo last plbo plast g1 g2) (st_log st) ->
       exists pre cur post, numbers (cs ++ [c]) = pre ++ lbo :: last :: cur :: post /\ (sk <= length pre)%nat /\
    g1 = last - cur /\ g2 = lbo - last /\ g1 < 0 /\ g2 < 0 /\ plast <> None /\
    (plbo = None <-> (length pre = sk /\ sk <> 0%nat))).
    { intros Ho. destruct (Q _ _ _ _ _ _ Ho) as (pre & cur & post & E & R). exists pre, cur, (post ++ numbers [c]).
      split; [|exact R]. rewrite numbers_app, E, <- app_assoc. reflexivity. }
    destruct c as [fi|o].
    2:{ injection H as <-. apply Old. exact Hin. }
    cbn [DsoModel.do_call] in H. inv_bind. destruct x as [x r]. injection H as <-. cbn [fst] in *.
    destruct (log_step _ _ _ _ _ Hinv E) as (tail & Htail & TW & TI & TR).
    rewrite Htail in Hin. apply in_app_iff in Hin as [Hin|Hin]; [auto|].
    pose proof Hinv as (N & So & Si & Sz & Ob & [W|R]).
    + exfalso. destruct (Nat.le_gt_cases (length (numbers cs)) sk) as [L|L].
      * rewrite (TW W L) in Hin. destruct Hin.
      * destruct (TI W) as [b Hb]. { destruct W as (_ & W2 & _). lia. } rewrite Hb in Hin.
        destruct Hin as [Hin|[Hin|[]]]; discriminate.
    + destruct (TR R) as (pre & n3 & n2 & rest & Hs & Hlen & -> & HF).
      destruct Hin as [Hin|[Hin|[Hin|Hin]]]; try discriminate.
      2:{ rewrite Forall_forall in HF. apply HF in Hin. destruct Hin. }
      injection Hin as <- <- <- <- <- <-.
      exists pre, (fi_num fi), []. rewrite numbers_app, Hs. simpl numbers. rewrite <- app_assoc. split; [reflexivity|].
      split; [exact Hlen|]. do 2 (split; [reflexivity|]).
      pose proof (nodup_sorted _ So) as ND.
      destruct Hinv' as (_ & So' & _). rewrite numbers_app, Hs in So'. simpl in So'.
      assert (G1 : n2 < fi_num fi).
      { apply sorted_snoc in So' as [_ F]. rewrite Forall_forall in F. apply F. apply in_app_iff. right. right. left. reflexivity. }
      assert (G2 : n3 < n2).
      { rewrite Hs in So. change (pre ++ [n3; n2]) with (pre ++ [n3] ++ [n2]) in So. rewrite app_assoc in So.
        apply sorted_snoc in So as [_ F]. rewrite Forall_forall in F. apply F. apply in_app_iff. right. left. reflexivity. }
      split; [lia|]. split; [lia|].
      assert (Hlen2 : (S (S sk) <= length (numbers cs))%nat) by apply R.
      split.
      * apply (table_domain _ _ Hrun). rewrite Hs in *.
        change (pre ++ [n3; n2]) with (pre ++ [n3] ++ [n2]) in *. rewrite app_assoc in *.
        apply used_in; auto. split; [exact Hlen2|]. right. rewrite app_length. simpl. lia.
      * pose proof (table_domain _ _ Hrun n3) as TD. rewrite Hs in *.
        rewrite (used_in _ pre n3 [n2] ND) in TD. destruct (st_tbl st n3) as [p|].
        -- split; [discriminate|]. intros [A B]. destruct TD as [TD _]. specialize (TD ltac:(discriminate)).
           destruct TD as [_ [->|TD]]; [simpl in A; congruence|lia].
        -- split; [|reflexivity]. intros _. destruct TD as [_ TD].
           destruct (Nat.eq_dec (length pre) sk) as [E1|E1].
           ++ split; [auto|]. intros E2. apply TD; [|reflexivity]. split; [auto|]. left. destruct pre; [reflexivity|simpl in E1; congruence].
           ++ exfalso. apply TD; [|reflexivity]. split; [auto|]. right. lia.
Qed.

Lemma split_call cs1 fi cs2 st : run (cs1 ++ AddFrame fi :: cs2) st0 = Ok st ->
  exists st1 st2 r, run cs1 st0 = Ok st1 /\ inv cs1 st1 /\ add_frame st1 fi = Ok (st2, r) /\
    inv (cs1 ++ [AddFrame fi]) st2 /\ exists tail, st_log st = st_log st2 ++ tail.
Proof.
  intros H. change (AddFrame fi :: cs2) with ([AddFrame fi] ++ cs2) in H. rewrite app_assoc, run_app in H. inv_bind.
  pose proof E as E'. rewrite run_snoc in E. inv_bind. rename x into st2, x0 into st1.
  cbn [DsoModel.do_call] in E. inv_bind. destruct x as [x r]. injection E as <-.
  exists st1, x, r. split; [auto|]. split; [apply inv_run; auto|]. split; [auto|]. split; [apply inv_run; auto|].
  eapply log_prefix; eauto.
Qed.

(** Every tracked frame was predicted and reached the observers registered before. *)
Lemma tracked_events cs1 fi cs2 st : run (cs1 ++ AddFrame fi :: cs2) st0 = Ok st ->
  (S (S sk) <= length (numbers cs1))%nat ->
  In (EvTracked (fi_num fi) (obsA ++ obsB ++ observers_added cs1)) (st_log st) /\
  In (EvNewFrame (fi_num fi)) (st_log st) /\
  exists pre lbo last plbo plast, numbers cs1 = pre ++ [lbo; last] /\
    In (EvPredict lbo last plbo plast (last - fi_num fi) (lbo - last)) (st_log st).
Proof.
  intros H L. destruct (split_call _ _ _ _ H) as (st1 & st2 & r & H1 & I1 & H2 & I2 & tl & Htl).
  destruct (log_step _ _ _ _ _ I1 H2) as (tail & Ht & _ & _ & TR).
  assert (R : phase_run cs1 st1).
  { destruct I1 as (_ & _ & _ & _ & _ & [W|R]); [|auto]. destruct W as (_ & W2 & _). lia. }
  destruct (TR R) as (pre & n3 & n2 & rest & Hs & Hlen & -> & HF). rewrite Htl, Ht.
  split; [|split].
  - apply in_app_iff; left. apply in_app_iff; right. simpl. auto.
  - apply in_app_iff; left. apply in_app_iff; right. simpl. auto.
  - exists pre, n3, n2. do 2 eexists. split; [exact Hs|]. apply in_app_iff; left. apply in_app_iff; right. simpl. right; left. reflexivity.
Qed.

Lemma tracked_only cs st n obs : run cs st0 = Ok st -> In (EvTracked n obs) (st_log st) ->
  exists cs1 fi cs2, cs = cs1 ++ AddFrame fi :: cs2 /\ n = fi_num fi /\
    (S (S sk) <= length (numbers cs1))%nat /\ obs = obsA ++ obsB ++ observers_added cs1.
Proof.
  intros H. revert n obs. revert cs st H. apply (run_ind2 (fun cs st => forall n obs, In (EvTracked n obs) (st_log st) ->
  exists cs1 fi cs2, cs = cs1 ++ AddFrame fi :: cs2 /\ n = fi_num fi /\
    (S (S sk) <= length (numbers cs1))%nat /\ obs = obsA ++ obsB ++ observers_added cs1)).
  - intros ? ? [].
  - intros cs st c st' Hrun Hinv Q H Hinv' n obs Hin.
    assert (Old : In (EvTracked n obs) (st_log st) -> exists cs1 fi cs2, cs ++ [c] = cs1 ++ AddFrame fi :: cs2 /\ n = fi_num fi /\
    (S (S sk) <= length (numbers cs1))%nat /\ obs = obsA ++ obsB ++ observers_added cs1).
    { intros Ho. destruct (Q _ _ Ho) as (cs1 & fi & cs2 & -> & R). exists cs1, fi, (cs2 ++ [c]). rewrite <- app_assoc. auto. }
    destruct c as [fi|o].
    2:{ injection H as <-. apply Old. exact Hin. }
    cbn [DsoModel.do_call] in H. inv_bind. destruct x as [x r]. injection H as <-. cbn [fst] in *.
    destruct (log_step _ _ _ _ _ Hinv E) as (tail & Htail & TW & TI & TR).
    rewrite Htail in Hin. apply in_app_iff in Hin as [Hin|Hin]; [auto|].
    pose proof Hinv as (N & So & Si & Sz & Ob & [W|R]).
    + exfalso. destruct (Nat.le_gt_cases (length (numbers cs)) sk) as [L|L].
      * rewrite (TW W L) in Hin. destruct Hin.
      * destruct (TI W) as [b Hb]. { destruct W as (_ & W2 & _). lia. } rewrite Hb in Hin.
        destruct Hin as [Hin|[Hin|[]]]; discriminate.
    + destruct (TR R) as (pre & n3 & n2 & rest & Hs & Hlen & -> & HF).
      destruct Hin as [Hin|[Hin|[Hin|Hin]]]; try discriminate.
      2:{ rewrite Forall_forall in HF. apply HF in Hin. destruct Hin. }
      injection Hin as <- <-. exists cs, fi, []. repeat (split; [reflexivity || apply R|]). reflexivity.
Qed.

(** ** C55 *)
Lemma init_timing cs st fi st' r : run cs st0 = Ok st -> add_frame st fi = Ok (st', r) ->
  (r = None <-> (S (length (numbers cs)) < S (S sk))%nat) /\
  (forall m, r = Some m -> m = fi_num fi) /\
  (S (length (numbers cs)) = S (S sk) ->
     exists f, hd_error (numbers cs) = Some f /\ map kf_num (st_kfs st') = [f; fi_num fi] /\
       map kf_tracked (st_kfs st') = [[]; []] /\
       (exists m, map kf_pose (st_kfs st') = [pid; pinv m] /\ exists i0 i1, fi_init fi = Ok (m, i0, i1)) /\
       st_log st = [] /\ In (EvInitialized (st_kfs st')) (st_log st')) /\
  (forall l, In (EvInitialized l) (st_log st') -> map kf_num l = firstn 2 (used_frames (firstFramesSkip s) (numbers (cs ++ [AddFrame fi]))) \/ In (EvInitialized l) (st_log st)).
Proof.
  intros Hrun E. pose proof (inv_run _ _ Hrun) as Hinv.
  destruct (log_step _ _ _ _ _ Hinv E) as (tail & Htail & TW & TI & TR).
  destruct (add_frame_cases _ _ _ _ _ Hinv E) as (st1 & Hb & Hlt & Hcase).
  destruct (begin_spec _ _ _ Hb) as (Hn & Hl & B1 & B2 & B3 & B4 & B5 & B6 & B7 & B8 & B9).
  destruct Hcase as [(Pw & L & -> & ->)|[(Pw & L & Hi & Hf)|(Pr & Ht)]].
  - split; [split; [lia|auto]|]. split; [discriminate|]. split; [lia|]. intros l Hin. rewrite Htail, (TW Pw L), app_nil_r in Hin. auto.
  - destruct (TI Pw L) as [b0 Hb0].
    pose proof Pw as (W1 & W2 & W3 & W4 & W5 & W6 & W7 & W8).
    destruct B9 as [(C1 & _)|[(C1 & C2 & C3 & C4 & C5)|(f & C1 & C2 & C3 & C4)]]; try congruence.
    assert (Hff : f < fi_num fi).
    { rewrite W7 in C2. destruct (numbers cs); [discriminate|]. injection C2 as ->. inversion Hlt; auto. }
    destruct (finish_spec _ _ _ _ _ (eq_trans B4 W3) C3 Hff Hf) as (m & imm0 & imm1 & F1 & F2 & F3 & F4 & F5 & F6 & F7 & F8 & F9 & F10 & F11 & F12 & F13).
    split; [rewrite F2; split; [discriminate|lia]|]. split; [rewrite F2; congruence|]. split.
    + intros _. exists f. split; [congruence|]. rewrite F5. simpl. do 2 (split; [reflexivity|]). split; [eauto 6|]. split; [auto|].
      rewrite F6, F5. apply in_app_iff. right. left. reflexivity.
    + intros l Hin. rewrite Htail, Hb0 in Hin. apply in_app_iff in Hin as [Hin|[Hin|[Hin|[]]]]; [auto| |discriminate].
      injection Hin as <-. left. rewrite F5. simpl. rewrite numbers_app. simpl.
      rewrite W7 in C2. destruct (numbers cs) as [|z zs]; [discriminate|]. injection C2 as ->. simpl in L.
      change ((f :: zs) ++ [fi_num fi]) with ((f :: zs) ++ [fi_num fi]). rewrite used_first by lia. reflexivity.
  - destruct (track_fields _ _ _ _ Ht) as (T1 & T2 & T3 & T4 & T5 & ->).
    assert (L : (S (S sk) <= length (numbers cs))%nat) by apply Pr.
    split; [split; [discriminate|lia]|]. split; [congruence|]. split; [lia|].
    intros l Hin. rewrite Htail in Hin. apply in_app_iff in Hin as [Hin|Hin]; [auto|]. exfalso.
    destruct (TR Pr) as (pre & n3 & n2 & rest & Hs & Hlen & -> & HF).
    destruct Hin as [Hin|[Hin|[Hin|Hin]]]; try discriminate.
    rewrite Forall_forall in HF. apply HF in Hin. destruct Hin.
Qed.

(** ** C56: what a call that throws inside the initialiser leaves behind is [begin_frame]'s state. *)
Lemma failed_init cs st fi st1 : run cs st0 = Ok st -> length (numbers cs) = S sk ->
  begin_frame s st (fi_num fi) = Ok st1 -> fi_init fi = Throw ->
  add_frame st fi = Throw /\ st_inited st1 = true /\ st_kfs st1 = [] /\
  forall fi2, fi_num fi < fi_num fi2 < INT_MAX -> add_frame st1 fi2 = UB.
Proof.
  intros Hrun L Hb Ht. pose proof (inv_run _ _ Hrun) as Hinv.
  destruct (begin_spec _ _ _ Hb) as (Hn & Hl & B1 & B2 & B3 & B4 & B5 & B6 & B7 & B8 & B9).
  destruct Hinv as (N & So & Si & Sz & Ob & [W|R]).
  2:{ destruct R as (_ & R2 & _). lia. }
  destruct W as (W1 & W2 & W3 & W4 & W5 & W6 & W7 & W8).
  assert (Hi : st_inited st1 = true).
  { destruct B9 as [(C1 & _)|[(C1 & C2 & C3 & C4 & C5)|(f & C1 & C2 & C3 & [(D1 & D2 & D3)|(D1 & D2 & D3)])]]; try congruence.
    - rewrite W7 in C2. destruct (numbers cs); [simpl in L; discriminate|discriminate].
    - exfalso. rewrite W8, L in D1. unfold skip_count in D1. lia. }
  split. { unfold DsoModel.add_frame. rewrite Hb. simpl. rewrite W1, Hi. unfold DsoModel.finish_init. rewrite Ht. reflexivity. }
  split; [auto|]. split; [congruence|]. intros fi2 Hlt. unfold DsoModel.add_frame, begin_frame, adjust_size.
  replace (fi_num fi2 <=? 0) with false by lia. replace (fi_num fi2 =? INT_MAX) with false by lia.
  rewrite B1, rev_app_distr. simpl. replace (fi_num fi2 <=? fi_num fi) with false by lia. rewrite Hi.
  destruct (st_size st1 <=? fi_num fi2); simpl; rewrite B4, W3; unfold DsoModel.track_frame, base_kf, last_kf, lbo_kf; simpl; destruct (trackFromLastKf s); reflexivity.
Qed.

(** ** C05, rejected numbers *)
Lemma rejects cs st fi : run cs st0 = Ok st -> fi_num fi < INT_MAX ->
  (fi_num fi <= 0 \/ exists m, In m (numbers cs) /\ fi_num fi <= m) -> add_frame st fi = Abort.
Proof.
  intros Hrun Hm H. pose proof (inv_run _ _ Hrun) as (N & So & _).
  unfold DsoModel.add_frame, begin_frame, adjust_size.
  destruct (Z.leb_spec (fi_num fi) 0); [reflexivity|]. destruct H as [H|(m & Hin & Hle)]; [lia|].
  replace (fi_num fi =? INT_MAX) with false by lia.
  assert (match rev (st_nums st) with [] => false | m :: _ => fi_num fi <=? m end = true) as ->.
  { rewrite N. destruct (numbers cs) as [|x l] using rev_ind; [destruct Hin|]. rewrite rev_app_distr. simpl.
    apply sorted_snoc in So as [_ F]. rewrite Forall_forall in F. apply in_app_iff in Hin as [Hin|[<-|[]]]; [apply F in Hin|]; lia. }
  destruct (st_size st <=? fi_num fi); reflexivity.
Qed.

End Run.
