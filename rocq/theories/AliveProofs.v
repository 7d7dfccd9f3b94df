(** Proofs of C94. *)
From Coq Require Import List ZArith Bool Lia Permutation Sorting.Sorted ZifyBool.
From Verif Require Import Outcome Dbl DsoModel DsoSpec DsoHistory DsoProofs DsoFinal AliveSpec.
Import ListNotations.
Open Scope Z_scope.

Section Alive.
Variables P : Type.
Variable pid : P.
Variable pmul : P -> P -> P.
Variable pinv : P -> P.
Variables IP OP : Type.
Variable promote : IP -> OP.
Variable ready : IP -> bool.
Variable s : dso_settings.
Variables obsA obsB : list nat.
Notation kf := (kf P IP OP).
Notation state := (state P IP OP).
Notation run := (run pid pmul pinv promote ready s).
Notation do_call := (do_call pid pmul pinv promote ready s).
Notation add_frame := (add_frame pid pmul pinv promote ready s).
Notation track_frame := (track_frame pmul pinv promote ready s).
Notation st0 := (init s obsA obsB : state).
Notation sk := (skip_count (firstFramesSkip s)).
Notation inv := (inv P IP OP s obsA obsB).
Implicit Types st : state.

Lemma told_frame_app (l1 l2 : list (event P IP OP)) :
  told_frame (l1 ++ l2) = match told_frame l2 with Some n => Some n | None => told_frame l1 end.
Proof.
  unfold told_frame. rewrite fold_left_app.
  assert (H : forall l a, fold_left (fun o (e : event P IP OP) => match e with EvNewFrame n => Some n | _ => o end) l a
    = match fold_left (fun o (e : event P IP OP) => match e with EvNewFrame n => Some n | _ => o end) l None with
      | Some n => Some n | None => a end).
  { induction l as [|e l IH]; intros a; [reflexivity|]. simpl. rewrite IH. symmetry. rewrite IH. symmetry.
    destruct (fold_left _ l None); [reflexivity|]. destruct e; reflexivity. }
  apply H.
Qed.

Lemma told_kf_app (l1 l2 : list (event P IP OP)) :
  told_kf (l1 ++ l2) = match told_kf l2 with Some n => Some n | None => told_kf l1 end.
Proof.
  unfold told_kf. rewrite fold_left_app.
  assert (H : forall l a, fold_left (fun o (e : event P IP OP) => match e with EvNewKf k => Some (kf_num k) | _ => o end) l a
    = match fold_left (fun o (e : event P IP OP) => match e with EvNewKf k => Some (kf_num k) | _ => o end) l None with
      | Some n => Some n | None => a end).
  { induction l as [|e l IH]; intros a; [reflexivity|]. simpl. rewrite IH. symmetry. rewrite IH. symmetry.
    destruct (fold_left _ l None); [reflexivity|]. destruct e; reflexivity. }
  apply H.
Qed.

(** The number of the base keyframe depends on the numbers alone. *)
Lemma base_kf_nums (l l' : list kf) b : map kf_num l = map kf_num l' -> base_kf s l = Ok b ->
  exists b', base_kf s l' = Ok b' /\ kf_num b' = kf_num b.
Proof.
  intros H. apply (f_equal (@rev Z)) in H. rewrite <- !map_rev in H.
  unfold base_kf, last_kf, lbo_kf. destruct (trackFromLastKf s).
  - destruct (rev l) as [|x r]; [discriminate|]. intros E. injection E as <-.
    destruct (rev l') as [|x' r']; [discriminate|]. simpl in H. injection H as H _. eauto.
  - destruct (rev l) as [|x [|y r]]; try discriminate. intros E. injection E as <-.
    destruct (rev l') as [|x' [|y' r']]; try discriminate. simpl in H. injection H as _ H _. eauto.
Qed.

Lemma upd_nums n f (l : list kf) : (forall k, kf_num (f k) = kf_num k) -> map kf_num (upd_kf n f l) = map kf_num l.
Proof.
  intros Hf. unfold upd_kf. rewrite map_map. apply map_ext. intros k. destruct (kf_num k =? n); auto.
Qed.

Lemma frames_in_num n (l : list kf) : In n (map kf_num l) -> In n (frames_of l).
Proof.
  intros H. apply in_map_iff in H as [k [<- Hk]]. unfold frames_of. apply in_flat_map. exists k. simpl. auto.
Qed.

(** What one tracked frame does to the kept pointers. *)
Lemma track_told st fi st' r : (forall k, In k (st_kfs st) -> kf_num k < fi_num fi) ->
  track_frame st fi = Ok (st', r) ->
  told_frame (st_log st') = Some (fi_num fi) /\
  (continueChoosing s = true -> In (fi_num fi) (frames_of (st_kfs st'))) /\
  (exists b, base_kf s (st_kfs st) = Ok b /\
     ((told_kf (st_log st') = told_kf (st_log st) /\
       exists b', base_kf s (st_kfs st') = Ok b' /\ kf_num b' = kf_num b) \/
      exists b', base_kf s (st_kfs st') = Ok b' /\ told_kf (st_log st') = Some (kf_num b'))) /\
  (forall l, last_kf (st_kfs st) = Ok l -> continueChoosing s = false ->
     due (shiftBetweenKeyFrames s) (kf_num l) (fi_num fi) = true ->
     frames_of (st_kfs st') = frames_of (st_kfs st)) /\
  (forall l, last_kf (st_kfs st) = Ok l -> continueChoosing s = true ->
     due (shiftBetweenKeyFrames s) (kf_num l) (fi_num fi) = true ->
     exists k, last_kf (st_kfs st') = Ok k /\ kf_num k = fi_num fi).
Proof.
  intros Hlt H.
  destruct (track_spec _ _ _ _ _ _ _ _ _ _ _ _ H) as (b & l & obs & pose & n1 & n2 & n3 & rest & need & st1 & Hb & Hl & Ht & Hp & Hrev & Hsz & -> & Hneed & I1 & I2 & I3 & I4 & I5 & I6 & I7 & I8 & I9 & I10 & Hc).
  assert (Hnums : map kf_num (st_kfs st1) = map kf_num (st_kfs st)).
  { rewrite I9. destruct need; [apply map_num_trace|]. rewrite upd_nums by reflexivity. apply map_num_trace. }
  destruct (base_kf_nums _ _ _ (eq_sym Hnums) Hb) as (b1 & Hb1 & Hn1).
  destruct Hc as [[Hc ->]|[Hc Hpr]].
  - split; [rewrite I10, told_frame_app; reflexivity|]. split; [|split; [|split]].
    + intros Hcc. rewrite Hcc in Hc. simpl in Hc. rewrite Hc in I9. rewrite I9.
      assert (Hin : In b (st_kfs st)) by (eapply base_kf_in; eauto).
      unfold frames_of. apply in_flat_map.
      exists (push_kf P IP OP (fi_num fi) pose (trace_kf P IP OP fi b)). split.
      * unfold upd_kf. apply in_map_iff. exists (trace_kf P IP OP fi b). split; [|apply in_map; exact Hin].
        simpl. rewrite Z.eqb_refl. reflexivity.
      * simpl. right. rewrite map_app. apply in_app_iff. right. simpl. auto.
    + exists b. split; [exact Hb|]. left. split; [rewrite I10, told_kf_app; reflexivity|eauto].
    + intros l' El Hcc Hd. rewrite Hl in El. injection El as <-. rewrite Hd in Hneed. subst need.
      rewrite I9, !frames_hall, map_shape_trace. reflexivity.
    + intros l' El Hcc Hd. rewrite Hl in El. injection El as <-. rewrite Hd in Hneed. subst need.
      rewrite Hcc in Hc. discriminate.
  - destruct (promote_spec _ _ _ _ _ _ _ _ _ _ _ _ _ Hpr) as (imm & gone & kept & kfs & bk & P1 & P2 & P3 & P4 & Q1 & Q2 & Q3 & Q4 & Q5 & Q6 & Q7 & Q8 & Q9).
    assert (Hk' : map kf_num (st_kfs st') = map kf_num kept).
    { transitivity (map kf_num kfs).
      - destruct Q9 as [(_ & -> & _)|(_ & _ & -> & _)]; [reflexivity|]. apply shape_num, map_shape_ba.
      - apply shape_num, skel_shape. eapply activate_skel; eauto. }
    assert (Hbk : exists b', base_kf s (st_kfs st') = Ok b' /\ kf_num b' = kf_num bk).
    { eapply base_kf_nums; [|exact P4]. destruct Q9 as [(_ & -> & _)|(_ & _ & -> & _)]; [reflexivity|].
      symmetry. apply shape_num, map_shape_ba. }
    assert (Hfr : forall o, told_frame (st_log st') = o -> o = Some (fi_num fi)).
    { intros o <-. rewrite Q8, told_frame_app.
      replace (told_frame ((match gone with [] => [] | _ => [EvMarg gone] end) ++ [EvNewKf bk])) with (@None Z) by (destruct gone; reflexivity).
      rewrite I10, told_frame_app. reflexivity. }
    assert (Hlast : exists k0, map kf_num (st_kfs st') = k0 ++ [fi_num fi]).
    { rewrite Hk'. apply marginalize_app in P2. rewrite insert_kf_end in P2.
      2:{ intros x Hx. simpl. assert (Hx' : In (kf_num x) (map kf_num (st_kfs st))) by (rewrite <- Hnums; apply in_map; exact Hx).
          apply in_map_iff in Hx' as (y & <- & Hy). auto. }
      assert (Hne : kept <> []).
      { intros ->. destruct Hbk as (b' & Eb & _). apply base_kf_in in Eb.
        destruct (st_kfs st'); [exact Eb|discriminate]. }
      destruct (exists_last Hne) as (k0 & x & ->). rewrite app_assoc in P2.
      apply app_inj_tail in P2 as [_ ->]. rewrite map_app. eexists; reflexivity. }
    split; [apply Hfr; reflexivity|]. split; [|split; [|split]].
    + intros _. apply frames_in_num. destruct Hlast as [k0 ->]. apply in_app_iff. right. simpl. auto.
    + exists b. split; [exact Hb|]. right. destruct Hbk as (b' & Eb & En). exists b'. split; [exact Eb|].
      rewrite Q8, app_assoc, told_kf_app. simpl. rewrite En. reflexivity.
    + intros l' _ Hcc. rewrite Hcc in Hc. discriminate.
    + intros l' _ _ _. destruct Hlast as [k0 Ek]. destruct (st_kfs st') as [|z zs] eqn:Ez; [destruct k0; discriminate|].
      destruct (exists_last (l := z :: zs)) as (k1 & x & Ex); [discriminate|]. rewrite Ex in *.
      rewrite map_app in Ek. apply app_inj_tail in Ek as [_ Ek]. exists x. split; [apply last_kf_snoc|exact Ek].
Qed.

Lemma last_of_snoc l n : last_of (l ++ [n]) = Some n.
Proof. unfold last_of. rewrite rev_app_distr. reflexivity. Qed.

Lemma wait_told cs st : phase_wait P IP OP s cs st -> told_frame (st_log st) = None /\ told_kf (st_log st) = None.
Proof. intros (_ & _ & _ & -> & _). split; reflexivity. Qed.

Lemma kfs_before cs st (fi : frame_in P IP OP) : inv cs st -> phase_run P IP OP s cs st -> Forall (fun x => x < fi_num fi) (numbers cs) ->
  forall k, In k (st_kfs st) -> kf_num k < fi_num fi.
Proof.
  intros Hi Hr Hf k Hk. destruct (inv_kf_nums _ _ _ _ _ _ _ _ Hi Hr) as [_ Hn].
  rewrite Forall_forall in Hf. apply Hf. apply Hn. apply in_app_iff. auto.
Qed.

(** ** After every run *)
Lemma told_run cs st : run cs st0 = Ok st ->
  (told_frame (st_log st) = if (length (numbers cs) <=? S (S sk))%nat then None else last_of (numbers cs)) /\
  (forall n, continueChoosing s = true -> told_frame (st_log st) = Some n -> In n (frames_of (st_kfs st))) /\
  ((length (numbers cs) <= S sk)%nat -> told_kf (st_log st) = None) /\
  ((S (S sk) <= length (numbers cs))%nat ->
     exists b, base_kf s (st_kfs st) = Ok b /\ told_kf (st_log st) = Some (kf_num b)).
Proof.
  apply (run_ind2 _ pid pmul pinv _ _ promote ready s obsA obsB (fun cs st =>
  (told_frame (st_log st) = if (length (numbers cs) <=? S (S sk))%nat then None else last_of (numbers cs)) /\
  (forall n, continueChoosing s = true -> told_frame (st_log st) = Some n -> In n (frames_of (st_kfs st))) /\
  ((length (numbers cs) <= S sk)%nat -> told_kf (st_log st) = None) /\
  ((S (S sk) <= length (numbers cs))%nat ->
     exists b, base_kf s (st_kfs st) = Ok b /\ told_kf (st_log st) = Some (kf_num b)))).
  { simpl. repeat split; try discriminate. lia. }
  clear cs st. intros cs st c st' Hrun Hinv (T1 & T2 & T3 & T4) Hstep _.
  destruct c as [fi|o].
  2:{ simpl in Hstep. injection Hstep as <-.
      rewrite numbers_app. simpl. rewrite app_nil_r. auto. }
  simpl in Hstep. inv_bind. destruct x as [st2 r]. injection Hstep as <-. cbn [fst].
  rewrite numbers_app. cbn [numbers flat_map app]. rewrite app_length. cbn [length].
  destruct (add_frame_cases _ _ _ _ _ _ _ _ _ _ _ _ _ _ _ _ Hinv E) as (st1 & Hb & Hlt & Hcase).
  destruct (begin_spec _ _ _ _ _ _ _ Hb) as (Hn & Hl & B1 & B2 & B3 & B4 & B5 & B6 & B7 & B8 & B9).
  destruct Hcase as [(Pw & L & -> & ->)|[(Pw & L & Hi & Hf)|(Pr & Ht)]].
  - destruct (wait_told _ _ Pw) as [W1 W2]. rewrite B8, W1, W2.
    split; [destruct (Nat.leb_spec (length (numbers cs) + 1) (S (S sk))); [reflexivity|lia]|].
    split; [discriminate|]. split; [auto|lia].
  - pose proof Pw as (W1 & W2 & W3 & W4 & W5 & W6 & W7 & W8).
    destruct B9 as [(C1 & _)|[(C1 & C2 & C3 & C4 & C5)|(f & C1 & C2 & C3 & C4)]]; try congruence.
    assert (Hff : f < fi_num fi).
    { rewrite W7 in C2. destruct (numbers cs); [discriminate|]. injection C2 as ->. inversion Hlt; auto. }
    destruct (finish_spec _ _ _ _ _ _ _ _ _ _ _ (eq_trans B4 W3) C3 Hff Hf) as (m & imm0 & imm1 & F1 & F2 & F3 & F4 & F5 & F6 & F7 & F8 & F9 & F10 & F11 & F12 & F13).
    rewrite F6, B8, W4. simpl.
    split; [destruct (Nat.leb_spec (length (numbers cs) + 1) (S (S sk))); [reflexivity|lia]|].
    split; [discriminate|]. split; [lia|]. intros _. rewrite F5.
    unfold base_kf. destruct (trackFromLastKf s); unfold last_kf, lbo_kf; simpl; eauto.
  - assert (Hlt1 : forall k, In k (st_kfs st1) -> kf_num k < fi_num fi).
    { rewrite B4. eapply kfs_before; eauto. }
    destruct (track_told _ _ _ _ Hlt1 Ht) as (U1 & U2 & (b & Ub & U3) & _ & _).
    pose proof Pr as (_ & R2 & _).
    rewrite U1. split; [|split; [|split]].
    + destruct (Nat.leb_spec (length (numbers cs) + 1) (S (S sk))); [lia|]. rewrite last_of_snoc. reflexivity.
    + intros n Hc En. injection En as <-. auto.
    + lia.
    + intros _. destruct (T4 R2) as (b0 & Eb0 & Et0). rewrite B4, Eb0 in Ub. injection Ub as ->.
      destruct U3 as [(V1 & b' & V2 & V3)|(b' & V1 & V2)]; exists b'; (split; [assumption|]).
      * rewrite V1, B8, Et0, V3. reflexivity.
      * exact V2.
Qed.

(** ** Without new keyframes, a frame that is due is released at once *)
Lemma told_released cs fi st st' r l : continueChoosing s = false -> run cs st0 = Ok st ->
  (S (S sk) <= length (numbers cs))%nat ->
  last_kf (st_kfs st) = Ok l -> due (shiftBetweenKeyFrames s) (kf_num l) (fi_num fi) = true ->
  add_frame st fi = Ok (st', r) ->
  told_frame (st_log st') = Some (fi_num fi) /\ ~ In (fi_num fi) (frames_of (st_kfs st')).
Proof.
  intros Hcc Hrun Hlen Hlast Hdue E. pose proof (inv_run _ _ _ _ _ _ _ _ _ _ _ _ _ Hrun) as Hinv.
  destruct (add_frame_cases _ _ _ _ _ _ _ _ _ _ _ _ _ _ _ _ Hinv E) as (st1 & Hb & Hlt & Hcase).
  destruct (begin_spec _ _ _ _ _ _ _ Hb) as (Hn & Hl & B1 & B2 & B3 & B4 & B5 & B6 & B7 & B8 & B9).
  destruct Hcase as [(Pw & L & _)|[(Pw & L & _)|(Pr & Ht)]]; try lia.
  assert (Hlt1 : forall k, In k (st_kfs st1) -> kf_num k < fi_num fi).
  { rewrite B4. eapply kfs_before; eauto. }
  destruct (track_told _ _ _ _ Hlt1 Ht) as (U1 & _ & _ & U4 & _). split; [exact U1|].
  rewrite (U4 l), B4, frames_hall; auto; [|rewrite B4; exact Hlast].
  intros Hin. apply (held_hall _ _ _ _ obsA obsB _ _ _ Hinv Pr) in Hin.
  assert (Hu : forall x, In x (used_frames (firstFramesSkip s) (numbers cs)) -> In x (numbers cs)).
  { intros x. unfold used_frames. destruct (numbers cs) as [|f q]; [intros []|].
    destruct (skipn sk q) as [|y ys] eqn:Es; [intros []|]. intros [->|Hx]; [left; reflexivity|]. right.
    rewrite <- (firstn_skipn sk q), Es. apply in_app_iff. right. exact Hx. }
  apply Hu in Hin. rewrite Forall_forall in Hlt. specialize (Hlt _ Hin). lia.
Qed.

(** ** Right after a promotion with tracking against the newest keyframe *)
Lemma told_promoted cs fi st st' r l : trackFromLastKf s = true -> continueChoosing s = true -> run cs st0 = Ok st ->
  (S (S sk) <= length (numbers cs))%nat ->
  last_kf (st_kfs st) = Ok l -> due (shiftBetweenKeyFrames s) (kf_num l) (fi_num fi) = true ->
  add_frame st fi = Ok (st', r) ->
  told_frame (st_log st') = Some (fi_num fi) /\ told_kf (st_log st') = Some (fi_num fi) /\
  told_kf (st_log st) = Some (kf_num l) /\ kf_num l < fi_num fi.
Proof.
  intros Htl Hcc Hrun Hlen Hlast Hdue E. pose proof (inv_run _ _ _ _ _ _ _ _ _ _ _ _ _ Hrun) as Hinv.
  destruct (add_frame_cases _ _ _ _ _ _ _ _ _ _ _ _ _ _ _ _ Hinv E) as (st1 & Hb & Hlt & Hcase).
  destruct (begin_spec _ _ _ _ _ _ _ Hb) as (Hn & Hl & B1 & B2 & B3 & B4 & B5 & B6 & B7 & B8 & B9).
  destruct Hcase as [(Pw & L & _)|[(Pw & L & _)|(Pr & Ht)]]; try lia.
  assert (Hlt1 : forall k, In k (st_kfs st1) -> kf_num k < fi_num fi).
  { rewrite B4. eapply kfs_before; eauto. }
  destruct (track_told _ _ _ _ Hlt1 Ht) as (U1 & _ & _ & _ & U5). split; [exact U1|].
  destruct (U5 l) as (k & Ek & Nk); auto; [rewrite B4; exact Hlast|].
  assert (Hrun' : run (cs ++ [AddFrame fi]) st0 = Ok st').
  { rewrite run_snoc, Hrun. simpl. rewrite E. reflexivity. }
  destruct (told_run _ _ Hrun') as (_ & _ & _ & T). destruct T as (b & Eb & Tb).
  { rewrite numbers_app, app_length. lia. }
  destruct (told_run _ _ Hrun) as (_ & _ & _ & T'). destruct (T' Hlen) as (b' & Eb' & Tb').
  unfold base_kf in Eb, Eb'. rewrite Htl in Eb, Eb'. rewrite Ek in Eb. injection Eb as <-. rewrite Hlast in Eb'. injection Eb' as <-.
  rewrite Tb, Tb', Nk. repeat split. unfold due in Hdue. lia.
Qed.

End Alive.
