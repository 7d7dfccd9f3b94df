(** Proofs of C97: the whole program. *)
From Coq Require Import List ZArith Bool Lia Sorting.Sorted ZifyBool.
From Verif Require Import Outcome Dbl DsoModel DsoSpec DsoHistory DsoProofs DsoBudget DsoFinal UtilModel UtilSpec UtilProofs
  AliveSpec AliveProofs MainModel MainSpec MainProofs MainLoop.
Import ListNotations.
Open Scope Z_scope.

Section Top.
Variables P : Type.
Variable pid : P.
Variable pmul : P -> P -> P.
Variable pinv : P -> P.
Variables IP OP : Type.
Variable promote : IP -> OP.
Variable ready : IP -> bool.
Variable s : dso_settings.
Variable plain : bool.
Variable levels : nat.
Variable width : Z.
Variable fl : main_flags.
Notation state := (state P IP OP).
Notation frame_in := (frame_in P IP OP).
Notation run := (run pid pmul pinv promote ready s).
Notation add_frame := (add_frame pid pmul pinv promote ready s).
Notation st0 := (init s (main_observers fl) (created_observers fl) : state).
Notation start := (fl_start fl).
Notation skip := (firstFramesSkip s).
Notation shift := (shiftBetweenKeyFrames s).
Notation cont := (continueChoosing s).
Notation sk := (skip_count skip).
Notation m := (init_frame start skip).
Notation new_base := (new_base start skip shift cont).
Notation reg := (debug_registered fl).
Notation main := (main P pid pmul pinv IP OP promote ready s plain levels width fl).
Notation iteration := (iteration P pid pmul pinv IP OP promote ready s plain levels width fl).
Notation iterations := (iterations P pid pmul pinv IP OP promote ready s plain levels width fl).
Notation feed := (feed P pid pmul pinv IP OP promote ready s plain levels width fl).
Notation frame_output := (frame_output start skip shift (trackFromLastKf s) cont fl plain levels).
Notation good := (good P pid pmul pinv IP OP promote ready s plain levels fl).
Notation after := (after s plain levels fl).
Notation loop_out := (flat_map frame_output (frames_asked fl)).
Implicit Types st : state.

(** ** What is written *)
Definition begun (dir : bool) (reader gt : outcome unit) : Prop :=
  reader = Ok tt /\ fl_write fl || dir = true /\ (fl_gt fl = true -> gt = Ok tt) /\
  INT_MIN <= start + fl_count fl <= INT_MAX.

Lemma begun_dec dir reader gt : begun dir reader gt \/ ~ begun dir reader gt.
Proof.
  unfold begun. destruct reader as [[]| | | |]; try (right; intros [H _]; discriminate).
  destruct (fl_write fl || dir); [|right; intros (_ & H & _); discriminate].
  destruct (Z_le_dec INT_MIN (start + fl_count fl)); [|right; intros (_ & _ & _ & H & _); contradiction].
  destruct (Z_le_dec (start + fl_count fl) INT_MAX); [|right; intros (_ & _ & _ & _ & H); contradiction].
  destruct (fl_gt fl); [|left; repeat split; auto; discriminate].
  destruct gt as [[]| | | |]; try (right; intros (_ & _ & H & _); specialize (H eq_refl); discriminate).
  left. auto.
Qed.

Notation loop image := (iterations image (frames_asked fl) (st0, new_drawers levels)).

Lemma main_begun dir reader gt image : fl_gt_only fl = false -> begun dir reader gt ->
  main dir reader gt image =
    match snd (loop image) with
    | Ok y => (header fl ++ fst (loop image) ++ [WSnapshot (map kf_num (st_kfs (fst y)))],
               if fl_gt fl && negb (dr_aligned (snd y)) then Abort else Ok tt)
    | o => (header fl ++ fst (loop image), fail o)
    end.
Proof.
  intros Hg (-> & Hd & Hgt & Hb). unfold MainModel.main. rewrite Hg, Hd.
  change (frame_range fl) with (frames_asked fl).
  destruct (loop image) as [out r].
  replace (INT_MIN <=? start + fl_count fl) with true by lia.
  replace (start + fl_count fl <=? INT_MAX) with true by lia.
  unfold header. destruct (fl_gt fl); [rewrite Hgt by reflexivity|]; destruct r; reflexivity.
Qed.

Lemma main_not_begun dir reader gt image : fl_gt_only fl = false -> ~ begun dir reader gt ->
  filter of_frame (fst (main dir reader gt image)) = [] /\ ~ is_ok (snd (main dir reader gt image)).
Proof.
  intros Hg Hn. unfold MainModel.main. rewrite Hg.
  assert (Hno : forall B (o : outcome B), (forall b, o <> Ok b) -> ~ is_ok o).
  { intros B o H [b Hb]. exact (H b Hb). }
  destruct (fl_write fl || dir) eqn:Hd; destruct reader as [[]| | | |] eqn:Er; cbn;
    try (split; [reflexivity|apply Hno; discriminate]).
  unfold begun in Hn. rewrite Hd in Hn.
  destruct ((INT_MIN <=? start + fl_count fl) && (start + fl_count fl <=? INT_MAX)) eqn:Hb.
  - destruct (fl_gt fl) eqn:Egt.
    + destruct gt as [[]| | | |]; cbn; try (split; [reflexivity|apply Hno; discriminate]).
      exfalso. apply Hn. repeat split; auto; lia.
    + exfalso. apply Hn. repeat split; auto; try discriminate; lia.
  - destruct (fl_gt fl) eqn:Egt.
    + destruct gt as [[]| | | |]; cbn; split; try reflexivity; apply Hno; discriminate.
    + cbn. split; [reflexivity|apply Hno; discriminate].
Qed.

Lemma loop_puts image : puts (loop image) loop_out (good image (Z.to_nat (fl_count fl))).
Proof. apply (iterations_puts P pid pmul pinv IP OP promote ready s plain levels width fl image (Z.to_nat (fl_count fl)) 0). apply good0. Qed.

Lemma loop_filter : filter of_frame loop_out = loop_out.
Proof.
  induction (frames_asked fl) as [|n l IH]; [reflexivity|]. cbn [flat_map]. rewrite filter_app, IH. f_equal.
  unfold MainSpec.frame_output, optional.
  repeat match goal with |- context [if ?b then _ else _] => destruct b end; reflexivity.
Qed.
Lemma filter_header : filter of_frame (header fl) = [].
Proof. unfold header, optional. destruct (fl_gt fl); reflexivity. Qed.

Lemma beginning_filter {A} (f : A -> bool) a b : beginning a b -> beginning (filter f a) (filter f b).
Proof. intros [r ->]. exists (filter f r). apply filter_app. Qed.

(** ** What is written *)
Lemma main_images dir reader gt image : fl_gt_only fl = false ->
  beginning (filter of_frame (fst (main dir reader gt image))) loop_out /\
  (snd (main dir reader gt image) = Ok tt ->
     exists l, fst (main dir reader gt image) = header fl ++ loop_out ++ [WSnapshot l]).
Proof.
  intros Hg. destruct (begun_dec dir reader gt) as [Hb|Hb].
  2:{ destruct (main_not_begun dir reader gt image Hg Hb) as [-> H]. split; [exists loop_out; reflexivity|].
      intros E. destruct H. eexists. exact E. }
  rewrite (main_begun dir reader gt image Hg Hb). destruct (loop_puts image) as [L1 L2].
  destruct (snd (loop image)) as [y| | | |] eqn:E; cbn [fst snd];
    rewrite ?filter_app, filter_header; cbn [app filter of_frame]; rewrite ?app_nil_r; split;
    try (rewrite <- loop_filter; apply beginning_filter; exact L1); try discriminate.
  intros _. destruct (L2 y eq_refl) as [-> _]. eexists. reflexivity.
Qed.

(** ** Runs that end normally *)
Definition drawable : Prop := exists v, draw_leveled (Z.of_nat levels) width = Ok v.
Definition readable (image : Z -> outcome frame_in) : Prop :=
  forall n, In n (frames_asked fl) -> exists g, image n = Ok g /\ inputs_ok g.

Lemma even_drawable : (0 < levels)%nat -> Nat.even levels = true -> drawable.
Proof.
  intros H E. destruct (draw_leveled_shows (Z.of_nat levels) width) as (up & down & Hd & _); [lia| |].
  - apply Nat.even_spec in E as [q ->]. apply Z.even_spec. exists (Z.of_nat q). lia.
  - eexists. exact Hd.
Qed.

Lemma notify_total obs d e : drawable -> exists d', notify P IP OP plain levels width fl obs d e = Ok d'.
Proof.
  intros [v Hv]. destruct e; cbn [notify]; rewrite ?track_seen_ok; unfold new_base_frame; rewrite ?Hv; cbn [bind];
    repeat match goal with |- context [if ?b then _ else _] => destruct b end; cbn [bind]; eexists; reflexivity.
Qed.
Lemma notify_all obs l : forall d, drawable -> exists d', ofold (notify P IP OP plain levels width fl obs) l d = Ok d'.
Proof.
  induction l as [|e l IH]; intros d Hd; [eexists; reflexivity|]. cbn [ofold].
  destruct (notify_total obs d e Hd) as [d' ->]. cbn [bind]. apply IH. exact Hd.
Qed.

Lemma numbered_ok it (g : frame_in) : inputs_ok g -> inputs_ok (numbered P IP OP it g).
Proof. intros H. exact H. Qed.

Lemma asked_in k : (k < Z.to_nat (fl_count fl))%nat -> In (start + Z.of_nat k) (frames_asked fl).
Proof. intros H. unfold frames_asked. apply in_map_iff. exists k. split; [reflexivity|]. apply in_seq. lia. Qed.

Lemma asked_sorted k : StronglySorted Z.lt (asked start k).
Proof.
  induction k as [|k IH]; [constructor|]. rewrite asked_S. apply sorted_snoc_intro; [exact IH|].
  apply Forall_forall. intros x Hx. unfold asked in Hx. apply in_map_iff in Hx as (i & <- & Hi). apply in_seq in Hi. lia.
Qed.

Lemma feed_total image k x : settings_ok s -> drawable -> readable image -> 1 <= start -> start + fl_count fl <= INT_MAX ->
  (k < Z.to_nat (fl_count fl))%nat -> good image k x -> exists y, feed image x (start + Z.of_nat k) = Ok y.
Proof.
  intros Hs Hd Hr H1 H2 Hk [(cs & R1 & R2 & R3 & R4) _]. unfold MainModel.feed.
  destruct (Hr _ (asked_in k Hk)) as (g & Eg & Hg). rewrite Eg. cbn [bind].
  set (fi := numbered P IP OP (start + Z.of_nat k) g).
  assert (Hrun : is_ok (run (cs ++ [AddFrame fi]) st0)).
  { assert (En : numbers (cs ++ [AddFrame fi]) = asked start (S k)).
    { rewrite numbers_app, R2, asked_S. reflexivity. }
    apply no_abnormal; [exact Hs| | |].
    - intros f Hin. apply in_app_iff in Hin as [Hin|[Hin|[]]].
      + destruct (R4 f Hin) as (it & g' & Eg' & ->). apply numbered_ok.
        assert (Hit : In it (numbers cs)).
        { unfold numbers. apply in_flat_map. eexists. split; [exact Hin|]. left. reflexivity. }
        rewrite R2 in Hit. unfold asked in Hit. apply in_map_iff in Hit as (i & <- & Hi). apply in_seq in Hi.
        destruct (Hr _ (asked_in i ltac:(lia))) as (g2 & Eg2 & Hg2). rewrite Eg2 in Eg'. injection Eg' as <-. exact Hg2.
      + injection Hin as <-. apply numbered_ok. exact Hg.
    - rewrite En. apply asked_sorted.
    - rewrite En. apply Forall_forall. intros n Hn. unfold asked in Hn. apply in_map_iff in Hn as (i & <- & Hi).
      apply in_seq in Hi. lia. }
  destruct Hrun as [st' Hrun]. rewrite run_snoc, R1 in Hrun. cbn [bind do_call] in Hrun.
  destruct (add_frame (fst x) fi) as [[st2 r]| | | |]; try discriminate. cbn [bind fst] in Hrun |- *.
  destruct (notify_all (tracker_observers P IP OP st2) (skipn (length (st_log (fst x))) (st_log st2)) (snd x) Hd) as [d' ->].
  eexists. reflexivity.
Qed.

(** ** Is the last frame still there? *)
Definition due_at (n : Z) : bool := (m <? n) && ((n - m) mod period shift =? 0).

Lemma in_existsb l n : existsb (Z.eqb n) l = true <-> In n l.
Proof.
  rewrite existsb_exists. split.
  - intros (x & Hx & E). apply Z.eqb_eq in E. subst. exact Hx.
  - intros H. exists n. split; [exact H|apply Z.eqb_refl].
Qed.

Lemma pushed st fi st' r l : track_frame pmul pinv promote ready s st fi = Ok (st', r) ->
  last_kf (st_kfs st) = Ok l -> due shift (kf_num l) (fi_num fi) = false -> In (fi_num fi) (frames_of (st_kfs st')).
Proof.
  intros H Hl' Hdue.
  destruct (track_spec _ _ _ _ _ _ _ _ _ _ _ _ H) as (b & l2 & obs & pose & n1 & n2 & n3 & rest & need & st1 & Hb & Hl & Ht & Hp & Hrev & Hsz & -> & Hneed & I1 & I2 & I3 & I4 & I5 & I6 & I7 & I8 & I9 & I10 & Hc).
  rewrite Hl' in Hl. injection Hl as <-. rewrite Hdue in Hneed. subst need.
  destruct Hc as [[_ ->]|[Hc _]]; [|rewrite andb_false_r in Hc; discriminate].
  rewrite I9. assert (Hin : In b (st_kfs st)) by (eapply base_kf_in; eauto).
  unfold frames_of. apply in_flat_map. exists (push_kf P IP OP (fi_num fi) pose (trace_kf P IP OP fi b)). split.
  - unfold upd_kf. apply in_map_iff. exists (trace_kf P IP OP fi b). split; [|apply in_map; exact Hin].
    simpl. rewrite Z.eqb_refl. reflexivity.
  - simpl. right. rewrite map_app. apply in_app_iff. right. simpl. auto.
Qed.

Lemma last_alive image k x y : good image k x -> feed image x (start + Z.of_nat k) = Ok y -> m < start + Z.of_nat k ->
  existsb (Z.eqb (start + Z.of_nat k)) (frames_of (st_kfs (fst y))) = cont || negb (due_at (start + Z.of_nat k)).
Proof.
  intros [(cs & R1 & R2 & R3 & R4) _] H Hm. unfold MainModel.feed in H.
  destruct (image (start + Z.of_nat k)) as [g| | | |]; try discriminate. cbn [bind] in H.
  set (fi := numbered P IP OP (start + Z.of_nat k) g) in H.
  destruct (add_frame (fst x) fi) as [[st' r]| | | |] eqn:E; try discriminate. cbn [bind fst] in H.
  destruct (ofold _ _ _) as [d| | | |]; try discriminate. cbn [bind] in H. injection H as <-. cbn [fst].
  assert (Hk : (S (S sk) <= k)%nat) by (unfold init_frame in Hm; lia).
  assert (Hlen : length (numbers cs) = k) by (rewrite R2; apply asked_length).
  assert (Hrun' : run (cs ++ [AddFrame fi]) st0 = Ok st').
  { rewrite run_snoc, R1. simpl. rewrite E. reflexivity. }
  assert (En : numbers (cs ++ [AddFrame fi]) = asked start (S k)).
  { rewrite numbers_app, R2, asked_S. reflexivity. }
  destruct cont eqn:Ec; cbn [orb].
  { destruct (told_run _ _ _ _ _ _ _ _ _ _ _ _ _ Hrun') as (T1 & T2 & _). apply in_existsb. apply T2; [exact Ec|].
    rewrite T1, En, asked_length. destruct (Nat.leb_spec (S k) (S (S sk))); [lia|].
    rewrite asked_S. apply last_of_snoc. }
  pose proof (inv_run _ _ _ _ _ _ _ _ _ _ _ _ _ R1) as Hinv.
  destruct (add_frame_cases _ _ _ _ _ _ _ _ _ _ _ _ _ _ _ _ Hinv E) as (st1 & Hb & Hlt & Hcase).
  destruct (begin_spec _ _ _ _ _ _ _ Hb) as (_ & _ & B1 & B2 & B3 & B4 & B5 & B6 & B7 & B8 & B9).
  destruct Hcase as [(Pw & L & _)|[(Pw & L & _)|(Pr & Ht)]]; try lia.
  assert (Hl : exists l, last_kf (st_kfs st1) = Ok l).
  { destruct (track_spec _ _ _ _ _ _ _ _ _ _ _ _ Ht) as (b & l2 & _ & _ & _ & _ & _ & _ & _ & _ & _ & Hl & _). eauto. }
  destruct Hl as [l Hl]. pose proof Hl as Hl0. rewrite B4 in Hl0.
  destruct (tails P IP OP s fl cs (fst x) k Hinv R2 Hk) as [T _]. specialize (T l Hl0).
  unfold newest in T. rewrite Ec in T.
  assert (Hdue : due shift (kf_num l) (fi_num fi) = due_at (start + Z.of_nat k)).
  { rewrite T, <- due_abs. reflexivity. }
  destruct (due_at (start + Z.of_nat k)) eqn:Ed; cbn [negb].
  - destruct (told_released P pid pmul pinv IP OP promote ready s (main_observers fl) (created_observers fl) cs fi (fst x) st' r l) as [_ Hn]; auto; try lia.
    destruct (existsb _ _) eqn:Ex; [|reflexivity]. apply in_existsb in Ex. contradiction.
  - apply in_existsb. exact (pushed st1 fi st' r l Ht Hl Hdue).
Qed.

Lemma base_alive image k x y : good image k x -> feed image x (start + Z.of_nat k) = Ok y -> m < start + Z.of_nat k ->
  existsb (Z.eqb (base_at start skip shift (trackFromLastKf s) cont (start + Z.of_nat k))) (map kf_num (st_kfs (fst y))) = true.
Proof.
  intros Hg H Hm. destruct (feed_good P pid pmul pinv IP OP promote ready s plain levels width fl image k x y Hg H) as [(cs & R1 & R2 & R3 & R4) _].
  assert (Hk : (S (S sk) <= S k)%nat) by (unfold init_frame in Hm; lia).
  destruct (told_run _ _ _ _ _ _ _ _ _ _ _ _ _ R1) as (_ & _ & _ & T). rewrite R2, asked_length in T.
  destruct (T Hk) as (b & Eb & _). pose proof (inv_run _ _ _ _ _ _ _ _ _ _ _ _ _ R1) as Hinv.
  destruct (tails P IP OP s fl cs (fst y) (S k) Hinv R2 Hk) as [_ Tb]. specialize (Tb b Eb).
  apply in_existsb. replace (start + Z.of_nat k) with (start + Z.of_nat (S k) - 1) by lia. rewrite <- Tb.
  apply in_map. eapply base_kf_in; eauto.
Qed.

(** What drawing the debug image gives after frame [n]. *)
Lemma debug_outcome image k x y ch : (0 < levels)%nat -> reg = true -> good image k x ->
  feed image x (start + Z.of_nat k) = Ok y ->
  draw_debug P IP OP fl (after (start + Z.of_nat k) ch) (fst y) =
    if cont || negb (due_at (start + Z.of_nat k))
    then Ok (debug_of start skip shift (trackFromLastKf s) cont (start + Z.of_nat k)) else UB.
Proof.
  intros Hlv Hreg Hg H. set (n := start + Z.of_nat k) in *. unfold draw_debug, MainLoop.after, debug_of, levels_of.
  rewrite Hreg. destruct (Z.ltb_spec n m).
  { replace (n <=? m) with true by lia. unfold due_at. replace (m <? n) with false by lia. rewrite orb_true_r. reflexivity. }
  cbn [dr_base dr_last dr_res andb]. destruct (Z.ltb_spec m n).
  - replace (n <=? m) with false by lia.
    pose proof (base_alive image k x y Hg H H1) as Hba. pose proof (last_alive image k x y Hg H H1) as Hla. fold n in Hba, Hla.
    rewrite Hba, Hla. cbn [andb].
    destruct (cont || negb (due_at n)); [|reflexivity]. destruct levels as [|lv]; [lia|]. reflexivity.
  - replace (n <=? m) with true by lia. unfold due_at. replace (m <? n) with false by lia. rewrite orb_true_r. reflexivity.
Qed.

Lemma levels_outcome n ch : drawable -> exists t, draw_all_levels levels width (dr_track (after n ch)) = Ok t.
Proof.
  intros [v Hv]. unfold draw_all_levels. rewrite Hv. cbn [bind].
  assert (H : existsb (fun c => match c with CEmpty => true | _ => false end) (dr_track (after n ch)) = false).
  { assert (B : forall k, existsb (fun c => match c with CEmpty => true | _ => false end) (repeat CBlack k) = false).
    { induction k; [reflexivity|exact IHk]. }
    unfold MainLoop.after. destruct (n <? m); cbn [dr_track new_drawers]; [apply B|].
    destruct (fl_write fl || fl_track fl); [|apply B]. unfold levels_of. destruct (n <=? m); [apply B|].
    induction (seq 0 levels) as [|i l IH]; [reflexivity|exact IH]. }
  rewrite H. eauto.
Qed.

Lemma snd_bind {A B} (x : prog A) (f : A -> prog B) a : snd x = Ok a -> snd (pbind x f) = snd (f a).
Proof. intros E. unfold pbind. rewrite E. reflexivity. Qed.
Lemma snd_bind_ub {A B} (x : prog A) (f : A -> prog B) : snd x = UB -> snd (pbind x f) = UB.
Proof. intros E. unfold pbind. rewrite E. reflexivity. Qed.

Lemma iteration_outcome image k x y : (0 < levels)%nat -> drawable -> good image k x ->
  feed image x (start + Z.of_nat k) = Ok y ->
  if cont || negb (due_at (start + Z.of_nat k)) || negb reg
  then is_ok (snd (iteration image x (start + Z.of_nat k)))
  else snd (iteration image x (start + Z.of_nat k)) = UB.
Proof.
  intros Hlv Hdr Hg H. set (n := start + Z.of_nat k) in *. unfold MainModel.iteration.
  rewrite (snd_bind _ _ y) by exact H.
  destruct (feed_good P pid pmul pinv IP OP promote ready s plain levels width fl image k x y Hg H) as [_ Hy]. fold n in Hy.
  rewrite Hy. set (ch := fl_write fl && fl_pyr fl && new_base n).
  assert (Hi : snd (put_interp fl (after n ch)) = Ok tt).
  { unfold put_interp. destruct (dr_interp (after n ch)); reflexivity. }
  rewrite (snd_bind _ _ tt) by exact Hi.
  pose proof (fun Hreg ch => debug_outcome image k x y ch Hlv Hreg Hg H) as Hdeb. fold n in Hdeb.
  destruct (levels_outcome n ch Hdr) as [t Ht].
  destruct (cont || negb (due_at n) || negb reg) eqn:Eok.
  - assert (Himg : exists d, snd (put_images P IP OP levels width fl (fst y) (after n ch) n) = Ok d).
    { unfold put_images. destruct (fl_write fl) eqn:Fw; cbn [when]; [|eexists; reflexivity].
      assert (Hreg : reg = true) by (unfold debug_registered; rewrite Fw; reflexivity).
      rewrite Hreg, orb_false_r in Eok. rewrite (Hdeb Hreg ch), Eok.
      erewrite snd_bind by reflexivity. erewrite snd_bind by reflexivity. erewrite snd_bind by exact Ht.
      erewrite snd_bind by reflexivity.
      destruct (fl_pyr fl && dr_changed (after n ch)) eqn:Ep; cbn [when]; [|eexists; reflexivity].
      assert (Hp : exists v, last_pyr (after n ch) = Ok v).
      { unfold last_pyr, MainLoop.after in *. destruct (n <? m); [cbn in Ep; lia|]. cbn [dr_pyr dr_changed] in *.
        rewrite Fw. destruct (fl_pyr fl); [eexists; reflexivity|discriminate]. }
      destruct Hp as [v Hp]. erewrite snd_bind by exact Hp. eexists. reflexivity. }
    destruct Himg as [d Himg]. rewrite (snd_bind _ _ d) by exact Himg.
    assert (Hd : d = after n false).
    { exact (proj2 (proj2 (put_images_puts P IP OP s plain levels width fl (fst y) n) d Himg)). }
    subst d.
    assert (Hw : snd (put_windows P IP OP levels width fl (fst y) (after n false)) = Ok tt).
    { unfold put_windows. destruct (levels_outcome n false Hdr) as [t2 Ht2].
      rewrite (snd_bind _ _ tt).
      - rewrite (snd_bind _ _ tt).
        + destruct (fl_debug fl || fl_track fl); reflexivity.
        + destruct (fl_track fl); [|reflexivity]. cbn [when]. erewrite snd_bind by exact Ht2. reflexivity.
      - destruct (fl_debug fl) eqn:Fd; [|reflexivity]. cbn [when].
        assert (Hreg : reg = true) by (unfold debug_registered; rewrite Fd, orb_true_r; reflexivity).
        rewrite Hreg, orb_false_r in Eok. rewrite (Hdeb Hreg false), Eok. erewrite snd_bind by reflexivity. reflexivity. }
    rewrite (snd_bind _ _ tt) by exact Hw. eexists. reflexivity.
  - apply orb_false_iff in Eok as [Eok Ereg]. assert (Hreg : reg = true) by (destruct reg; [reflexivity|discriminate]).
    destruct (fl_write fl) eqn:Fw.
    + apply snd_bind_ub. unfold put_images. rewrite Fw. cbn [when]. apply snd_bind_ub.
      rewrite (Hdeb Hreg ch), Eok. reflexivity.
    + assert (Himg : snd (put_images P IP OP levels width fl (fst y) (after n ch) n) = Ok (after n ch)).
      { unfold put_images. rewrite Fw. reflexivity. }
      rewrite (snd_bind _ _ _ Himg). apply snd_bind_ub. unfold put_windows. apply snd_bind_ub.
      assert (Fd : fl_debug fl = true) by (unfold debug_registered in Hreg; rewrite Fw in Hreg; exact Hreg).
      rewrite Fd. cbn [when]. apply snd_bind_ub. rewrite (Hdeb Hreg ch), Eok. reflexivity.
Qed.

(** ** The whole loop *)
Section Whole.
Variable image : Z -> outcome frame_in.
Hypothesis Hset : settings_ok s.
Hypothesis Hlev : (0 < levels)%nat.
Hypothesis Heven : Nat.even levels = true.
Hypothesis Hread : readable image.
Hypothesis Hstart : 1 <= start.
Hypothesis Hend : start + fl_count fl <= INT_MAX.

Lemma loop_from j : forall k x, good image k x -> (k + j <= Z.to_nat (fl_count fl))%nat ->
  (cont = true \/ reg = false -> is_ok (snd (iterations image (map (fun i => start + Z.of_nat i) (seq k j)) x))) /\
  (cont = false -> reg = true -> start + Z.of_nat k <= m + period shift < start + Z.of_nat (k + j) ->
     snd (iterations image (map (fun i => start + Z.of_nat i) (seq k j)) x) = UB).
Proof.
  pose proof (even_drawable Hlev Heven) as Hdr.
  induction j as [|j IH]; intros k x Hg Hk; cbn [seq map MainModel.iterations].
  { split; [intros _; eexists; reflexivity|lia]. }
  destruct (feed_total image k x Hset Hdr Hread Hstart Hend ltac:(lia) Hg) as [y Hy].
  pose proof (iteration_outcome image k x y Hlev Hdr Hg Hy) as Ho.
  assert (Hper : 1 <= period shift).
  { unfold period. destruct Hset as (_ & Hs & _). lia. }
  assert (Hgo : cont || negb (due_at (start + Z.of_nat k)) || negb reg = true ->
     exists z, good image (S k) z /\ snd (pbind (iteration image x (start + Z.of_nat k))
        (fun m' => iterations image (map (fun i => start + Z.of_nat i) (seq (S k) j)) m'))
        = snd (iterations image (map (fun i => start + Z.of_nat i) (seq (S k) j)) z)).
  { intros E. rewrite E in Ho. destruct Ho as [z Ez]. exists z. split; [|apply snd_bind; exact Ez].
    exact (proj2 (proj2 (iteration_puts P pid pmul pinv IP OP promote ready s plain levels width fl image k x Hg) z Ez)). }
  split.
  - intros Hc. destruct Hgo as (z & Gz & ->).
    { destruct Hc as [->| ->]; rewrite ?orb_true_r; reflexivity. }
    apply (proj1 (IH (S k) z Gz ltac:(lia))). exact Hc.
  - intros Hc Hr Hrange. rewrite Hc, Hr, orb_false_r in Ho, Hgo. cbn [orb] in Ho, Hgo.
    destruct (due_at (start + Z.of_nat k)) eqn:Ed; cbn [negb] in Ho, Hgo.
    + apply snd_bind_ub. exact Ho.
    + assert (Hne : start + Z.of_nat k <> m + period shift).
      { intros Eq. unfold due_at in Ed. rewrite Eq in Ed. replace (m + period shift - m) with (1 * period shift) in Ed by lia.
        rewrite Z.mod_mul in Ed by lia. lia. }
      destruct (Hgo eq_refl) as (z & Gz & ->). apply (proj2 (IH (S k) z Gz ltac:(lia))); auto; lia.
Qed.

Lemma loop_aligned y : snd (loop image) = Ok y ->
  dr_aligned (snd y) = (Z.of_nat (S (S sk)) <=? fl_count fl).
Proof.
  intros E. destruct (loop_puts image) as [_ L]. destruct (L y E) as [_ [_ ->]]. unfold MainLoop.after.
  destruct (Z.ltb_spec (start + Z.of_nat (Z.to_nat (fl_count fl)) - 1) m) as [Hl|Hl]; unfold init_frame in Hl; cbn [dr_aligned new_drawers]; lia.
Qed.

(** The program ends normally exactly if the ground truth cloud gets its alignment. *)
Lemma main_ends dir gt : fl_gt_only fl = false -> cont = true \/ reg = false -> 0 <= fl_count fl ->
  fl_write fl || dir = true -> (fl_gt fl = true -> gt = Ok tt) ->
  snd (main dir (Ok tt) gt image) =
    if fl_gt fl && (fl_count fl <? Z.of_nat (S (S sk))) then Abort else Ok tt.
Proof.
  intros Hg Hc Hcnt Hd Hgt.
  rewrite main_begun; [|exact Hg|repeat split; auto; unfold INT_MIN; lia].
  destruct (loop_from (Z.to_nat (fl_count fl)) 0 (st0, new_drawers levels) (good0 _ _ _ _ _ _ _ _ _ _ _ _ _) ltac:(lia)) as [L _].
  destruct (L Hc) as [y Ey]. change (map (fun i => start + Z.of_nat i) (seq 0 (Z.to_nat (fl_count fl)))) with (frames_asked fl) in Ey.
  pose proof (loop_aligned y Ey) as Ha. rewrite Ey. cbn [snd]. rewrite Ha.
  replace (negb (Z.of_nat (S (S sk)) <=? fl_count fl)) with (fl_count fl <? Z.of_nat (S (S sk))) by lia. reflexivity.
Qed.

(** Without new keyframes the debug image is drawn from a frame that is gone. *)
Lemma main_gone dir gt : fl_gt_only fl = false -> cont = false -> reg = true ->
  m + period shift < start + fl_count fl ->
  fl_write fl || dir = true -> (fl_gt fl = true -> gt = Ok tt) ->
  snd (main dir (Ok tt) gt image) = UB.
Proof.
  intros Hg Hc Hr Hcnt Hd Hgt.
  assert (0 <= fl_count fl) by (unfold init_frame, period in Hcnt; lia).
  rewrite main_begun; [|exact Hg|repeat split; auto; unfold INT_MIN; lia].
  destruct (loop_from (Z.to_nat (fl_count fl)) 0 (st0, new_drawers levels) (good0 _ _ _ _ _ _ _ _ _ _ _ _ _) ltac:(lia)) as [_ L].
  change (map (fun i => start + Z.of_nat i) (seq 0 (Z.to_nat (fl_count fl)))) with (frames_asked fl) in L.
  rewrite L; auto. unfold init_frame, period in *. lia.
Qed.
End Whole.

(** ** Nothing but the directory decides *)
Lemma main_no_dir dir gt image : fl_gt_only fl = false -> fl_write fl || dir = false ->
  main dir (Ok tt) gt image = ([], Throw).
Proof. intros Hg Hd. unfold MainModel.main. rewrite Hg, Hd. reflexivity. Qed.

Lemma main_gt_only dir image : fl_gt_only fl = true ->
  main dir (Ok tt) (Ok tt) image = (optional (fl_write fl || dir) WArgs ++ [WCloudHere], Ok tt).
Proof. intros Hg. unfold MainModel.main. rewrite Hg. destruct (fl_write fl || dir); reflexivity. Qed.

End Top.
