(** Proofs of C97: one iteration of the loop. *)
From Coq Require Import List ZArith Bool Lia Sorting.Sorted ZifyBool.
From Verif Require Import Outcome Dbl DsoModel DsoSpec DsoHistory DsoProofs DsoFinal UtilModel AliveSpec
  AliveProofs MainModel MainSpec MainProofs.
Import ListNotations.
Open Scope Z_scope.

(** ** Programs with a known output *)
Definition puts {A} (x : prog A) (e : list output) (Q : A -> Prop) : Prop :=
  beginning (fst x) e /\ forall a, snd x = Ok a -> fst x = e /\ Q a.

Lemma puts_bind {A B} (x : prog A) (f : A -> prog B) e1 e2 Q R :
  puts x e1 Q -> (forall a, snd x = Ok a -> Q a -> puts (f a) e2 R) -> puts (pbind x f) (e1 ++ e2) R.
Proof.
  intros [[r Hr] H1] H2. unfold pbind, puts. destruct (snd x) as [a| | | |] eqn:E; cbn [fst snd].
  2-5: split; [exists (r ++ e2); rewrite Hr, app_assoc; reflexivity|discriminate].
  destruct (H1 a eq_refl) as [E1 HQ]. destruct (H2 a eq_refl HQ) as [[r2 Hr2] H3]. split.
  - exists r2. rewrite E1, Hr2, app_assoc. reflexivity.
  - intros b Hb. destruct (H3 b Hb) as [E2 HR]. split; [congruence|exact HR].
Qed.
Lemma puts_lift {A} (o : outcome A) (Q : A -> Prop) : (forall a, o = Ok a -> Q a) -> puts (lift o) [] Q.
Proof. intros H. split; [exists []; reflexivity|]. simpl. auto. Qed.
Lemma puts_tell l : puts (tell l) l (fun _ => True).
Proof. split; [exists []; rewrite app_nil_r; reflexivity|]. simpl. auto. Qed.
Lemma puts_ret {A} (a : A) (Q : A -> Prop) : Q a -> puts (ret a) [] Q.
Proof. intros H. split; [exists []; reflexivity|]. simpl. intros b E. injection E as <-. auto. Qed.
Lemma puts_weak {A} (x : prog A) e e' (Q Q' : A -> Prop) : e = e' -> (forall a, Q a -> Q' a) -> puts x e Q -> puts x e' Q'.
Proof. intros <- H [H1 H2]. split; [exact H1|]. intros a Ha. destruct (H2 a Ha). auto. Qed.
Lemma puts_lift_bind {A B} (o : outcome A) (f : A -> prog B) e R :
  (forall a, o = Ok a -> puts (f a) e R) -> puts (pbind (lift o) f) e R.
Proof.
  intros H. apply (puts_bind (lift o) f [] e (fun a => o = Ok a) R).
  - apply puts_lift. auto.
  - intros a _ Ha. apply H. exact Ha.
Qed.
Lemma puts_tell_last l {A} (a : A) (Q : A -> Prop) : Q a -> puts (pbind (tell l) (fun _ => ret a)) l Q.
Proof.
  intros H. apply (puts_weak _ (l ++ []) l Q Q); [apply app_nil_r|auto|].
  eapply puts_bind; [apply puts_tell|]. intros _ _ _. apply puts_ret. exact H.
Qed.

Section Loop.
Variables P : Type.
Variable pid : P.
Variable pmul : P -> P -> P.
Variable pinv : P -> P.
Variables IP OP : Type.
Variable promote : IP -> OP.
Variable ready : IP -> bool.
Variable s : dso_settings.
Variable plain : bool.
Variable levels : nat.
Variable width : Z.
Variable fl : main_flags.
Notation kf := (kf P IP OP).
Notation state := (state P IP OP).
Notation frame_in := (frame_in P IP OP).
Notation run := (run pid pmul pinv promote ready s).
Notation add_frame := (add_frame pid pmul pinv promote ready s).
Notation st0 := (init s (main_observers fl) (created_observers fl) : state).
Notation start := (fl_start fl).
Notation skip := (firstFramesSkip s).
Notation shift := (shiftBetweenKeyFrames s).
Notation cont := (continueChoosing s).
Notation sk := (skip_count skip).
Notation m := (init_frame start skip).
Notation newest := (newest start skip shift cont).
Notation base_at := (base_at start skip shift (trackFromLastKf s) cont).
Notation new_base := (new_base start skip shift cont).
Notation levels_of := (levels_of start skip levels).
Notation debug_of := (debug_of start skip shift (trackFromLastKf s) cont).
Notation reg := (debug_registered fl).
Notation feed := (feed P pid pmul pinv IP OP promote ready s plain levels width fl).
Notation inv := (inv P IP OP s (main_observers fl) (created_observers fl)).
Implicit Types st : state.

(** ** The keyframes of the window *)
Lemma window_nums cs st : inv cs st -> phase_run P IP OP s cs st ->
  map kf_num (reported (st_log st)) ++ map kf_num (st_kfs st) = expected_kfs skip shift cont (numbers cs).
Proof.
  intros _ (_ & _ & Hsh & _). rewrite <- map_app.
  assert (E : map kf_num (reported (st_log st) ++ st_kfs st)
              = map fst (rev (history skip shift (trackFromLastKf s) cont (numbers cs)))).
  { rewrite <- Hsh, map_map. reflexivity. }
  rewrite E. apply history_kfs.
Qed.

Lemma phase cs st k : inv cs st -> numbers cs = asked start k -> (S (S sk) <= k)%nat -> phase_run P IP OP s cs st.
Proof.
  intros (_ & _ & _ & _ & _ & [Hw|Hr]) Hn Hk; [|exact Hr].
  destruct Hw as (_ & L & _). rewrite Hn, asked_length in L. lia.
Qed.

Lemma tails cs st k : inv cs st -> numbers cs = asked start k -> (S (S sk) <= k)%nat ->
  let n := start + Z.of_nat k - 1 in
  (forall l, last_kf (st_kfs st) = Ok l -> kf_num l = newest n) /\
  (forall b, base_kf s (st_kfs st) = Ok b -> kf_num b = base_at n).
Proof.
  intros Hi Hn Hk n. pose proof (window_nums _ _ Hi (phase _ _ _ Hi Hn Hk)) as E. rewrite Hn in E.
  destruct (expected_last start skip shift cont k Hk) as [pre Ep]. fold n in Ep. rewrite Ep in E.
  apply (f_equal (@rev Z)) in E. rewrite !rev_app_distr, <- !map_rev in E. cbn [rev app] in E.
  assert (H1 : forall l, last_kf (st_kfs st) = Ok l -> kf_num l = newest n).
  { intros l. unfold last_kf. destruct (rev (st_kfs st)) as [|x r]; [discriminate|]. intros El. injection El as <-.
    cbn [map app] in E. injection E as -> _. reflexivity. }
  split; [exact H1|]. intros b. unfold base_kf, MainSpec.base_at. destruct (trackFromLastKf s); [apply H1|].
  unfold lbo_kf. destruct (rev (st_kfs st)) as [|x [|y r]]; try discriminate. intros El. injection El as <-.
  cbn [map app] in E. injection E as _ -> _. reflexivity.
Qed.

(** ** What one frame adds to the log *)
Definition news (n : Z) (delta : list (event P IP OP)) : Prop :=
  if n <? m then delta = []
  else if n =? m then exists l b, delta = [EvInitialized l; EvNewKf b] /\ kf_num b = base_at n
  else exists n3 n2 a c g1 g2,
    let three := [EvNewFrame n; EvPredict n3 n2 a c g1 g2; EvTracked n (main_observers fl ++ created_observers fl)] in
    if new_base n
    then exists gone b, delta = three ++ gone ++ [EvNewKf b] /\ kf_num b = base_at n /\
                        (gone = [] \/ exists l, gone = [EvMarg l])
    else delta = three.

Lemma one_frame cs st k fi st' r : run cs st0 = Ok st -> numbers cs = asked start k ->
  observers_added cs = [] -> fi_num fi = start + Z.of_nat k -> add_frame st fi = Ok (st', r) ->
  run (cs ++ [AddFrame fi]) st0 = Ok st' /\
  numbers (cs ++ [AddFrame fi]) = asked start (S k) /\
  observers_added (cs ++ [AddFrame fi]) = [] /\
  ((S (S sk) <= S k)%nat -> tracker_observers P IP OP st' = main_observers fl ++ created_observers fl) /\
  exists delta, st_log st' = st_log st ++ delta /\ news (start + Z.of_nat k) delta.
Proof.
  intros Hrun Hn Ho Hf E. pose proof (inv_run _ _ _ _ _ _ _ _ _ _ _ _ _ Hrun) as Hinv.
  assert (Hrun' : run (cs ++ [AddFrame fi]) st0 = Ok st').
  { rewrite run_snoc, Hrun. simpl. rewrite E. reflexivity. }
  pose proof (inv_run _ _ _ _ _ _ _ _ _ _ _ _ _ Hrun') as Hinv'.
  assert (Hn' : numbers (cs ++ [AddFrame fi]) = asked start (S k)).
  { rewrite numbers_app. cbn [numbers flat_map app]. rewrite Hf, Hn, asked_S. reflexivity. }
  assert (Ho' : observers_added (cs ++ [AddFrame fi]) = []).
  { unfold observers_added in *. rewrite flat_map_app, Ho. reflexivity. }
  split; [exact Hrun'|]. split; [exact Hn'|]. split; [exact Ho'|]. split.
  { intros Hk. destruct (phase _ _ _ Hinv' Hn' Hk) as (_ & _ & _ & Ht). unfold tracker_observers. rewrite Ht.
    destruct Hinv' as (_ & _ & _ & _ & -> & _). rewrite Ho', app_nil_r. reflexivity. }
  assert (Hlen : length (numbers cs) = k) by (rewrite Hn; apply asked_length).
  destruct (add_frame_cases _ _ _ _ _ _ _ _ _ _ _ _ _ _ _ _ Hinv E) as (st1 & Hb & Hlt & Hcase).
  destruct (begin_spec _ _ _ _ _ _ _ Hb) as (_ & _ & B1 & B2 & B3 & B4 & B5 & B6 & B7 & B8 & B9).
  unfold news. destruct Hcase as [(Pw & L & -> & ->)|[(Pw & L & Hi & Hfin)|(Pr & Ht)]].
  - exists []. rewrite B8, app_nil_r. split; [reflexivity|].
    replace (start + Z.of_nat k <? m) with true by (unfold init_frame; lia). reflexivity.
  - pose proof Pw as (W1 & W2 & W3 & W4 & W5 & W6 & W7 & W8).
    replace (start + Z.of_nat k <? m) with false by (unfold init_frame; lia).
    replace (start + Z.of_nat k =? m) with true by (unfold init_frame; lia).
    destruct B9 as [(C1 & _)|[(C1 & C2 & C3 & C4 & C5)|(f & C1 & C2 & C3 & C4)]]; try congruence.
    assert (Hff : f < fi_num fi).
    { rewrite W7 in C2. destruct (numbers cs); [discriminate|]. injection C2 as ->. inversion Hlt; auto. }
    destruct (finish_spec _ _ _ _ _ _ _ _ _ _ _ (eq_trans B4 W3) C3 Hff Hfin) as (mo & imm0 & imm1 & F1 & F2 & F3 & F4 & F5 & F6 & _).
    eexists. split; [rewrite F6, B8; reflexivity|]. do 2 eexists. split; [reflexivity|].
    assert (Hk : (S (S sk) <= S k)%nat) by lia.
    destruct (tails _ _ _ Hinv' Hn' Hk) as [_ T].
    replace (start + Z.of_nat k) with (start + Z.of_nat (S k) - 1) by lia.
    apply T. rewrite F5. unfold base_kf, last_kf, lbo_kf. destruct (trackFromLastKf s); reflexivity.
  - assert (Hk : (S (S sk) <= k)%nat) by (destruct Pr as (_ & R2 & _); lia).
    replace (start + Z.of_nat k <? m) with false by (unfold init_frame; lia).
    replace (start + Z.of_nat k =? m) with false by (unfold init_frame; lia).
    destruct (track_spec _ _ _ _ _ _ _ _ _ _ _ _ Ht) as (b & l & obs & pose & n1 & n2 & n3 & rest & need & st2 & Hbase & Hl & Hto & Hp & Hrev & Hsz & -> & Hneed & I1 & I2 & I3 & I4 & I5 & I6 & I7 & I8 & I9 & I10 & Hc).
    assert (Hobs : obs = main_observers fl ++ created_observers fl).
    { rewrite B7 in Hto. destruct Pr as (_ & _ & _ & Ht'). rewrite Ht' in Hto. injection Hto as <-.
      destruct Hinv as (_ & _ & _ & _ & -> & _). rewrite Ho, app_nil_r. reflexivity. }
    assert (Hln : kf_num l = newest (start + Z.of_nat k - 1)).
    { apply (proj1 (tails _ _ _ Hinv Hn Hk)). rewrite <- B4. exact Hl. }
    assert (Hnb : cont && need = new_base (start + Z.of_nat k)).
    { rewrite Hneed, Hln, Hf. apply due_new_base. unfold init_frame. lia. }
    rewrite Hf, B8, Hobs in I10. destruct Hc as [[Hc ->]|[Hc Hpr]].
    + eexists. split; [exact I10|]. do 6 eexists. rewrite <- Hnb, Hc. reflexivity.
    + destruct (promote_spec _ _ _ _ _ _ _ _ _ _ _ _ _ Hpr) as (imm & gone & kept & kfs & bk & P1 & P2 & P3 & P4 & Q1 & Q2 & Q3 & Q4 & Q5 & Q6 & Q7 & Q8 & Q9).
      rewrite I10, <- app_assoc in Q8. eexists. split; [exact Q8|]. do 6 eexists.
      rewrite <- Hnb, Hc. do 2 eexists. split; [reflexivity|]. split.
      * assert (Hk' : (S (S sk) <= S k)%nat) by lia.
        assert (Hbk : exists b', base_kf s (st_kfs st') = Ok b' /\ kf_num b' = kf_num bk).
        { eapply base_kf_nums; [|exact P4]. destruct Q9 as [(_ & -> & _)|(_ & _ & -> & _)]; [reflexivity|].
          symmetry. apply shape_num, map_shape_ba. }
        destruct Hbk as (b' & Eb & <-). destruct (tails _ _ _ Hinv' Hn' Hk') as [_ T].
        replace (start + Z.of_nat k) with (start + Z.of_nat (S k) - 1) by lia. apply T. exact Eb.
      * destruct gone; [left; reflexivity|right; eexists; reflexivity].
Qed.

(** ** The drawers after frame [n], before the pyramid image is fetched *)
Definition after (n : Z) (changed : bool) : drawers :=
  if n <? m then new_drawers levels
  else {| dr_interp := negb plain; dr_changed := changed;
          dr_pyr := if fl_write fl && fl_pyr fl then Some (base_at n) else None;
          dr_track := if fl_write fl || fl_track fl then levels_of n else repeat CBlack levels;
          dr_res := if reg then levels_of n else repeat CBlack levels;
          dr_base := if reg then Some (base_at n) else None;
          dr_last := if reg && (m <? n) then Some n else None;
          dr_aligned := true |}.

(** The frames fed to the system come from [image]. *)
Definition read (image : Z -> outcome frame_in) (fi : frame_in) : Prop :=
  exists it g, image it = Ok g /\ fi = numbered P IP OP it g.

Definition good (image : Z -> outcome frame_in) (k : nat) (x : state * drawers) : Prop :=
  (exists cs, run cs st0 = Ok (fst x) /\ numbers cs = asked start k /\ observers_added cs = [] /\
              calls_ok (read image) cs) /\
  snd x = after (start + Z.of_nat k - 1) false.

Lemma heard k obs delta d : ((S (S sk) <= S k)%nat -> obs = main_observers fl ++ created_observers fl) ->
  news (start + Z.of_nat k) delta ->
  ofold (notify P IP OP plain levels width fl obs) delta (after (start + Z.of_nat k - 1) false) = Ok d ->
  d = after (start + Z.of_nat k) (fl_write fl && fl_pyr fl && new_base (start + Z.of_nat k)).
Proof.
  intros Ho Hnews. set (n := start + Z.of_nat k) in *. unfold news in Hnews.
  destruct (Z.ltb_spec n m) as [L|L].
  { subst delta. cbn [ofold]. intros E. injection E as <-. unfold after.
    replace (n - 1 <? m) with true by lia. replace (n <? m) with true by lia. reflexivity. }
  rewrite Ho by (unfold n, init_frame in L; lia). clear Ho obs.
  destruct (Z.eqb_spec n m) as [En|En].
  - destruct Hnews as (l & b & -> & Hb). unfold after at 1. replace (n - 1 <? m) with true by lia.
    cbn [ofold notify bind]. rewrite obs0. unfold new_base_frame, new_drawers.
    cbn [dr_interp dr_changed dr_pyr dr_track dr_res dr_base dr_last dr_aligned orb].
    unfold after. replace (n <? m) with false by lia. replace (m <? n) with false by lia.
    unfold MainSpec.levels_of. replace (n <=? m) with true by lia.
    unfold MainSpec.new_base. rewrite En, Z.eqb_refl, <- En. cbn [orb]. rewrite andb_false_r, andb_true_r, <- Hb.
    destruct (fl_write fl && fl_pyr fl).
    + destruct (draw_leveled (Z.of_nat levels) width); try discriminate. cbn [bind ofold].
      intros E. injection E as <-. destruct (fl_write fl || fl_track fl), reg; reflexivity.
    + intros E. injection E as <-. destruct (fl_write fl || fl_track fl), reg; reflexivity.
  - destruct Hnews as (n3 & n2 & a & c & g1 & g2 & Hd). cbv zeta in Hd.
    assert (Hafter : forall ch, after n ch =
      {| dr_interp := negb plain; dr_changed := ch;
         dr_pyr := if fl_write fl && fl_pyr fl then Some (base_at n) else None;
         dr_track := if fl_write fl || fl_track fl then map (CRes n) (seq 0 levels) else repeat CBlack levels;
         dr_res := if reg then map (CRes n) (seq 0 levels) else repeat CBlack levels;
         dr_base := if reg then Some (base_at n) else None;
         dr_last := if reg then Some n else None; dr_aligned := true |}).
    { intros ch. unfold after, MainSpec.levels_of. replace (n <? m) with false by lia. replace (n <=? m) with false by lia.
      replace (m <? n) with true by lia. rewrite andb_true_r. reflexivity. }
    rewrite Hafter. set (T := map (CRes n) (seq 0 levels)) in *.
    set (d0 := after (n - 1) false).
    assert (Hd0 : dr_interp d0 = negb plain /\ dr_changed d0 = false /\
              dr_pyr d0 = (if fl_write fl && fl_pyr fl then Some (base_at (n - 1)) else None) /\
              (fl_write fl || fl_track fl = false -> dr_track d0 = repeat CBlack levels) /\
              (reg = false -> dr_res d0 = repeat CBlack levels) /\
              dr_base d0 = (if reg then Some (base_at (n - 1)) else None) /\
              (reg = false -> dr_last d0 = None) /\ dr_aligned d0 = true).
    { unfold d0, after. replace (n - 1 <? m) with false by lia. cbn. repeat split; intros ->; reflexivity. }
    destruct Hd0 as (D1 & D2 & D3 & D4 & D5 & D6 & D7 & D8). clearbody d0.
    assert (Hthree : forall tl, ofold (notify P IP OP plain levels width fl (main_observers fl ++ created_observers fl))
       ([EvNewFrame n; EvPredict n3 n2 a c g1 g2; EvTracked n (main_observers fl ++ created_observers fl)] ++ tl) d0 =
       ofold (notify P IP OP plain levels width fl (main_observers fl ++ created_observers fl)) tl
       {| dr_interp := negb plain; dr_changed := false;
          dr_pyr := if fl_write fl && fl_pyr fl then Some (base_at (n - 1)) else None;
          dr_track := if fl_write fl || fl_track fl then T else repeat CBlack levels;
          dr_res := if reg then T else repeat CBlack levels;
          dr_base := if reg then Some (base_at (n - 1)) else None;
          dr_last := if reg then Some n else None; dr_aligned := true |}).
    { intros tl. cbn [app ofold notify bind]. rewrite obs1, obs2, !track_seen_ok.
      cbn [dr_interp dr_changed dr_pyr dr_track dr_res dr_base dr_last dr_aligned].
      rewrite D1, D2, D3, D6, D8. fold T.
      destruct (fl_write fl || fl_track fl) eqn:F1; destruct reg eqn:F2; cbn [bind];
        rewrite ?(D4 eq_refl), ?(D5 eq_refl), ?(D7 eq_refl); reflexivity. }
    destruct (new_base n) eqn:Enb.
    + destruct Hd as (gone & b & -> & Hb & Hg). rewrite Hthree, andb_true_r.
      assert (Hskip : forall d1, ofold (notify P IP OP plain levels width fl (main_observers fl ++ created_observers fl)) (gone ++ [EvNewKf b]) d1
        = ofold (notify P IP OP plain levels width fl (main_observers fl ++ created_observers fl)) [EvNewKf b] d1).
      { destruct Hg as [->|[l ->]]; reflexivity. }
      rewrite Hskip. clear Hskip Hthree. cbn [ofold notify bind]. rewrite obs0, Hb. unfold new_base_frame.
      cbn [dr_interp dr_changed dr_pyr dr_track dr_res dr_base dr_last dr_aligned].
      destruct (fl_write fl && fl_pyr fl).
      * destruct (draw_leveled (Z.of_nat levels) width); try discriminate. cbn [bind ofold].
        intros E. injection E as <-. destruct reg; reflexivity.
      * cbn [bind ofold]. intros E. injection E as <-. destruct reg; reflexivity.
    + subst delta. specialize (Hthree []). rewrite app_nil_r in Hthree. rewrite Hthree. clear Hthree.
      cbn [ofold]. intros E. injection E as <-. rewrite andb_false_r.
      rewrite (base_same start skip shift (trackFromLastKf s) cont n) by (lia || exact Enb). reflexivity.
Qed.

Lemma good0 image : good image 0 (st0, new_drawers levels).
Proof.
  split.
  - exists []. repeat split. intros fi [].
  - unfold after. cbn [snd]. replace (start + Z.of_nat 0 - 1 <? m) with true by (unfold init_frame; lia). reflexivity.
Qed.

Lemma feed_good image k x y : good image k x -> feed image x (start + Z.of_nat k) = Ok y ->
  (exists cs, run cs st0 = Ok (fst y) /\ numbers cs = asked start (S k) /\ observers_added cs = [] /\
              calls_ok (read image) cs) /\
  snd y = after (start + Z.of_nat k) (fl_write fl && fl_pyr fl && new_base (start + Z.of_nat k)).
Proof.
  intros [(cs & R1 & R2 & R3 & R4) Hd] H. unfold MainModel.feed in H.
  destruct (image (start + Z.of_nat k)) as [g| | | |] eqn:Eg; try discriminate. cbn [bind] in H.
  destruct (add_frame (fst x) (numbered P IP OP (start + Z.of_nat k) g)) as [[st' r]| | | |] eqn:E; try discriminate.
  cbn [bind fst] in H.
  destruct (one_frame cs (fst x) k (numbered P IP OP (start + Z.of_nat k) g) st' r R1 R2 R3 eq_refl E) as (S1 & S2 & S3 & S4 & delta & S5 & S6).
  rewrite S5, skipn_app, skipn_all, Nat.sub_diag in H. cbn [skipn app] in H. rewrite Hd in H.
  destruct (ofold _ delta _) as [d| | | |] eqn:En; try discriminate. cbn [bind] in H. injection H as <-.
  cbn [fst snd]. split.
  - eexists. split; [exact S1|]. split; [exact S2|]. split; [exact S3|].
    intros fi Hin. apply in_app_iff in Hin as [Hin|[Hin|[]]]; [auto|]. injection Hin as <-. eexists _, _. eauto.
  - eapply heard; eauto.
Qed.

(** ** Drawing *)
Notation draw_debug := (draw_debug P IP OP fl).
Notation draw_all := (draw_all_levels levels width).

Lemma after_interp n ch : dr_interp (after n ch) = (m <=? n) && negb plain.
Proof.
  unfold after. destruct (Z.ltb_spec n m).
  - replace (m <=? n) with false by lia. reflexivity.
  - replace (m <=? n) with true by lia. reflexivity.
Qed.

Lemma debug_same n ch ch' st : draw_debug (after n ch) st = draw_debug (after n ch') st.
Proof. unfold after. destruct (n <? m); reflexivity. Qed.
Lemma track_same n ch ch' : dr_track (after n ch) = dr_track (after n ch').
Proof. unfold after. destruct (n <? m); reflexivity. Qed.

Lemma debug_shown n ch st p : draw_debug (after n ch) st = Ok p -> p = debug_of n.
Proof.
  unfold MainModel.draw_debug, after, MainSpec.debug_of, MainSpec.levels_of. destruct reg; [|discriminate].
  destruct (Z.ltb_spec n m); [replace (n <=? m) with true by lia; intros E; injection E as <-; reflexivity|].
  cbn [dr_base dr_last dr_res andb]. destruct (Z.ltb_spec m n).
  - replace (n <=? m) with false by lia. destruct (existsb _ _ && existsb _ _); [|discriminate].
    destruct levels; [discriminate|]. cbn [seq map]. intros E. injection E as <-. reflexivity.
  - replace (n <=? m) with true by lia. intros E. injection E as <-. reflexivity.
Qed.

Lemma levels_shown n ch t : fl_write fl || fl_track fl = true -> draw_all (dr_track (after n ch)) = Ok t -> t = levels_of n.
Proof.
  intros Hreg. unfold draw_all_levels. destruct (draw_leveled _ _); try discriminate. cbn [bind].
  destruct (existsb _ _); [discriminate|]. intros E. injection E as <-.
  unfold after, MainSpec.levels_of. destruct (Z.ltb_spec n m); [replace (n <=? m) with true by lia; reflexivity|].
  cbn [dr_track]. rewrite Hreg. reflexivity.
Qed.

Notation frame_output := (frame_output start skip shift (trackFromLastKf s) cont fl plain levels).

(** ** One iteration *)
Lemma put_images_puts st n :
  puts (put_images P IP OP levels width fl st (after n (fl_write fl && fl_pyr fl && new_base n)) n)
       (optional (fl_write fl) (WDebug n (debug_of n)) ++ optional (fl_write fl) (WTrack n (levels_of n)) ++
        optional (fl_write fl && fl_pyr fl && new_base n) (WPyr n (base_at n)))
       (fun d => d = after n false).
Proof.
  unfold put_images. destruct (fl_write fl) eqn:Fw; cbn [when optional andb orb].
  2:{ apply puts_ret. reflexivity. }
  apply puts_lift_bind. intros p Ep. apply debug_shown in Ep. subst p.
  eapply puts_bind; [apply puts_tell|]. intros _ _ _.
  apply puts_lift_bind. intros t Et. apply levels_shown in Et; [|rewrite Fw; reflexivity]. subst t.
  eapply puts_bind; [apply puts_tell|]. intros _ _ _.
  assert (Hch : forall b, dr_changed (after n b) = (m <=? n) && b).
  { intros b. unfold after. destruct (Z.ltb_spec n m).
    - replace (m <=? n) with false by lia. reflexivity.
    - replace (m <=? n) with true by lia. reflexivity. }
  rewrite Hch. assert (Hnb : new_base n = true -> (m <=? n) = true).
  { unfold MainSpec.new_base. lia. }
  destruct (fl_pyr fl) eqn:Fp; cbn [andb].
  2:{ apply puts_ret. destruct (n <? m) eqn:En; unfold after; rewrite En; reflexivity. }
  destruct (new_base n) eqn:En.
  2:{ rewrite andb_false_r. apply puts_ret. reflexivity. }
  rewrite Hnb by reflexivity. cbn [andb when optional].
  assert (Hm : n <? m = false) by (specialize (Hnb eq_refl); lia).
  apply puts_lift_bind. intros r Er. unfold last_pyr, after in Er. rewrite Hm in Er. cbn [dr_pyr] in Er.
  rewrite Fw, Fp in Er. cbn [andb] in Er. injection Er as <-. cbn [fst snd].
  apply puts_tell_last. unfold after. rewrite Hm, Fw, Fp. reflexivity.
Qed.

Lemma put_windows_puts st n :
  puts (put_windows P IP OP levels width fl st (after n false))
       (optional (fl_debug fl) (SDebug (debug_of n)) ++ optional (fl_track fl) (STrack (levels_of n)) ++
        optional (fl_debug fl || fl_track fl) SWait) (fun _ => True).
Proof.
  unfold put_windows. eapply puts_bind with (Q := fun _ => True).
  { destruct (fl_debug fl); cbn [when optional]; [|apply puts_ret; exact I].
    apply puts_lift_bind. intros p Ep. apply debug_shown in Ep. subst p. apply puts_tell. }
  intros _ _ _. eapply puts_bind with (Q := fun _ => True).
  { destruct (fl_track fl) eqn:Ft; cbn [when optional]; [|apply puts_ret; exact I].
    apply puts_lift_bind. intros t Et. apply levels_shown in Et; [|rewrite Ft, orb_true_r; reflexivity]. subst t. apply puts_tell. }
  intros _ _ _. destruct (fl_debug fl || fl_track fl); cbn [when optional]; [apply puts_tell|apply puts_ret; exact I].
Qed.

Lemma put_interp_puts n ch :
  puts (put_interp fl (after n ch))
       (optional ((m <=? n) && negb plain && fl_write fl) WInterp ++ optional ((m <=? n) && negb plain && fl_interp fl) SInterp)
       (fun _ => True).
Proof.
  unfold put_interp. rewrite after_interp. destruct ((m <=? n) && negb plain); cbn [when andb]; [|apply puts_ret; exact I].
  eapply puts_weak; [|intros a H; exact H|apply puts_tell]. reflexivity.
Qed.

Lemma iteration_puts image k x : good image k x ->
  puts (iteration P pid pmul pinv IP OP promote ready s plain levels width fl image x (start + Z.of_nat k))
       (frame_output (start + Z.of_nat k)) (good image (S k)).
Proof.
  intros Hg. unfold iteration. set (n := start + Z.of_nat k).
  apply puts_lift_bind. intros y Ey. destruct (feed_good image k x y Hg Ey) as [Hy1 Hy2]. fold n in Hy2.
  eapply puts_weak; [|intros a H; exact H|].
  2:{ rewrite Hy2. eapply puts_bind; [apply put_interp_puts|]. intros _ _ _.
      eapply puts_bind; [apply put_images_puts|]. intros d _ ->.
      eapply puts_bind; [apply put_windows_puts|]. intros _ _ _.
      apply puts_ret. split; [exact Hy1|]. cbn [snd]. f_equal. unfold n. lia. }
  unfold MainSpec.frame_output. rewrite !app_nil_r. cbn [app]. rewrite <- !app_assoc. reflexivity.
Qed.

Lemma iterations_puts image j : forall k x, good image k x ->
  puts (iterations P pid pmul pinv IP OP promote ready s plain levels width fl image
          (map (fun i => start + Z.of_nat i) (seq k j)) x)
       (flat_map frame_output (map (fun i => start + Z.of_nat i) (seq k j))) (good image (k + j)).
Proof.
  induction j as [|j IH]; intros k x Hg; cbn [seq map iterations flat_map].
  - apply puts_ret. rewrite Nat.add_0_r. exact Hg.
  - eapply puts_bind; [apply iteration_puts; exact Hg|]. intros y _ Hy.
    replace (k + S j)%nat with (S k + j)%nat by lia. apply IH. exact Hy.
Qed.

End Loop.
