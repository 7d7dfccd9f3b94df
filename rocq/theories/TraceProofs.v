(** Proofs about tracing. *)
From Coq Require Import List ZArith QArith Qpower Bool Lia Lqa Psatz.
From Coq Require Import ZifyBool.
From Verif Require Import Outcome Dbl DblArith TraceModel TraceSpec.
Import ListNotations.
Open Scope outcome_scope.
Open Scope Z_scope.

Lemma dlt_fin x y : dlt (Fin x) (Fin y) = true <-> (x < y)%Q.
Proof. cbn. rewrite Z.ltb_lt. reflexivity. Qed.
Lemma dlt_fin_f x y : dlt (Fin x) (Fin y) = false <-> (y <= x)%Q.
Proof. cbn. rewrite Z.ltb_ge. reflexivity. Qed.
Lemma dle_fin x y : dle (Fin x) (Fin y) = true <-> (x <= y)%Q.
Proof. cbn. rewrite Z.leb_le. reflexivity. Qed.
Lemma dle_fin_f x y : dle (Fin x) (Fin y) = false <-> (y < x)%Q.
Proof. cbn. rewrite Z.leb_gt. reflexivity. Qed.
#[local] Opaque Qlt Qle.

Lemma dle_refl x : x <> NaN -> dle x x = true.
Proof. destruct x; cbn; intros H; try reflexivity; [apply Z.leb_le; lia | now elim H]. Qed.

Lemma dle_trans a b c : dle a b = true -> dle b c = true -> dle a c = true.
Proof.
  destruct a, b, c; try (cbn; congruence).
  rewrite !dle_fin. intros. eapply Qle_trans; eauto.
Qed.

Lemma dlt_dle a b : dlt a b = true -> dle a b = true.
Proof.
  destruct a, b; try (cbn; congruence).
  rewrite dlt_fin, dle_fin. apply Qlt_le_weak.
Qed.

Lemma dlt_false a b : dlt a b = false -> a <> NaN -> b <> NaN -> dle b a = true.
Proof.
  destruct a, b; try (cbn; congruence); intros H _ _.
  apply dlt_fin_f in H. now apply dle_fin.
Qed.

(** the successful exit *)
Record success (fuel : nat) (s : tsettings) (e : env) (p q : ipoint) : Prop := {
  su_state : i_state p <> OOB;
  su_dev : t_full s = true \/ i_num p <= 0 \/ dlt (i_dev p) (dmul (e_dev e) (Fin (t_impr s))) = false;
  su_data : exists pts r b second de mm,
    points_to_trace fuel s e = Ok (Some pts) /\
    visit_all s e (i_max p) search0 0 pts = Ok r /\
    r_best r = Some b /\
    b_level b <> t_levels s - 1 /\
    b_depth b <> PInf /\
    second = second_best (t_second_dist s) (b_point b) (r_found r) /\
    second <> PInf /\ b_energy b <> PInf /\
    dle second (dmul3 s (t_second_factor s)) = false /\
    dlt (dmul3 s (t_energy_factor s)) (b_energy b) = false /\
    dlt (ddiv second (b_energy b)) (Fin (t_quality s)) = false /\
    refine s e (map fst pts) b = Ok de /\
    bounds e (map fst pts) (b_ind b) = Ok mm /\
    q = {| i_state := i_state p; i_min := fst mm; i_max := snd mm; i_depth := Some (fst de);
           i_quality := if dlt (i_quality p) (ddiv second (b_energy b)) then ddiv second (b_energy b)
                        else i_quality p;
           i_energy := b_energy b; i_dev := e_dev e; i_traced := true;
           i_num := i_num p + 1; i_level := b_level b; i_changed := Some (r_changed r);
           i_before := Some (b_energy b); i_after := Some (snd de) |} }.

Lemma is_pinf_false d : is_pinf d = false -> d <> PInf.
Proof. destruct d; cbn; congruence. Qed.

Lemma traceOn_inv fuel s e p st q : traceOn fuel s e p = Ok (st, q) ->
  (st = WAS_OOB /\ i_state p = OOB /\ q = p) \/
  (i_state p <> OOB /\ (st = BIG_PREDICTED_ERROR \/ st = EPIPOLAR_OOB) /\ q = p) \/
  (i_state p <> OOB /\ (st <> OK /\ st <> WAS_OOB /\ st <> BIG_PREDICTED_ERROR /\ st <> EPIPOLAR_OOB) /\
     exists r, q = searched p r) \/
  (st = OK /\ success fuel s e p q).
Proof.
  unfold traceOn. intros H.
  destruct (pstate_eqb (i_state p) OOB) eqn:EO.
  - injection H as <- <-. left. destruct (i_state p); try discriminate. auto.
  - assert (NO : i_state p <> OOB) by (intros X; rewrite X in EO; discriminate). right.
    destruct (negb (t_full s) && (0 <? i_num p) && dlt (i_dev p) (dmul (e_dev e) (Fin (t_impr s)))) eqn:EB.
    + injection H as <- <-. left. auto.
    + apply bind_ok_inv in H. destruct H as [sampled [HS H]].
      destruct sampled as [pts|]; [|injection H as <- <-; left; auto].
      apply bind_ok_inv in H. destruct H as [r [HR H]]. cbv zeta in H. right.
      destruct (best_level (r_best r) =? t_levels s - 1) eqn:EL.
      { injection H as <- <-. left. repeat split; auto; try discriminate. eauto. }
      destruct (r_best r) as [b|] eqn:EBR; [|discriminate].
      destruct (is_pinf (b_depth b)) eqn:ED.
      { injection H as <- <-. left. repeat split; auto; try discriminate. eauto. }
      destruct (is_pinf (b_energy b) || _) eqn:EI.
      { injection H as <- <-. left. repeat split; auto; try discriminate. eauto. }
      destruct (dle _ (dmul3 s (t_second_factor s))) eqn:E2.
      { injection H as <- <-. left. repeat split; auto; try discriminate. eauto. }
      destruct (dlt (dmul3 s (t_energy_factor s)) _) eqn:E3.
      { injection H as <- <-. left. repeat split; auto; try discriminate. eauto. }
      destruct (dlt (ddiv _ (b_energy b)) _) eqn:E4.
      { injection H as <- <-. left. repeat split; auto; try discriminate. eauto. }
      apply bind_ok_inv in H. destruct H as [de [HD H]].
      apply bind_ok_inv in H. destruct H as [mm [HM H]].
      injection H as <- <-. right. split; [reflexivity|].
      apply orb_false_iff in EI. destruct EI as [EI1 EI2].
      constructor; [exact NO | |].
      * destruct (t_full s); [now left|right]. cbn [negb andb] in EB.
        destruct (0 <? i_num p) eqn:EN; [right | left; lia]. exact EB.
      * exists pts, r, b, (second_best (t_second_dist s) (b_point b) (r_found r)), de, mm.
        cbn [best_level] in EL.
        repeat match goal with |- _ /\ _ => split end; auto; try (now apply is_pinf_false); try lia.
        cbn [i_energy searched] in E3. rewrite EBR in E3. exact E3.
Qed.

(* ---------- C41 ---------- *)

Lemma failure_keeps fuel s e p st q : traceOn fuel s e p = Ok (st, q) -> st <> OK -> same_estimate p q.
Proof.
  intros H N. apply traceOn_inv in H.
  destruct H as [(_ & _ & ->)|[(_ & _ & ->)|[(_ & _ & r & ->)|(E & _)]]]; [ | | | contradiction];
    repeat split.
Qed.

Lemma early_exit fuel s e p st q : traceOn fuel s e p = Ok (st, q) ->
  st = WAS_OOB \/ st = BIG_PREDICTED_ERROR \/ st = EPIPOLAR_OOB -> q = p.
Proof.
  intros H N. apply traceOn_inv in H.
  destruct H as [(_ & _ & ->)|[(_ & _ & ->)|[(_ & (A & B & C & D) & r & ->)|(E & _)]]]; auto.
  - destruct N as [N|[N|N]]; contradiction.
  - subst st. destruct N as [N|[N|N]]; discriminate.
Qed.

Lemma oob_iff fuel s e p :
  (i_state p = OOB -> traceOn fuel s e p = Ok (WAS_OOB, p)) /\
  (forall st q, traceOn fuel s e p = Ok (st, q) -> st = WAS_OOB -> i_state p = OOB).
Proof.
  split.
  - intros H. unfold traceOn. rewrite H. reflexivity.
  - intros st q H ->. apply traceOn_inv in H.
    destruct H as [(_ & H & _)|[(_ & [H|H] & _)|[(_ & (_ & H & _) & _)|(H & _)]]]; auto; try discriminate. now elim H.
Qed.

Lemma state_kept fuel s e p st q : traceOn fuel s e p = Ok (st, q) -> i_state q = i_state p.
Proof.
  intros H. apply traceOn_inv in H.
  destruct H as [(_ & _ & ->)|[(_ & _ & ->)|[(_ & _ & r & ->)|(_ & [_ _ (pts & r & b & second & de & mm & D)])]]]; auto.
  decompose [and] D. subst q. reflexivity.
Qed.

Lemma success_fields fuel s e p q : success fuel s e p q ->
  i_num q = i_num p + 1 /\ i_dev q = e_dev e /\ i_depth q <> None /\ i_traced q = true.
Proof.
  intros [_ _ (pts & r & b & second & de & mm & D)]. decompose [and] D. subst q. cbn. repeat split. discriminate.
Qed.

Lemma flag_step fuel s e p st q : traceOn fuel s e p = Ok (st, q) -> ~ unsearched st ->
  i_traced q = true <-> st = OK.
Proof.
  intros H N. apply traceOn_inv in H.
  destruct H as [(-> & _)|[(_ & [-> | ->] & _)|[(_ & (A & _) & r & ->)|(-> & S)]]].
  - elim N. now left.
  - elim N. right. now left.
  - elim N. right. now right.
  - cbn. split; [discriminate|contradiction].
  - apply success_fields in S. tauto.
Qed.

Lemma trace_all_cons fuel s e es p sts q : trace_all fuel s (e :: es) p = Ok (sts, q) ->
  exists st m sts', traceOn fuel s e p = Ok (st, m) /\ trace_all fuel s es m = Ok (sts', q) /\ sts = st :: sts'.
Proof.
  cbn [trace_all]. intros H. apply bind_ok_inv in H. destruct H as [[st m] [HT H]].
  apply bind_ok_inv in H. destruct H as [[sts' q'] [HA H]]. cbn [fst snd] in *.
  injection H as <- <-. eauto 8.
Qed.

Lemma unsearched_dec st : {unsearched st} + {~ unsearched st}.
Proof. unfold unsearched. destruct st; try (left; tauto); right; intros [H|[H|H]]; discriminate. Qed.

Lemma unsearched_all fuel s es : forall p sts q, trace_all fuel s es p = Ok (sts, q) ->
  Forall unsearched sts -> q = p.
Proof.
  induction es as [|e es IH]; intros p sts q H F.
  - cbn in H. now injection H as _ <-.
  - apply trace_all_cons in H. destruct H as (st & m & sts' & HT & HA & ->).
    inversion F; subst. rewrite (IH _ _ _ HA) by assumption. eapply early_exit; eauto.
Qed.

Lemma flag_life fuel s es : forall p sts q st, trace_all fuel s es p = Ok (sts, q) -> last_search sts st ->
  (i_traced q = true <-> st = OK).
Proof.
  induction es as [|e es IH]; intros p sts q st H (b & a & E & N & F).
  - cbn in H. injection H as <- _. destruct b; discriminate.
  - apply trace_all_cons in H. destruct H as (st' & m & sts' & HT & HA & ->).
    destruct b as [|x b]; cbn [app] in E; injection E as -> ->.
    + rewrite (unsearched_all _ _ _ _ _ _ HA F). eapply flag_step; eauto.
    + eapply IH; [exact HA|]. exists b, a. auto.
Qed.

Lemma flag_new fuel s es on sts q : trace_all fuel s es (new_ipoint on) = Ok (sts, q) ->
  Forall unsearched sts -> i_traced q = false.
Proof. intros H F. now rewrite (unsearched_all _ _ _ _ _ _ H F). Qed.

Lemma step_count fuel s e p st q : traceOn fuel s e p = Ok (st, q) -> i_num q = i_num p + successes [st].
Proof.
  intros H. destruct (traceOn_inv _ _ _ _ _ _ H) as [(-> & _ & ->)|[(_ & N & ->)|[(_ & N & r & ->)|(-> & S)]]].
  - cbn; lia.
  - destruct N as [-> | ->]; cbn; lia.
  - destruct N as (N & _). destruct st; try (now elim N); cbn; lia.
  - apply success_fields in S. destruct S as (-> & _). cbn. lia.
Qed.

Lemma history_count fuel s es : forall p sts q, trace_all fuel s es p = Ok (sts, q) ->
  i_num q = i_num p + successes sts /\ i_state q = i_state p /\ length sts = length es.
Proof.
  induction es as [|e es IH]; intros p sts q H.
  - cbn in H. injection H as <- <-. cbn. repeat split. lia.
  - apply trace_all_cons in H. destruct H as (st & m & sts' & HT & HA & ->).
    destruct (IH _ _ _ HA) as (C & S & L). pose proof (step_count _ _ _ _ _ _ HT) as N.
    pose proof (state_kept _ _ _ _ _ _ HT) as K.
    split; [|split; [congruence|cbn; lia]].
    rewrite C, N. destruct st; cbn [successes]; lia.
Qed.

Lemma successes_nonneg l : 0 <= successes l.
Proof. induction l as [|[] l IH]; cbn [successes]; lia. Qed.

Lemma history_depth fuel s es : forall p sts q, trace_all fuel s es p = Ok (sts, q) ->
  (successes sts = 0 -> same_estimate p q) /\ (0 < successes sts -> i_depth q <> None) /\
  (i_depth p <> None -> i_depth q <> None).
Proof.
  induction es as [|e es IH]; intros p sts q H.
  - cbn in H. injection H as <- <-. cbn. repeat split; auto. intros; lia.
  - apply trace_all_cons in H. destruct H as (st & m & sts' & HT & HA & ->).
    destruct (IH _ _ _ HA) as (A & B & C). pose proof (successes_nonneg sts') as NN.
    destruct (traceOn_inv _ _ _ _ _ _ HT) as [(E & _)|[(_ & E & _)|[(_ & E & _)|(E & S)]]].
    1-3: assert (NOK : st <> OK) by (destruct st; try discriminate; intuition discriminate);
         pose proof (failure_keeps _ _ _ _ _ _ HT NOK) as K;
         assert (EQ : successes (st :: sts') = successes sts') by (destruct st; try reflexivity; now elim NOK);
         rewrite EQ; split; [|split];
         [ intros Z0; specialize (A Z0); unfold same_estimate in *; intuition congruence
         | exact B
         | intros D; apply C; destruct K as (-> & _); exact D ].
    subst st. apply success_fields in S. destruct S as (_ & _ & D & _).
    split; [|split]; cbn [successes]; intros; try lia; auto.
Qed.

(* ---------- C42 ---------- *)

Lemma bounds_nan e pts bi mm : bounds e pts bi = Ok mm -> e_dev e <> NaN.
Proof.
  unfold bounds. intros H E. rewrite E in H. cbn in H.
  apply bind_ok_inv in H. destruct H as [x [H _]]. unfold on_curve in H.
  destruct (_ <? 2); discriminate.
Qed.

Lemma success_dev fuel s e p q : success fuel s e p q ->
  t_full s = false -> 0 < i_num p -> i_dev p <> NaN ->
  deviation (e_dev e) -> (0 < t_impr s)%Q ->
  i_dev q <> NaN /\ dle (dmul (i_dev q) (Fin (t_impr s))) (i_dev p) = true.
Proof.
  intros S F N ND DV I. pose proof (success_fields _ _ _ _ _ S) as (_ & ED & _).
  destruct S as [_ SD (pts & r & b & second & de & mm & D)]. decompose [and] D.
  assert (NN : e_dev e <> NaN) by (eapply bounds_nan; eauto).
  rewrite ED. split; [exact NN|].
  destruct SD as [SD|[SD|SD]]; [congruence|lia|].
  apply dlt_false in SD; auto.
  destruct (e_dev e); cbn in *; try congruence; try contradiction.
  unfold dinf. destruct (Qcompare_spec (t_impr s) 0) as [E|E|E]; try discriminate; exfalso; lra.
Qed.

Lemma dev_shrinks a b k : (1 <= k)%Q -> deviation a -> dle (dmul a (Fin k)) b = true -> dle a b = true.
Proof.
  intros K. destruct a as [x| | |]; cbn [deviation dmul]; intros D H; try contradiction.
  - destruct b; try exact H; try (cbn; congruence).
    apply dle_fin in H. apply dle_fin. nra.
  - unfold dinf in H. destruct (Qcompare_spec k 0) as [E|E|E]; try (exfalso; lra). exact H.
  - cbn in H. discriminate.
Qed.

(** a point that has not been traced has an unlimited deviation; deviations are numbers *)
Definition coherent (p : ipoint) : Prop :=
  0 <= i_num p /\ i_dev p <> NaN /\ (i_num p = 0 -> i_dev p = PInf).

Lemma coherent_step fuel s e p st q :
  traceOn fuel s e p = Ok (st, q) -> coherent p -> t_full s = false -> (1 <= t_impr s)%Q ->
  deviation (e_dev e) -> coherent q /\ dle (i_dev q) (i_dev p) = true.
Proof.
  intros H [C1 [C2 C3]] F I DV.
  destruct (traceOn_inv _ _ _ _ _ _ H) as [(-> & _ & ->)|[(_ & _ & ->)|[(_ & _ & r & ->)|(-> & S)]]].
  1-3: split; [repeat split; auto | cbn; now apply dle_refl].
  pose proof (success_fields _ _ _ _ _ S) as (EN & ED & _).
  assert (NN : e_dev e <> NaN).
  { destruct S as [_ _ (pts & r & b & second & de & mm & D)]. decompose [and] D. eapply bounds_nan; eauto. }
  split.
  - repeat split; [lia|congruence|lia].
  - destruct (Z.eq_dec (i_num p) 0) as [Z0|Z0].
    + rewrite (C3 Z0), ED. destruct (e_dev e); cbn in *; try reflexivity; contradiction.
    + destruct (success_dev _ _ _ _ _ S) as [_ L]; auto; try lia; [lra|].
      eapply dev_shrinks; eauto. now rewrite ED.
Qed.

Lemma new_coherent on : coherent (new_ipoint on).
Proof. repeat split; cbn; try lia; discriminate. Qed.

Lemma history_dev fuel s es : forall p sts q,
  trace_all fuel s es p = Ok (sts, q) -> coherent p -> t_full s = false -> (1 <= t_impr s)%Q ->
  Forall (fun e => deviation (e_dev e)) es -> coherent q /\ dle (i_dev q) (i_dev p) = true.
Proof.
  induction es as [|e es IH]; intros p sts q H C F I DV.
  - cbn in H. injection H as <- <-. split; [exact C|]. apply dle_refl. apply C.
  - apply trace_all_cons in H. destruct H as (st & m & sts' & HT & HA & ->). inversion DV; subst.
    destruct (coherent_step _ _ _ _ _ _ HT C F I) as [C' L]; auto.
    destruct (IH _ _ _ HA C' F I) as [C'' L']; auto. split; [exact C''|]. eapply dle_trans; eauto.
Qed.

Lemma history_ready fuel s es p sts q :
  trace_all fuel s es p = Ok (sts, q) -> coherent p -> t_full s = false -> (1 <= t_impr s)%Q ->
  Forall (fun e => deviation (e_dev e)) es -> isReady s p = true -> isReady s q = true.
Proof.
  intros H C F I DV R. destruct (history_dev _ _ _ _ _ _ H C F I DV) as [CQ L].
  destruct (history_count _ _ _ _ _ _ H) as (_ & SQ & _).
  unfold isReady in *. apply andb_true_iff in R. destruct R as [R1 R2]. rewrite SQ, R1. cbn [andb].
  destruct CQ as (_ & NQ & _).
  destruct (i_dev q), (i_dev p); try (cbn in *; congruence).
  apply dlt_fin in R2. apply dle_fin in L. apply dlt_fin. lra.
Qed.

Lemma Qpow_succ k n : (~ k == 0)%Q -> (k ^ (1 + n) == k * k ^ n)%Q.
Proof. intros E. rewrite Qpower_plus by exact E. reflexivity. Qed.

Lemma history_shrink fuel s es : forall p sts q d,
  trace_all fuel s es p = Ok (sts, q) -> 0 < i_num p -> i_dev p = Fin d -> t_full s = false -> (1 <= t_impr s)%Q ->
  Forall (fun e => deviation (e_dev e)) es ->
  exists d', i_dev q = Fin d' /\ (d' * t_impr s ^ successes sts <= d)%Q.
Proof.
  induction es as [|e es IH]; intros p sts q d H N D F I DV.
  - cbn in H. injection H as <- <-. exists d. split; [exact D|]. cbn. lra.
  - apply trace_all_cons in H. destruct H as (st & m & sts' & HT & HA & ->). inversion DV; subst.
    pose proof (successes_nonneg sts') as NN.
    destruct (traceOn_inv _ _ _ _ _ _ HT) as [(E & _)|[(_ & E & _)|[(_ & E & _)|(E & S)]]].
    1-3: assert (NOK : st <> OK) by (destruct st; try discriminate; intuition discriminate);
         pose proof (failure_keeps _ _ _ _ _ _ HT NOK) as K; destruct K as (_ & _ & _ & KD & KN & _);
         assert (EQ : successes (st :: sts') = successes sts') by (destruct st; try reflexivity; now elim NOK);
         rewrite EQ; eapply IH; eauto; congruence.
    subst st. pose proof (success_fields _ _ _ _ _ S) as (EN & ED & _).
    destruct (success_dev _ _ _ _ _ S) as [NQ L]; auto; try lra; [congruence|].
    rewrite D in L. rewrite ED in *.
    destruct (e_dev e) as [x| | |] eqn:EE; cbn [deviation] in *; try contradiction; try congruence.
    + cbn [dmul] in L. apply dle_fin in L.
      destruct (IH _ _ _ x HA) as (d' & E' & L'); auto; try lia.
      exists d'. split; [exact E'|]. cbn [successes]. rewrite Qpow_succ by lra.
      setoid_replace (d' * (t_impr s * t_impr s ^ successes sts'))%Q
        with (t_impr s * (d' * t_impr s ^ successes sts'))%Q by ring.
      eapply Qle_trans; [|exact L]. rewrite (Qmult_comm x). apply Qmult_le_l; [lra|exact L'].
    + cbn [dmul] in L. unfold dinf in L. destruct (Qcompare_spec (t_impr s) 0); try (exfalso; lra). discriminate.
Qed.
