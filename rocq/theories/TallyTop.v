From Coq Require Import List ZArith QArith Bool Lia ZifyBool.
From Verif Require Import Outcome Dbl TraceModel TraceSpec TraceProofs TraceExamples TallyModel TallySpec TallyProofs.
Import ListNotations.
Open Scope Z_scope.
Open Scope outcome_scope.

Theorem negative_levels fuel s l : t_levels s < 0 -> trace_frame fuel s l = Throw.
Proof. intros H. unfold trace_frame, tally0. replace (t_levels s <? 0) with true by lia. reflexivity. Qed.

Lemma failed_dev fuel s e p st q : traceOn fuel s e p = Ok (st, q) -> st <> OK -> i_dev q = i_dev p.
Proof.
  intros H N. destruct (traceOn_inv _ _ _ _ _ _ H) as [(A & _ & ->)|[(_ & _ & ->)|[(_ & _ & r & ->)|(-> & SU)]]]; auto. now elim N.
Qed.
Lemma inf_ready s p : i_dev p = PInf -> isReady s p = false.
Proof. intros H. unfold isReady. rewrite H. cbn. apply andb_false_r. Qed.

Lemma count_none fuel s : t_levels s = 1 -> forall l t t' qs, Forall (fun ep => i_dev (snd ep) = PInf) l -> y_traced t = 0 /\ y_good t = 0 ->
  count_all fuel s t l = Ok (t', qs) -> (y_traced t' = 0 /\ y_good t' = 0) /\ Forall (fun p => i_dev p = PInf) qs.
Proof.
  intros L. induction l as [|[e p] l IH]; intros t t' qs F Z0 H; cbn [count_all] in H; [inversion H; subst; auto|].
  apply bind_ok_inv in H. destruct H as [[t1 q] [H1 H]]. apply bind_ok_inv in H. destruct H as [[t2 qs'] [H2 E]]. inversion E; subst. inversion F; subst.
  unfold count_one in H1. apply bind_ok_inv in H1. destruct H1 as [[st q'] [T H1]].
  apply bind_ok_inv in H1. destruct H1 as [w [_ H1]]. apply bind_ok_inv in H1. destruct H1 as [v [_ H1]]. inversion H1; subst; clear H1.
  pose proof (one_level _ _ _ _ _ _ L T) as N. pose proof (failed_dev _ _ _ _ _ _ T N) as D. cbn [snd] in *. rewrite H3 in D.
  assert (RD : isReady s q = false) by (apply inf_ready; congruence).
  match goal with H : count_all _ _ ?t _ = _ |- _ => assert (ZT : y_traced t = 0 /\ y_good t = 0) end.
  { cbn [y_traced y_good]. rewrite RD. destruct st; cbn; auto; now elim N. }
  pose proof (IH _ _ _ ltac:(eassumption) ZT H2) as HH.
  destruct HH as [A B]. split; auto.
Qed.

Theorem one_level_never s : t_levels s = 1 -> forall fs ts r,
  Forall (fun f => Forall (fun p => exists on, p = new_ipoint on) (f_news f)) fs ->
  forall fuel, trace_frames fuel s [] fs = Ok (ts, r) ->
  Forall (fun t => y_traced t = 0 /\ y_good t = 0) ts /\ Forall (fun p => isReady s p = false) r.
Proof.
  intros L fs ts r N fuel.
  assert (G : forall fs l ts r, Forall (fun p => i_dev p = PInf) l -> Forall (fun f => Forall (fun p => exists on, p = new_ipoint on) (f_news f)) fs ->
            trace_frames fuel s l fs = Ok (ts, r) -> Forall (fun t => y_traced t = 0 /\ y_good t = 0) ts /\ Forall (fun p => i_dev p = PInf) r).
  { clear N fs ts r. induction fs as [|f fs IH]; intros l ts r A N H; cbn [trace_frames] in H; [inversion H; subst; auto|].
    apply bind_ok_inv in H. destruct H as [[t qs] [H1 H]]. apply bind_ok_inv in H. destruct H as [[ts' r'] [H2 E]]. inversion E; subst. inversion N as [|f0 fs0 N1 N2]; subst.
    unfold trace_frame in H1. apply bind_ok_inv in H1. destruct H1 as [t0 [T0 H1]].
    assert (Z0 : y_traced t0 = 0 /\ y_good t0 = 0) by (unfold tally0 in T0; destruct (t_levels s <? 0); inversion T0; auto).
    assert (X : Forall (fun ep : env * ipoint => i_dev (snd ep) = PInf) (combine (f_see f) (l ++ f_news f))).
    { apply Forall_forall. intros [e p] I. apply in_combine_r in I. apply in_app_or in I. destruct I as [I|I]; cbn.
      + rewrite Forall_forall in A. auto.
      + rewrite Forall_forall in N1. destruct (N1 _ I) as [on ->]. reflexivity. }
    destruct (count_none fuel s L _ _ _ _ X Z0 H1) as [B C]. destruct (IH (keep (f_stay f) qs) ts' r) as [D F]; auto.
      clear - C. revert C. generalize (f_stay f). induction qs as [|q qs IHq]; intros [|[|] b] C; cbn; try constructor; inversion C; subst; auto. }
  intros H. destruct (G fs [] ts r (Forall_nil _) N H) as [A B]. split; auto. eapply Forall_impl; [|exact B]. intros p D. apply inf_ready; auto.
Qed.

(** ** Three points on two frames: one traced twice, one off the image, one too coarse *)
Definition three_frames : list frame :=
  [ {| f_news := [new_ipoint true; new_ipoint false; new_ipoint true]; f_see := [line 10 1 0 2; line 10 1 0 2; line 10 1 5 2]; f_stay := [true; true; true] |};
    {| f_news := [new_ipoint true]; f_see := [line 10 1 0 1; line 10 1 0 1; line 10 1 1 1; line 10 1 1 1]; f_stay := [false; true; true; true] |} ].
Example two_frames : exists a b r, trace_frames 60 dflt [] three_frames = Ok ([a; b], r) /\
  y_traced a = 1 /\ y_good a = 1 /\ y_times a = [2; 1; 0; 0; 0; 0; 0; 0] /\ y_levels a = [3; 0; 0; 0; 0; 0] /\
  y_traced b = 3 /\ y_good b = 3 /\ y_times b = [1; 2; 1; 0; 0; 0; 0; 0] /\ y_levels b = [2; 2; 0; 0; 0; 0] /\ length r = 3%nat.
Proof. do 3 eexists. split; [vm_compute; reflexivity|]. vm_compute. repeat split. Qed.
Example two_frames_new : Forall (fun f => Forall (alive dflt) (f_news f)) three_frames.
Proof. repeat constructor; apply alive_new. Qed.
(** What the frames of a scene show: hypothesis of the run *)
Example seen_ok : 1 <= t_levels dflt /\ alive dflt (new_ipoint true) /\ is_ok (traceOn 60 dflt (line 10 1 0 2) (new_ipoint true)).
Proof. split; [cbn; lia|]. split; [apply alive_new|]. eexists. vm_compute. reflexivity. Qed.
Definition one_deep : tsettings :=
  {| t_full := false; t_gn := 3; t_levels := 1; t_impr := 1; t_opt_dev := 12 # 5; t_search_rel := 27 # 1000; t_tests := 100;
     t_second_dist := 3; t_second_factor := 4 # 1000; t_energy_factor := 444 # 1000; t_quality := 3; t_th := 12; t_ps := 9 |}.
Example one_deep_runs : exists ts r, trace_frames 60 one_deep [] three_frames = Ok (ts, r) /\ map y_traced ts = [0; 0] /\ map y_levels ts = [[3]; [4]].
Proof. do 2 eexists. split; [vm_compute; reflexivity|]. vm_compute. auto. Qed.

(** Whether tracing is defined depends on the point only by its upper bound being infinite. *)
Definition fresh (m : dbl) : ipoint :=
  {| i_state := ACTIVE; i_min := Fin 0; i_max := m; i_depth := None; i_quality := Fin (-1); i_energy := PInf; i_dev := PInf; i_traced := false; i_num := 0;
     i_level := 0; i_changed := None; i_before := None; i_after := None |}.
Lemma visit_same s e m m' : is_pinf m = is_pinf m' -> forall l i r, visit_all s e m r i l = visit_all s e m' r i l.
Proof.
  intros H. induction l as [|[pt a] l IH]; intros i r; cbn [visit_all]; [reflexivity|]. unfold visit. rewrite H.
  match goal with |- bind ?x _ = bind ?x _ => destruct x; cbn [bind]; auto end.
Qed.
Theorem defined_by fuel s e p m : is_pinf m = is_pinf (i_max p) -> is_ok (traceOn fuel s e (fresh m)) -> is_ok (traceOn fuel s e p).
Proof.
  intros M [x H]. unfold traceOn in *. cbn [fresh i_state i_num i_dev pstate_eqb i_max] in H. rewrite andb_false_r in H. cbn [andb Z.ltb Z.compare] in H.
  destruct (pstate_eqb (i_state p) OOB); [eexists; eauto|].
  destruct (negb (t_full s) && (0 <? i_num p) && _); [eexists; eauto|].
  destruct (points_to_trace fuel s e) as [[pts|]| | | |]; cbn [bind] in *; try discriminate; [|eexists; eauto].
  rewrite (visit_same s e m (i_max p) M) in H. destruct (visit_all _ _ _ _ _ _) as [r| | | |]; cbn [bind] in *; try discriminate.
  destruct (best_level _ =? _); [eexists; eauto|]. destruct (r_best r) as [b|] eqn:B; [|discriminate].
  destruct (is_pinf (b_depth b)); [eexists; eauto|]. destruct (is_pinf (b_energy b) || _); [eexists; eauto|].
  destruct (dle _ _); [eexists; eauto|]. cbn [searched i_energy] in *. destruct (dlt (dmul3 s (t_energy_factor s)) _); [eexists; eauto|].
  destruct (dlt _ (Fin (t_quality s))); [eexists; eauto|].
  destruct (refine _ _ _ _); cbn [bind] in *; try discriminate. destruct (bounds _ _ _); cbn [bind] in *; try discriminate. eexists. eauto.
Qed.
Example sees_line : forall e p, (e = line 10 1 0 2 \/ e = line 10 1 0 1 \/ e = line 10 1 1 1 \/ e = line 10 1 5 2) -> alive dflt p -> is_ok (traceOn 60 dflt e p).
Proof.
  intros e p E _. apply (defined_by _ _ _ _ (if is_pinf (i_max p) then PInf else NaN)).
  - destruct (is_pinf (i_max p)); reflexivity.
  - destruct (is_pinf (i_max p)), E as [->|[->|[->| ->]]]; eexists; vm_compute; reflexivity.
Qed.
Example run_hypotheses : Forall (fun f => Forall (alive dflt) (f_news f) /\
  Forall (fun e => e = line 10 1 0 2 \/ e = line 10 1 0 1 \/ e = line 10 1 1 1 \/ e = line 10 1 5 2) (f_see f)) three_frames.
Proof. repeat constructor; try apply alive_new; tauto. Qed.
