(** Proofs about tracing, continued: acceptance, refinement, samples. *)
From Coq Require Import List ZArith QArith Bool Lia Lqa Psatz.
From Coq Require Import ZifyBool.
From Verif Require Import Outcome Dbl DblArith TraceModel TraceSpec TraceProofs.
Import ListNotations.
Open Scope outcome_scope.
Open Scope Z_scope.

(* ---------- acceptance ---------- *)

Lemma pyr_level_value s raw l : pyr_level s raw = Ok l ->
  exists z, to_int raw = Ok z /\ l = Z.min (t_levels s - 1) (Z.max 0 z).
Proof.
  unfold pyr_level. intros H. apply bind_ok_inv in H. destruct H as [z [H E]]. exists z. split; [exact H|].
  injection E as <-.
  destruct (z <? 0) eqn:A.
  - destruct (t_levels s <=? 0) eqn:B; lia.
  - destruct (t_levels s <=? z) eqn:B; lia.
Qed.

(** what the loop knows after the first [i] samples *)
Record known (s : tsettings) (e : env) (maxd : dbl) (pts : list sample) (i : nat) (r : search) : Prop := {
  k_len : length (r_found r) = i;
  k_found : forall j p x, nth_error (r_found r) j = Some (p, x) ->
     measured s e maxd pts j x /\ exists a, nth_error pts j = Some (p, a);
  k_none : r_best r = None -> forall j p x, nth_error (r_found r) j = Some (p, x) -> dlt x PInf = false;
  k_some : forall b, r_best r = Some b ->
     nth_error (r_found r) (b_ind b) = Some (b_point b, b_energy b) /\
     dlt (b_energy b) PInf = true /\
     (forall j p x, nth_error (r_found r) j = Some (p, x) -> at_least (b_energy b) x) /\
     (forall j p x, nth_error (r_found r) j = Some (p, x) -> (j < b_ind b)%nat -> x = NaN \/ dlt (b_energy b) x = true) }.

Lemma known0 s e maxd pts : known s e maxd pts 0 search0.
Proof.
  constructor; cbn; auto.
  - intros j p x H. now destruct j.
  - intros _ j p x H. now destruct j.
  - discriminate.
Qed.

Lemma nth_error_snoc {A} (l : list A) x j y :
  nth_error (l ++ [x]) j = Some y -> (nth_error l j = Some y /\ (j < length l)%nat) \/ (j = length l /\ y = x).
Proof.
  intros H. destruct (Nat.lt_ge_cases j (length l)) as [L|L].
  - left. rewrite nth_error_app1 in H by exact L. auto.
  - right. rewrite nth_error_app2 in H by exact L.
    destruct (j - length l)%nat as [|k] eqn:E; cbn in H.
    + injection H as <-. split; [lia|reflexivity].
    + destruct k; discriminate.
Qed.

Lemma far_eq maxd i : is_pinf maxd && (i =? 0)%nat = match maxd, i with PInf, O => true | _, _ => false end.
Proof. destruct maxd, i; reflexivity. Qed.

Lemma dlt_pinf_nan x y : dlt x y = true -> x <> NaN.
Proof. destruct x; cbn; congruence. Qed.

Lemma dlt_trans_le a b c : dlt a b = true -> dle b c = true -> dlt a c = true.
Proof.
  destruct a, b, c; try (cbn; congruence).
  rewrite !dlt_fin, dle_fin. intros. eapply Qlt_le_trans; eauto.
Qed.

Lemma dlt_pinf_trans a b : dlt a b = true -> dlt a PInf = true.
Proof. destruct a, b; cbn; congruence. Qed.

Lemma known_step s e maxd pts i r sm r' :
  nth_error pts i = Some sm -> visit s e maxd r i sm = Ok r' -> known s e maxd pts i r ->
  known s e maxd pts (S i) r'.
Proof.
  intros HN HV K. destruct sm as [p a]. unfold visit in HV. cbv zeta in HV.
  apply bind_ok_inv in HV. destruct HV as [l [HL HV]]. injection HV as <-.
  apply pyr_level_value in HL. destruct HL as [z [HZ HL]]. rewrite far_eq in *.
  remember (match maxd, i with PInf, O => true | _, _ => false end) as far eqn:EF.
  set (en := e_energy e far a l) in *.
  assert (M : measured s e maxd pts i en).
  { exists p, a, z. split; [exact HN|]. cbv zeta. rewrite <- EF. split; [exact HZ|]. subst en l. reflexivity. }
  destruct K as [K1 K2 K3 K4].
  constructor; cbn [r_found r_best].
  - rewrite app_length. cbn. lia.
  - intros j q x H. apply nth_error_snoc in H. destruct H as [[H _]|[-> H]].
    + now apply K2.
    + injection H as -> ->. rewrite K1. split; [exact M|]. eauto.
  - destruct (dlt en (best_energy (r_best r))) eqn:E; [discriminate|].
    intros HB j q x H. apply nth_error_snoc in H. destruct H as [[H _]|[-> H]].
    + eapply K3; eauto.
    + injection H as -> ->. rewrite HB in E. exact E.
  - intros b. destruct (dlt en (best_energy (r_best r))) eqn:E.
    + intros HB. injection HB as <-. cbn [b_ind b_point b_energy].
      assert (NI : en <> NaN) by (eapply dlt_pinf_nan; eauto).
      split; [|split; [|split]].
      * rewrite nth_error_app2 by lia. rewrite K1, Nat.sub_diag. reflexivity.
      * eapply dlt_pinf_trans; eauto.
      * intros j q x H. apply nth_error_snoc in H. destruct H as [[H _]|[-> H]].
        -- destruct (r_best r) as [b|] eqn:EB.
           ++ destruct (K4 b eq_refl) as (_ & _ & A & _). destruct (A _ _ _ H) as [ -> |A']; [now left|right].
              cbn in E. apply dlt_dle. eapply dlt_trans_le; eauto.
           ++ specialize (K3 eq_refl _ _ _ H). cbn in E. destruct x; try discriminate; [right|left; reflexivity].
              now apply dlt_dle.
        -- injection H as -> ->. right. now apply dle_refl.
      * intros j q x H L. apply nth_error_snoc in H. destruct H as [[H _]|[-> H]]; [|lia].
        destruct (r_best r) as [b|] eqn:EB.
        -- destruct (K4 b eq_refl) as (_ & _ & A & _). destruct (A _ _ _ H) as [ -> |A']; [now left|right].
           cbn in E. eapply dlt_trans_le; eauto.
        -- specialize (K3 eq_refl _ _ _ H). cbn in E. destruct x; try discriminate; [right; exact E|left; reflexivity].
    + intros HB. destruct (K4 b HB) as (A1 & A2 & A3 & A4).
      assert (LI : (b_ind b < length (r_found r))%nat) by (apply nth_error_Some; congruence).
      split; [|split; [|split]].
      * rewrite nth_error_app1; assumption.
      * exact A2.
      * intros j q x H. apply nth_error_snoc in H. destruct H as [[H _]|[-> H]]; [eauto|].
        injection H as -> ->. rewrite HB in E. cbn in E. unfold at_least.
        destruct en eqn:EE; auto; right; apply dlt_false; try assumption; try discriminate;
          eapply dlt_pinf_nan; eauto.
      * intros j q x H L. apply nth_error_snoc in H. destruct H as [[H _]|[-> H]]; [eauto|lia].
Qed.

Lemma known_all s e maxd pts : forall l i r r',
  (forall k, nth_error l k = nth_error pts (i + k)) ->
  visit_all s e maxd r i l = Ok r' -> known s e maxd pts i r -> known s e maxd pts (i + length l) r'.
Proof.
  induction l as [|sm l IH]; intros i r r' HN HV K.
  - cbn in HV. injection HV as <-. cbn. now rewrite Nat.add_0_r.
  - cbn [visit_all] in HV. apply bind_ok_inv in HV. destruct HV as [r1 [H1 H2]].
    cbn [length]. rewrite <- plus_n_Sm. change (S (i + length l)) with (S i + length l)%nat.
    eapply IH; [|exact H2|].
    + intros k. specialize (HN (S k)). cbn in HN. rewrite HN. f_equal. lia.
    + eapply known_step; eauto. specialize (HN 0%nat). cbn in HN. rewrite HN. f_equal. lia.
Qed.

Lemma known_final s e maxd pts r : visit_all s e maxd search0 0 pts = Ok r -> known s e maxd pts (length pts) r.
Proof. intros H. eapply (known_all s e maxd pts pts 0); eauto. apply known0. Qed.

Lemma visit_total s e maxd : forall l i r r', visit_all s e maxd r i l = Ok r' ->
  forall k p a, nth_error l k = Some (p, a) -> exists z,
    to_int (e_level e (is_pinf maxd && (i + k =? 0)%nat) a) = Ok z.
Proof.
  induction l as [|sm l IH]; intros i r r' H k p a HN; [now destruct k|].
  cbn [visit_all] in H. apply bind_ok_inv in H. destruct H as [r1 [H1 H2]].
  destruct k as [|k]; cbn in HN.
  - injection HN as ->. unfold visit in H1. cbv zeta in H1. apply bind_ok_inv in H1. destruct H1 as [l1 [H1 _]].
    apply pyr_level_value in H1. destruct H1 as [z [H1 _]]. rewrite Nat.add_0_r. eauto.
  - destruct (IH _ _ _ H2 _ _ _ HN) as [z Hz]. exists z. rewrite <- Hz.
    do 3 f_equal. lia.
Qed.

(** the second best energy *)
Lemma second_fold m bp l : forall acc,
  let f := fun acc (pe : pos * dbl) => if closer (fst pe) bp m then acc else if dlt (snd pe) acc then snd pe else acc in
  acc <> NaN ->
  fold_left f l acc <> NaN /\
  at_least (fold_left f l acc) acc /\
  (forall p x, In (p, x) l -> closer p bp m = false -> at_least (fold_left f l acc) x) /\
  (fold_left f l acc = acc \/ exists p, In (p, fold_left f l acc) l).
Proof.
  induction l as [|[p x] l IH]; intros acc f NA.
  - cbn. split; [exact NA|split; [|split]]; auto; [right; now apply dle_refl | contradiction].
  - cbn [fold_left]. set (acc' := f acc (p, x)).
    assert (A : acc' <> NaN /\ at_least acc' acc /\ (closer p bp m = false -> at_least acc' x) /\ (acc' = acc \/ acc' = x)).
    { unfold acc', f. cbn [fst snd]. destruct (closer p bp m) eqn:C.
      - split; [exact NA|split; [|split]]; auto; [right; now apply dle_refl|discriminate].
      - destruct (dlt x acc) eqn:D.
        + assert (x <> NaN) by (eapply dlt_pinf_nan; eauto).
          split; [assumption|split; [|split]]; auto.
          * right. now apply dlt_dle.
          * intros _. right. now apply dle_refl.
        + split; [exact NA|split; [|split]]; auto; [right; now apply dle_refl|].
          intros _. unfold at_least. destruct x eqn:EX; auto; right; apply dlt_false; auto; discriminate. }
    destruct A as (A1 & A2 & A3 & A4).
    destruct (IH acc' A1) as (B1 & B2 & B3 & B4). fold f in B1, B2, B3, B4.
    split; [exact B1|split; [|split]].
    + destruct A2 as [ -> |A2]; [now left|right]. destruct B2 as [B2|B2]; [contradiction|]. eapply dle_trans; eauto.
    + intros q y [HI|HI] HC.
      * injection HI as <- <-. destruct (A3 HC) as [ -> |A3']; [now left|right].
        destruct B2 as [B2|B2]; [contradiction|]. eapply dle_trans; eauto.
      * eauto.
    + destruct B4 as [B4|[q B4]]; [|right; exists q; now right].
      rewrite B4. destruct A4 as [ -> | -> ]; [now left|right]. exists p. now left.
Qed.

Lemma closer_false a b m : (m <= 0)%Q \/ (m * m <= dist2 a b)%Q -> closer a b m = false.
Proof.
  unfold closer, dist2, pos_sub. cbn [fst snd]. intros [H|H].
  - apply Qle_bool_iff in H. now rewrite H.
  - apply Qle_bool_iff in H. rewrite H. cbn. apply andb_false_r.
Qed.

Lemma accepted fuel s e p q :
  traceOn fuel s e p = Ok (OK, q) ->
  (forall far a l, nonneg (e_energy e far a l)) ->
  exists pts i pt a E,
    points_to_trace fuel s e = Ok (Some pts) /\
    nth_error pts i = Some (pt, a) /\
    i_energy q = Fin E /\ (0 <= E)%Q /\
    measured s e (i_max p) pts i (Fin E) /\
    (forall j x, measured s e (i_max p) pts j x -> at_least (Fin E) x /\ ((j < i)%nat -> x = NaN \/ dlt (Fin E) x = true)) /\
    (E <= t_energy_factor s * inject_Z (t_ps s) * t_th s * t_th s)%Q /\
    (forall j pt' a' x, nth_error pts j = Some (pt', a') -> measured s e (i_max p) pts j x ->
       ((t_second_dist s <= 0)%Q \/ (t_second_dist s * t_second_dist s <= dist2 pt' pt)%Q) ->
       at_least (Fin (t_quality s * E)) x /\
       (x = NaN \/ dlt (Fin (t_second_factor s * inject_Z (t_ps s) * t_th s * t_th s)) x = true)) /\
    i_level q <> t_levels s - 1.
Proof.
  intros H NN.
  destruct (traceOn_inv _ _ _ _ _ _ H) as [(A & _)|[(_ & [A|A] & _)|[(_ & (A & _) & _)|(_ & SU)]]];
    try discriminate; [now elim A|].
  destruct SU as [_ _ (pts & r & b & second & de & mm & D)].
  destruct D as (HP & HV & HB & HL & HD & HS & S1 & S2 & T1 & T2 & T3 & HR & HM & HQ).
  pose proof (known_final _ _ _ _ _ HV) as K.
  destruct (k_some _ _ _ _ _ _ K b HB) as (F1 & F2 & F3 & F4).
  destruct (k_found _ _ _ _ _ _ K _ _ _ F1) as (M & a & NP).
  assert (ME : forall j x, measured s e (i_max p) pts j x -> nonneg x).
  { intros j x (p0 & a0 & z0 & _ & W). cbv zeta in W. destruct W as [_ ->]. apply NN. }
  assert (FOUND : forall j x, measured s e (i_max p) pts j x -> exists pt, nth_error (r_found r) j = Some (pt, x) /\
            exists a', nth_error pts j = Some (pt, a')).
  { intros j x MX. assert (LJ : (j < length (r_found r))%nat).
    { rewrite (k_len _ _ _ _ _ _ K). destruct MX as (p0 & a0 & z0 & N0 & _). apply nth_error_Some. congruence. }
    destruct (nth_error (r_found r) j) as [[p1 x1]|] eqn:E1.
    - destruct (k_found _ _ _ _ _ _ K _ _ _ E1) as (M1 & a1 & N1). exists p1.
      assert (x = x1); [|subst; eauto].
      destruct M1 as (p2 & a2 & z2 & N2 & Z2 & ->). destruct MX as (p3 & a3 & z3 & N3 & Z3 & ->).
      rewrite N2 in N3. injection N3 as <- <-. rewrite Z2 in Z3. injection Z3 as <-. reflexivity.
    - apply nth_error_None in E1. lia. }
  pose proof (ME _ _ M) as NE.
  destruct (b_energy b) as [E| | |] eqn:EE; cbn in NE; try contradiction; try discriminate.
  exists pts, (b_ind b), (b_point b), a, E.
  split; [exact HP|split; [exact NP|split]].
  { subst q. cbn. reflexivity. }
  split; [exact NE|split; [exact M|split]].
  { intros j x MX. destruct (FOUND _ _ MX) as (pt & FX & _). split; [eapply F3; eauto|]. intros LJ. eapply F4; eauto. }
  split; [apply dlt_fin_f in T2; exact T2|split].
  - intros j pt' a' x NJ MX FAR. destruct (FOUND _ _ MX) as (pt & FX & a1 & NJ').
    rewrite NJ in NJ'. injection NJ' as <- <-.
    destruct (second_fold (t_second_dist s) (b_point b) (r_found r) PInf) as (B1 & _ & B3 & B4); [discriminate|].
    unfold second_best in HS. rewrite <- HS in B1, B3, B4.
    assert (AL : at_least second x).
    { eapply B3; [eapply nth_error_In; eauto|]. now apply closer_false. }
    destruct B4 as [B4|[p4 B4]]; [contradiction|].
    assert (NS : nonneg second).
    { apply In_nth_error in B4. destruct B4 as [j4 B4]. destruct (k_found _ _ _ _ _ _ K _ _ _ B4) as (M4 & _). eauto. }
    destruct second as [S0| | |] eqn:ES; cbn in NS; try contradiction; try (now elim S1); try (now elim B1).
    assert (Q1 : (t_quality s * E <= S0)%Q).
    { cbn [ddiv] in T3. destruct (Qeq_bool E 0) eqn:Z0.
      - apply Qeq_bool_iff in Z0. rewrite Z0. lra.
      - apply dlt_fin_f in T3. assert (~ E == 0)%Q by (intros X; apply Qeq_bool_iff in X; congruence).
        assert (0 < E)%Q by (destruct (Q_dec 0 E) as [[X|X]|X]; try lra; exfalso; apply H0; lra).
        apply Qmult_le_r with (z := E) in T3; [|assumption].
        setoid_replace (S0 / E * E)%Q with S0 in T3 by (field; assumption). exact T3. }
    unfold dmul3 in T1. apply dle_fin_f in T1.
    split.
    + destruct AL as [ -> |AL]; [now left|right]. eapply dle_trans; [|exact AL]. now apply dle_fin.
    + destruct AL as [ -> |AL]; [now left|right].
      eapply dlt_trans_le; [|exact AL]. now apply dlt_fin.
  - subst q. cbn. exact HL.
Qed.

(* ---------- refinement ---------- *)

Lemma displaced_zero from to d : displaced from to d 0 (pos_scale (1 # 2) (pos_add from to)).
Proof. unfold displaced, pos_scale, pos_add; cbn [fst snd]. split; ring. Qed.

Lemma displaced_move from to d q k p : displaced from to d q p ->
  displaced from to d (q + k) (pos_add p (pos_scale k d)).
Proof. unfold displaced, pos_scale, pos_add; cbn [fst snd]. intros [A B]. split; [rewrite Qmult_plus_distr_r, A|rewrite Qmult_plus_distr_r, B]; ring. Qed.

Definition clamp_step (bd step : dbl) : dbl :=
  if dlt (Fin 1) (dadd bd step) then dmul (dsub (Fin 1) bd) (Fin (1 # 2))
  else if dlt (dadd bd step) (Fin (-1)) then dmul (dsub (Fin (-1)) bd) (Fin (1 # 2)) else step.

Lemma clamp_step_ok q step : (-1 <= q <= 1)%Q ->
  match clamp_step (Fin q) step with
  | Fin k => (-1 <= q + k <= 1)%Q
  | NaN => step = NaN
  | _ => False
  end.
Proof.
  intros [A B]. unfold clamp_step. destruct step as [k| | |]; cbn [dadd].
  - destruct (dlt (Fin 1) (Fin (q + k))) eqn:E1.
    + cbn [dsub dadd dopp dmul]. lra.
    + destruct (dlt (Fin (q + k)) (Fin (-1))) eqn:E2.
      * cbn [dsub dadd dopp dmul]. lra.
      * apply dlt_fin_f in E1. apply dlt_fin_f in E2. lra.
  - change (dlt (Fin 1) PInf) with true. cbn [dsub dadd dopp dmul]. lra.
  - change (dlt (Fin 1) NInf) with false. change (dlt NInf (Fin (-1))) with true. cbn [dsub dadd dopp dmul]. lra.
  - change (dlt (Fin 1) NaN) with false. change (dlt NaN (Fin (-1))) with false. reflexivity.
Qed.

Lemma gauss_newton_S n ev dir bp be bd step :
  gauss_newton (S n) ev dir bp be bd step =
  match step with
  | Fin k =>
      let cur := pos_add bp (pos_scale k dir) in
      let '(ne, h, b) := ev cur in
      if dlt ne be then gauss_newton n ev dir cur ne (dadd bd step) (clamp_step (dadd bd step) (ddiv (dopp b) h))
      else gauss_newton n ev dir bp be bd (dmul step (Fin (1 # 2)))
  | _ => UB
  end.
Proof. reflexivity. Qed.

Definition energy_of (v : dbl * dbl * dbl) : dbl := fst (fst v).

Definition step_fine (q : Q) (step : dbl) : Prop :=
  match step with Fin k => (-1 <= q + k <= 1)%Q | NaN => True | _ => False end.

Lemma gn_result ev from to dir : forall n bp be q step p d e,
  gauss_newton n ev dir bp be (Fin q) step = Ok (p, d, e) ->
  (-1 <= q <= 1)%Q -> displaced from to dir q bp -> be <> NaN ->
  step_fine q step ->
  (be = PInf \/ be = energy_of (ev bp)) ->
  exists q', d = Fin q' /\ (-1 <= q' <= 1)%Q /\ displaced from to dir q' p /\ e <> NaN /\ dle e be = true /\
    (e = PInf \/ e = energy_of (ev p)).
Proof.
  induction n as [|n IH]; intros bp be q step p d e H Q D NB SF BE.
  - cbn in H. injection H as <- <- <-. exists q. repeat split; try assumption; try apply Q; try apply D. now apply dle_refl.
  - rewrite gauss_newton_S in H. destruct step as [k| | |]; try discriminate.
    cbv zeta in H. destruct (ev (pos_add bp (pos_scale k dir))) as [[ne h] b] eqn:EV.
    destruct (dlt ne be) eqn:LT.
    + cbn [dadd] in H. cbn [step_fine] in SF.
      destruct (IH _ _ _ _ _ _ _ H) as (q' & ? & ? & ? & ? & LE & ?); try assumption.
      * now apply displaced_move.
      * eapply dlt_pinf_nan; eauto.
      * pose proof (clamp_step_ok (q + k) (ddiv (dopp b) h) SF) as C. unfold step_fine.
        destruct (clamp_step _ _); auto.
      * right. rewrite EV. reflexivity.
      * exists q'. split; [assumption|split; [assumption|split; [assumption|split; [assumption|split; [|assumption]]]]].
        eapply dle_trans; [exact LE|]. now apply dlt_dle.
    + cbn [step_fine] in SF. eapply IH; eauto. cbn [dmul step_fine]. lra.
Qed.

Lemma refine_result gn ev dirf from to p d e :
  tracePrecise gn ev dirf from to = Ok (p, d, e) ->
  exists q, d = Fin q /\ (-1 <= q <= 1)%Q /\ displaced from to (dirf from to) q p /\
    (e = PInf \/ e = energy_of (ev p)).
Proof.
  unfold tracePrecise. intros H.
  eapply gn_result in H.
  - destruct H as (q & A & B & C & _ & _ & E). exists q. repeat split; try apply A; try apply B; try apply C; exact E.
  - lra.
  - apply displaced_zero.
  - discriminate.
  - cbn. lra.
  - now left.
Qed.

Lemma refine_near gn ev dirf from to p d e m :
  tracePrecise gn ev dirf from to = Ok (p, d, e) ->
  (fst (dirf from to) * fst (dirf from to) + snd (dirf from to) * snd (dirf from to) <= 1)%Q ->
  displaced from to (0, 0)%Q 0 m -> (dist2 p m <= 1)%Q.
Proof.
  intros H U [M1 M2]. destruct (refine_result _ _ _ _ _ _ _ _ H) as (q & _ & Q & [D1 D2] & _).
  destruct (dirf from to) as [u v]. cbn [fst snd] in *. unfold dist2.
  assert (E1 : (fst p - fst m == q * u)%Q) by lra.
  assert (E2 : (snd p - snd m == q * v)%Q) by lra.
  rewrite E1, E2. setoid_replace (q * u * (q * u) + q * v * (q * v))%Q with (q * q * (u * u + v * v))%Q by ring.
  assert (0 <= u * u + v * v)%Q by nra. assert (q * q <= 1)%Q by nra. nra.
Qed.

Lemma refine_energy gn ev dirf from to p d e :
  0 <= gn -> (forall a b, peq a b -> ev a = ev b) ->
  tracePrecise gn ev dirf from to = Ok (p, d, e) ->
  forall m, displaced from to (0, 0)%Q 0 m -> energy_of (ev m) = NaN \/ dle e (energy_of (ev m)) = true.
Proof.
  intros G PR H m M. unfold tracePrecise in H.
  replace (Z.to_nat (gn + 1)) with (S (Z.to_nat gn)) in H by lia.
  rewrite gauss_newton_S in H. cbv zeta in H.
  set (mid := pos_scale (1 # 2) (pos_add from to)) in *.
  set (dir := dirf from to) in *.
  assert (E0 : ev (pos_add mid (pos_scale 0 dir)) = ev m).
  { apply PR. destruct M as [M1 M2]. unfold mid, peq, pos_add, pos_scale in *. cbn [fst snd] in *. split; lra. }
  destruct (ev (pos_add mid (pos_scale 0 dir))) as [[ne h] b] eqn:EV.
  assert (EM : energy_of (ev m) = ne) by (rewrite <- E0; reflexivity). rewrite EM.
  destruct (dlt ne PInf) eqn:LT.
  - right. cbn [dadd] in H. eapply gn_result in H.
    + destruct H as (_ & _ & _ & _ & _ & L & _). exact L.
    + lra.
    + apply displaced_move. apply displaced_zero.
    + eapply dlt_pinf_nan; eauto.
    + pose proof (clamp_step_ok (0 + 0) (ddiv (dopp b) h)) as C. unfold step_fine.
      destruct (clamp_step _ _); auto; apply C; lra.
    + right. rewrite EV. reflexivity.
  - destruct ne; try discriminate; [right|now left].
    eapply gn_result in H.
    + destruct H as (_ & _ & _ & _ & _ & L & _). exact L.
    + lra.
    + apply displaced_zero.
    + discriminate.
    + cbn. lra.
    + now left.
Qed.

Lemma refine_flat gn ev dirf from to m e h b :
  1 <= gn -> (forall a b, peq a b -> ev a = ev b) ->
  displaced from to (0, 0)%Q 0 m -> ev m = (Fin e, Fin h, Fin b) -> (h == 0)%Q -> (b == 0)%Q ->
  tracePrecise gn ev dirf from to = UB.
Proof.
  intros G PR M EV H0 B0. unfold tracePrecise.
  replace (Z.to_nat (gn + 1)) with (S (S (Z.to_nat (gn - 1)))) by lia.
  rewrite gauss_newton_S. cbv zeta.
  set (mid := pos_scale (1 # 2) (pos_add from to)) in *.
  set (dir := dirf from to) in *.
  assert (E0 : ev (pos_add mid (pos_scale 0 dir)) = ev m).
  { apply PR. destruct M as [M1 M2]. unfold mid, peq, pos_add, pos_scale in *. cbn [fst snd] in *. split; lra. }
  rewrite E0, EV. change (dlt (Fin e) PInf) with true. cbv iota.
  assert (ES : ddiv (dopp (Fin b)) (Fin h) = NaN).
  { cbn [dopp ddiv]. apply Qeq_bool_iff in H0. rewrite H0. unfold dinf.
    destruct (Qcompare_spec (- b) 0); try reflexivity; exfalso; lra. }
  rewrite ES. reflexivity.
Qed.

Lemma gn_defined ev dir : (forall p, let '(_, h, b) := ev p in ddiv (dopp b) h <> NaN) ->
  forall n bp be q k, (-1 <= q <= 1)%Q -> (-1 <= q + k <= 1)%Q ->
  exists r, gauss_newton n ev dir bp be (Fin q) (Fin k) = Ok r.
Proof.
  intros ND. induction n as [|n IH]; intros bp be q k Q K; [cbn; eauto|].
  rewrite gauss_newton_S. cbv zeta. specialize (ND (pos_add bp (pos_scale k dir))).
  destruct (ev (pos_add bp (pos_scale k dir))) as [[ne h] b]. destruct (dlt ne be).
  - cbn [dadd]. pose proof (clamp_step_ok (q + k) (ddiv (dopp b) h) K) as C.
    destruct (clamp_step _ _) as [k'| | |]; try contradiction. now apply IH.
  - cbn [dmul]. apply IH; lra.
Qed.

Lemma refine_defined gn ev dirf from to :
  (forall p, let '(_, h, b) := ev p in ddiv (dopp b) h <> NaN) ->
  exists r, tracePrecise gn ev dirf from to = Ok r.
Proof. intros ND. apply gn_defined; auto; lra. Qed.

(** the depth after the refinement *)
Lemma refined_depth fuel s e p q :
  traceOn fuel s e p = Ok (OK, q) -> 0 < t_gn s ->
  exists pts i from to r k,
    points_to_trace fuel s e = Ok (Some pts) /\ (i < length pts)%nat /\
    nth_error (map fst pts) (i - 1) = Some from /\
    nth_error (map fst pts) (Nat.min (length pts - 1) (i + 1)) = Some to /\
    measured s e (i_max p) pts i (i_energy q) /\
    (-1 <= k <= 1)%Q /\ displaced from to (e_dir e from to) k r /\
    i_depth q = Some (e_triang e (Some (pos_scale (inject_Z (2 ^ i_level q)) r))).
Proof.
  intros H G.
  destruct (traceOn_inv _ _ _ _ _ _ H) as [(A & _)|[(_ & [A|A] & _)|[(_ & (A & _) & _)|(_ & SU)]]];
    try discriminate; [now elim A|].
  destruct SU as [_ _ (pts & r & b & second & de & mm & D)].
  destruct D as (HP & HV & HB & HL & HD & HS & S1 & S2 & T1 & T2 & T3 & HR & HM & HQ).
  pose proof (known_final _ _ _ _ _ HV) as K.
  destruct (k_some _ _ _ _ _ _ K b HB) as (F1 & _).
  destruct (k_found _ _ _ _ _ _ K _ _ _ F1) as (M & a & NP).
  unfold refine in HR. replace (0 <? t_gn s) with true in HR by lia.
  apply bind_ok_inv in HR. destruct HR as [from [HF HR]].
  apply bind_ok_inv in HR. destruct HR as [to [HT HR]].
  apply bind_ok_inv in HR. destruct HR as [[[bp bd] be] [HP2 HR]]. injection HR as <-.
  destruct (refine_result _ _ _ _ _ _ _ _ HP2) as (k & _ & KB & DI & _).
  assert (LI : (b_ind b < length pts)%nat) by (apply nth_error_Some; congruence).
  exists pts, (b_ind b), from, to, bp, k. subst q. cbn [i_energy i_level i_depth fst].
  unfold at_pos in HF, HT.
  destruct (Z.max 0 (Z.of_nat (b_ind b) - 1) <? 0) eqn:E1; [lia|].
  destruct (nth_error (map fst pts) (Z.to_nat (Z.max 0 (Z.of_nat (b_ind b) - 1)))) eqn:E2; [|discriminate].
  injection HF as ->.
  destruct (Z.min (Z.of_nat (length (map fst pts)) - 1) (Z.of_nat (b_ind b) + 1) <? 0) eqn:E3; [discriminate|].
  destruct (nth_error (map fst pts) (Z.to_nat (Z.min _ _))) eqn:E4; [|discriminate].
  injection HT as ->.
  split; [exact HP|split; [exact LI|split; [|split; [|split; [exact M|split; [exact KB|split; [exact DI|reflexivity]]]]]]].
  - rewrite <- E2. f_equal. lia.
  - rewrite <- E4. f_equal. pose proof (map_length fst pts) as ML. clear - ML LI. unfold sample, pos in *. rewrite ML. lia.
Qed.

(* ---------- samples ---------- *)

Lemma sweep_run s e maxc : forall fuel alpha cnt l a', sweep fuel s e maxc alpha cnt = Ok (l, a') ->
  run (e_point e) (e_delta e) alpha l.
Proof.
  induction fuel as [|f IH]; intros alpha cnt l a' H; [discriminate|].
  cbn [sweep] in H. cbv zeta in H.
  destruct (_ && (maxc <=? cnt + 1)); [injection H as <- <-; constructor|].
  destruct (_ && e_on e _); [|injection H as <- <-; constructor].
  apply bind_ok_inv in H. destruct H as [[l1 a1] [H1 H2]]. injection H2 as <- <-. cbn [fst].
  constructor. eauto.
Qed.

Lemma sweep_length s e maxc : t_full s = false -> forall fuel alpha cnt l a',
  sweep fuel s e maxc alpha cnt = Ok (l, a') -> Z.of_nat (length l) <= Z.max 1 (maxc - cnt).
Proof.
  intros F. induction fuel as [|f IH]; intros alpha cnt l a' H; [discriminate|].
  cbn [sweep] in H. cbv zeta in H. rewrite F in H. cbn [negb andb] in H.
  destruct (maxc <=? cnt + 1) eqn:E; [injection H as <- <-; cbn; lia|].
  destruct (_ && e_on e _); [|injection H as <- <-; cbn; lia].
  apply bind_ok_inv in H. destruct H as [[l1 a1] [H1 H2]]. injection H2 as <- <-. cbn [fst].
  apply IH in H1. cbn [length]. lia.
Qed.

Lemma sweep_inner s e maxc : forall fuel alpha cnt l a', sweep fuel s e maxc alpha cnt = Ok (l, a') ->
  forall k p a, nth_error l k = Some (p, a) -> (S k < length l)%nat -> e_on e p = true.
Proof.
  induction fuel as [|f IH]; intros alpha cnt l a' H; [discriminate|].
  cbn [sweep] in H. cbv zeta in H. intros k p a.
  destruct (_ && (maxc <=? cnt + 1)); [injection H as <- <-; cbn; lia|].
  destruct (_ && e_on e _) eqn:EO; [|injection H as <- <-; cbn; lia].
  apply bind_ok_inv in H. destruct H as [[l1 a1] [H1 H2]]. injection H2 as <- <-. cbn [fst length].
  destruct k as [|k]; cbn [nth_error]; intros N L.
  - injection N as <- <-. apply andb_true_iff in EO. apply EO.
  - eapply IH; eauto. lia.
Qed.

Lemma scan_doubled s e maxc step : forall fuel a0 pts l,
  scan fuel s e maxc step a0 pts = Ok l ->
  doubled (e_point e) (e_delta e) pts -> doubled (e_point e) (e_delta e) l.
Proof.
  induction fuel as [|f IH]; intros a0 pts l H D; [discriminate|].
  cbn [scan] in H. cbv zeta in H.
  destruct (dle a0 (Fin 1)); [|injection H as <-; exact D].
  destruct (negb (e_on e _)).
  - destruct (negb (t_full s)); [injection H as <-; exact D|]. eauto.
  - apply bind_ok_inv in H. destruct H as [[r1 b1] [H1 H]].
    apply bind_ok_inv in H. destruct H as [[r2 b2] [H2 H]]. rewrite H1 in H2. injection H2 as <- <-.
    cbn [fst snd] in H.
    assert (D' : doubled (e_point e) (e_delta e) (pts ++ r1 ++ r1)).
    { econstructor; [exact D|]. eapply sweep_run; eauto. }
    destruct (negb (t_full s)); [injection H as <-; exact D'|]. eauto.
Qed.

Lemma samples_doubled fuel s e pts : points_to_trace fuel s e = Ok (Some pts) ->
  doubled (e_point e) (e_delta e) pts.
Proof.
  unfold points_to_trace. intros H.
  destruct (e_opposite e); [discriminate|]. destruct (_ && _); [discriminate|].
  apply bind_ok_inv in H. destruct H as [maxc [_ H]]. cbv zeta in H.
  apply bind_ok_inv in H. destruct H as [l [H E]].
  destruct (_ <=? _)%nat; [|discriminate]. injection E as <-.
  eapply scan_doubled; eauto. constructor.
Qed.

Lemma samples_limited fuel s e pts : t_full s = false -> points_to_trace fuel s e = Ok (Some pts) ->
  exists r maxc, pts = r ++ r /\ run (e_point e) (e_delta e) (Fin 0) r /\
    to_int (Fin (t_search_rel s * inject_Z (e_wh e))) = Ok maxc /\
    Z.of_nat (length r) <= Z.max 1 maxc /\
    e_on e (e_point e (Fin 0)) = true /\
    (forall k p a, nth_error r k = Some (p, a) -> (S k < length r)%nat -> e_on e p = true).
Proof.
  unfold points_to_trace. intros F H.
  destruct (e_opposite e); [discriminate|]. destruct (_ && _); [discriminate|].
  apply bind_ok_inv in H. destruct H as [maxc [HM H]]. cbv zeta in H.
  apply bind_ok_inv in H. destruct H as [l [H E]].
  destruct (_ <=? _)%nat eqn:E2; [|discriminate]. injection E as <-.
  destruct fuel as [|f]; [discriminate|]. cbn [scan] in H. cbv zeta in H. rewrite F in H.
  change (dle (Fin 0) (Fin 1)) with true in H. cbn [negb] in H. cbv iota in H.
  destruct (e_on e (e_point e (Fin 0))) eqn:EO; cbn [negb] in H.
  - apply bind_ok_inv in H. destruct H as [[r1 b1] [H1 H]].
    apply bind_ok_inv in H. destruct H as [[r2 b2] [H2 H]]. rewrite H1 in H2. injection H2 as <- <-.
    cbn [fst snd app] in H. injection H as <-.
    exists r1, maxc. split; [reflexivity|split; [eapply sweep_run; eauto|split; [exact HM|split; [|split; [reflexivity|]]]]].
    + pose proof (sweep_length s e maxc F _ _ _ _ _ H1). lia.
    + eapply sweep_inner; eauto.
  - injection H as <-. discriminate.
Qed.

Lemma sweep_fuel s e maxc : t_full s = false -> forall fuel alpha cnt,
  (1 <= fuel)%nat -> maxc - cnt <= Z.of_nat fuel -> exists r, sweep fuel s e maxc alpha cnt = Ok r.
Proof.
  intros F. induction fuel as [|f IH]; intros alpha cnt L M; [lia|].
  cbn [sweep]. cbv zeta. rewrite F. cbn [negb andb].
  destruct (maxc <=? cnt + 1) eqn:E; [eauto|].
  destruct (_ && e_on e _); [|eauto].
  destruct (IH (dadd alpha (e_delta e alpha)) (cnt + 1)) as [r ->]; [lia|lia|]. cbn. eauto.
Qed.

Lemma samples_terminate fuel s e maxc :
  t_full s = false -> to_int (Fin (t_search_rel s * inject_Z (e_wh e))) = Ok maxc ->
  (2 <= fuel)%nat -> maxc + 1 <= Z.of_nat fuel -> exists r, points_to_trace fuel s e = Ok r.
Proof.
  intros F M L1 L2. unfold points_to_trace. destruct (e_opposite e); [eauto|].
  rewrite F. cbn [andb]. unfold of_int. cbn [dmul]. rewrite M. cbn [bind].
  destruct fuel as [|f]; [lia|]. cbn [scan]. cbv zeta.
  change (dle (Fin 0) (Fin 1)) with true. cbv iota. rewrite F. cbn [negb].
  destruct (e_on e (e_point e (Fin 0))); cbn [negb]; [|eexists; reflexivity].
  destruct (sweep_fuel s e maxc F f (Fin 0) 0) as [r ->]; [lia|lia|]. eexists; reflexivity.
Qed.

Lemma map_double (r : list sample) : map fst (r ++ r) = map fst r ++ map fst r.
Proof. apply map_app. Qed.

(** between the end of a run and its repetition *)
Lemma wrap_curve (l : list pos) d first last :
  (1 <= length l)%nat -> nth_error l 0 = Some first -> nth_error l (length l - 1) = Some last ->
  Z.of_nat (length l) <= INT_MAX -> (0 < d)%Q ->
  (inject_Z (Z.of_nat (length l) - 1) <= d < inject_Z (Z.of_nat (length l)))%Q ->
  exists p, on_curve (l ++ l) (Fin d) = Ok (Some p) /\
    peq p (pos_add last (pos_scale (d - inject_Z (Z.of_nat (length l) - 1)) (pos_sub first last))).
Proof.
  intros L1 NF NL IM D0 [A B]. unfold on_curve. cbv zeta. rewrite app_length.
  set (n := Z.of_nat (length l)) in *.
  replace (Z.of_nat (length l + length l)) with (2 * n) by lia.
  replace (2 * n <? 2) with false by lia.
  destruct (Qle_bool d 0) eqn:E0; [apply Qle_bool_iff in E0; lra|].
  assert (HN : (inject_Z (2 * n) == 2 * inject_Z n)%Q) by (rewrite inject_Z_mult; reflexivity).
  assert (HN1 : (inject_Z (n - 1) == inject_Z n - 1)%Q) by (unfold Z.sub; rewrite inject_Z_plus; reflexivity).
  assert (LN : (1 <= inject_Z n)%Q) by (change 1%Q with (inject_Z 1); rewrite <- Zle_Qle; lia).
  destruct (Qle_bool (inject_Z (2 * n)) (d + 1)) eqn:E1.
  - apply Qle_bool_iff in E1. exfalso. rewrite HN in E1.
    assert (inject_Z n <= 1)%Q by lra. assert (inject_Z n < 1 + 1)%Q by lra.
    (* n = 1 gives d < 1 and 2 <= d + 1 *) lra.
  - assert (T : to_int (Fin d) = Ok (n - 1)).
    { unfold to_int. assert (Q : qtrunc d = n - 1).
      { unfold qtrunc. destruct d as [dn dd]. unfold Qle, Qlt, inject_Z in A, B, D0. cbn in *.
        rewrite Z.quot_div_nonneg by lia. symmetry. apply Z.div_unique with (dn - (n - 1) * Z.pos dd); [left|]; nia. }
      rewrite Q. unfold in_int. unfold INT_MAX, INT_MIN in *.
      destruct ((-2147483648 <=? n - 1) && (n - 1 <=? 2147483647)) eqn:E; [reflexivity|]. lia. }
    rewrite T. cbn [bind]. unfold at_pos.
    replace (n - 1 <? 0) with false by lia.
    replace (n - 1 + 1) with n by lia. replace (n <? 0) with false by lia.
    replace (Z.to_nat (n - 1)) with (length l - 1)%nat by lia. replace (Z.to_nat n) with (length l) by lia.
    rewrite nth_error_app1 by lia. rewrite NL. cbn [bind].
    rewrite nth_error_app2 by lia. rewrite Nat.sub_diag, NF. cbn [bind].
    eexists. split; [reflexivity|]. split; reflexivity.
Qed.

(** The best sample is in the first half. *)
Lemma best_first_half s e maxd r res b :
  maxd <> PInf -> visit_all s e maxd search0 0 (r ++ r) = Ok res -> r_best res = Some b -> (b_ind b < length r)%nat.
Proof.
  intros NM HV HB. pose proof (known_final _ _ _ _ _ HV) as K.
  destruct (k_some _ _ _ _ _ _ K b HB) as (F1 & F2 & _ & F4).
  assert (LI : (b_ind b < length (r ++ r))%nat).
  { rewrite <- (k_len _ _ _ _ _ _ K). apply nth_error_Some. congruence. }
  rewrite app_length in LI.
  destruct (Nat.lt_ge_cases (b_ind b) (length r)) as [?|G]; [assumption|exfalso].
  set (j := (b_ind b - length r)%nat).
  destruct (k_found _ _ _ _ _ _ K _ _ _ F1) as (M & a & NP).
  assert (NJ : nth_error (r ++ r) j = Some (b_point b, a)).
  { rewrite nth_error_app2 in NP by exact G. fold j in NP. rewrite nth_error_app1; [exact NP|]. unfold j. lia. }
  destruct (nth_error (r_found res) j) as [[pj xj]|] eqn:EJ.
  - destruct (k_found _ _ _ _ _ _ K _ _ _ EJ) as (MJ & aj & NJ').
    rewrite NJ in NJ'. injection NJ' as <- <-.
    assert (xj = b_energy b).
    { destruct M as (p1 & a1 & z1 & N1 & Z1 & ->). destruct MJ as (p2 & a2 & z2 & N2 & Z2 & ->).
      rewrite NP in N1. injection N1 as <- <-. rewrite NJ in N2. injection N2 as <- <-.
      assert (X : forall i, match maxd, i with PInf, O => true | _, _ => false end = false) by (intros i; destruct maxd; try reflexivity; congruence).
      rewrite X in *. rewrite Z1 in Z2. injection Z2 as <-. rewrite ?X. reflexivity. }
    subst xj. destruct (F4 _ _ _ EJ) as [E|E].
    + unfold j. assert (length r <> 0)%nat by (intros Z0; rewrite Z0 in LI; lia). lia.
    + rewrite E in F2. discriminate.
    + destruct (b_energy b); cbn in *; try discriminate. rewrite Z.ltb_irrefl in E. discriminate.
  - apply nth_error_None in EJ. rewrite (k_len _ _ _ _ _ _ K), app_length in EJ. unfold j in EJ. lia.
Qed.

Lemma bound_wraps fuel s e p q d :
  traceOn fuel s e p = Ok (OK, q) -> t_full s = false -> i_max p <> PInf -> e_dev e = Fin d -> (0 <= d)%Q ->
  exists r i first last,
    points_to_trace fuel s e = Ok (Some (r ++ r)) /\ (i < length r)%nat /\
    measured s e (i_max p) (r ++ r) i (i_energy q) /\
    nth_error (map fst r) 0 = Some first /\ nth_error (map fst r) (length r - 1) = Some last /\
    (let x := (inject_Z (Z.of_nat i) + 2 * d)%Q in
     (0 < x)%Q -> Z.of_nat (length r) <= INT_MAX ->
     (inject_Z (Z.of_nat (length r) - 1) <= x < inject_Z (Z.of_nat (length r)))%Q ->
     exists pm, i_min q = e_triang e (Some pm) /\
       peq pm (pos_add last (pos_scale (x - inject_Z (Z.of_nat (length r) - 1)) (pos_sub first last)))).
Proof.
  intros H F NM ED D0.
  destruct (traceOn_inv _ _ _ _ _ _ H) as [(A & _)|[(_ & [A|A] & _)|[(_ & (A & _) & _)|(_ & SU)]]];
    try discriminate; [now elim A|].
  destruct SU as [_ _ (pts & r0 & b & second & de & mm & D)].
  destruct D as (HP & HV & HB & HL & HD & HS & S1 & S2 & T1 & T2 & T3 & HR & HM & HQ).
  destruct (samples_limited _ _ _ _ F HP) as (r & maxc & -> & RUN & _).
  pose proof (best_first_half _ _ _ _ _ _ NM HV HB) as LB.
  pose proof (known_final _ _ _ _ _ HV) as K.
  destruct (k_some _ _ _ _ _ _ K b HB) as (F1 & _).
  destruct (k_found _ _ _ _ _ _ K _ _ _ F1) as (M & a & NP).
  assert (L1 : (1 <= length (map fst r))%nat) by (pose proof (map_length fst r) as ML; unfold sample, pos in *; lia).
  destruct (nth_error (map fst r) 0) as [first|] eqn:N1; [|apply nth_error_None in N1; unfold sample, pos in *; lia].
  destruct (nth_error (map fst r) (length r - 1)) as [last|] eqn:N2; [|apply nth_error_None in N2; pose proof (map_length fst r) as ML; unfold sample, pos in *; lia].
  exists r, (b_ind b), first, last.
  split; [exact HP|split; [exact LB|split; [subst q; exact M|split; [exact N1|split; [exact N2|]]]]].
  cbv zeta. intros X0 IM XB.
  assert (ML : @length pos (map fst r) = length r) by apply map_length.
  unfold bounds in HM. cbv zeta in HM. rewrite ED, map_double in HM. unfold of_int in HM. cbn [dmul dadd] in HM.
  destruct (wrap_curve (map fst r) (inject_Z (Z.of_nat (b_ind b)) + 2 * d) first last) as (pm & E1 & E2); auto.
  - rewrite ML. exact N2.
  - rewrite ML. exact IM.
  - rewrite ML. exact XB.
  - rewrite E1 in HM. cbn [bind] in HM. rewrite ML in E2.
    exists pm. split; [|exact E2]. subst q. cbn [i_min].
    destruct (dle _ (Fin 0)).
    + injection HM as <-. reflexivity.
    + apply bind_ok_inv in HM. destruct HM as [x [_ HM]]. injection HM as <-. reflexivity.
Qed.

(* ---------- lives ---------- *)

Lemma life_dev fuel s es1 es2 on sts1 sts2 p q :
  t_full s = false -> (1 <= t_impr s)%Q ->
  Forall (fun e => deviation (e_dev e)) (es1 ++ es2) ->
  trace_all fuel s es1 (new_ipoint on) = Ok (sts1, p) -> trace_all fuel s es2 p = Ok (sts2, q) ->
  dle (i_dev q) (i_dev p) = true /\ (isReady s p = true -> isReady s q = true).
Proof.
  intros F I DV H1 H2. apply Forall_app in DV. destruct DV as [D1 D2].
  destruct (history_dev _ _ _ _ _ _ H1 (new_coherent on) F I D1) as [C _]. split.
  - eapply history_dev; eauto.
  - eapply history_ready; eauto.
Qed.

Lemma life_count fuel s es on sts q : trace_all fuel s es (new_ipoint on) = Ok (sts, q) ->
  i_num q = successes sts /\ length sts = length es /\ i_state q = i_state (new_ipoint on) /\
  (i_depth q = None <-> successes sts = 0) /\ (on = false -> Forall (fun st => st = WAS_OOB) sts).
Proof.
  intros H. destruct (history_count _ _ _ _ _ _ H) as (A & B & C).
  destruct (history_depth _ _ _ _ _ _ H) as (D & E & _). pose proof (successes_nonneg sts).
  split; [rewrite A; reflexivity|split; [exact C|split; [exact B|split]]].
  - split; intros X.
    + destruct (Z.eq_dec (successes sts) 0); [assumption|]. elim E; [lia|exact X].
    + destruct (D X) as (-> & _). reflexivity.
  - intros ->. assert (G : forall es p sts q, i_state p = OOB -> trace_all fuel s es p = Ok (sts, q) -> Forall (fun st => st = WAS_OOB) sts).
    { clear. induction es as [|e es IH]; intros p sts q P T.
      - cbn in T. injection T as <- <-. constructor.
      - apply trace_all_cons in T. destruct T as (st & m & sts' & HT & HA & ->).
        destruct (oob_iff fuel s e p) as [O _]. rewrite (O P) in HT. injection HT as <- <-.
        constructor; [reflexivity|]. eapply IH; eauto. }
    eapply G; [|exact H]. reflexivity.
Qed.

Lemma retrace fuel s e p q :
  traceOn fuel s e p = Ok (OK, q) -> t_full s = false -> 0 < i_num p -> i_dev p <> NaN ->
  deviation (e_dev e) -> (0 < t_impr s)%Q ->
  i_dev q <> NaN /\ dle (dmul (i_dev q) (Fin (t_impr s))) (i_dev p) = true.
Proof.
  intros H. destruct (traceOn_inv _ _ _ _ _ _ H) as [(A & _)|[(_ & [A|A] & _)|[(_ & (A & _) & _)|(_ & SU)]]];
    try discriminate; [now elim A|]. now apply success_dev with (fuel := fuel).
Qed.
