(** Activation of immature points: which points move, and the budget. *)
From Coq Require Import List ZArith Bool Lia Permutation Sorting.Sorted ZifyBool.
From Verif Require Import Outcome Dbl DsoModel DsoSpec DsoHistory DsoProofs.
Import ListNotations.
Open Scope Z_scope.

Section Lists.
Context {A : Type}.

Lemma skipn_mid (l1 : list A) x l2 : skipn (S (length l1)) (l1 ++ x :: l2) = l2.
Proof. induction l1; [reflexivity|exact IHl1]. Qed.

Lemma swap_pop_ok (l : list A) ind : (ind < length l)%nat ->
  exists l' x, swap_pop ind l = Ok l' /\ nth_error l ind = Some x /\ Permutation l (x :: l') /\
    (forall i, (i < ind)%nat -> nth_error l' i = nth_error l i).
Proof.
  intros H. destruct l as [|lst l0] using rev_ind; [simpl in H; lia|]. clear IHl0.
  unfold swap_pop. rewrite rev_app_distr. cbn [rev app]. rewrite rev_involutive, app_length in *. simpl length in *.
  destruct (Nat.eqb_spec (S ind) (length l0 + 1)) as [E|E].
  - exists l0, lst. split; [reflexivity|]. assert (ind = length l0) by lia. subst ind.
    split. { rewrite nth_error_app2, Nat.sub_diag by lia. reflexivity. }
    split. { apply Permutation_sym, Permutation_cons_append. }
    intros i Hi. rewrite nth_error_app1 by lia. reflexivity.
  - destruct (Nat.ltb_spec ind (length l0 + 1)); [|lia].
    assert (Hi : (ind < length l0)%nat) by lia.
    destruct (nth_error l0 ind) as [x|] eqn:Ex; [|apply nth_error_None in Ex; lia].
    exists (firstn ind l0 ++ lst :: skipn (S ind) l0), x. split; [reflexivity|].
    split. { rewrite nth_error_app1 by lia. exact Ex. }
    assert (Hl0 : l0 = firstn ind l0 ++ x :: skipn (S ind) l0).
    { apply nth_error_split in Ex as (l1 & l2 & -> & <-).
      rewrite firstn_app, Nat.sub_diag, firstn_all2 by lia. rewrite skipn_mid. simpl. rewrite app_nil_r. reflexivity. }
    split.
    + set (a := firstn ind l0) in *. set (b := skipn (S ind) l0) in *. rewrite Hl0. clearbody a b. clear.
      rewrite <- app_assoc. simpl. apply Permutation_sym. apply Permutation_cons_app.
      apply Permutation_app_head. rewrite Permutation_cons_append. reflexivity.
    + intros i Hlt. rewrite nth_error_app1 by (rewrite firstn_length; lia). rewrite nth_error_app1 by lia.
      rewrite Hl0 at 2. rewrite nth_error_app1 by (rewrite firstn_length; lia). reflexivity.
Qed.


End Lists.

Lemma places_app pos n c1 c2 : places pos n (c1 ++ c2) = places pos n c1 ++ places pos n c2.
Proof. apply flat_map_app. Qed.

Lemma in_places pos n chosen ind : In ind (places pos n chosen) <->
  exists i, In i chosen /\ nth_error pos i = Some (n, ind).
Proof.
  unfold places. rewrite in_flat_map. split.
  - intros (i & Hi & H). destruct (nth_error pos i) as [[m x]|] eqn:E; [|destruct H].
    destruct (Z.eqb_spec m n); [|destruct H]. destruct H as [<-|[]]. subst. eauto.
  - intros (i & Hi & E). exists i. split; [auto|]. rewrite E, Z.eqb_refl. left; reflexivity.
Qed.

Section Act.
Variables P IP OP : Type.
Variable promote : IP -> OP.
Variable ready : IP -> bool.
Notation kf := (kf P IP OP).
Notation frame_in := (frame_in P IP OP).

Definition untouched (inds : list nat) (k k' : kf) : Prop :=
  forall i, (forall j, In j inds -> (i < j)%nat) -> nth_error (kf_imm k') i = nth_error (kf_imm k) i.

Lemma in_ready_positions (l : list kf) n ind : In (n, ind) (ready_positions ready l) <->
  exists k x, In k l /\ kf_num k = n /\ nth_error (kf_imm k) ind = Some x /\ ready x = true.
Proof.
  unfold ready_positions. rewrite in_flat_map.
  assert (G : forall (imm : list IP) base j x, In (j, x) (combine (seq base (length imm)) imm) <->
     (base <= j)%nat /\ nth_error imm (j - base) = Some x).
  { induction imm as [|y imm IH]; intros base j x; simpl.
    - split; [tauto|]. intros [_ H]. destruct (j - base)%nat; discriminate.
    - rewrite IH. split.
      + intros [E|[H1 H2]].
        * injection E as <- <-. split; [lia|]. rewrite Nat.sub_diag. reflexivity.
        * split; [lia|]. replace (j - base)%nat with (S (j - S base)) by lia. exact H2.
      + intros [H1 H2]. destruct (Nat.eq_dec base j) as [->|E].
        * rewrite Nat.sub_diag in H2. injection H2 as <-. auto.
        * right. split; [lia|]. replace (j - base)%nat with (S (j - S base)) in H2 by lia. exact H2. }
  split.
  - intros (k & Hk & H). apply in_flat_map in H as ([j x] & Hjx & H). simpl in H.
    destruct (ready x) eqn:Er; [|destruct H]. destruct H as [E|[]]. injection E as <- <-.
    apply G in Hjx as [_ Hjx]. rewrite Nat.sub_0_r in Hjx. exists k, x. auto.
  - intros (k & x & Hk & <- & Hx & Hr). exists k. split; [auto|]. apply in_flat_map. exists (ind, x).
    split; [apply G; split; [lia|]; rewrite Nat.sub_0_r; auto|]. simpl. rewrite Hr. left; reflexivity.
Qed.

Lemma NoDup_app_intro {A} (l1 l2 : list A) : NoDup l1 -> NoDup l2 -> (forall x, In x l1 -> ~ In x l2) -> NoDup (l1 ++ l2).
Proof.
  induction 1; simpl; intros H2 Hd; auto. constructor.
  - rewrite in_app_iff. intros [?|?]; [tauto|]. eapply Hd; eauto.
  - apply IHNoDup; auto.
Qed.

Lemma ready_positions_nodup (l : list kf) : NoDup (map kf_num l) -> NoDup (ready_positions ready l).
Proof.
  induction l as [|k l IH]; simpl; intros H; [constructor|]. inversion H; subst.
  apply NoDup_app_intro; [| apply IH; auto|].
  - assert (G : forall (imm : list IP) base, NoDup (flat_map (fun e : nat * IP => if ready (snd e) then [(kf_num k, fst e)] else []) (combine (seq base (length imm)) imm)) /\
       forall n j, In (n, j) (flat_map (fun e : nat * IP => if ready (snd e) then [(kf_num k, fst e)] else []) (combine (seq base (length imm)) imm)) -> (base <= j)%nat).
    { induction imm as [|x imm IHi]; intros base; simpl; [split; [constructor|tauto]|].
      destruct (IHi (S base)) as [A B]. destruct (ready x); simpl.
      - split; [constructor; [intros Hin; apply B in Hin; lia|auto]|]. intros n j [E|Hin]; [injection E as <- <-; lia|]. apply B in Hin. lia.
      - split; [auto|]. intros n j Hin. apply B in Hin. lia. }
    apply G.
  - intros [n j] H1 Hin. apply in_flat_map in H1 as ([i x] & _ & H1). simpl in H1. destruct (ready x); [|destruct H1].
    destruct H1 as [E|[]]. injection E as <- <-.
    change (In (kf_num k, i) (ready_positions ready l)) in Hin. apply in_ready_positions in Hin as (k' & y & Hk & En & _).
    apply H2. rewrite <- En. apply in_map; auto.
Qed.

Lemma Forall2_in_l {A B} (R : A -> B -> Prop) l l' x : Forall2 R l l' -> In x l -> exists y, In y l' /\ R x y.
Proof. induction 1; simpl; [tauto|]. intros [<-|Hin]; [eauto|]. destruct (IHForall2 Hin) as (z & ? & ?). eauto. Qed.

Lemma find_num (l : list kf) k : NoDup (map kf_num l) -> In k l -> find (fun x => kf_num x =? kf_num k) l = Some k.
Proof.
  induction l as [|a l IH]; simpl; [tauto|]. intros ND [->|Hin].
  - rewrite Z.eqb_refl. reflexivity.
  - inversion ND as [|? ? H2 H3]; subst. destruct (Z.eqb_spec (kf_num a) (kf_num k)) as [E|E].
    + exfalso. apply H2. rewrite E. apply in_map; auto.
    + apply IH; auto.
Qed.

Lemma descending (pos : list (Z * nat)) order done i rest : order = done ++ i :: rest ->
  StronglySorted (fun a b => forall x y, nth_error pos a = Some x -> nth_error pos b = Some y -> (snd y <= snd x)%nat) order ->
  forall j x y, In j done -> nth_error pos j = Some x -> nth_error pos i = Some y -> (snd y <= snd x)%nat.
Proof.
  revert order. induction done as [|d done IH]; intros order ->; simpl; [intros _ ? ? ? []|].
  intros H j x y Hj Hx Hy. inversion H as [|? ? H1 H2]; subst. destruct Hj as [->|Hj]; [|eapply (IH _ eq_refl); eauto].
  rewrite Forall_forall in H2. eapply H2; eauto. apply in_app_iff. right; left; reflexivity.
Qed.

Lemma activate_prefix (l : list kf) order : NoDup (map kf_num l) -> NoDup order ->
  (forall i, In i order -> (i < length (ready_positions ready l))%nat) ->
  StronglySorted (fun a b => forall x y, nth_error (ready_positions ready l) a = Some x -> nth_error (ready_positions ready l) b = Some y -> (snd y <= snd x)%nat) order ->
  forall done rest, order = done ++ rest ->
  exists l', ofold (activate_one promote (ready_positions ready l)) done l = Ok l' /\
    Forall2 (fun k k' => activated promote (places (ready_positions ready l) (kf_num k) done) k k' /\
                         untouched (places (ready_positions ready l) (kf_num k) done) k k') l l'.
Proof.
  intros NDk NDo Hv Hs. set (pos := ready_positions ready l) in *.
  induction done as [|i done IH] using rev_ind; intros rest Ho.
  - exists l. split; [reflexivity|]. clear. induction l; constructor; auto.
    split; [|intros ? ?; reflexivity]. unfold activated. simpl. rewrite app_nil_r. repeat split; auto.
  - rewrite <- app_assoc in Ho. simpl in Ho. destruct (IH _ Ho) as (l1 & H1 & F1).
    rewrite ofold_app, H1. cbn [bind ofold].
    assert (Hi : (i < length pos)%nat).
    { apply Hv. rewrite Ho. apply in_app_iff. right; left; reflexivity. }
    destruct (nth_error pos i) as [[n ind]|] eqn:Ep; [|apply nth_error_None in Ep; lia].
    pose proof (nth_error_In _ _ Ep) as Hin. apply in_ready_positions in Hin as (k & x & Hk & Hn & Hx & _).
    destruct (Forall2_in_l _ _ _ _ F1 Hk) as (k1 & Hk1 & (Hnum & _) & Hu1).
    assert (NDp : NoDup pos) by (apply ready_positions_nodup; auto).
    assert (Hlt : forall j, In j (places pos n done) -> (ind < j)%nat).
    { intros j Hj. apply in_places in Hj as (m & Hm & Em).
      pose proof (descending pos order done i rest Ho Hs m _ _ Hm Em Ep) as Hle. simpl in Hle.
      destruct (Nat.eq_dec ind j) as [->|]; [|lia]. exfalso.
      assert (m = i). { eapply NoDup_nth_error; [exact NDp| |congruence]. apply nth_error_Some. congruence. }
      subst m. rewrite Ho in NDo. apply NoDup_remove_2 in NDo. apply NDo. apply in_app_iff; auto. }
    assert (Hx1 : nth_error (kf_imm k1) ind = Some x).
    { rewrite Hu1; [exact Hx|]. rewrite Hn. exact Hlt. }
    destruct (swap_pop_ok (kf_imm k1) ind) as (imm' & y & Hsp & Hy & Hperm & Hpre).
    { apply nth_error_Some. congruence. }
    assert (y = x) as -> by congruence.
    assert (NDk1 : NoDup (map kf_num l1)).
    { replace (map kf_num l1) with (map kf_num l); [exact NDk|]. clear - F1. clearbody pos.
      induction F1 as [|a b la lb [[E _] _] F IH]; simpl; [reflexivity|]. rewrite E, IH. reflexivity. }
    unfold activate_one at 1. rewrite Ep. rewrite <- Hn, <- Hnum. rewrite (find_num l1 k1 NDk1 Hk1), Hx1, Hsp. cbn [bind].
    eexists. split; [reflexivity|]. unfold upd_kf.
    assert (G : forall b, In b l1 -> kf_num b = kf_num k1 -> b = k1).
    { intros b Hb Eb. pose proof (find_num l1 b NDk1 Hb) as Hf. rewrite Eb in Hf. rewrite (find_num l1 k1 NDk1 Hk1) in Hf. congruence. }
    assert (Gk : forall a, In a l -> kf_num a = kf_num k -> a = k).
    { intros a Ha Ea. pose proof (find_num l a NDk Ha) as Hf. rewrite Ea in Hf. rewrite (find_num l k NDk Hk) in Hf. congruence. }
    clear IH H1 NDk1 Hs NDo.
    assert (Hl : forall a, In a l -> kf_num a = kf_num k -> a = k) by exact Gk.
    assert (Hl1 : forall b, In b l1 -> kf_num b = kf_num k1 -> b = k1) by (intros b Hb; apply G; auto).
    clear G Gk Hk Hk1. clearbody pos. clear NDk Hv NDp. induction F1 as [|a b la lb [Hab Hun] F IHF]; [constructor|].
    cbn [map]. constructor; [|apply IHF; intros; auto using in_cons]. clear IHF F.
    pose proof (Hl a (or_introl eq_refl)) as Ga. pose proof (Hl1 b (or_introl eq_refl)) as Gb. clear Hl Hl1.
    destruct Hab as (A1 & A2 & A3 & A4 & A5 & A6).
    rewrite places_app. unfold places at 2 4. cbn [flat_map]. rewrite Ep, app_nil_r, <- Hn.
    destruct (Z.eqb_spec (kf_num b) (kf_num k1)) as [Eb|Eb].
    + assert (a = k) as -> by (apply Ga; congruence). assert (b = k1) as -> by (apply Gb; exact Eb).
      rewrite Z.eqb_refl. split.
      * unfold activated, at_places in *. cbn [kf_num kf_pose kf_tracked kf_imm kf_opt].
        rewrite flat_map_app. simpl. rewrite Hx. do 3 (split; [congruence|]).
        split. { rewrite !app_length, A4. reflexivity. }
        split.
        -- rewrite A5 at 1. rewrite <- app_assoc. apply Permutation_app_head. simpl. exact Hperm.
        -- rewrite A6, map_app, <- app_assoc. reflexivity.
      * intros j Hj. cbn [kf_imm]. rewrite Hpre.
        -- apply Hun. intros m Hm. apply Hj. apply in_app_iff; auto.
        -- apply Hj. apply in_app_iff. right; left; reflexivity.
    + destruct (Z.eqb_spec (kf_num k) (kf_num a)) as [Ea|Ea]; [congruence|]. rewrite app_nil_r.
      split; [unfold activated; auto 10|exact Hun].
Qed.

(** C10 *)
Theorem activation_exact s (fi : frame_in) (l : list kf) chosen :
  NoDup (map kf_num l) -> sort_ok fi ->
  fi_choose fi (length (ready_positions ready l)) (maxOptimizedPoints s - opt_count l) = Ok chosen ->
  NoDup chosen -> (forall i, In i chosen -> (i < length (ready_positions ready l))%nat) ->
  exists l', activate promote ready s fi l = Ok l' /\
    Forall2 (fun k k' => exists inds, Permutation inds (places (ready_positions ready l) (kf_num k) chosen) /\
                                      activated promote inds k k') l l'.
Proof.
  intros ND So Hc NDc Hv. destruct (So (ready_positions ready l) chosen) as [Pm Ss].
  destruct (activate_prefix l (fi_sort fi (ready_positions ready l) chosen) ND) with (done := fi_sort fi (ready_positions ready l) chosen) (rest := @nil nat)
    as (l' & H & F).
  - eapply Permutation_NoDup; eauto.
  - intros i Hi. apply Hv. eapply Permutation_in; [apply Permutation_sym; exact Pm|exact Hi].
  - exact Ss.
  - rewrite app_nil_r. reflexivity.
  - exists l'. split.
    + unfold activate. rewrite Hc. exact H.
    + clear - F Pm. revert F Pm. generalize (ready_positions ready l). intros pos F Pm. induction F as [|k k' la lb [Hk _] F IH]; constructor; auto.
      exists (places pos (kf_num k) (fi_sort fi pos chosen)).
      split; [|exact Hk]. unfold places. apply Permutation_flat_map, Permutation_sym, Pm.
Qed.
End Act.
