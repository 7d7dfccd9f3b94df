(** Proofs about the initializer and about the point lists of a keyframe. *)
From Coq Require Import ZArith QArith Reals List Bool Lia Lra.
From Verif Require Import Outcome Pose PoseProofs PyramidModel PyramidSpec BorderModel BaseModel BaseSpec BaseProofs BaseMore.
Import ListNotations.
Open Scope Z_scope.
Open Scope outcome_scope.

Lemma bind_inv {A B} (o : outcome A) (f : A -> outcome B) b : bind o f = Ok b -> exists a, o = Ok a /\ f a = Ok b.
Proof. destruct o; try discriminate. eauto. Qed.

Section Init.
Variables (cmap : vec -> Q * Q) (unmap : Q * Q -> vec) (w h ph : Z).

Lemma border_int p : isOnImage w h (toVec2 p) ph = true <-> well_inside w h ph p.
Proof.
  unfold isOnImage, well_inside, toVec2. cbn [fst snd].
  rewrite !andb_true_iff, !Qle_bool_iff, <- !Zle_Qle. tauto.
Qed.

Section Terrain.
Variable terrain : vec -> option R.

Lemma round_one (dv : bpoint -> bpoint) sel :
  (forall p, b_pos (dv p) = b_pos p /\ b_state (dv p) = b_state p) ->
  sublist_by (fun p q => exists d, hits unmap w h ph terrain p d /\ made_from (Some d) (b_dev (dv (immature w h ph (toVec2 p)))) p q)
             (fun p => ~ exists d, hits unmap w h ph terrain p d) sel
             (one_round unmap terrain (map dv (addImmatures w h ph sel []))).
Proof.
  intros DV. unfold one_round, addImmatures. cbn [app]. rewrite !map_map.
  induction sel as [|p sel IH]; cbn [map filter]; [constructor|].
  assert (ST : b_state (dv (immature w h ph (toVec2 p))) = if isOnImage w h (toVec2 p) ph then ACTIVE else OOB)
    by apply DV.
  assert (PS : b_pos (dv (immature w h ph (toVec2 p))) = toVec2 p) by apply DV.
  set (q := dv (immature w h ph (toVec2 p))) in *.
  assert (DV' : b_dev q = b_dev (dv (immature w h ph (toVec2 p)))) by reflexivity. clearbody q.
  assert (SD : spherical_depth unmap terrain q =
    match (if isOnImage w h (toVec2 p) ph then terrain (unmap (toVec2 p)) else None) with
    | Some d => {| b_pos := b_pos q; b_state := ACTIVE; b_depth := Some d; b_dev := b_dev q |}
    | None => {| b_pos := b_pos q; b_state := OOB; b_depth := b_depth q; b_dev := b_dev q |}
    end).
  { unfold spherical_depth. rewrite ST, PS. destruct (isOnImage w h (toVec2 p) ph); reflexivity. }
  rewrite SD. clear SD.
  destruct (isOnImage w h (toVec2 p) ph) eqn:O.
  - apply border_int in O. destruct (terrain (unmap (toVec2 p))) as [d|] eqn:T; cbn [active b_state].
    + constructor; [|exact IH]. exists d. split; [split; [exact O|exact T]|].
      split; [exact PS|]. repeat split; auto. discriminate.
    + apply sub_drop; [|exact IH]. intros (d & _ & H). unfold toVec2 in T. congruence.
  - cbn [b_state active]. apply sub_drop; [|exact IH]. intros (d & H & _). apply border_int in H. congruence.
Qed.

Lemma sublist_same {A B} (keep : A -> B -> Prop) drop l l' : sublist_by keep drop l l' ->
  exists l'', sublist_by (fun a b => a = b /\ exists c, keep a c) drop l l'' /\ length l'' = length l'.
Proof.
  induction 1 as [|a b l l' K S (x & X & L)|a l l' D S (x & X & L)].
  - exists []. split; [constructor|reflexivity].
  - exists (a :: x). split; [constructor; eauto|cbn; now rewrite L].
  - exists x. split; [now constructor|exact L].
Qed.

Lemma sublist_impl {A B} (k1 k2 : A -> B -> Prop) (d1 d2 : A -> Prop) l l' :
  (forall a b, k1 a b -> k2 a b) -> (forall a, d1 a -> d2 a) -> sublist_by k1 d1 l l' -> sublist_by k2 d2 l l'.
Proof. intros K D. induction 1; constructor; auto. Qed.

Lemma hit_count_of sel l' (dv : Z * Z -> dev) :
  sublist_by (fun p q => exists d, hits unmap w h ph terrain p d /\ made_from (Some d) (dv p) p q)
             (fun p => ~ exists d, hits unmap w h ph terrain p d) sel l' ->
  hit_count unmap w h ph terrain sel (Z.of_nat (length l')).
Proof.
  intros S. apply sublist_same in S. destruct S as (k & S & L). exists k. split; [|now rewrite L].
  revert S. apply sublist_impl; [|auto]. intros a b (-> & c & d & H & _). eauto.
Qed.

Lemma needed_spec needed total inTriang n : 0 <= needed -> 0 <= total -> 0 <= inTriang ->
  newPointsNeeded needed total inTriang = Ok n ->
  0 < inTriang /\ n * inTriang <= needed * total < (n + 1) * inTriang.
Proof.
  intros N T I. unfold newPointsNeeded. destruct (inTriang =? 0) eqn:E; [discriminate|].
  destruct ((-2147483648 <=? _) && _); [|discriminate]. intros H. injection H as <-.
  assert (P : 0 < inTriang) by lia. split; [exact P|].
  rewrite Z.quot_div_nonneg by nia. pose proof (Z.div_mod (needed * total) inTriang ltac:(lia)).
  pose proof (Z.mod_pos_bound (needed * total) inTriang P). nia.
Qed.

Lemma immature_dev p : b_dev (immature w h ph p) = DevInf.
Proof. reflexivity. Qed.
End Terrain.

Lemma spherical_inv needed s pose f : 0 <= needed ->
  spherical_points unmap w h ph needed (c_spherical s) (c_again s) (first_points w h ph pose (c_image s) (c_first s)) = Ok f ->
  f_pose f = pose /\ f_image f = c_image s /\ f_opt f = [] /\ initial_points unmap w h ph needed s f.
Proof.
  intros N. unfold spherical_points. intros H. apply bind_inv in H. destruct H as (n & H1 & H).
  apply bind_inv in H. destruct H as (n2 & H2 & H). injection H as <-.
  unfold first_points in *. cbn [f_imm f_pose f_image f_opt with_lists selectPointsDenser] in *.
  split; [reflexivity|]. split; [reflexivity|]. split; [reflexivity|].
  pose proof (round_one (c_spherical s) (set_dev (Dev 1)) (c_first s) (fun p => conj eq_refl eq_refl)) as R1.
  pose proof (round_one (c_spherical s) (fun p => p) (c_again s n) (fun p => conj eq_refl eq_refl)) as R2.
  rewrite map_id in R2.
  set (r1 := one_round unmap (c_spherical s) (map (set_dev (Dev 1)) (addImmatures w h ph (c_first s) []))) in *.
  set (r2 := one_round unmap (c_spherical s) (addImmatures w h ph (c_again s n) [])) in *.
  apply needed_spec in H1; [|exact N|lia|lia]. apply needed_spec in H2; [|exact N|lia|lia].
  exists (Z.of_nat (length r1)), n. split; [eapply hit_count_of; exact R1|]. split; [apply H1|].
  split; [|split].
  - destruct H1 as [_ H1]. rewrite map_length in H1. unfold addImmatures in H1. cbn [app] in H1.
    rewrite map_length in H1. exact H1.
  - exact R2.
  - intros E. cbn [f_imm with_lists selectPointsDenser] in E. rewrite E in H2. cbn in H2. lia.
Qed.

Lemma create_spherical needed g a b f0 f1 obs : 0 <= needed -> rigid g ->
  createKeyFrames unmap w h false ph needed g a b = Ok (f0, f1, obs) ->
  obs = true /\ f_pose f0 = sid /\ (forall v, act g (act (f_pose f1) v) = v) /\
  f_image f0 = c_image a /\ f_image f1 = c_image b /\ f_opt f0 = [] /\ f_opt f1 = [] /\
  initial_points unmap w h ph needed a f0 /\ initial_points unmap w h ph needed b f1.
Proof.
  intros N R H. unfold createKeyFrames in H. apply bind_inv in H. destruct H as (g0 & H0 & H).
  apply bind_inv in H. destruct H as (g1 & H1 & H). injection H as <- <- <-.
  apply spherical_inv in H0; [|exact N]. apply spherical_inv in H1; [|exact N].
  destruct H0 as (P0 & I0 & O0 & X0), H1 as (P1 & I1 & O1 & X1).
  split; [reflexivity|]. split; [exact P0|]. split; [|auto 10].
  intros v. rewrite P1, <- act_mul, sinv_r, act_id by exact R. reflexivity.
Qed.

Lemma sublist_in {A B} (keep : A -> B -> Prop) drop l l' b : sublist_by keep drop l l' -> In b l' -> exists a, In a l /\ keep a b.
Proof.
  induction 1 as [|a c l l' K S IH|a l l' D S IH]; intros I; [destruct I| |].
  - destruct I as [<- |I]; [exists a; split; [now left|exact K]|].
    destruct (IH I) as (x & X & Y). exists x. split; [now right|exact Y].
  - destruct (IH I) as (x & X & Y). exists x. split; [now right|exact Y].
Qed.

Lemma initial_point needed s f p : initial_points unmap w h ph needed s f -> In p (f_imm f) ->
  b_state p = ACTIVE /\ b_dev p = DevInf /\ b_depth p <> None.
Proof.
  intros (it & n & _ & _ & _ & S & _) I. eapply sublist_in in I; [|exact S].
  destruct I as (a & _ & d & _ & (_ & D & _ & A & V)). rewrite D. repeat split; auto. discriminate.
Qed.

(** ready for the tracker, but without deviations *)
Lemma spherical_ready needed g a b f0 f1 obs n0 n1 bn : 0 <= needed -> rigid g ->
  createKeyFrames unmap w h false ph needed g a b = Ok (f0, f1, obs) ->
  depths_known Immature (initialFrames n0 n1 (f0, f1)) bn /\
  no_deviation Immature (initialFrames n0 n1 (f0, f1)).
Proof.
  intros N R H. apply create_spherical in H; auto. destruct H as (_ & _ & _ & _ & _ & _ & _ & X0 & X1).
  split.
  - intros n f p [I|[I|[]]] P _; injection I as <- <-; cbn [getPoints fst snd] in P.
    + now apply (initial_point needed a f0).
    + now apply (initial_point needed b f1).
  - intros n f p [I|[I|[]]] P; injection I as <- <-; cbn [getPoints fst snd] in P.
    + now apply (initial_point needed a f0).
    + now apply (initial_point needed b f1).
Qed.

(** no pixel of the first selection hits: undefined *)
Lemma no_hit needed g a b : (forall p, In p (c_first a) -> ~ exists d, hits unmap w h ph (c_spherical a) p d) ->
  createKeyFrames unmap w h false ph needed g a b = UB.
Proof.
  intros H. unfold createKeyFrames, spherical_points. cbn [f_imm first_points].
  pose proof (round_one (c_spherical a) (set_dev (Dev 1)) (c_first a) (fun p => conj eq_refl eq_refl)) as R1.
  set (r1 := one_round unmap (c_spherical a) (map (set_dev (Dev 1)) (addImmatures w h ph (c_first a) []))) in *.
  assert (E : r1 = []).
  { destruct r1 as [|q r]; [reflexivity|]. destruct (sublist_in _ _ _ _ q R1 (or_introl eq_refl)) as (x & X & d & D & _).
    elim (H x X). eauto. }
  rewrite E. reflexivity.
Qed.

(** ** Plain mode *)

Lemma plain_all (terrain : Q * Q -> option R) sel :
  Forall2 (plain_point terrain) sel (map (plain_depth terrain) (map (set_dev (Dev 1)) (addImmatures w h ph sel []))).
Proof.
  unfold addImmatures. cbn [app]. rewrite !map_map. induction sel as [|p sel IH]; cbn [map]; constructor; auto.
  unfold plain_depth, plain_point. cbn [b_pos set_dev immature]. fold (toVec2 p).
  destruct (terrain (toVec2 p)) as [d|] eqn:T; cbn; rewrite ?T; (split; [reflexivity|]); (split; [reflexivity|]);
    (split; [reflexivity|]); split; try discriminate; split; intros; try discriminate; try reflexivity. contradiction.
Qed.

Lemma create_plain needed g a b : rigid g -> exists f0 f1,
  createKeyFrames unmap w h true ph needed g a b = Ok (f0, f1, false) /\
  f_pose f0 = sid /\ (forall v, act g (act (f_pose f1) v) = v) /\
  f_image f0 = c_image a /\ f_image f1 = c_image b /\ f_opt f0 = [] /\ f_opt f1 = [] /\
  Forall2 (plain_point (c_plain a)) (c_first a) (f_imm f0) /\
  Forall2 (plain_point (c_plain b)) (c_first b) (f_imm f1).
Proof.
  intros R. eexists. eexists. split; [reflexivity|]. cbn [f_pose f_image f_opt f_imm with_lists first_points].
  split; [reflexivity|]. split; [intros v; rewrite <- act_mul, sinv_r, act_id by exact R; reflexivity|].
  repeat split; apply plain_all.
Qed.

Lemma plain_border needed g a b f0 f1 obs p : rigid g ->
  createKeyFrames unmap w h true ph needed g a b = Ok (f0, f1, obs) ->
  In p (c_first a) -> ~ well_inside w h ph p -> c_plain a (toVec2 p) <> None ->
  exists q, In q (f_imm f0) /\ b_pos q = toVec2 p /\ b_state q = ACTIVE.
Proof.
  intros R C I _ T. destruct (create_plain needed g a b R) as (f0' & f1' & C' & _ & _ & _ & _ & _ & _ & X0 & _).
  rewrite C in C'. injection C' as <- <- _. clear - X0 I T. induction X0 as [|x y l l' X F IH]; [destruct I|].
  destruct I as [<- |I].
  - exists y. destruct X as (P & _ & D & A & _). split; [now left|]. split; [exact P|]. apply A. rewrite D, P. exact T.
  - destruct (IH I) as (q & Q & H). exists q. split; [now right|exact H].
Qed.

Lemma Forall2_left {A B} (P : A -> B -> Prop) l l' a : Forall2 P l l' -> In a l -> exists b, In b l' /\ P a b.
Proof.
  induction 1 as [|x y l l' X F IH]; intros I; [destruct I|]. destruct I as [<- |I].
  - exists y. split; [now left|exact X].
  - destruct (IH I) as (z & Z & P'). exists z. split; [now right|exact P'].
Qed.

(** a selected pixel outside the terrain of the frame that is not the base *)
Lemma plain_undefined needed g a b f0 f1 obs (fromLast : bool) L n0 n1 p : rigid g -> n0 <> n1 ->
  createKeyFrames unmap w h true ph needed g a b = Ok (f0, f1, obs) ->
  let s := if fromLast then a else b in
  In p (c_first s) -> c_plain s (toVec2 p) = None ->
  trackerReference cmap unmap w h Initialized fromLast L (initialFrames n0 n1 (f0, f1)) = UB.
Proof.
  intros R NE C s I T. destruct (create_plain needed g a b R) as (f0' & f1' & C' & _ & _ & _ & _ & _ & _ & X0 & X1).
  rewrite C in C'. injection C' as <- <- _.
  set (bf := if fromLast then f1 else f0). set (bn := if fromLast then n1 else n0).
  assert (B : is_base fromLast (initialFrames n0 n1 (f0, f1)) bn bf).
  { unfold is_base, initialFrames, bf, bn. destruct fromLast; cbn [fst snd]; [exists [(n0, f0)]|exists [], (n1, f1)]; reflexivity. }
  unfold trackerReference. rewrite (base_of _ _ _ _ B). cbn [bind point_kind].
  rewrite (project_undefined cmap unmap w h Immature fromLast _ unfilled_init bn bf B); [reflexivity|discriminate|].
  intros K. subst s bn. destruct fromLast.
  - destruct (Forall2_left _ _ _ _ X0 I) as (q & Q & (PQ & _ & DQ & _)).
    apply (K n0 f0 q); [now left|exact Q|intros E; now elim NE|]. rewrite DQ, PQ. exact T.
  - destruct (Forall2_left _ _ _ _ X1 I) as (q & Q & (PQ & _ & DQ & _)).
    apply (K n1 f1 q); [right; now left|exact Q|intros E; now elim NE|]. rewrite DQ, PQ. exact T.
Qed.

(** ** Activating and deactivating *)

Lemma optimized_all_ok ps : Forall positive_depth ps -> exists qs, optimized_all ps = Ok qs /\ Forall2 activated ps qs.
Proof.
  induction 1 as [|p ps (d & D & P) F (qs & E & IH)].
  - exists []. split; [reflexivity|constructor].
  - eexists. cbn [optimized_all]. unfold optimized_of, read_depth. rewrite D. cbn [bind].
    destruct (Rlt_dec 0 d) as [_|X]; [|contradiction]. cbn [bind]. rewrite E. cbn [bind].
    split; [reflexivity|]. constructor; [|exact IH]. unfold activated. cbn.
    rewrite Ropp_involutive, exp_ln by exact P. auto.
Qed.

Lemma activate_all f : Forall positive_depth (f_imm f) -> exists f' new,
  activateAllImmature f = Ok f' /\ f_imm f' = [] /\ f_opt f' = f_opt f ++ new /\
  Forall2 activated (f_imm f) new /\ f_pose f' = f_pose f /\ f_image f' = f_image f.
Proof.
  intros H. destruct (optimized_all_ok _ H) as (qs & E & F). unfold activateAllImmature. rewrite E. cbn [bind].
  exists (with_lists f [] (f_opt f ++ qs)), qs. repeat split; auto.
Qed.

Lemma activate_revives f p : Forall positive_depth (f_imm f) -> In p (f_imm f) -> b_state p <> ACTIVE ->
  exists f' q, activateAllImmature f = Ok f' /\ In q (f_opt f') /\ b_pos q = b_pos p /\ b_depth q = b_depth p /\ b_state q = ACTIVE.
Proof.
  intros H I _. destruct (activate_all f H) as (f' & new & E & _ & O & F & _).
  destruct (Forall2_left _ _ _ _ F I) as (q & Q & (P & D & _ & S)).
  exists f', q. split; [exact E|]. split; [rewrite O; apply in_or_app; now right|]. auto.
Qed.

Lemma demoted_of p : demoted w h ph p (deactivated w h ph p).
Proof using Type. clear cmap unmap.
  unfold demoted, deactivated. cbn. repeat (split; [reflexivity|]).
  destruct (isOnImage w h (b_pos p) ph) eqn:O; unfold isOnImage in O.
  - rewrite !andb_true_iff, !Qle_bool_iff in O. split; [discriminate|]. tauto.
  - split; [discriminate|]. split; [discriminate|]. intros H. exfalso.
    destruct H as [[H1 H2] [H3 H4]]. apply Qle_bool_iff in H1, H2, H3, H4. rewrite H1, H2, H3, H4 in O. discriminate.
Qed.

Lemma deactivate_all f : exists new, f_imm (deactivateAllOptimized w h ph f) = f_imm f ++ new /\
  Forall2 (demoted w h ph) (f_opt f) new /\ f_opt (deactivateAllOptimized w h ph f) = [].
Proof.
  exists (map (deactivated w h ph) (f_opt f)). split; [reflexivity|]. split; [|reflexivity].
  induction (f_opt f) as [|p l IH]; cbn [map]; constructor; auto. apply demoted_of.
Qed.

Lemma activate_unknown f p : In p (f_imm f) -> b_depth p = None -> activateAllImmature f = UB.
Proof.
  intros I D. unfold activateAllImmature.
  assert (E : optimized_all (f_imm f) = UB); [|now rewrite E].
  induction (f_imm f) as [|q l IH]; [destruct I|]. cbn [optimized_all].
  destruct I as [-> |I].
  - unfold optimized_of, read_depth. rewrite D. reflexivity.
  - destruct (optimized_of q) as [x| | | |] eqn:Q;
      try (unfold optimized_of, read_depth in Q; destruct (b_depth q) as [d|]; cbn [bind] in Q; try discriminate;
           destruct (Rlt_dec 0 d); discriminate); cbn [bind]; [|reflexivity].
    rewrite (IH I). reflexivity.
Qed.

End Init.
