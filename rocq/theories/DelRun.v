(** Runs of the construction: frames, the walk, and the queue of edges. *)
From Coq Require Import ZArith List Bool Arith Lia Reals Lra.
From Verif Require Import Outcome DelModel DelSpec DelFields DelRewire DelFlip DelFlip2 DelDivide DelSplit DelHist DelPlaneSpec DelPlane DelGen.
Import ListNotations.
Open Scope nat_scope.

Section Frame.
Context {P : Type}.
Implicit Types m : mesh P.

(** no operation on edges and triangles touches the vertices *)
Definition framed m m' : Prop := nv m' = nv m /\ POS m' = POS m /\ IDX m' = IDX m.

Lemma framed_refl m : framed m m.
Proof. repeat split. Qed.
Lemma framed_trans a b c : framed a b -> framed b c -> framed a c.
Proof. intros (A1 & A2 & A3) (B1 & B2 & B3). repeat split; congruence. Qed.
Lemma fr_setEV m a b c : framed m (setEV m a b c). Proof. repeat split. Qed.
Lemma fr_setET m a b c : framed m (setET m a b c). Proof. repeat split. Qed.
Lemma fr_setTV m a b c : framed m (setTV m a b c). Proof. repeat split. Qed.
Lemma fr_setTE m a b c : framed m (setTE m a b c). Proof. repeat split. Qed.
Lemma fr_insE m a b : framed m (insE m a b). Proof. repeat split. Qed.
Lemma fr_insT m a b : framed m (insT m a b). Proof. repeat split. Qed.
Lemma fr_delE m a b : framed m (delE m a b). Proof. repeat split. Qed.
Lemma fr_delT m a b : framed m (delT m a b). Proof. repeat split. Qed.
Lemma fr_makeEdges m k : framed m (makeEdges m k). Proof. repeat split. Qed.
Lemma fr_makeTriangles m k : framed m (makeTriangles m k). Proof. repeat split. Qed.

Lemma fr_for2 (f : mesh P -> nat -> mesh P) m0 m : (forall k i, framed k (f k i)) -> framed m0 m -> framed m0 (for2 f m).
Proof. intros F H. unfold for2. eapply framed_trans; [exact H|]. eapply framed_trans; apply F. Qed.
Lemma fr_for3 (f : mesh P -> nat -> mesh P) m0 m : (forall k i, framed k (f k i)) -> framed m0 m -> framed m0 (for3 f m).
Proof. intros F H. unfold for3. eapply framed_trans; [exact H|]. eapply framed_trans; [apply F|]. eapply framed_trans; apply F. Qed.

Lemma fr_flip_sides e o a n k m i : framed m (flip_sides e o a n k m i).
Proof. unfold flip_sides. destruct (_ =? e); [apply framed_refl|]. eapply framed_trans; [apply fr_setET|apply fr_setTE]. Qed.

Ltac frames := cbv beta zeta; repeat match goal with
  | |- framed ?a ?b => constr_eq a b; exact (framed_refl a)
  | |- framed ?a (for2 ?f ?m) => refine (fr_for2 f a m _ _); [intros; cbv beta zeta|]
  | |- framed ?a (for3 ?f ?m) => refine (fr_for3 f a m _ _); [intros; cbv beta zeta|]
  | |- framed ?a (setEV ?m ?x ?y ?z) => refine (framed_trans a m _ _ (fr_setEV m x y z))
  | |- framed ?a (setET ?m ?x ?y ?z) => refine (framed_trans a m _ _ (fr_setET m x y z))
  | |- framed ?a (setTV ?m ?x ?y ?z) => refine (framed_trans a m _ _ (fr_setTV m x y z))
  | |- framed ?a (setTE ?m ?x ?y ?z) => refine (framed_trans a m _ _ (fr_setTE m x y z))
  | |- framed ?a (insE ?m ?x ?y) => refine (framed_trans a m _ _ (fr_insE m x y))
  | |- framed ?a (insT ?m ?x ?y) => refine (framed_trans a m _ _ (fr_insT m x y))
  | |- framed ?a (delE ?m ?x ?y) => refine (framed_trans a m _ _ (fr_delE m x y))
  | |- framed ?a (delT ?m ?x ?y) => refine (framed_trans a m _ _ (fr_delT m x y))
  | |- framed ?a (makeEdges ?m ?x) => refine (framed_trans a m _ _ (fr_makeEdges m x))
  | |- framed ?a (makeTriangles ?m ?x) => refine (framed_trans a m _ _ (fr_makeTriangles m x))
  | |- framed ?a (flip_sides ?e ?o ?b ?n ?k ?m ?i) => refine (framed_trans a m _ _ (fr_flip_sides e o b n k m i))
  end.

Lemma fr_performFlip m e m' : performFlip m e = Ok m' -> framed m m'.
Proof.
  unfold performFlip. destruct (findThirdVert m (ET m e 0) e) as [c| | | |]; cbn [bind]; try discriminate.
  destruct (findThirdVert m (ET m e 1) e) as [d| | | |]; cbn [bind]; try discriminate.
  destruct (ET m e 0) as [o0|]; [|discriminate]. destruct (ET m e 1) as [o1|]; [|discriminate]. intros H. injection H as <-.
  frames.
Qed.

Lemma fr_divideTriangle m t v m' : divideTriangle m t v = Ok m' -> framed m m'.
Proof.
  unfold divideTriangle. destruct (findOppositeEdge m t (TV m t 0)) as [x0| | | |]; cbn [bind]; try discriminate.
  destruct (findOppositeEdge m t (TV m t 1)) as [x1| | | |]; cbn [bind]; try discriminate.
  destruct (findOppositeEdge m t (TV m t 2)) as [x2| | | |]; cbn [bind]; try discriminate. intros H. injection H as <-.
  frames.
Qed.

Lemma fr_divideEdge m t v m' : divideEdge m t v = Ok m' -> framed m m'.
Proof.
  unfold divideEdge. destruct (findThirdVert m (ET m t 0) t) as [c| | | |]; cbn [bind]; try discriminate.
  destruct (findThirdVert m (ET m t 1) t) as [d| | | |]; cbn [bind]; try discriminate.
  destruct (ET m t 0) as [o0|]; [|discriminate]. destruct (ET m t 1) as [o1|]; [|discriminate].
  do 4 (match goal with [ |- bind ?x _ = _ -> _ ] => destruct x; cbn [bind]; try discriminate end). intros H. injection H as <-.
  unfold split_sides, split_corners, split_forget, split_inc, split_apart. frames.
Qed.

Variable g : geometry P.

Lemma fr_legalize v : forall fuel m queue m', legalize g v fuel m queue = Ok m' -> framed m m'.
Proof.
  induction fuel as [|fuel IH]; intros m queue m' H; [discriminate|]. cbn [legalize] in H. destruct queue as [|e q].
  - injection H as <-. apply framed_refl.
  - destruct (isEdgeLegal g m e) as [b| | | |]; cbn [bind] in H; try discriminate. destruct b; [apply (IH _ _ _ H)|].
    destruct (ET m e 0) as [t0|]; [|discriminate]. destruct (if isIncidentT m v t0 then ET m e 1 else Some t0) as [o|]; [|discriminate].
    destruct (performFlip m e) as [k| | | |] eqn:F; cbn [bind] in H; try discriminate.
    eapply framed_trans; [apply (fr_performFlip _ _ _ F)|apply (IH _ _ _ H)].
Qed.

Lemma fr_addPoint m v fs coin fuel m' u : addPoint g m v fs coin fuel = Ok (m', u) ->
  framed m m' /\ (u <> v -> m' = m).
Proof.
  unfold addPoint. destruct (enclosingTriangle g m (POS m v) fs coin fuel) as [tri| | | |]; cbn [bind]; try discriminate.
  destruct tri as [t|]; [|discriminate]. destruct (find _ _) as [w|]; [intros H; injection H as <- <-; split; [apply framed_refl|reflexivity]|].
  destruct (insertPoint g m t v) as [[k q]| | | |] eqn:I; cbn [bind]; try discriminate. cbn [fst snd].
  destruct (legalize g v fuel k q) as [r| | | |] eqn:L; cbn [bind]; try discriminate. intros H. injection H as <- <-.
  split; [|congruence]. apply fr_legalize in L. eapply framed_trans; [|exact L]. clear L.
  unfold insertPoint in I. destruct (fold_left _ _ None) as [s|].
  - destruct (ET m s 0); [|discriminate]. destruct (ET m s 1); [|discriminate]. destruct (divideEdge m s v) as [r'| | | |] eqn:D; cbn [bind] in I; try discriminate.
    injection I as <- <-. apply (fr_divideEdge _ _ _ _ D).
  - destruct (containsT g m t (POS m v)); [|discriminate]. destruct (divideTriangle m t v) as [r'| | | |] eqn:D; cbn [bind] in I; try discriminate.
    injection I as <- <-. apply (fr_divideTriangle _ _ _ _ D).
Qed.

(** ** The indices (no assumption on the geometry) *)
Variables (ch : choices) (fuel : nat) (n : Z).

Lemma insert_app l2 : forall l1 i m inv,
  insert_all g ch fuel (l1 ++ l2) i m inv n = bind (insert_all g ch fuel l1 i m inv n) (fun r => insert_all g ch fuel l2 (i + length l1) (fst r) (snd r) n).
Proof.
  induction l1 as [|[ind p] l1 IH]; intros i m inv; cbn [app insert_all length bind fst snd].
  - rewrite Nat.add_0_r. reflexivity.
  - destruct (addPoint _ _ _ _ _ _) as [[k u]| | | |]; cbn [bind]; try reflexivity. replace (i + S (length l1)) with (S i + length l1) by lia.
    destruct (u =? nv m); [apply IH|]. destruct (_ && _)%Z; [apply IH|reflexivity].
Qed.

(** one insertion *)
Lemma insert_one ind p i m inv m' inv' : insert_all g ch fuel [(ind, p)] i m inv n = Ok (m', inv') ->
  (nv m' = S (nv m) /\ (forall u, u < nv m -> POS m' u = POS m u /\ IDX m' u = IDX m u) /\ POS m' (nv m) = p /\ IDX m' (nv m) = ind /\
    inv' ind = (Z.of_nat i + 3)%Z /\ forall k, k <> ind -> inv' k = inv k) \/
  (nv m' = nv m /\ (forall u, u < nv m -> POS m' u = POS m u /\ IDX m' u = IDX m u) /\ forall k, k <> ind -> inv' k = inv k).
Proof.
  cbn [insert_all]. destruct (addPoint _ _ _ _ _ _) as [[k u]| | | |] eqn:A; cbn [bind]; try discriminate.
  apply fr_addPoint in A. destruct A as [(F1 & F2 & F3) A].
  assert (OLD : forall w, w < nv m -> POS k w = POS m w /\ IDX k w = IDX m w).
  { intros w W. rewrite F2, F3. cbn. unfold upd. assert (w =? nv m = false) as -> by (apply Nat.eqb_neq; lia). auto. }
  destruct (u =? nv m) eqn:E.
  - intros H. injection H as <- <-. left. split; [exact F1|]. split; [exact OLD|].
    rewrite F2, F3. cbn. unfold upd. rewrite Nat.eqb_refl, Z.eqb_refl. split; [reflexivity|]. split; [reflexivity|]. split; [reflexivity|].
    intros j J. apply Z.eqb_neq in J. rewrite J. reflexivity.
  - destruct (_ && _)%Z; [|discriminate]. intros H. injection H as <- <-. right. split; [cbn; rewrite F1; reflexivity|]. split; [exact OLD|].
    intros j J. apply Z.eqb_neq in J. rewrite J. reflexivity.
Qed.

Lemma ok_app {A B} (x : outcome A) (f : A -> outcome B) y : bind x f = Ok y -> exists z, x = Ok z /\ f z = Ok y.
Proof. destruct x; cbn [bind]; intros H; try discriminate. eexists. split; [reflexivity|exact H]. Qed.

(** all insertions *)
Lemma insert_frame : forall order i m inv m' inv', insert_all g ch fuel order i m inv n = Ok (m', inv') ->
  nv m <= nv m' <= nv m + length order /\ (forall u, u < nv m -> POS m' u = POS m u /\ IDX m' u = IDX m u) /\
  (forall k, ~ In k (map fst order) -> inv' k = inv k).
Proof.
  induction order as [|[ind p] order IH]; intros i m inv m' inv' H.
  - cbn [insert_all] in H. injection H as <- <-. cbn. repeat split; lia || auto.
  - change ((ind, p) :: order) with ([(ind, p)] ++ order) in H. rewrite insert_app in H. apply ok_app in H. destruct H as ([k iv] & H1 & H2).
    cbn [fst snd] in H2. apply insert_one in H1. apply IH in H2. destruct H2 as (N & U & K). cbn [length map fst In].
    destruct H1 as [(N1 & U1 & _ & _ & _ & K1)|(N1 & U1 & K1)]; rewrite N1 in *; (split; [lia|]); split.
    + intros u Hu. destruct (U u ltac:(lia)) as [-> ->]. apply U1, Hu.
    + intros j J. rewrite K by tauto. apply K1. intros ->. tauto.
    + intros u Hu. destruct (U u ltac:(lia)) as [-> ->]. apply U1, Hu.
    + intros j J. rewrite K by tauto. apply K1. intros ->. tauto.
Qed.

(** nothing dropped: the point number k of the order is vertex number nv + k and its index leads there *)
Lemma insert_kept : forall order i m inv m' inv', insert_all g ch fuel order i m inv n = Ok (m', inv') ->
  NoDup (map fst order) -> nv m' = nv m + length order -> nv m = i + 3 ->
  forall k ind p, nth_error order k = Some (ind, p) -> POS m' (nv m + k) = p /\ IDX m' (nv m + k) = ind /\ inv' ind = Z.of_nat (nv m + k).
Proof.
  induction order as [|[ind0 p0] order IH]; intros i m inv m' inv' H ND NV NI k ind p K.
  - destruct k; discriminate.
  - change ((ind0, p0) :: order) with ([(ind0, p0)] ++ order) in H. rewrite insert_app in H. apply ok_app in H. destruct H as ([q iv] & H1 & H2).
    cbn [fst snd length] in *. apply insert_one in H1. pose proof (insert_frame _ _ _ _ _ _ H2) as (N & U & V). cbn [map fst] in ND. apply NoDup_cons_iff in ND. destruct ND as [NI0 ND].
    destruct H1 as [(N1 & U1 & P1 & I1 & V1 & K1)|(N1 & U1 & K1)]; [|lia].
    destruct k as [|k].
    + cbn in K. injection K as <- <-. rewrite Nat.add_0_r. destruct (U (nv m) ltac:(lia)) as [-> ->]. split; [exact P1|]. split; [exact I1|].
      rewrite (V _ NI0), V1. lia.
    + cbn in K. replace (nv m + S k) with (nv q + k) by lia. apply (IH (i + 1) q iv); auto; lia.
Qed.

(** dropped before another accepted one: an accepted index leads nowhere *)
Lemma insert_drop : forall l2 l1 m inv m1 inv1 m2 inv2, insert_all g ch fuel l1 0 m inv n = Ok (m1, inv1) ->
  insert_all g ch fuel (l1 ++ l2) 0 m inv n = Ok (m2, inv2) ->
  NoDup (map fst (l1 ++ l2)) -> nv m1 < 3 + length l1 -> nv m1 < nv m2 ->
  exists ind v, In ind (map fst l2) /\ nv m1 <= v < nv m2 /\ IDX m2 v = ind /\ (Z.of_nat (nv m2) <= inv2 ind)%Z.
Proof.
  induction l2 as [|[ind p] l2 IH] using rev_ind; intros l1 m inv m1 inv1 m2 inv2 H1 H2 ND DR AC.
  - rewrite app_nil_r in H2. rewrite H1 in H2. injection H2 as -> ->. lia.
  - rewrite app_assoc in H2, ND. rewrite insert_app in H2. apply ok_app in H2. destruct H2 as ([q iq] & HQ & H2). cbn [fst snd] in H2.
    pose proof HQ as HL. rewrite insert_app, H1 in HL. cbn [bind fst snd] in HL. apply insert_frame in HL. destruct HL as (NQ & _ & _).
    rewrite map_app in ND. cbn [map fst] in ND. pose proof (NoDup_remove_2 _ _ _ ND) as NI. pose proof (NoDup_remove_1 _ _ _ ND) as ND'. rewrite app_nil_r in NI, ND'.
    apply insert_one in H2. rewrite app_length in H2. destruct H2 as [(N1 & U1 & P1 & I1 & V1 & K1)|(N1 & U1 & K1)].
    + exists ind, (nv q). split; [rewrite map_app; apply in_or_app; right; left; reflexivity|]. split; [lia|]. split; [exact I1|]. rewrite V1. lia.
    + destruct (IH l1 m inv m1 inv1 q iq H1 HQ ND' DR ltac:(lia)) as (j & v & J & V & IV & L). exists j, v.
      split; [rewrite map_app; apply in_or_app; left; exact J|]. split; [lia|]. destruct (U1 v ltac:(lia)) as [_ ->]. split; [exact IV|].
      rewrite K1; [lia|]. intros ->. apply NI. rewrite map_app. apply in_or_app. right. exact J.
Qed.
End Frame.
