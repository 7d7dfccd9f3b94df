(** Proofs of C95. *)
From Coq Require Import Reals ZArith List Bool Lia Lra Sorting.Sorted ZifyBool Psatz.
From Verif Require Import Outcome Dbl Pose PoseProofs GeomModel CamModel CalModel GtModel GtSampleModel GtSampleSpec.
Import ListNotations.
Open Scope Z_scope.

(** ** The step *)
Lemma ceil_spec x : exists z, ceil x = IZR z /\ (IZR z - 1 < x <= IZR z)%R.
Proof.
  unfold ceil. exists (- Int_part (- x)). split; [rewrite opp_IZR; reflexivity|].
  destruct (base_Int_part (- x)) as [A B]. rewrite opp_IZR. lra.
Qed.

Lemma trunc_IZR z : trunc (IZR z) = z.
Proof.
  unfold trunc.
  assert (Hi : forall n, Int_part (IZR n) = n).
  { intros n. unfold Int_part. assert (E : up (IZR n) = n + 1); [|lia].
    symmetry. apply tech_up; rewrite plus_IZR; lra. }
  destruct (Rlt_dec (IZR z) 0); [rewrite <- opp_IZR, Hi; lia|apply Hi].
Qed.

Lemma to_int_IZR z r : to_int (IZR z) = Ok r -> r = z.
Proof.
  unfold to_int. destruct (Rlt_dec _ _); [|discriminate]. destruct (Rlt_dec _ _); [|discriminate].
  rewrite trunc_IZR. congruence.
Qed.

Lemma to_int_ok z : -2147483648 <= z <= INT_MAX -> to_int (IZR z) = Ok z.
Proof.
  unfold INT_MAX. intros H. unfold to_int.
  destruct (Rlt_dec _ _) as [_|N].
  2:{ exfalso. apply N. apply IZR_lt. lia. }
  destruct (Rlt_dec _ _) as [_|N].
  2:{ exfalso. apply N. apply IZR_lt. lia. }
  rewrite trunc_IZR. reflexivity.
Qed.

Lemma sqrt_le_Z q z : (0 <= q)%R -> 0 <= z -> (sqrt q <= IZR z)%R <-> (q <= IZR (z * z))%R.
Proof.
  intros Hq Hz. apply IZR_le in Hz. rewrite mult_IZR. split; intros H.
  - rewrite <- (sqrt_sqrt q Hq). apply Rmult_le_compat; auto using sqrt_pos.
  - rewrite <- (sqrt_square (IZR z) Hz). apply sqrt_le_1_alt. exact H.
Qed.

Section Step.
Variables count w h gt : Z.
Hypothesis Hc : 0 < count.
Hypothesis Hw : 0 < w.
Hypothesis Hh : 0 < h.
Hypothesis Hg : 0 < gt.
Let q := (IZR count * IZR w * IZR h / IZR gt)%R.

Lemma q_pos : (0 < q)%R.
Proof.
  unfold q. apply Rdiv_lt_0_compat; [|apply IZR_lt; exact Hg].
  repeat apply Rmult_lt_0_compat; apply IZR_lt; assumption.
Qed.

Lemma q_le z : (q <= IZR z)%R <-> count * w * h <= gt * z.
Proof.
  assert (Pg : (0 < IZR gt)%R) by (apply IZR_lt; exact Hg).
  unfold q. rewrite <- !mult_IZR. split; intros H.
  - apply le_IZR. rewrite (mult_IZR gt). apply Rmult_le_reg_r with (/ IZR gt)%R; [apply Rinv_0_lt_compat; exact Pg|].
    replace (IZR gt * IZR z * / IZR gt)%R with (IZR z) by (field; lra). exact H.
  - apply IZR_le in H. rewrite (mult_IZR gt) in H. apply Rmult_le_reg_r with (IZR gt); [exact Pg|].
    unfold Rdiv. rewrite Rmult_assoc, Rinv_l, Rmult_1_r, Rmult_comm by lra. lra.
Qed.

Lemma step_ceil z : ceil (sqrt q) = IZR z -> (IZR z - 1 < sqrt q <= IZR z)%R -> least_step count w h gt z.
Proof.
  intros E [B1 B2]. pose proof q_pos as Pq. pose proof (sqrt_lt_R0 _ Pq) as Ps.
  assert (Hz : 0 < z) by (apply lt_IZR; lra).
  split; [exact Hz|]. split.
  - apply q_le. apply sqrt_le_Z; [lra|lia|exact B2].
  - intros t Ht. destruct (Z.lt_ge_cases (gt * (t * t)) (count * w * h)) as [L|L]; [exact L|exfalso].
    apply q_le, sqrt_le_Z in L; [|lra|lia].
    assert (IZR t <= IZR z - 1)%R; [|lra]. rewrite <- minus_IZR. apply IZR_le. lia.
Qed.

Lemma step_least s : sample_step count w h gt = Ok s -> least_step count w h gt s.
Proof.
  unfold sample_step. destruct (Z.eqb_spec gt 0) as [->|_]; [lia|]. fold q.
  destruct (Rlt_dec q 0) as [N|_]; [discriminate|].
  destruct (ceil_spec (sqrt q)) as (z & E & B). rewrite E. intros H. apply to_int_IZR in H. subst s.
  apply step_ceil; assumption.
Qed.

Lemma least_unique s t : least_step count w h gt s -> least_step count w h gt t -> s = t.
Proof.
  intros (A1 & A2 & A3) (B1 & B2 & B3).
  destruct (Z.lt_trichotomy s t) as [L|[L|L]]; [|exact L|].
  - specialize (B3 s). lia.
  - specialize (A3 t). lia.
Qed.

Lemma step_total s : least_step count w h gt s -> s <= INT_MAX -> sample_step count w h gt = Ok s.
Proof.
  intros L Hs. unfold sample_step. destruct (Z.eqb_spec gt 0) as [->|_]; [lia|]. fold q.
  pose proof q_pos as Pq. destruct (Rlt_dec q 0) as [N|_]; [lra|].
  destruct (ceil_spec (sqrt q)) as (z & E & B). rewrite E.
  rewrite (least_unique _ _ L (step_ceil z E B)) in *. apply to_int_ok. destruct (step_ceil z E B). lia.
Qed.
End Step.

Lemma step_zero_gt count w h : sample_step count w h 0 = UB.
Proof. reflexivity. Qed.
Lemma step_negative_gt count w h gt : 0 < count -> 0 < w -> 0 < h -> gt < 0 -> sample_step count w h gt = UB.
Proof.
  intros Hc Hw Hh Hg. unfold sample_step. destruct (Z.eqb_spec gt 0) as [->|_]; [lia|].
  destruct (Rlt_dec _ _) as [_|N]; [reflexivity|]. exfalso. apply N.
  replace (IZR count * IZR w * IZR h / IZR gt)%R with (- (IZR count * IZR w * IZR h / - IZR gt))%R.
  2:{ field. apply IZR_lt in Hg. lra. }
  apply Ropp_lt_gt_0_contravar. apply Rdiv_lt_0_compat; [|apply IZR_lt in Hg; lra].
  repeat apply Rmult_lt_0_compat; apply IZR_lt; assumption.
Qed.

(** ** Loop counters *)
Lemma counter_spec step limit : 0 < step -> forall fuel pos l, counter fuel pos step limit = Ok l ->
  StronglySorted Z.lt l /\ (forall x, In x l <-> pos <= x < limit /\ (step | x - pos)) /\
  Z.of_nat (length l) * step <= Z.max 0 (limit - pos + step - 1) /\
  ((step | limit - pos) -> pos <= limit -> Z.of_nat (length l) * step = limit - pos).
Proof.
  intros Hs fuel. induction fuel as [|f IH]; intros pos l; simpl.
  - destruct (Z.ltb_spec pos limit); [discriminate|]. intros E. injection E as <-.
    split; [constructor|]. split; [|split; [simpl; lia|simpl; lia]]. intros x. simpl. split; [tauto|lia].
  - destruct (Z.ltb_spec pos limit) as [L|L].
    + destruct (INT_MAX <? pos + step); [discriminate|].
      destruct (counter f (pos + step) step limit) as [r| | | |] eqn:E; simpl; try discriminate.
      intros H. injection H as <-. destruct (IH _ _ E) as (A & B & C & D). split; [|split; [|split]].
      * constructor; [exact A|]. apply Forall_forall. intros x Hx. apply B in Hx. lia.
      * intros x. simpl. split.
        -- intros [<-|Hx]; [split; [lia|rewrite Z.sub_diag; apply Z.divide_0_r]|].
           apply B in Hx as [Hx [k Hk]]. split; [lia|]. exists (k + 1). lia.
        -- intros [Hx [k Hk]]. destruct (Z.eq_dec x pos); [left; auto|right]. apply B.
           assert (1 <= k) by nia. split; [nia|]. exists (k - 1). lia.
      * cbn [length]. rewrite Nat2Z.inj_succ. lia.
      * intros [k Hk] _. cbn [length]. rewrite Nat2Z.inj_succ.
        assert (1 <= k) by nia. rewrite Z.mul_succ_l, D; [lia|exists (k - 1); lia|nia].
    + intros E. injection E as <-.
      split; [constructor|]. split; [|split; [simpl; lia|simpl; lia]]. intros x. simpl. split; [tauto|lia].
Qed.

Lemma counter_length step limit : 0 < step -> forall fuel pos l, counter fuel pos step limit = Ok l ->
  Z.of_nat (length l) = Z.max 0 ((limit - pos + step - 1) / step).
Proof.
  intros Hs fuel. induction fuel as [|f IH]; intros pos l; simpl.
  - destruct (Z.ltb_spec pos limit); [discriminate|]. intros E. injection E as <-. cbn [length].
    assert ((limit - pos + step - 1) / step < 1) by (apply Z.div_lt_upper_bound; lia). lia.
  - destruct (Z.ltb_spec pos limit) as [L|L].
    + destruct (INT_MAX <? pos + step); [discriminate|].
      destruct (counter f (pos + step) step limit) as [r| | | |] eqn:E; simpl; try discriminate.
      intros H. injection H as <-. cbn [length]. rewrite Nat2Z.inj_succ, (IH _ _ E).
      replace (limit - pos + step - 1) with (limit - (pos + step) + step - 1 + 1 * step) by lia.
      rewrite Z.div_add by lia.
      assert (0 <= (limit - (pos + step) + step - 1) / step) by (apply Z.div_pos; lia). lia.
    + intros E. injection E as <-. cbn [length].
      assert ((limit - pos + step - 1) / step < 1) by (apply Z.div_lt_upper_bound; lia). lia.
Qed.

Lemma counter_total step limit : 0 < step -> limit + step <= INT_MAX -> forall fuel pos,
  limit - pos <= Z.of_nat fuel -> exists l, counter fuel pos step limit = Ok l.
Proof.
  intros Hs Hm fuel. induction fuel as [|f IH]; intros pos Hf; simpl.
  - destruct (Z.ltb_spec pos limit); [lia|eauto].
  - destruct (Z.ltb_spec pos limit); [|eauto]. destruct (Z.ltb_spec INT_MAX (pos + step)); [lia|].
    destruct (IH (pos + step)) as [r ->]; [lia|]. simpl. eauto.
Qed.

(** ** One frame *)
Lemma normalized_ray u d : u <> vzero -> on_ray u d (vscale d (normalized u)).
Proof.
  intros Hu. unfold normalized.
  assert (Hd : (0 < dot u u)%R).
  { destruct u as [a b c]. unfold dot. simpl. unfold vzero in Hu.
    destruct (Req_dec a 0), (Req_dec b 0), (Req_dec c 0); subst; try nra. congruence. }
  destruct (Rlt_dec 0 (dot u u)) as [_|N]; [|contradiction].
  assert (Hn : (0 < vnorm u)%R) by (apply sqrt_lt_R0; exact Hd).
  assert (Hsq : (vnorm u * vnorm u = dot u u)%R) by (apply sqrt_sqrt; lra).
  split.
  - assert (E : dot (vscale d (vscale (/ vnorm u) u)) (vscale d (vscale (/ vnorm u) u)) = (d * d)%R).
    { replace (dot (vscale d (vscale (/ vnorm u) u)) (vscale d (vscale (/ vnorm u) u)))
        with (d * d * (/ vnorm u * / vnorm u) * dot u u)%R by (unfold dot, vscale; simpl; ring).
      rewrite <- Hsq. field. lra. }
    unfold vnorm at 1. rewrite E. rewrite <- sqrt_Rsqr_abs. reflexivity.
  - exists (d * / vnorm u)%R. pose proof (Rinv_0_lt_compat _ Hn) as Hi. split; [|split; intros Hd0].
    2:{ apply Rmult_le_pos; lra. }
    2:{ clear - Hi Hd0. generalize dependent (/ vnorm u)%R. intros i Hi. nra. }
    unfold vscale. simpl. f_equal; ring.
Qed.

Section Frame.
Variable C : Type.
Variable cam : camera.
Implicit Types (depths : picture R) (frame : picture C).

Definition made depths frame (xy : Z * Z) (pc : vec * C) : Prop :=
  fst pc = vscale (pix depths (snd xy) (fst xy)) (normalized (unmap cam (P2 (IZR (fst xy)) (IZR (snd xy))))) /\
  snd pc = pix frame (snd xy) (fst xy) /\
  0 <= fst xy < cols frame /\ 0 <= snd xy < rows frame.

Definition near depths (xy : Z * Z) : bool :=
  if Rlt_dec 10000000000 (pix depths (snd xy) (fst xy)) then false else true.

Lemma at_pix_ok {A} (i : picture A) y x a : at_pix i y x = Ok a -> a = pix i y x /\ 0 <= y < rows i /\ 0 <= x < cols i.
Proof. unfold at_pix. destruct (_ && _) eqn:E; [|discriminate]. intros H. injection H as <-. split; [reflexivity|lia]. Qed.

Lemma at_pix_in {A} (i : picture A) y x : 0 <= y < rows i -> 0 <= x < cols i -> at_pix i y x = Ok (pix i y x).
Proof. intros. unfold at_pix. replace (_ && _) with true by lia. reflexivity. Qed.

Lemma pixels_spec depths frame l : forall acc res, ofold (sample_pixel cam depths frame) l acc = Ok res ->
  exists new, res = acc ++ new /\ Forall2 (made depths frame) (filter (near depths) l) new.
Proof.
  induction l as [|[x y] l IH]; intros acc res; simpl.
  - intros H. injection H as <-. exists []. rewrite app_nil_r. split; [reflexivity|constructor].
  - destruct (at_pix depths y x) as [d| | | |] eqn:Ed; simpl; try discriminate.
    apply at_pix_ok in Ed as (-> & _). unfold near at 1. simpl.
    destruct (Rlt_dec 10000000000 (pix depths y x)) as [F|F]; simpl.
    + apply IH.
    + destruct (at_pix frame y x) as [c| | | |] eqn:Ec; simpl; try discriminate.
      apply at_pix_ok in Ec as (-> & Hy & Hx). intros H. destruct (IH _ _ H) as (new & -> & Hf).
      rewrite <- app_assoc. eexists. split; [reflexivity|]. constructor; [|exact Hf].
      unfold made. simpl. auto.
Qed.

Lemma pixels_total depths frame l : (forall x y, In (x, y) l -> 0 <= x < cols depths /\ 0 <= y < rows depths /\ 0 <= x < cols frame /\ 0 <= y < rows frame) ->
  forall acc, exists res, ofold (sample_pixel cam depths frame) l acc = Ok res.
Proof.
  intros Hl. induction l as [|[x y] l IH]; intros acc; simpl; [eauto|].
  destruct (Hl x y) as (A & B & D & E); [simpl; auto|]. rewrite at_pix_in by assumption. simpl.
  destruct (Rlt_dec _ _); simpl; [apply IH; simpl in Hl; auto|].
  rewrite at_pix_in by assumption. simpl. apply IH. simpl in Hl. auto.
Qed.

Definition grid (xs ys : list Z) : list (Z * Z) := flat_map (fun y => map (fun x => (x, y)) xs) ys.

Lemma rows_spec depths frame step xs : counter (Z.to_nat (width cam)) 0 step (width cam) = Ok xs -> forall ys acc res,
  ofold (sample_row cam step depths frame) ys acc = Ok res ->
  exists new, res = acc ++ new /\ Forall2 (made depths frame) (filter (near depths) (grid xs ys)) new.
Proof.
  intros Ex. induction ys as [|y ys IH]; intros acc res; simpl.
  - intros H. injection H as <-. exists []. rewrite app_nil_r. split; [reflexivity|constructor].
  - unfold sample_row at 1. rewrite Ex. simpl.
    destruct (ofold (sample_pixel cam depths frame) (map (fun x => (x, y)) xs) acc) as [acc1| | | |] eqn:E1; simpl; try discriminate.
    intros H. destruct (pixels_spec _ _ _ _ _ E1) as (n1 & -> & F1). destruct (IH _ _ H) as (n2 & -> & F2).
    exists (n1 ++ n2). rewrite app_assoc. split; [reflexivity|]. rewrite filter_app. apply Forall2_app; assumption.
Qed.

Lemma grid_length xs ys : length (grid xs ys) = (length ys * length xs)%nat.
Proof. unfold grid. induction ys as [|y ys IH]; [reflexivity|]. simpl. rewrite app_length, map_length, IH. reflexivity. Qed.

Lemma grid_in xs ys x y : In (x, y) (grid xs ys) <-> In x xs /\ In y ys.
Proof.
  unfold grid. rewrite in_flat_map. split.
  - intros (y' & Hy & Hx). apply in_map_iff in Hx as (x' & E & Hx). injection E as -> ->. auto.
  - intros [Hx Hy]. exists y. split; [exact Hy|]. apply in_map_iff. eauto.
Qed.

Lemma sorted_app {A} (Rel : A -> A -> Prop) l1 l2 : StronglySorted Rel l1 -> StronglySorted Rel l2 ->
  (forall a b, In a l1 -> In b l2 -> Rel a b) -> StronglySorted Rel (l1 ++ l2).
Proof.
  intros H1 H2 H. induction H1 as [|a l1 H1 IH Hf]; [exact H2|]. simpl. constructor.
  - apply IH. intros; apply H; simpl; auto.
  - apply Forall_app. split; [exact Hf|]. apply Forall_forall. intros b Hb. apply H; simpl; auto.
Qed.

Lemma grid_sorted xs ys : StronglySorted Z.lt xs -> StronglySorted Z.lt ys -> StronglySorted reading_order (grid xs ys).
Proof.
  intros Hx Hy. induction Hy as [|y ys Hy IH Hf]; [constructor|]. unfold grid. simpl. apply sorted_app.
  - clear - Hx. induction Hx as [|x xs Hx IH Hf]; [constructor|]. simpl. constructor; [exact IH|].
    apply Forall_forall. intros b Hb. apply in_map_iff in Hb as (x' & <- & Hb). rewrite Forall_forall in Hf.
    right. simpl. auto.
  - exact IH.
  - intros a [x' y'] Ha Hb. apply in_map_iff in Ha as (x0 & <- & Ha). apply (grid_in xs ys) in Hb as [_ Hb].
    rewrite Forall_forall in Hf. left. simpl. auto.
Qed.

Lemma sorted_filter {A} (Rel : A -> A -> Prop) f l : StronglySorted Rel l -> StronglySorted Rel (filter f l).
Proof.
  intros H. induction H as [|a l H IH Hf]; [constructor|]. simpl. destruct (f a); [|exact IH]. constructor; [exact IH|].
  apply Forall_forall. intros b Hb. apply filter_In in Hb as [Hb _]. rewrite Forall_forall in Hf. auto.
Qed.

Lemma grid_sampled depths step xs ys fx fy : 0 < step ->
  counter fx 0 step (width cam) = Ok xs -> counter fy 0 step (height cam) = Ok ys ->
  sampled (width cam) (height cam) step (pix depths) (filter (near depths) (grid xs ys)).
Proof.
  intros Hs Ex Ey. destruct (counter_spec _ _ Hs _ _ _ Ex) as (X1 & X2 & _).
  destruct (counter_spec _ _ Hs _ _ _ Ey) as (Y1 & Y2 & _). split.
  - apply sorted_filter, grid_sorted; assumption.
  - intros x y. rewrite filter_In, grid_in, X2, Y2, !Z.sub_0_r. unfold near. simpl.
    destruct (Rlt_dec 10000000000 (pix depths y x)) as [F|F].
    + split; [intros [_ N]; discriminate|]. intros (_ & _ & _ & _ & N). exfalso. lra.
    + apply Rnot_lt_le in F. tauto.
Qed.

Variable getDepths : Z -> outcome (picture R).
Variable getFrame : Z -> outcome (picture C).

(** What the points of one frame are. *)
Lemma frame_spec fc step it pts : 0 < step -> sample_frame cam getDepths getFrame fc step it = Ok pts ->
  0 <= it < fc /\
  exists depths frame pixels, getDepths it = Ok depths /\ getFrame it = Ok frame /\
    sampled (width cam) (height cam) step (pix depths) pixels /\ Forall2 (made depths frame) pixels pts.
Proof.
  unfold sample_frame. intros Hs. destruct (negb ((0 <=? it) && (it <? fc))) eqn:Ei; [discriminate|].
  assert (Hit : 0 <= it < fc) by lia. clear Ei.
  destruct (Z.eqb_spec step 0); [lia|]. destruct (negb _); [discriminate|].
  destruct (getDepths it) as [depths| | | |]; simpl; try discriminate.
  destruct (getFrame it) as [frame| | | |]; simpl; try discriminate.
  destruct (counter _ 0 step (height cam)) as [ys| | | |] eqn:Ey; simpl; try discriminate.
  intros H. split; [exact Hit|]. exists depths, frame.
  destruct (counter (Z.to_nat (width cam)) 0 step (width cam)) as [xs| | | |] eqn:Ex.
  2-5: (destruct ys as [|y ys]; [|simpl in H; unfold sample_row at 1 in H; rewrite Ex in H; discriminate H]);
    simpl in H; injection H as <-; exists []; repeat (split; [reflexivity|]);
    (split; [|constructor]); (split; [constructor|]); intros x y; (split; [intros []|]);
    destruct (counter_spec _ _ Hs _ _ _ Ey) as (_ & Y & _); specialize (Y y); rewrite Z.sub_0_r in Y; intros; apply Y; tauto.
  destruct (rows_spec _ _ _ _ Ex _ _ _ H) as (new & -> & F). exists (filter (near depths) (grid xs ys)).
  repeat (split; [reflexivity|]). split; [eapply grid_sampled; eauto|exact F].
Qed.

Lemma Forall2_len {A B} (Rel : A -> B -> Prop) l1 l2 : Forall2 Rel l1 l2 -> length l1 = length l2.
Proof. intros H. induction H; simpl; congruence. Qed.
Lemma filter_len {A} (f : A -> bool) l : (length (filter f l) <= length l)%nat.
Proof. induction l as [|a l IH]; simpl; [lia|]. destruct (f a); simpl; lia. Qed.

Lemma frame_length fc step it pts : 0 < step -> 0 < width cam -> 0 < height cam ->
  sample_frame cam getDepths getFrame fc step it = Ok pts ->
  Z.of_nat (length pts) * (step * step) <= (width cam + step - 1) * (height cam + step - 1) /\
  ((step | width cam) -> (step | height cam) -> Z.of_nat (length pts) * (step * step) <= width cam * height cam).
Proof.
  unfold sample_frame. intros Hs Hw Hh. destruct (negb (_ && _)) eqn:Ei; [discriminate|]. clear Ei.
  destruct (Z.eqb_spec step 0); [lia|]. destruct (negb _); [discriminate|].
  destruct (getDepths it) as [depths| | | |]; simpl; try discriminate.
  destruct (getFrame it) as [frame| | | |]; simpl; try discriminate.
  destruct (counter _ 0 step (height cam)) as [ys| | | |] eqn:Ey; simpl; try discriminate.
  intros H. destruct (counter_spec _ _ Hs _ _ _ Ey) as (_ & Y & Y1 & Y2).
  destruct (counter (Z.to_nat (width cam)) 0 step (width cam)) as [xs| | | |] eqn:Ex.
  2-5: (destruct ys as [|y ys]; [|simpl in H; unfold sample_row at 1 in H; rewrite Ex in H; discriminate H]);
    exfalso; apply (Y 0); split; [lia|apply Z.divide_0_r].
  destruct (counter_spec _ _ Hs _ _ _ Ex) as (_ & X & X1 & X2).
  destruct (rows_spec _ _ _ _ Ex _ _ _ H) as (new & -> & F). cbn [app].
  apply Forall2_len in F. pose proof (filter_len (near depths) (grid xs ys)) as L. rewrite F, grid_length in L.
  clear F H Ex Ey X Y. rewrite !Z.sub_0_r in *.
  apply inj_le in L. rewrite Nat2Z.inj_mul in L.
  clear n. set (n := Z.of_nat (length new)) in *. set (a := Z.of_nat (length xs)) in *. set (b := Z.of_nat (length ys)) in *.
  assert (Ha : 0 <= a) by lia. assert (Hb : 0 <= b) by lia. clearbody n a b.
  assert (E : n * (step * step) <= (a * step) * (b * step)) by nia.
  split.
  - assert ((a * step) * (b * step) <= (width cam + step - 1) * (height cam + step - 1)); [|lia].
    apply Z.mul_le_mono_nonneg; nia.
  - intros Dw Dh. rewrite X2, Y2 in E by (assumption || lia). exact E.
Qed.

Lemma frame_exact fc step it pts depths : 0 < step -> 0 < width cam -> 0 < height cam ->
  sample_frame cam getDepths getFrame fc step it = Ok pts -> getDepths it = Ok depths ->
  (forall x y, 0 <= x < width cam -> 0 <= y < height cam -> (pix depths y x <= 10000000000)%R) ->
  Z.of_nat (length pts) = ((width cam + step - 1) / step) * ((height cam + step - 1) / step).
Proof.
  unfold sample_frame. intros Hs Hw Hh. destruct (negb (_ && _)) eqn:Ei; [discriminate|]. clear Ei.
  destruct (Z.eqb_spec step 0); [lia|]. destruct (negb _); [discriminate|].
  intros H Ed Hd. rewrite Ed in H. simpl in H.
  destruct (getFrame it) as [frame| | | |]; simpl in H; try discriminate.
  destruct (counter _ 0 step (height cam)) as [ys| | | |] eqn:Ey; simpl in H; try discriminate.
  destruct (counter_spec _ _ Hs _ _ _ Ey) as (_ & Y & _). pose proof (counter_length _ _ Hs _ _ _ Ey) as Ly.
  destruct (counter (Z.to_nat (width cam)) 0 step (width cam)) as [xs| | | |] eqn:Ex.
  2-5: (destruct ys as [|y ys]; [|simpl in H; unfold sample_row at 1 in H; rewrite Ex in H; discriminate H]);
    exfalso; apply (Y 0); split; [lia|apply Z.divide_0_r].
  destruct (counter_spec _ _ Hs _ _ _ Ex) as (_ & X & _). pose proof (counter_length _ _ Hs _ _ _ Ex) as Lx.
  destruct (rows_spec _ _ _ _ Ex _ _ _ H) as (new & -> & F). cbn [app].
  apply Forall2_len in F. rewrite <- F.
  assert (Hall : filter (near depths) (grid xs ys) = grid xs ys).
  { assert (G : forall l, (forall xy, In xy l -> near depths xy = true) -> filter (near depths) l = l).
    { induction l as [|a l IH]; intros G; [reflexivity|]. simpl. rewrite (G a) by (simpl; auto).
      rewrite IH; [reflexivity|]. intros; apply G; simpl; auto. }
    apply G. intros [x y] Hin. apply grid_in in Hin as [Hx Hy]. apply X in Hx. apply Y in Hy. unfold near. simpl.
    destruct (Rlt_dec 10000000000 (pix depths y x)) as [Q|Q]; [|reflexivity].
    assert (pix depths y x <= 10000000000)%R by (apply Hd; lia). lra. }
  rewrite Hall, grid_length, Nat2Z.inj_mul, Lx, Ly, !Z.sub_0_r.
  rewrite !Z.max_r by (apply Z.div_pos; lia). lia.
Qed.

(** ** All frames *)
Lemma omap_ok {A B} (f : A -> outcome B) l : forall r, omap f l = Ok r -> Forall2 (fun a b => f a = Ok b) l r.
Proof.
  induction l as [|a l IH]; intros r; simpl; [intros H; injection H as <-; constructor|].
  destruct (f a) as [b| | | |] eqn:E; simpl; try discriminate.
  destruct (omap f l) as [r'| | | |] eqn:E2; simpl; try discriminate.
  intros H. injection H as <-. constructor; auto.
Qed.

Lemma omap_total {A B} (f : A -> outcome B) l : (forall a, In a l -> exists b, f a = Ok b) -> exists r, omap f l = Ok r.
Proof.
  induction l as [|a l IH]; intros H; simpl; [eauto|]. destruct (H a) as [b ->]; [simpl; auto|]. simpl.
  destruct IH as [r ->]; [intros; apply H; simpl; auto|]. simpl. eauto.
Qed.

Lemma frames_inv fc start count gt fs : 0 < count -> 0 < width cam -> 0 < height cam -> 0 < gt ->
  sample_frames cam getDepths getFrame fc start count gt = Ok fs ->
  exists step, least_step count (width cam) (height cam) gt step /\
    map fst fs = map (fun i => start + Z.of_nat i) (seq 0 (Z.to_nat count)) /\
    Forall (fun e => sample_frame cam getDepths getFrame fc step (fst e) = Ok (snd e)) fs.
Proof.
  intros Hc Hw Hh Hg. unfold sample_frames.
  destruct (sample_step count (width cam) (height cam) gt) as [step| | | |] eqn:Es; simpl; try discriminate.
  destruct (negb _); [discriminate|]. intros H. apply omap_ok in H.
  exists step. split; [apply step_least; assumption|].
  induction H as [|it e its fs H _ [IH1 IH2]]; [split; [reflexivity|constructor]|].
  destruct (sample_frame cam getDepths getFrame fc step it) as [l| | | |] eqn:El; simpl in H; try discriminate.
  injection H as <-. simpl. rewrite IH1. split; [reflexivity|]. constructor; [exact El|exact IH2].
Qed.

Lemma frames_spec fc start count gt fs : 0 < count -> 0 < width cam -> 0 < height cam -> 0 < gt ->
  sample_frames cam getDepths getFrame fc start count gt = Ok fs ->
  exists step, least_step count (width cam) (height cam) gt step /\
    map fst fs = map (fun i => start + Z.of_nat i) (seq 0 (Z.to_nat count)) /\
    forall it pts, In (it, pts) fs ->
      0 <= it < fc /\
      exists depths frame pixels, getDepths it = Ok depths /\ getFrame it = Ok frame /\
        sampled (width cam) (height cam) step (pix depths) pixels /\
        Forall2 (fun xy pc => snd pc = pix frame (snd xy) (fst xy) /\
                              let u := unmap cam (P2 (IZR (fst xy)) (IZR (snd xy))) in
                              (u <> vzero -> on_ray u (pix depths (snd xy) (fst xy)) (fst pc))) pixels pts.
Proof.
  intros Hc Hw Hh Hg H. destruct (frames_inv _ _ _ _ _ Hc Hw Hh Hg H) as (step & L & M & F).
  exists step. split; [exact L|]. split; [exact M|]. intros it pts Hin.
  rewrite Forall_forall in F. specialize (F _ Hin). simpl in F.
  destruct (frame_spec _ _ _ _ (proj1 L) F) as (Hit & depths & frame & pixels & A & B & D & E).
  split; [exact Hit|]. exists depths, frame, pixels. split; [exact A|]. split; [exact B|]. split; [exact D|].
  clear - E. induction E as [|xy pc l l' (E1 & E2 & _) _ IH]; constructor; [|exact IH].
  split; [exact E2|]. intros u Hu. rewrite E1. apply normalized_ray. exact Hu.
Qed.

Lemma total_cons {A} e (fs : list (Z * list A)) : total (e :: fs) = Z.of_nat (length (snd e)) + total fs.
Proof. unfold total, tagged. cbn [flat_map]. rewrite app_length, map_length. lia. Qed.

Lemma frames_count fc start count gt fs step : 0 < count -> 0 < width cam -> 0 < height cam -> 0 < gt ->
  sample_frames cam getDepths getFrame fc start count gt = Ok fs ->
  least_step count (width cam) (height cam) gt step ->
  total fs * (step * step) <= count * ((width cam + step - 1) * (height cam + step - 1)) /\
  ((step | width cam) -> (step | height cam) -> total fs <= gt).
Proof.
  intros Hc Hw Hh Hg H L. destruct (frames_inv _ _ _ _ _ Hc Hw Hh Hg H) as (step' & L' & M & F).
  rewrite (least_unique _ _ _ _ _ _ L' L) in F. clear L' step'.
  assert (Hn : Z.of_nat (length fs) = count).
  { rewrite <- (map_length fst fs), M, map_length, seq_length. lia. }
  pose proof L as (Hs & Hle & _).
  assert (G : total fs * (step * step) <= Z.of_nat (length fs) * ((width cam + step - 1) * (height cam + step - 1)) /\
    ((step | width cam) -> (step | height cam) -> total fs * (step * step) <= Z.of_nat (length fs) * (width cam * height cam))).
  { clear - F Hs Hw Hh. induction F as [|[it pts] fs Hf _ [IH1 IH2]]; [unfold total; simpl; lia|]. simpl in Hf.
    destruct (frame_length _ _ _ _ Hs Hw Hh Hf) as [A B]. rewrite total_cons. cbn [snd length]. rewrite Nat2Z.inj_succ.
    split; [lia|]. intros D1 D2. specialize (B D1 D2). specialize (IH2 D1 D2). lia. }
  rewrite Hn in G. destruct G as [G1 G2]. split; [exact G1|]. intros D1 D2. specialize (G2 D1 D2).
  assert (total fs * (step * step) <= gt * (step * step)) by lia.
  apply Z.mul_le_mono_pos_r in H0; nia.
Qed.

Lemma frames_exact fc start count gt fs step : 0 < count -> 0 < width cam -> 0 < height cam -> 0 < gt ->
  sample_frames cam getDepths getFrame fc start count gt = Ok fs ->
  least_step count (width cam) (height cam) gt step ->
  (forall it depths x y, getDepths it = Ok depths -> 0 <= x < width cam -> 0 <= y < height cam -> (pix depths y x <= 10000000000)%R) ->
  total fs = count * (((width cam + step - 1) / step) * ((height cam + step - 1) / step)).
Proof.
  intros Hc Hw Hh Hg H L Hd. destruct (frames_inv _ _ _ _ _ Hc Hw Hh Hg H) as (step' & L' & M & F).
  rewrite (least_unique _ _ _ _ _ _ L' L) in F. clear L' step'.
  assert (Hn : Z.of_nat (length fs) = count).
  { rewrite <- (map_length fst fs), M, map_length, seq_length. lia. }
  pose proof L as (Hs & _). rewrite <- Hn. clear - F Hs Hw Hh Hd.
  induction F as [|[it pts] fs Hf _ IH]; [reflexivity|]. simpl in Hf.
  destruct (frame_spec _ _ _ _ Hs Hf) as (_ & depths & _ & _ & Ed & _).
  rewrite total_cons, IH. cbn [snd length]. rewrite Nat2Z.inj_succ.
  rewrite (frame_exact _ _ _ _ _ Hs Hw Hh Hf Ed) by (intros; eapply Hd; eauto). ring.
Qed.

Lemma frames_total fc start count gt step : 0 < count -> 0 < width cam -> 0 < height cam -> 0 < gt ->
  least_step count (width cam) (height cam) gt step ->
  width cam + step <= INT_MAX -> height cam + step <= INT_MAX -> width cam * height cam <= INT_MAX ->
  0 <= start -> start + count <= fc -> start + count <= INT_MAX ->
  (forall it, start <= it < start + count -> exists depths frame, getDepths it = Ok depths /\ getFrame it = Ok frame /\
     rows depths = height cam /\ cols depths = width cam /\ rows frame = height cam /\ cols frame = width cam) ->
  exists fs, sample_frames cam getDepths getFrame fc start count gt = Ok fs.
Proof.
  intros Hc Hw Hh Hg L Mw Mh Mwh Hst Hfc Hm Hr. unfold sample_frames.
  rewrite (step_total _ _ _ _ Hc Hw Hh Hg _ L) by lia. simpl. pose proof L as (Hs & _).
  replace (in_int (start + count)) with true by (unfold in_int, INT_MIN in *; lia). simpl.
  apply omap_total. intros it Hit. apply in_map_iff in Hit as (i & <- & Hi). apply in_seq in Hi.
  destruct (Hr (start + Z.of_nat i)) as (depths & frame & Ed & Ef & R1 & R2 & R3 & R4); [lia|].
  assert (exists l, sample_frame cam getDepths getFrame fc step (start + Z.of_nat i) = Ok l) as [l ->]; [|simpl; eauto].
  unfold sample_frame. replace (negb _) with false by lia.
  destruct (Z.eqb_spec step 0); [lia|].
  replace (negb (in_int (height cam / step * (width cam / step)))) with false.
  2:{ symmetry. apply negb_false_iff. unfold in_int, INT_MIN.
      assert (0 <= height cam / step <= height cam) by (split; [apply Z.div_pos; lia|apply Z.div_le_upper_bound; nia]).
      assert (0 <= width cam / step <= width cam) by (split; [apply Z.div_pos; lia|apply Z.div_le_upper_bound; nia]).
      assert (0 <= height cam / step * (width cam / step) <= height cam * width cam) by nia. lia. }
  rewrite Ed, Ef. simpl.
  destruct (counter_total step (height cam) Hs Mh (Z.to_nat (height cam)) 0) as [ys Ey]; [lia|].
  destruct (counter_total step (width cam) Hs Mw (Z.to_nat (width cam)) 0) as [xs Ex]; [lia|].
  rewrite Ey. simpl. destruct (counter_spec _ _ Hs _ _ _ Ey) as (_ & Y & _). destruct (counter_spec _ _ Hs _ _ _ Ex) as (_ & X & _).
  assert (Hy : forall y, In y ys -> 0 <= y < height cam) by (intros y Hy; apply Y in Hy; lia).
  clear Y Ey. generalize (@nil (vec * C)). induction ys as [|y ys IH]; intros acc; simpl; [eauto|].
  unfold sample_row at 1. rewrite Ex. simpl.
  destruct (pixels_total depths frame (map (fun x => (x, y)) xs)) with (acc := acc) as [r ->].
  { intros x' y' Hin. apply in_map_iff in Hin as (x & E & Hx). injection E as -> ->. apply X in Hx.
    specialize (Hy y' (or_introl eq_refl)). lia. }
  simpl. apply IH. intros; apply Hy; simpl; auto.
Qed.

(** ** The world points *)
Lemma gen_spec wtf start count gt pts : gen_gt_only cam getDepths getFrame wtf start count gt = Ok pts ->
  exists fs, sample_frames cam getDepths getFrame (Z.of_nat (length wtf)) start count gt = Ok fs /\
    Forall2 (fun e Xc => snd Xc = snd (snd e) /\
       exists w, nth_error wtf (Z.to_nat (fst e)) = Some w /\ (rigid w -> act w (fst Xc) = fst (snd e)))
      (tagged fs) pts.
Proof.
  unfold gen_gt_only. destruct (sample_frames _ _ _ _ _ _ _) as [fs| | | |] eqn:E; simpl; try discriminate.
  destruct (gt <? 0); [discriminate|]. match goal with |- bind ?x _ = _ -> _ => destruct x as [parts| | | |] eqn:Ep end; simpl; try discriminate.
  intros H. injection H as <-. exists fs. split; [reflexivity|]. clear E. apply omap_ok in Ep.
  induction Ep as [|[it l] part fs parts Hp _ IH]; [constructor|]. unfold tagged. cbn [flat_map concat fst snd].
  apply Forall2_app; [|exact IH]. clear IH. simpl in Hp. unfold at_frame in Hp.
  destruct (it <? 0); [discriminate|]. destruct (nth_error wtf (Z.to_nat it)) as [w|] eqn:Ew; [|discriminate].
  simpl in Hp. injection Hp as <-. induction l as [|[p c] l IH]; [constructor|]. simpl. constructor; [|exact IH].
  simpl. split; [reflexivity|]. exists w. split; [exact Ew|]. intros Hr. rewrite <- act_mul, sinv_r by exact Hr. apply act_id.
Qed.

End Frame.

(** ** A camera of 10 by 10 pixels *)
Definition small_cam : camera :=
  {| width := 10; height := 10; unmapPolyDeg := 1; unmapPolyCoeffs := [1%R]; center := P2 5 5; scale := 1;
     maxRadius := 5; minZ := 1; maxAngle := 1; mapPolyCoeffs := [1%R] |}.
Definition flat_depths : picture R := {| rows := 10; cols := 10; pix := fun _ _ => 2%R |}.
Definition flat_frame : picture Z := {| rows := 10; cols := 10; pix := fun y x => 10 * y + x |}.

Lemma small_step : least_step 1 10 10 15 3.
Proof. unfold least_step. split; [lia|]. split; [lia|]. intros t Ht. nia. Qed.

Lemma small_run : exists fs,
  sample_frames small_cam (fun _ => Ok flat_depths) (fun _ => Ok flat_frame) 2 1 1 15 = Ok fs /\ total fs = 16.
Proof.
  destruct (frames_total Z small_cam (fun _ => Ok flat_depths) (fun _ => Ok flat_frame) 2 1 1 15 3) as [fs Hfs];
    try (cbn [width height small_cam]; unfold INT_MAX; lia).
  - apply small_step.
  - intros it _. exists flat_depths, flat_frame. repeat split.
  - exists fs. split; [exact Hfs|].
    assert (H1 : 0 < 1) by lia. assert (H10 : 0 < 10) by lia. assert (H15 : 0 < 15) by lia.
    rewrite (frames_exact Z small_cam _ _ _ _ _ _ _ 3 H1 H10 H10 H15 Hfs small_step); [reflexivity|].
    intros it depths x y E _ _. injection E as <-. simpl. lra.
Qed.
