(** Proofs about residual patterns near the border. *)
From Coq Require Import ZArith QArith Qround Qabs Qminmax List Bool Lia Lqa Permutation.
From Verif Require Import Outcome Dbl PyramidModel PyramidSpec PyramidProofs BorderModel BorderSpec
  PixelSelectorModel PixelSelectorSpec PixelSelectorProofs.
Import ListNotations.
Open Scope Z_scope.

Lemma max_element_spec l : forall b, (In (max_element b l) (b :: l)) /\
  forall o, In o (b :: l) -> (inf_norm o <= inf_norm (max_element b l))%Q.
Proof.
  induction l as [|o l IH]; intros b; cbn [max_element].
  - split; [left; reflexivity|]. intros o [<-|[]]. apply Qle_refl.
  - destruct (Qle_bool (inf_norm o) (inf_norm b)) eqn:E.
    + destruct (IH b) as [I M]. split; [destruct I as [I|I]; [left; exact I|right; right; exact I]|].
      intros q [<-|[<-|H]]; [apply M; left; reflexivity| |apply M; right; exact H].
      apply Qle_bool_iff in E. eapply Qle_trans; [exact E|]. apply M. left. reflexivity.
    + destruct (IH o) as [I M]. split; [right; exact I|].
      intros q [<-|[<-|H]]; [|apply M; left; reflexivity|apply M; right; exact H].
      assert (L : (inf_norm b <= inf_norm o)%Q).
      { apply Qnot_lt_le. intros C. apply Qlt_le_weak, Qle_bool_iff in C. congruence. }
      eapply Qle_trans; [exact L|]. apply M. left. reflexivity.
Qed.

Lemma height_spec pattern : pattern <> [] -> exists h, pattern_height pattern = Ok h /\ is_height pattern h.
Proof.
  destruct pattern as [|o l]; [congruence|]. intros _. cbn [pattern_height]. eexists. split; [reflexivity|].
  destruct (max_element_spec l o) as [I M]. set (m := max_element o l) in *. split.
  - intros q H. specialize (M q H). pose proof (Qle_ceiling (inf_norm m)) as C. unfold inf_norm at 1 in M.
    pose proof (Q.le_max_l (Qabs (fst q)) (Qabs (snd q))). pose proof (Q.le_max_r (Qabs (fst q)) (Qabs (snd q))). split; lra.
  - exists m. split; [exact I|]. pose proof (Qceiling_lt (inf_norm m)) as C. unfold inf_norm at 2 in C.
    destruct (Q.max_spec (Qabs (fst m)) (Qabs (snd m))) as [[_ E]|[_ E]]; rewrite E in C; auto.
Qed.

Lemma height_unique pattern h h' : is_height pattern h -> is_height pattern h' -> h = h'.
Proof.
  assert (X : forall a b, is_height pattern a -> is_height pattern b -> a <= b).
  { intros a b [_ (o & I & O)] [B _]. specialize (B o I).
    assert (L : (inject_Z (a - 1) < inject_Z b)%Q) by (destruct O; lra). rewrite <- Zlt_Qlt in L. lia. }
  intros A B. apply Z.le_antisymm; auto.
Qed.

Lemma height_nonneg pattern h : is_height pattern h -> 0 <= h.
Proof.
  intros [A (o & I & _)]. destruct (A o I) as [B _]. pose proof (Qabs_nonneg (fst o)).
  assert (L : (inject_Z 0 <= inject_Z h)%Q) by (change (inject_Z 0) with 0%Q; lra). rewrite <- Zle_Qle in L. exact L.
Qed.

Lemma onImage_keeps w h p b : isOnImage w h p b = true <-> keeps w h b p.
Proof.
  unfold isOnImage, keeps. rewrite !andb_true_iff, !Qle_bool_iff. tauto.
Qed.

Lemma read_inside img q : (0 <= fst q)%Q -> (0 <= snd q)%Q ->
  (fst q < inject_Z (gcols img))%Q -> (snd q < inject_Z (grows img))%Q ->
  exists v, read img (toCvPoint q) = Ok v /\ pixel_value img q v.
Proof.
  intros X Y WX WY. pose proof (qtrunc_range (fst q) (gcols img) X WX) as RX. pose proof (qtrunc_range (snd q) (grows img) Y WY) as RY.
  unfold read, toCvPoint. destruct (Z.leb_spec 0 (PyramidModel.qtrunc (fst q))); [|lia].
  destruct (Z.ltb_spec (PyramidModel.qtrunc (fst q)) (gcols img)); [|lia].
  destruct (Z.leb_spec 0 (PyramidModel.qtrunc (snd q))); [|lia]. destruct (Z.ltb_spec (PyramidModel.qtrunc (snd q)) (grows img)); [|lia].
  cbn [andb]. eexists. split; [reflexivity|]. exists (PyramidModel.qtrunc (fst q)), (PyramidModel.qtrunc (snd q)).
  split; [lia|]. split; [apply (qtrunc_pixel _ _ X); reflexivity|]. split; [apply (qtrunc_pixel _ _ Y); reflexivity|reflexivity].
Qed.

Lemma read_outside img q : (0 <= fst q)%Q -> (0 <= snd q)%Q ->
  (inject_Z (gcols img) <= fst q \/ inject_Z (grows img) <= snd q)%Q -> read img (toCvPoint q) = UB.
Proof.
  intros X Y O. unfold read, toCvPoint.
  assert (T : forall a n, (0 <= a)%Q -> (inject_Z n <= a)%Q -> n <= PyramidModel.qtrunc a).
  { intros a n A L. destruct (proj1 (qtrunc_pixel a (PyramidModel.qtrunc a) A) eq_refl) as [_ U].
    assert (L2 : (inject_Z n < inject_Z (PyramidModel.qtrunc a + 1))%Q) by lra. rewrite <- Zlt_Qlt in L2. lia. }
  destruct O as [O|O].
  - pose proof (T _ _ X O). destruct (Z.ltb_spec (PyramidModel.qtrunc (fst q)) (gcols img)); [lia|].
    rewrite andb_false_r. reflexivity.
  - pose proof (T _ _ Y O). destruct (Z.ltb_spec (PyramidModel.qtrunc (snd q)) (grows img)); [lia|].
    rewrite andb_false_r. reflexivity.
Qed.

Lemma read_pattern_inside img p pattern :
  (forall o, In o pattern -> (0 <= fst p + fst o /\ 0 <= snd p + snd o)%Q /\
     (fst p + fst o < inject_Z (gcols img) /\ snd p + snd o < inject_Z (grows img))%Q) ->
  exists vs, read_pattern img p pattern = Ok vs /\
    Forall2 (fun o v => pixel_value img (fst p + fst o, snd p + snd o)%Q v) pattern vs.
Proof.
  induction pattern as [|o l IH]; intros H.
  - exists []. split; [reflexivity|constructor].
  - destruct (H o (or_introl eq_refl)) as [[A B] [C D]].
    destruct (read_inside img (fst p + fst o, snd p + snd o)%Q A B C D) as (v & E & V).
    destruct IH as (vs & E' & V'); [intros q Q; apply H; right; exact Q|].
    exists (v :: vs). cbn [read_pattern]. rewrite E. cbn [bind]. rewrite E'. cbn [bind]. split; [reflexivity|]. constructor; assumption.
Qed.

Lemma read_pattern_outside img p pattern :
  (forall o, In o pattern -> (0 <= fst p + fst o /\ 0 <= snd p + snd o)%Q) ->
  sticks_out (gcols img) (grows img) pattern p -> read_pattern img p pattern = UB.
Proof.
  induction pattern as [|o l IH]; intros H (q & I & O); [destruct I|]. cbn [read_pattern].
  destruct (H o (or_introl eq_refl)) as [A B].
  destruct (Qlt_le_dec (fst p + fst o) (inject_Z (gcols img))) as [C|C].
  2:{ rewrite read_outside; [reflexivity|exact A|exact B|left; exact C]. }
  destruct (Qlt_le_dec (snd p + snd o) (inject_Z (grows img))) as [D|D].
  2:{ rewrite read_outside; [reflexivity|exact A|exact B|right; exact D]. }
  destruct (read_inside img (fst p + fst o, snd p + snd o)%Q A B C D) as (v & E & _). rewrite E. cbn [bind].
  rewrite IH; [reflexivity|intros r R; apply H; right; exact R|].
  destruct I as [<-|I]; [exfalso; destruct O; lra|]. exists q. split; assumption.
Qed.

Lemma pattern_low w h pattern ph p : is_height pattern ph -> keeps w h ph p ->
  forall o, In o pattern -> (0 <= fst p + fst o /\ 0 <= snd p + snd o)%Q.
Proof.
  intros [A _] [[X _] [Y _]] o I. destruct (A o I) as [B C].
  pose proof (Qle_Qabs (- fst o)) as D. pose proof (Qle_Qabs (- snd o)) as E. rewrite Qabs_opp in D, E. split; lra.
Qed.

(** Exactly when the constructor reads outside the frame. *)
Theorem new_point_exact img pattern p ph : pattern <> [] -> is_height pattern ph ->
  (~ keeps (gcols img) (grows img) ph p -> new_point img pattern p = Ok None) /\
  (keeps (gcols img) (grows img) ph p -> sticks_out (gcols img) (grows img) pattern p -> new_point img pattern p = UB) /\
  (keeps (gcols img) (grows img) ph p -> ~ sticks_out (gcols img) (grows img) pattern p ->
   exists vs, new_point img pattern p = Ok (Some vs) /\
     Forall2 (fun o v => pixel_value img (fst p + fst o, snd p + snd o)%Q v) pattern vs).
Proof.
  intros N H. destruct (height_spec pattern N) as (h & E & H'). rewrite (height_unique _ _ _ H H') in *. clear H ph.
  unfold new_point. rewrite E. cbn [bind].
  destruct (isOnImage (gcols img) (grows img) p h) eqn:O.
  - apply onImage_keeps in O. split; [contradiction|]. split.
    + intros _ S. rewrite (read_pattern_outside img p pattern (pattern_low _ _ _ _ _ H' O) S). reflexivity.
    + intros _ S. destruct (read_pattern_inside img p pattern) as (vs & R & V).
      * intros o I. split; [apply (pattern_low _ _ _ _ _ H' O o I)|].
        split; apply Qnot_le_lt; intros C; apply S; exists o; auto.
      * rewrite R. exists vs. split; [reflexivity|exact V].
  - assert (K : ~ keeps (gcols img) (grows img) h p) by (intros K; apply onImage_keeps in K; congruence).
    split; [reflexivity|]. split; contradiction.
Qed.

(** A point can only stick out on the lines x = w - ph and y = h - ph. *)
Theorem sticks_out_line w h pattern p ph : is_height pattern ph -> keeps w h ph p -> sticks_out w h pattern p ->
  (fst p == inject_Z (w - ph) \/ snd p == inject_Z (h - ph))%Q.
Proof.
  intros [A _] [[_ X] [_ Y]] (o & I & O). destruct (A o I) as [B C].
  pose proof (Qle_Qabs (fst o)). pose proof (Qle_Qabs (snd o)).
  unfold Z.sub in *. rewrite !inject_Z_plus, !inject_Z_opp in *. destruct O; [left|right]; lra.
Qed.

(** One pixel more is enough. *)
Theorem wider_border_safe img pattern p ph : pattern <> [] -> is_height pattern ph ->
  keeps (gcols img) (grows img) (ph + 1) p ->
  exists vs, new_point img pattern p = Ok (Some vs) /\
    Forall2 (fun o v => pixel_value img (fst p + fst o, snd p + snd o)%Q v) pattern vs.
Proof.
  intros N H K. pose proof (height_nonneg _ _ H) as P.
  assert (K' : keeps (gcols img) (grows img) ph p).
  { destruct K as [[A B] [C D]]. unfold Z.sub in *. rewrite !inject_Z_plus, !inject_Z_opp, ?inject_Z_plus in *.
    change (inject_Z 1) with 1%Q in *. unfold keeps, Z.sub. rewrite !inject_Z_plus, !inject_Z_opp. split; split; lra. }
  apply (proj2 (proj2 (new_point_exact img pattern p ph N H)) K').
  intros S. pose proof (sticks_out_line _ _ _ _ _ H K' S) as L. destruct K as [[A B] [C D]].
  unfold Z.sub in *. rewrite !inject_Z_plus, !inject_Z_opp, ?inject_Z_plus in *. change (inject_Z 1) with 1%Q in *. destruct L; lra.
Qed.

Lemma default_height : is_height default_pattern 2.
Proof.
  split.
  - intros o I. cbn in I. repeat (destruct I as [<-|I]; [split; discriminate|]). destruct I.
  - exists (inject_Z 0, inject_Z (-2)). split; [cbn; tauto|]. right. reflexivity.
Qed.

Theorem default_column img y : 4 <= gcols img -> 2 <= y <= grows img - 2 ->
  isOnImage (gcols img) (grows img) (inject_Z (gcols img - 2), inject_Z y) 2 = true /\
  new_point img default_pattern (inject_Z (gcols img - 2), inject_Z y) = UB.
Proof.
  intros W Y.
  assert (K : keeps (gcols img) (grows img) 2 (inject_Z (gcols img - 2), inject_Z y)).
  { split; split; cbn [fst snd]; rewrite <- Zle_Qle; lia. }
  split; [apply onImage_keeps, K|].
  apply (proj1 (proj2 (new_point_exact img default_pattern _ 2 ltac:(discriminate) default_height)) K).
  exists (inject_Z 2, inject_Z 0). split; [cbn; tauto|]. left. cbn [fst]. rewrite <- inject_Z_plus, <- Zle_Qle. lia.
Qed.

(** ** The pixel selector reaches that column *)
Lemma addImmatures_UB img pattern points p : In p points -> pattern <> [] ->
  new_point img pattern (toVec2 p) = UB -> addImmatures img pattern points = UB.
Proof.
  intros I N U. assert (T : forall q, (exists v, new_point img pattern q = Ok v) \/ new_point img pattern q = UB).
  { intros q. destruct (height_spec pattern N) as (h & E & H). destruct (new_point_exact img pattern q h N H) as (A & B & C).
    destruct (isOnImage (gcols img) (grows img) q h) eqn:O.
    - apply onImage_keeps in O. unfold new_point. rewrite E. cbn [bind]. apply onImage_keeps in O as O'. rewrite O'.
      clear - E O H. pose proof (pattern_low _ _ _ _ _ H O) as LO. clear - LO.
      assert (R : (exists v, read_pattern img q pattern = Ok v) \/ read_pattern img q pattern = UB).
      { clear LO. induction pattern as [|o l IH]; cbn; [left; eauto|]. unfold read.
        destruct (_ && _)%bool; cbn [bind]; [|right; reflexivity]. destruct IH as [[v ->]| ->]; cbn; eauto. }
      destruct R as [[v ->]| ->]; cbn; eauto.
    - left. exists None. apply A. intros K. apply onImage_keeps in K. congruence. }
  induction points as [|q l IH]; [destruct I|]. cbn [addImmatures]. destruct I as [->|I].
  - rewrite U. reflexivity.
  - destruct (T (toVec2 q)) as [[v ->]| ->]; cbn [bind]; [|reflexivity]. rewrite (IH I). reflexivity.
Qed.

(** A dark 51 x 51 frame whose last column is white. *)
Definition edge_frame : gray := {| grows := 51; gcols := 51; gat := fun x _ => if x =? 50 then 255 else 0 |}.

Lemma square_eq a b : (0 <= a)%Q -> (0 < b)%Q -> (a * a == b * b)%Q -> (a == b)%Q.
Proof.
  intros A B E. assert (Z : ((a - b) * (a + b) == 0)%Q) by lra.
  apply Qmult_integral in Z. destruct Z; lra.
Qed.
Lemma square_zero a : (a * a == 0)%Q -> (a == 0)%Q.
Proof. intros E. apply Qmult_integral in E. destruct E; assumption. Qed.

Lemma edge_values g x y : gradient_norm edge_frame g -> 0 <= x < 51 -> 0 <= y < 51 ->
  (im_at g x y == if 49 <=? x then 255 # 2 else 0)%Q.
Proof.
  intros (_ & _ & H) X Y. destruct (H x y X Y) as [P E]. cbn [edge_frame gat gcols grows] in E. unfold clampz in E.
  replace (51 - 1) with 50 in E by reflexivity.
  assert (LO : (Z.max 0 (Z.min 50 (x - 1)) =? 50) = false) by (apply Z.eqb_neq; lia). rewrite LO in E.
  destruct (Z.leb_spec 49 x) as [L|L].
  - assert (HI : (Z.max 0 (Z.min 50 (x + 1)) =? 50) = true) by (apply Z.eqb_eq; lia). rewrite HI in E.
    apply square_eq; [exact P|reflexivity|]. rewrite E, Z.sub_diag. reflexivity.
  - assert (HI : (Z.max 0 (Z.min 50 (x + 1)) =? 50) = false) by (apply Z.eqb_neq; lia). rewrite HI in E.
    destruct (Z.eqb_spec x 50); [lia|]. apply square_zero. rewrite E. reflexivity.
Qed.

Lemma sum_upto_ext n f f' : (forall k, 0 <= k < n -> (f k == f' k)%Q) -> (sum_upto n f == sum_upto n f')%Q.
Proof.
  intros H. unfold sum_upto.
  assert (G : forall l, (forall k, In k l -> (Z.of_nat k < n)%Z) ->
    (fold_right (fun k acc => f (Z.of_nat k) + acc) 0 l == fold_right (fun k acc => f' (Z.of_nat k) + acc) 0 l)%Q).
  { induction l as [|k l IH]; intros L; [reflexivity|]. cbn [fold_right]. rewrite IH by (intros q I; apply L; right; exact I).
    rewrite (H (Z.of_nat k)); [reflexivity|]. split; [lia|]. apply L. left. reflexivity. }
  apply G. intros k I. apply in_seq in I. lia.
Qed.
Lemma sum_upto_nonneg n f : (forall k, 0 <= k < n -> (0 <= f k)%Q) -> (0 <= sum_upto n f)%Q.
Proof.
  intros H. unfold sum_upto.
  assert (G : forall l, (forall k, In k l -> (Z.of_nat k < n)%Z) -> (0 <= fold_right (fun k acc => f (Z.of_nat k) + acc) 0 l)%Q).
  { induction l as [|k l IH]; intros L; [apply Qle_refl|]. cbn [fold_right].
    pose proof (IH ltac:(intros q I; apply L; right; exact I)).
    assert (0 <= f (Z.of_nat k))%Q by (apply H; split; [lia|]; apply L; left; reflexivity). lra. }
  apply G. intros k I. apply in_seq in I. lia.
Qed.

Lemma edge_genuine g s thr p : gradient_norm edge_frame g -> 1 <= s -> (0 <= thr)%Q -> genuine g s thr p ->
  fst p = 49 /\ 0 <= snd p <= 49.
Proof.
  intros GN S T (i & j & m & ((a & b & A & B & Ei & Ej) & BR & BC) & ([IX IY] & _) & BM & L).
  pose proof GN as (GC & GR & _). rewrite GR in BR. rewrite GC in BC. cbn [edge_frame grows gcols] in BR, BC.
  assert (0 <= i) by (subst i; apply Z.mul_nonneg_nonneg; lia). assert (0 <= j) by (subst j; apply Z.mul_nonneg_nonneg; lia).
  split; [|lia]. destruct (Z_lt_le_dec (fst p) 49) as [X|X]; [exfalso|lia].
  assert (V : (im_at g (fst p) (snd p) == 0)%Q).
  { rewrite (edge_values g _ _ GN) by lia. destruct (Z.leb_spec 49 (fst p)); [lia|reflexivity]. }
  assert (M : (0 <= m * inject_Z (s * s))%Q).
  { unfold block_mean in BM. eapply Qle_trans; [|rewrite BM; apply Qle_refl].
    apply sum_upto_nonneg. intros dy DY. apply sum_upto_nonneg. intros dx DX.
    rewrite (edge_values g _ _ GN) by lia. destruct (49 <=? j + dx); discriminate. }
  assert (SS : (0 < inject_Z (s * s))%Q) by (change 0%Q with (inject_Z 0); rewrite <- Zlt_Qlt; nia).
  assert (0 <= m)%Q by (apply Qnot_lt_le; intros C; pose proof (Qmult_lt_0_compat (- m) (inject_Z (s * s)) ltac:(lra) SS); lra).
  lra.
Qed.

Lemma edge_mean g : gradient_norm edge_frame g -> block_mean g 25 25 25 (51 # 10).
Proof.
  intros GN. unfold block_mean. rewrite (sum_upto_ext 25 _ (fun _ => sum_upto 25 (fun dx => if 49 <=? 25 + dx then 255 # 2 else 0%Q))).
  - vm_compute. reflexivity.
  - intros dy DY. apply sum_upto_ext. intros dx DX. apply (edge_values g _ _ GN); lia.
Qed.

Theorem selector_reaches maxloc shuffle fuel g : maxloc_ok maxloc -> shuffle_ok shuffle -> (51 <= fuel)%nat ->
  gradient_norm edge_frame g ->
  exists res st y, select maxloc shuffle fuel ps_default (ps_init ps_default) g 909 = Ok (res, st) /\ In (49, y) res /\ 25 <= y <= 49.
Proof.
  intros M S F GN. pose proof GN as (GC & GR & _). cbn [edge_frame grows gcols] in GC, GR.
  assert (AB : adapted_block ps_default (ps_init ps_default) 909 = Ok 25) by (vm_compute; reflexivity).
  destruct (select_ok maxloc shuffle fuel ps_default (ps_init ps_default) g 909 25 M S ltac:(discriminate) AB ltac:(lia) ltac:(lia)
     ltac:(rewrite GR; exact F) ltac:(rewrite GC; exact F))
    as (res & found & cands & kept & f & E & LC & C & FO & _ & _ & _ & _ & _ & P).
  exists res, {| lastBlock := 25; lastFound := found |}.
  cbn [ps_default thresholds length] in LC. destruct cands as [|c0 [|c1 [|c2 [|]]]]; try discriminate.
  assert (O : forall k c thr, nth_error [c0; c1; c2] k = Some c -> nth_error (thresholds ps_default) k = Some thr ->
    (0 <= thr)%Q -> (length c <= 50)%nat).
  { intros k c thr A B T. destruct (C k c thr A B) as (ND & G & _). cbv zeta in G.
    assert (SZ : 1 <= 2 ^ Z.of_nat k * 25) by (pose proof (Z.pow_pos_nonneg 2 (Z.of_nat k)); lia).
    transitivity (length (map (fun y => (49, Z.of_nat y)) (seq 0 50))); [|rewrite map_length, seq_length; apply le_n].
    apply NoDup_incl_length; [exact ND|]. intros p I. destruct (edge_genuine g _ _ p GN SZ T (G p I)) as [X Y].
    apply in_map_iff. exists (Z.to_nat (snd p)). split; [destruct p as [x y]; cbn in *; f_equal; lia|]. apply in_seq. lia. }
  pose proof (O 0%nat c0 (20#1) eq_refl eq_refl ltac:(discriminate)) as L0.
  pose proof (O 1%nat c1 (8#1) eq_refl eq_refl ltac:(discriminate)) as L1.
  pose proof (O 2%nat c2 (5#1) eq_refl eq_refl ltac:(discriminate)) as L2.
  assert (FL : found <= 909).
  { rewrite FO. cbn [concat]. rewrite !app_length. cbn [length]. lia. }
  destruct (P FL) as [_ PR].
  destruct (C 0%nat c0 (20#1) eq_refl eq_refl) as (_ & G & _ & EX). cbv zeta in EX, G. change (2 ^ Z.of_nat 0 * 25) with 25 in *.
  destruct (EX 25 25 (51#10) (49, 30)) as (q & I & [[_ QY] _]).
  - split; [exists 1, 1; repeat split; lia|]. rewrite GC, GR. lia.
  - apply edge_mean, GN.
  - split; cbn; lia.
  - cbn [fst snd]. rewrite (edge_values g 49 30 GN) by lia. reflexivity.
  - destruct (edge_genuine g 25 (20#1) q GN ltac:(lia) ltac:(discriminate) (G q I)) as [X _].
    exists (snd q). split; [exact E|]. split; [|lia]. eapply Permutation_in; [symmetry; exact PR|]. cbn [concat]. apply in_or_app. left.
    destruct q as [x y]. cbn in X. subst x. exact I.
Qed.

Theorem selector_then_UB maxloc shuffle fuel g : maxloc_ok maxloc -> shuffle_ok shuffle -> (51 <= fuel)%nat ->
  gradient_norm edge_frame g ->
  exists res st, select maxloc shuffle fuel ps_default (ps_init ps_default) g 909 = Ok (res, st) /\
    addImmatures edge_frame default_pattern res = UB.
Proof.
  intros M S F GN. destruct (selector_reaches maxloc shuffle fuel g M S F GN) as (res & st & y & E & I & Y).
  exists res, st. split; [exact E|]. apply (addImmatures_UB edge_frame default_pattern res (49, y) I ltac:(discriminate)).
  destruct (default_column edge_frame y) as [_ U]; [cbn; lia|cbn; lia|]. exact U.
Qed.
