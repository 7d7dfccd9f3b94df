(** The theorems about the planar triangulation. *)
From Coq Require Import ZArith QArith List Bool Arith Lia Reals Lra Permutation Qreals.
From Verif Require Import Outcome DelModel DelSpec DelFields DelRewire DelFlip DelFlip2 DelDivide DelSplit DelHist DelPlaneSpec DelPlane DelGen DelRun DelRun2 DelRun3.
Import ListNotations.
Open Scope nat_scope.

Section Thm.
Context {P : Type}.
Implicit Types m : mesh P.

(** ** Operations *)
Lemma may_flip_flippable m e : consistent m -> may_flip m e -> flippable m e.
Proof.
  intros C (E & o0 & o1 & E0 & E1 & N). split; [exact E|].
  destruct (around_ex m e o0 C E (or_introl E0)) as (c & x00 & x01 & A0). destruct (around_ex m e o1 C E (or_intror E1)) as (d & x10 & x11 & A1).
  exists o0, o1, c, d. repeat (split; [assumption || apply (a_third _ _ _ _ _ _ A0) || apply (a_third _ _ _ _ _ _ A1)|]).
  apply N.
  - apply (perm3_in _ _ _ _ c (a_corner _ _ _ _ _ _ A0)). auto.
  - intros [H|H]; [apply (a_c0 _ _ _ _ _ _ A0)|apply (a_c1 _ _ _ _ _ _ A0)]; congruence.
  - apply (perm3_in _ _ _ _ d (a_corner _ _ _ _ _ _ A1)). auto.
  - intros [H|H]; [apply (a_c0 _ _ _ _ _ _ A1)|apply (a_c1 _ _ _ _ _ _ A1)]; congruence.
Qed.

Lemma census_sizes m n : nv m = n + 3 -> census m (3 * n + 3) (2 * n + 1) -> sizes m n.
Proof. intros N (le & lt & H1 & H2 & H3 & H4 & H5 & H6). exists le, lt. auto 10. Qed.

Lemma sizes_census m n : sizes m n -> nv m = n + 3 /\ census m (3 * n + 3) (2 * n + 1).
Proof. intros (le & lt & H1 & H2 & H3 & H4 & N & H5 & H6). split; [exact N|]. exists le, lt. auto 10. Qed.

Lemma history_ok m n : history m n -> consistent m /\ sizes m n.
Proof.
  induction 1 as [b0 b1 b2|m n p i t m' H [C S] T D|m n p i e m' H [C S] E N D|m n p i H [C S]|m n e m' H [C S] F D].
  - split; [apply bounding_consistent|]. apply census_sizes; [reflexivity|apply bounding_census].
  - apply sizes_census in S. destruct S as [NV CE].
    destruct (divideTriangle_keeps (makeVertex m p i) t (nv m) m' (3 * n + 3) (2 * n + 1)) as (C' & NV' & CE'); [apply mv_consistent, C|apply mv_fresh|apply mv_tri, T|exact D|apply mv_census, CE|lia|].
    split; [exact C'|]. apply census_sizes; [rewrite NV'; cbn; lia|].
    replace (3 * S n + 3) with (3 * n + 3 + 3) by lia. replace (2 * S n + 1) with (2 * n + 1 + 2) by lia. exact CE'.
  - apply sizes_census in S. destruct S as [NV CE].
    destruct (divideEdge_keeps (makeVertex m p i) e (nv m) m' (3 * n + 3) (2 * n + 1)) as (C' & NV' & CE'); [apply mv_consistent, C|apply mv_fresh|apply mv_edge, E|exact N|exact D|apply mv_census, CE|].
    split; [exact C'|]. apply census_sizes; [rewrite NV'; cbn; lia|].
    replace (3 * S n + 3) with (3 * n + 3 + 3) by lia. replace (2 * S n + 1) with (2 * n + 1 + 2) by lia. exact CE'.
  - pose proof (pop_alike m p i) as A. split; [apply (alike_consistent _ _ A C)|]. apply sizes_census in S. destruct S as [NV CE].
    apply census_sizes; [cbn; exact NV|apply (alike_census _ _ _ _ A CE)].
  - apply sizes_census in S. destruct S as [NV CE].
    destruct (performFlip_keeps m e m' _ _ C (may_flip_flippable m e C F) D CE) as (C' & NV' & CE'). split; [exact C'|]. apply census_sizes; [lia|exact CE'].
Qed.

(** every step of a history is defined *)
Lemma history_defined m n : history m n ->
  (forall p i t, tri_of m t -> exists m', divideTriangle (makeVertex m p i) t (nv m) = Ok m') /\
  (forall p i e, edge_of m e -> ET m e 1 <> None -> exists m', divideEdge (makeVertex m p i) e (nv m) = Ok m') /\
  (forall e, may_flip m e -> exists m', performFlip m e = Ok m').
Proof.
  intros H. apply history_ok in H. destruct H as [C _]. split; [|split].
  - intros p i t T. destruct (divideTriangle_ok (makeVertex m p i) t (nv m)) as (m' & x & D & _); [apply mv_consistent, C|apply mv_fresh|apply mv_tri, T|]. exists m'. exact D.
  - intros p i e E N. destruct (c_outer _ C e E) as [(o0 & E0) _]. destruct (ET m e 1) as [o1|] eqn:E1; [|congruence].
    destruct (divideEdge_ok (makeVertex m p i) e (nv m) o0 o1) as (m' & c & d & x00 & x01 & x10 & x11 & D & _);
      [apply mv_consistent, C|apply mv_fresh|apply mv_edge, E|exact E0|exact E1|]. exists m'. exact D.
  - intros e F. destruct (flip_ok m e C (may_flip_flippable m e C F)) as (m' & o0 & o1 & c & d & x00 & x01 & x10 & x11 & D & _). exists m'. exact D.
Qed.

(** a flip between vertices that are joined already *)
Lemma flip_joined m e t0 t1 c d : consistent m -> edge_of m e -> ET m e 0 = Some t0 -> ET m e 1 = Some t1 ->
  corner m t0 c -> ~ end_of m e c -> corner m t1 d -> ~ end_of m e d -> joined m c d ->
  exists m' f f', performFlip m e = Ok m' /\ edge_of m' f /\ edge_of m' f' /\ f <> f' /\ joins m' f c d /\ joins m' f' c d.
Proof.
  intros C E E0 E1 CC NC CD ND (f & FE & FJ).
  destruct (around_ex m e t0 C E (or_introl E0)) as (c' & x00 & x01 & A0). destruct (around_ex m e t1 C E (or_intror E1)) as (d' & x10 & x11 & A1).
  assert (QC : c' = c). { apply (perm3_in _ _ _ _ c (a_corner _ _ _ _ _ _ A0)) in CC. unfold end_of in NC. destruct CC as [H|[H|H]]; [exfalso; auto|exfalso; auto|congruence]. }
  assert (QD : d' = d). { apply (perm3_in _ _ _ _ d (a_corner _ _ _ _ _ _ A1)) in CD. unfold end_of in ND. destruct CD as [H|[H|H]]; [exfalso; auto|exfalso; auto|congruence]. }
  subst c' d'. destruct (flip_computes m e t0 t1 c d x00 x01 x10 x11 C E E0 E1 A0 A1) as (m' & H & F).
  pose proof (c_rangeE _ C f FE) as RF.
  assert (CN : c < nv m) by (apply (c_corners _ C t0 c (a_tri _ _ _ _ _ _ A0) CC)).
  assert (IC : In f (VE m c)) by (apply (c_vertE _ C c f CN FE), (joins_ends _ _ _ _ _ FJ); auto).
  assert (FNE : f <> e) by (intros ->; apply NC, (joins_ends _ _ _ _ _ FJ); auto).
  exists m', f, (ne m). split; [exact H|]. split.
  { exists c. rewrite (f_nv _ _ _ _ _ _ _ _ _ _ _ F). split; [exact CN|]. apply (f_VE _ _ _ _ _ _ _ _ _ _ _ F). left. split; [exact IC|]. intros [Q _]. contradiction. }
  split. { exists c. rewrite (f_nv _ _ _ _ _ _ _ _ _ _ _ F). split; [exact CN|]. apply (f_VE _ _ _ _ _ _ _ _ _ _ _ F). right. auto. }
  split; [lia|]. split.
  - unfold joins. rewrite !(f_EV _ _ _ _ _ _ _ _ _ _ _ F) by exact RF. exact FJ.
  - left. apply (f_EVn _ _ _ _ _ _ _ _ _ _ _ F).
Qed.

(** ** Indices *)
Variable g : geometry P.

Lemma lookup_kept m inv n order : nv m = 3 + n -> n = length order -> Permutation (map fst order) (map Z.of_nat (seq 0 n)) ->
  (forall k ind (p : P), nth_error order k = Some (ind, p) -> inv ind = Z.of_nat (3 + k)) ->
  forall k ind p, nth_error order k = Some (ind, p) -> lookup m inv ind = Ok (3 + k).
Proof.
  intros NV -> PM H k ind p K. unfold lookup.
  assert (KL : k < length order) by (apply nth_error_Some; congruence).
  assert (I : In ind (map fst order)) by (apply in_map_iff; exists (ind, p); split; [reflexivity|apply (nth_error_In _ _ K)]).
  apply (Permutation_in _ PM) in I. apply in_map_iff in I. destruct I as (j & <- & J). apply in_seq in J.
  assert (((Z.of_nat j <? 0) || (Z.of_nat (nv m) - 3 <=? Z.of_nat j))%Z = false) as ->.
  { apply orb_false_iff. split; [apply Z.ltb_ge; lia|apply Z.leb_gt; lia]. }
  rewrite (H _ _ _ K).
  assert (((0 <=? Z.of_nat (3 + k)) && (Z.of_nat (3 + k) <? Z.of_nat (nv m)))%Z = true) as ->.
  { apply andb_true_iff. split; [apply Z.leb_le; lia|apply Z.ltb_lt; lia]. }
  f_equal. lia.
Qed.

Lemma fill_nth m inv : forall n i l, fill_vertices m inv i n = Ok l -> length l = n /\ forall k, k < n -> exists v, lookup m inv (i + Z.of_nat k) = Ok v /\ nth_error l k = Some v.
Proof.
  induction n as [|n IH]; intros i l H; cbn [fill_vertices] in H.
  - injection H as <-. split; [reflexivity|]. intros k K. lia.
  - destruct (lookup m inv i) as [v| | | |] eqn:L; cbn [bind] in H; try discriminate.
    destruct (fill_vertices m inv (i + 1)%Z n) as [r| | | |] eqn:F; cbn [bind] in H; try discriminate. injection H as <-.
    destruct (IH _ _ F) as [LN H]. split; [cbn; lia|]. intros [|k] K.
    + exists v. rewrite Z.add_0_r. auto.
    + destruct (H k ltac:(lia)) as (w & W1 & W2). exists w. split; [|exact W2]. rewrite <- W1. f_equal. lia.
Qed.

Lemma fill_ok m inv : forall n i, (forall k, k < n -> exists v, lookup m inv (i + Z.of_nat k) = Ok v) -> exists l, fill_vertices m inv i n = Ok l.
Proof.
  induction n as [|n IH]; intros i H; cbn [fill_vertices].
  - exists []. reflexivity.
  - destruct (H 0 ltac:(lia)) as (v & L). rewrite Z.add_0_r in L. rewrite L. cbn [bind].
    destruct (IH (i + 1)%Z) as (l & ->).
    + intros k K. destruct (H (S k) ltac:(lia)) as (w & W). exists w. rewrite <- W. f_equal. lia.
    + cbn [bind]. eexists. reflexivity.
Qed.

Lemma perm_nodup order n : Permutation (map fst order) (map Z.of_nat (seq 0 n)) -> NoDup (map (@fst Z P) order).
Proof.
  intros PM. apply (Permutation_NoDup (Permutation_sym PM)). apply FinFun.Injective_map_NoDup; [intros a b H; lia|apply seq_NoDup].
Qed.

(** what the public functions return when no point is dropped *)
Lemma index_ok b0 b1 b2 ch fuel order T : construct g b0 b1 b2 ch fuel order = Ok T ->
  Permutation (map fst order) (map Z.of_nat (seq 0 (length order))) -> nv (t_mesh T) = 3 + length order ->
  length (t_vertices T) = length order /\
  forall ind p, In (ind, p) order -> exists v, lookup (t_mesh T) (t_inv T) ind = Ok v /\ nth_error (t_vertices T) (Z.to_nat ind) = Some v /\
    POS (t_mesh T) v = p /\ IDX (t_mesh T) v = ind.
Proof.
  unfold construct. intros H PM NV. apply ok_app in H. destruct H as ([m inv] & HI & H). cbv beta iota in H. apply ok_app in H. destruct H as (vs & HF & H). injection H as <-.
  cbn [t_mesh t_vertices t_inv] in *. destruct (fill_nth _ _ _ _ _ HF) as [LN FN]. rewrite NV in LN, FN. replace (3 + length order - 3) with (length order) in LN, FN by lia.
  split; [exact LN|]. intros ind p I. apply In_nth_error in I. destruct I as (k & K).
  pose proof (insert_kept g ch fuel _ order 0 _ _ _ _ HI (perm_nodup _ _ PM) NV eq_refl) as KP.
  assert (LK : lookup m inv ind = Ok (3 + k)).
  { apply (lookup_kept m inv (length order) order NV eq_refl PM) with (p := p); [|exact K]. intros j id q J. apply (KP j id q J). }
  exists (3 + k). split; [exact LK|].
  assert (J : exists j, j < length order /\ ind = Z.of_nat j).
  { assert (I : In ind (map fst order)) by (apply in_map_iff; exists (ind, p); split; [reflexivity|apply (nth_error_In _ _ K)]).
    apply (Permutation_in _ PM) in I. apply in_map_iff in I. destruct I as (j & <- & J). apply in_seq in J. exists j. split; [lia|reflexivity]. }
  destruct J as (j & J & ->). destruct (FN j J) as (v & V1 & V2). rewrite Z.add_0_l in V1. assert (v = 3 + k) by congruence. subst v.
  rewrite Nat2Z.id. split; [exact V2|]. destruct (KP k _ p K) as (A & B & _). auto.
Qed.

(** a dropped point spoils the indices *)
Lemma index_dropped b0 b1 b2 ch fuel l1 l2 m1 inv1 m inv n :
  insert_all g ch fuel l1 0 (bounding b0 b1 b2) (fun _ => 0%Z) n = Ok (m1, inv1) ->
  insert_all g ch fuel (l1 ++ l2) 0 (bounding b0 b1 b2) (fun _ => 0%Z) n = Ok (m, inv) ->
  NoDup (map fst (l1 ++ l2)) -> nv m1 < 3 + length l1 -> nv m1 < nv m ->
  exists ind v, In ind (map fst l2) /\ 3 <= v < nv m /\ IDX m v = ind /\ forall u, lookup m inv ind <> Ok u.
Proof.
  intros H1 H2 ND DR AC. destruct (insert_drop g ch fuel n l2 l1 _ _ _ _ _ _ H1 H2 ND DR AC) as (ind & v & I & V & IV & L).
  exists ind, v. split; [exact I|]. split; [apply insert_frame in H1; destruct H1 as ((A & _) & _); cbn in A; lia|]. split; [exact IV|].
  intros u. unfold lookup. destruct (_ || _)%Z; [discriminate|]. assert ((0 <=? inv ind) && (inv ind <? Z.of_nat (nv m)) = false)%Z as ->; [|discriminate].
  apply andb_false_iff. right. apply Z.ltb_ge. exact L.
Qed.

(** ** The public lists *)
Lemma used_edge m e : usedE m e = true <-> edge_of m e.
Proof.
  unfold usedE, edge_of. rewrite existsb_exists. split.
  - intros (v & V & H). apply in_seq in V. apply existsb_exists in H. destruct H as (x & X & Q). apply Nat.eqb_eq in Q. subst x. exists v. split; [lia|exact X].
  - intros (v & V & H). exists v. split; [apply in_seq; lia|]. apply existsb_exists. exists e. split; [exact H|apply Nat.eqb_refl].
Qed.
Lemma used_tri m t : usedT m t = true <-> tri_of m t.
Proof.
  unfold usedT, tri_of. rewrite existsb_exists. split.
  - intros (v & V & H). apply in_seq in V. apply existsb_exists in H. destruct H as (x & X & Q). apply Nat.eqb_eq in Q. subst x. exists v. split; [lia|exact X].
  - intros (v & V & H). exists v. split; [apply in_seq; lia|]. apply existsb_exists. exists t. split; [exact H|apply Nat.eqb_refl].
Qed.

Lemma public_edges b0 b1 b2 ch fuel order T : construct g b0 b1 b2 ch fuel order = Ok T -> consistent (t_mesh T) ->
  NoDup (t_edges T) /\ forall e, In e (t_edges T) <-> edge_of (t_mesh T) e /\ forall v, end_of (t_mesh T) e v -> 3 <= v.
Proof.
  unfold construct. intros H C. apply ok_app in H. destruct H as ([m inv] & HI & H). cbv beta iota in H. apply ok_app in H. destruct H as (vs & HF & H). injection H as <-.
  cbn [t_mesh t_edges] in *. unfold keptE. split; [apply NoDup_filter, NoDup_filter, seq_NoDup|]. intros e. rewrite !filter_In, in_seq, used_edge.
  unfold isFromBoundingTri. rewrite andb_true_iff, !negb_true_iff, !Nat.ltb_ge. split.
  - intros [[_ E] [A B]]. split; [exact E|]. intros v [<-|<-]; assumption.
  - intros [E K]. split; [split; [pose proof (c_rangeE _ C e E); lia|exact E]|]. split; apply K; [left|right]; reflexivity.
Qed.
Lemma public_triangles b0 b1 b2 ch fuel order T : construct g b0 b1 b2 ch fuel order = Ok T -> consistent (t_mesh T) ->
  NoDup (t_triangles T) /\ forall t, In t (t_triangles T) <-> tri_of (t_mesh T) t /\ forall v, corner (t_mesh T) t v -> 3 <= v.
Proof.
  unfold construct. intros H C. apply ok_app in H. destruct H as ([m inv] & HI & H). cbv beta iota in H. apply ok_app in H. destruct H as (vs & HF & H). injection H as <-.
  cbn [t_mesh t_triangles] in *. unfold keptT. split; [apply NoDup_filter, NoDup_filter, seq_NoDup|]. intros e. rewrite !filter_In, in_seq, used_tri.
  unfold isFromBoundingTri. rewrite negb_true_iff, !orb_false_iff, !Nat.ltb_ge. split.
  - intros [[_ E] [[A B] D]]. split; [exact E|]. intros v [<-|[<-|<-]]; assumption.
  - intros [E K]. split; [split; [pose proof (c_rangeT _ C e E); lia|exact E]|]. split; [split|]; apply K; [left|right; left|right; right]; reflexivity.
Qed.

(** ** General position *)
Variable pos : P -> pt.
Hypothesis SIDES : exact_sides pos g.

Lemma gp_prefix l l' : general_position pos g (l ++ l') -> general_position pos g l.
Proof.
  intros H i j a b I J N. assert (K : forall i a, nth_error l i = Some a -> nth_error (l ++ l') i = Some a).
  { intros k c Q. rewrite nth_error_app1; [exact Q|]. apply nth_error_Some. congruence. }
  destruct (H i j a b (K _ _ I) (K _ _ J) N) as [H1 H2]. split; [exact H1|]. intros k c Q. apply (H2 k c (K _ _ Q)).
Qed.

Lemma inside_true a b c p : inside (pos a) (pos b) (pos c) (pos p) -> isInsideTriangle g a b c p = true.
Proof.
  intros (x & y & z & X & Y & Z & S & E). unfold isInsideTriangle.
  assert (O : forall u v w k k' : R, (0 < k)%R -> k' = (k * u)%R -> (0 <= k' * u)%R).
  { intros u v w k k' K ->. replace (k * u * u)%R with (k * (u * u))%R by ring. apply Rmult_le_pos; [lra|apply Rle_0_sqr]. }
  assert (X1 : x = (1 - y - z)%R) by lra.
  apply andb_true_iff; split; [apply andb_true_iff; split|]; apply SIDES; rewrite E; clear E; subst x.
  - apply (O _ 0 0 z)%R; [exact Z|]. unfold orient, mix. cbn [fst snd]. ring.
  - apply (O _ 0 0 y)%R; [exact Y|]. unfold orient, mix. cbn [fst snd]. ring.
  - apply (O _ 0 0 (1 - y - z))%R; [exact X|]. unfold orient, mix. cbn [fst snd]. ring.
Qed.

Lemma prefix_ok b0 b1 b2 (ch : choices) fuel order n :
  (forall i (l : list nat), l <> [] -> fst (ch i) l < length l) ->
  general_position pos g (b0 :: b1 :: b2 :: map snd order) ->
  Forall (fun p => inside (pos b0) (pos b1) (pos b2) (pos p)) (map snd order) ->
  insert_all g ch fuel order 0 (bounding b0 b1 b2) (fun _ => 0%Z) n = NoFuel \/
  exists m inv, insert_all g ch fuel order 0 (bounding b0 b1 b2) (fun _ => 0%Z) n = Ok (m, inv) /\
    consistent m /\ sizes m (length order) /\ planar pos m /\ fills pos m.
Proof.
  intros FS GP IN.
  assert (GB : general_position pos g [b0; b1; b2]) by (apply (gp_prefix [b0; b1; b2] (map snd order)), GP).
  pose proof (start_good pos g b0 b1 b2 GB) as K.
  destruct (run_ok pos g SIDES ch fuel n FS order [b0; b1; b2] 0 (bounding b0 b1 b2) (fun _ => 0%Z) 3 1 K (bounding_census b0 b1 b2)) as [->|(m & inv & H & K' & NV & CE)].
  - lia.
  - reflexivity.
  - intros u U. cbn in U. each3 u U; reflexivity.
  - exact GP.
  - apply Forall_forall. intros p Q. rewrite Forall_forall in IN. apply (inside_true b0 b1 b2 p (IN p Q)).
  - left. reflexivity.
  - right. exists m, inv. split; [exact H|]. change (nv (bounding b0 b1 b2)) with 3 in NV. destruct K' as [C PL FI G BA]. split; [exact C|]. split; [|auto].
    apply census_sizes; [lia|]. replace (3 * length order + 3) with (3 + 3 * length order) by lia. replace (2 * length order + 1) with (1 + 2 * length order) by lia. exact CE.
Qed.

Lemma general_ok b0 b1 b2 (ch : choices) fuel order :
  (forall i (l : list nat), l <> [] -> fst (ch i) l < length l) ->
  Permutation (map fst order) (map Z.of_nat (seq 0 (length order))) ->
  general_position pos g (b0 :: b1 :: b2 :: map snd order) ->
  Forall (fun p => inside (pos b0) (pos b1) (pos b2) (pos p)) (map snd order) ->
  construct g b0 b1 b2 ch fuel order = NoFuel \/
  exists T, construct g b0 b1 b2 ch fuel order = Ok T /\ consistent (t_mesh T) /\ sizes (t_mesh T) (length order) /\ planar pos (t_mesh T) /\ fills pos (t_mesh T).
Proof.
  intros FS PM GP IN. unfold construct.
  assert (GB : general_position pos g [b0; b1; b2]) by (apply (gp_prefix [b0; b1; b2] (map snd order)), GP).
  pose proof (start_good pos g b0 b1 b2 GB) as K.
  destruct (run_ok pos g SIDES ch fuel (Z.of_nat (length order)) FS order [b0; b1; b2] 0 (bounding b0 b1 b2) (fun _ => 0%Z) 3 1 K (bounding_census b0 b1 b2)) as [->|(m & inv & H & K' & NV & CE)].
  - lia.
  - reflexivity.
  - intros u U. cbn in U. each3 u U; reflexivity.
  - exact GP.
  - apply Forall_forall. intros p Q. rewrite Forall_forall in IN. apply (inside_true b0 b1 b2 p (IN p Q)).
  - left. reflexivity.
  - right. rewrite H. cbn [bind]. change (nv (bounding b0 b1 b2)) with 3 in NV. 
    pose proof (insert_kept g ch fuel _ order 0 _ _ _ _ H (perm_nodup _ _ PM) NV eq_refl) as KP.
    destruct (fill_ok m inv (nv m - 3) 0) as (vs & HF).
    { intros k KK. assert (I : In (Z.of_nat k) (map fst order)).
      { apply (Permutation_in _ (Permutation_sym PM)). apply in_map_iff. exists k. split; [reflexivity|apply in_seq; lia]. }
      apply in_map_iff in I. destruct I as ([ind p] & Q & I). cbn [fst] in Q. subst ind. apply In_nth_error in I. destruct I as (j & J).
      exists (3 + j). rewrite Z.add_0_l. apply (lookup_kept m inv (length order) order NV eq_refl PM) with (p := p); [|exact J]. intros i id q QQ. apply (KP i id q QQ). }
    rewrite HF. cbn [bind]. eexists. split; [reflexivity|]. cbn [t_mesh]. destruct K' as [C PL FI G BA]. split; [exact C|]. split; [|auto].
    apply census_sizes; [lia|]. replace (3 * length order + 3) with (3 + 3 * length order) by lia. replace (2 * length order + 1) with (1 + 2 * length order) by lia. exact CE.
Qed.

(** the flips after an insertion end *)
Lemma flips_end b0 b1 b2 (ch : choices) fuel order ind p m inv n fs coin fuel' t :
  (forall i (l : list nat), l <> [] -> fst (ch i) l < length l) -> (forall l : list nat, l <> [] -> fs l < length l) ->
  general_position pos g (b0 :: b1 :: b2 :: map snd (order ++ [(ind, p)])) ->
  Forall (fun p => inside (pos b0) (pos b1) (pos b2) (pos p)) (map snd (order ++ [(ind, p)])) ->
  insert_all g ch fuel order 0 (bounding b0 b1 b2) (fun _ => 0%Z) n = Ok (m, inv) ->
  enclosingTriangle g (makeVertex m p ind) p fs coin fuel' = Ok t -> 2 * length order + 11 < fuel' ->
  exists m', addPoint g (makeVertex m p ind) (nv m) fs coin fuel' = Ok (m', nv m).
Proof.
  intros FS FS' GP IN H EN FU. rewrite map_app in GP, IN. cbn [map snd] in GP, IN. rewrite Forall_app in IN. destruct IN as [IN INP]. apply Forall_inv in INP.
  assert (GO : general_position pos g ([b0; b1; b2] ++ map snd order)) by (apply (gp_prefix _ [p]); rewrite <- app_assoc; exact GP).
  assert (GB : general_position pos g [b0; b1; b2]) by (apply (gp_prefix _ _ GO)).
  pose proof (start_good pos g b0 b1 b2 GB) as K.
  destruct (run_ok pos g SIDES ch fuel n FS order [b0; b1; b2] 0 (bounding b0 b1 b2) (fun _ => 0%Z) 3 1 K (bounding_census b0 b1 b2)) as [Q|(m2 & inv2 & H2 & K' & NV & CE)].
  - lia.
  - reflexivity.
  - intros u U. cbn in U. each3 u U; reflexivity.
  - exact GO.
  - apply Forall_forall. intros q Q. rewrite Forall_forall in IN. apply (inside_true b0 b1 b2 q (IN q Q)).
  - congruence.
  - rewrite H in H2. injection H2 as <- <-. change (nv (bounding b0 b1 b2)) with 3 in NV.
    assert (POSN : forall u, u < nv m -> nth_error ([b0; b1; b2] ++ map snd order) u = Some (POS m u)).
    { intros u U. pose proof (insert_frame g ch fuel n _ _ _ _ _ _ H) as (_ & OLD & _). change (nv (bounding b0 b1 b2)) with 3 in OLD.
      destruct (Nat.lt_ge_cases u 3) as [L|L].
      - rewrite (proj1 (OLD u L)). rewrite nth_error_app1 by exact L. each3 u L; reflexivity.
      - rewrite nth_error_app2 by exact L. cbn [length]. destruct (nth_error order (u - 3)) as [[id q]|] eqn:Q; [|apply nth_error_None in Q; lia].
        rewrite nth_error_map, Q. cbn [option_map snd]. f_equal.
        assert (REC : forall order i m inv m' inv', insert_all g ch fuel order i m inv n = Ok (m', inv') -> nv m' = nv m + length order ->
          forall k ind (p : P), nth_error order k = Some (ind, p) -> POS m' (nv m + k) = p).
        { clear. induction order as [|[ind0 p0] order IH]; intros i m inv m' inv' H NV k ind p KK; [destruct k; discriminate|].
          change ((ind0, p0) :: order) with ([(ind0, p0)] ++ order) in H. rewrite insert_app in H. apply ok_app in H. destruct H as ([q iv] & H1 & H2).
          cbn [fst snd length] in *. apply insert_one in H1. pose proof (insert_frame g ch fuel n _ _ _ _ _ _ H2) as (N & U & V).
          destruct H1 as [(N1 & U1 & P1 & I1 & V1 & K1)|(N1 & U1 & K1)]; [|lia]. destruct k as [|k].
          - cbn in KK. injection KK as <- <-. rewrite Nat.add_0_r. destruct (U (nv m) ltac:(lia)) as [-> _]. exact P1.
          - cbn in KK. replace (nv m + S k) with (nv q + k) by lia. apply (IH (i + 1) q iv _ _ H2) with (ind := ind); [lia|exact KK]. }
        pose proof (REC order 0 _ _ _ _ H NV (u - 3) id q Q) as R. change (nv (bounding b0 b1 b2)) with 3 in R. replace (3 + (u - 3)) with u in R by lia. congruence. }
    assert (G : general pos g (makeVertex m p ind)).
    { assert (LU : forall z, z < nv (makeVertex m p ind) -> nth_error (([b0; b1; b2] ++ map snd order) ++ [p]) z = Some (POS (makeVertex m p ind) z)).
      { intros z Z. destruct (Nat.eq_dec z (nv m)) as [->|N].
        - rewrite new_pos, nth_error_app2; rewrite app_length, map_length; cbn [length]; [|lia]. replace (nv m - (3 + length order)) with 0 by lia. reflexivity.
        - cbn in Z. rewrite nth_error_app1 by (rewrite app_length, map_length; cbn [length]; lia). cbn [POS makeVertex]. unfold upd.
          pose proof N as N'. apply Nat.eqb_neq in N'. rewrite N'. apply POSN. lia. }
      assert (GP' : general_position pos g (([b0; b1; b2] ++ map snd order) ++ [p])) by (rewrite <- app_assoc; exact GP).
      intros u w U W NE. destruct (GP' u w _ _ (LU u U) (LU w W) NE) as [H1 H2]. split; [exact H1|]. intros z Z ZU ZW. apply (H2 z _ (LU z Z) ZU ZW). }
    assert (IB : isInsideBound g m p = true).
    { pose proof (insert_frame g ch fuel n _ _ _ _ _ _ H) as (_ & OLD & _). change (nv (bounding b0 b1 b2)) with 3 in OLD.
      unfold isInsideBound. rewrite (proj1 (OLD 0 ltac:(lia))), (proj1 (OLD 1 ltac:(lia))), (proj1 (OLD 2 ltac:(lia))). apply (inside_true b0 b1 b2 p INP). }
    destruct (add_ok pos g SIDES m p ind fs coin fuel' _ _ K' CE ltac:(lia) G FS' IB) as [[_ [Q|Q]]|(m' & HA & _)].
    + congruence.
    + cbn [nv makeVertex] in Q. lia.
    + exists m'. exact HA.
Qed.
End Thm.

(** ** Exact arithmetic *)
Definition place (p : point) : pt := (Q2R (fst p), Q2R (snd p)).

Lemma place_orient a b p : orient (place a) (place b) (place p) = Q2R (cross2 (psub b a) (psub p a)).
Proof.
  unfold orient, place, cross2, psub. cbn [fst snd]. rewrite Q2R_minus, !Q2R_mult, !Q2R_minus. reflexivity.
Qed.

Lemma exact_ok e1 e2 : exact_sides place (exact e1 e2).
Proof.
  intros a b p q. cbn [g_sameSide exact]. unfold isSameSide. rewrite !place_orient, <- Q2R_mult, Qle_bool_iff. split.
  - intros H. apply Qle_Rle in H. unfold Q2R at 1 in H. cbn in H. rewrite Rmult_0_l in H. exact H.
  - intros H. apply Rle_Qle. unfold Q2R at 1. cbn. rewrite Rmult_0_l. exact H.
Qed.
