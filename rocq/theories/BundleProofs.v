(** Proofs about the bundle adjustment. *)
From Coq Require Import Reals ZArith List Bool Permutation Sorted Lia Lra.
From Verif Require Import Outcome Pose SphereModel SphereSpec SphereProofs BundleModel BundleSpec.
Import ListNotations.
Open Scope R_scope.

(* ---------- median ---------- *)

Lemma insert_perm x l : Permutation (insert x l) (x :: l).
Proof.
  induction l as [|y l IH]; cbn; [reflexivity|]. destruct (Rle_dec x y); [reflexivity|].
  rewrite IH. apply perm_swap.
Qed.

Lemma sort_perm l : Permutation (sort l) l.
Proof. induction l as [|x l IH]; cbn; [reflexivity|]. rewrite insert_perm. now constructor. Qed.

Lemma insert_sorted x l : StronglySorted Rle l -> StronglySorted Rle (insert x l).
Proof.
  induction l as [|y l IH]; intros H; cbn; [repeat constructor|].
  inversion H as [|? ? H1 H2]; subst. destruct (Rle_dec x y) as [L|L].
  - constructor; [exact H|]. constructor; [exact L|]. eapply Forall_impl; [|exact H2]. intros z Z; cbn in Z. lra.
  - constructor; [auto|]. apply Forall_forall. intros z Z.
    apply (Permutation_in _ (insert_perm x l)) in Z. destruct Z as [<-|Z]; [lra|].
    rewrite Forall_forall in H2. now apply H2.
Qed.

Lemma sort_sorted l : StronglySorted Rle (sort l).
Proof. induction l; cbn; [constructor|]. now apply insert_sorted. Qed.

Lemma above_le t l : (above t l <= length l)%nat.
Proof. unfold above. induction l as [|x l IH]; cbn; [lia|]. destruct (Rlt_dec t x); cbn; lia. Qed.

Lemma above_perm t l l' : Permutation l l' -> above t l = above t l'.
Proof.
  unfold above. induction 1; cbn; auto.
  - destruct (Rlt_dec t x); cbn; lia.
  - destruct (Rlt_dec t x), (Rlt_dec t y); reflexivity.
  - lia.
Qed.

Lemma above_all t l : Forall (fun v => t < v) l -> above t l = length l.
Proof. unfold above. induction 1 as [|x l H F IH]; cbn; [reflexivity|]. destruct (Rlt_dec t x); [cbn; lia|lra]. Qed.

Lemma nth_above t : forall l k, StronglySorted Rle l -> (k < length l)%nat ->
  (t < nth k l 0 <-> (length l - k <= above t l)%nat).
Proof.
  induction l as [|x l IH]; intros k S K; [cbn in K; lia|].
  inversion S as [|? ? S1 S2]; subst. destruct (Rlt_dec t x) as [L|L].
  - assert (A : Forall (fun v => t < v) (x :: l)).
    { constructor; [exact L|]. eapply Forall_impl; [|exact S2]. intros z Z; cbn in Z. lra. }
    rewrite (above_all _ _ A). split; [lia|intros _]. rewrite Forall_forall in A. apply A, nth_In, K.
  - replace (above t (x :: l)) with (above t l) by (unfold above; cbn; destruct (Rlt_dec t x); [lra|reflexivity]).
    destruct k as [|k]; cbn [nth length].
    + split; [lra|]. pose proof (above_le t l). lia.
    + cbn [length] in K. rewrite (IH k S1) by lia. lia.
Qed.

Lemma median_above t l : l <> [] -> (t < median l <-> (length l <= 2 * above t l)%nat).
Proof.
  intros N. assert (0 < length l)%nat by (destruct l; [congruence|cbn; lia]).
  assert (L : length (sort l) = length l) by apply Permutation_length, sort_perm.
  pose proof (Nat.div_mod (length l) 2 ltac:(lia)) as DM. pose proof (Nat.mod_upper_bound (length l) 2 ltac:(lia)) as MB.
  unfold median. rewrite nth_above; [|apply sort_sorted|lia].
  rewrite (above_perm t _ _ (sort_perm l)). lia.
Qed.

Lemma mark_spec s values o : marked (b_outlierDiff s) values o (mark s values o).
Proof.
  unfold marked, mark. destruct (o_state o) eqn:E.
  - destruct values as [|v values]; cbn [o_state]; [left; auto|].
    destruct (Rlt_dec (b_outlierDiff s) (median (v :: values))) as [L|L]; right; (split; [congruence|split; [congruence|]]).
    + left. split; [|reflexivity]. apply median_above; [congruence|exact L].
    + right. split; [|congruence]. rewrite median_above in L by congruence. lia.
  - left. auto.
  - destruct values as [|v values]; cbn [o_state]; [left; auto|].
    destruct (Rlt_dec (b_outlierDiff s) (median (v :: values))) as [L|L]; right; (split; [congruence|split; [congruence|]]).
    + left. split; [|reflexivity]. apply median_above; [congruence|exact L].
    + right. split; [|congruence]. rewrite median_above in L by congruence. lia.
Qed.

Lemma mark_keeps s values o : o_pos (mark s values o) = o_pos o /\ o_lid (mark s values o) = o_lid o.
Proof. unfold mark. destruct (o_state o), values; try destruct (Rlt_dec _ _); auto. Qed.

Lemma marked_perm t values values' o o' : Permutation values values' -> marked t values o o' -> marked t values' o o'.
Proof.
  intros P [[A B]|(A & B & C)].
  - left. split; [exact A|]. destruct B as [B| ->]; [auto|right]. apply Permutation_nil, P.
  - right. split; [exact A|split; [intros ->; apply B, Permutation_nil; now symmetry|]].
    rewrite <- (above_perm t _ _ P), <- (Permutation_length P). exact C.
Qed.

(* ---------- the set of keyframes ---------- *)

Definition ids := map k_id.
Definition ordered (l : list bframe) := StronglySorted (fun a b => (k_id a < k_id b)%Z) l.

Lemma insert_frame_spec k l : ordered l -> ~ In (k_id k) (ids l) ->
  Permutation (insert_frame k l) (k :: l) /\ ordered (insert_frame k l).
Proof.
  induction l as [|x l IH]; intros O N; cbn.
  - split; [reflexivity|repeat constructor].
  - inversion O as [|? ? O1 O2]; subst. cbn in N.
    destruct (k_id k <? k_id x)%Z eqn:L.
    + apply Z.ltb_lt in L. split; [reflexivity|]. constructor; [exact O|]. constructor; [exact L|].
      eapply Forall_impl; [|exact O2]. intros z Z; cbn in Z. lia.
    + apply Z.ltb_ge in L. destruct (k_id k =? k_id x)%Z eqn:E.
      * apply Z.eqb_eq in E. elim N. left. lia.
      * apply Z.eqb_neq in E. destruct IH as [P I]; [exact O1|tauto|]. split.
        -- rewrite P. apply perm_swap.
        -- constructor; [exact I|]. apply Forall_forall. intros z Z. apply (Permutation_in _ P) in Z.
           destruct Z as [<-|Z]; [lia|]. rewrite Forall_forall in O2. now apply O2.
Qed.

Lemma fold_spec : forall ks a, ordered (a_frames a) -> NoDup (ids ks) ->
  (forall k, In k ks -> ~ In (k_id k) (ids (a_frames a))) ->
  let a' := fold_left addKeyFrame ks a in
  ordered (a_frames a') /\ Permutation (a_frames a') (ks ++ a_frames a) /\
  a_first a' = match a_first a with Some f => Some f | None => match ks with [] => None | k :: _ => Some (k_id k) end end.
Proof.
  induction ks as [|k ks IH]; intros a O ND F; cbn [fold_left].
  - cbn. split; [exact O|split; [reflexivity|]]. destruct (a_first a); reflexivity.
  - cbn in ND. inversion ND as [|? ? N1 N2]; subst.
    destruct (insert_frame_spec k (a_frames a) O (F k (or_introl eq_refl))) as [P I].
    destruct (IH (addKeyFrame a k)) as (A & B & C).
    + exact I.
    + exact N2.
    + intros j J X. cbn [addKeyFrame a_frames] in X. unfold ids in X.
      apply (Permutation_in _ (Permutation_map k_id P)) in X. destruct X as [X|X].
      * apply N1. cbn in X. rewrite X. now apply in_map.
      * apply (F j (or_intror J) X).
    + split; [exact A|split].
      * rewrite B. cbn [addKeyFrame a_frames]. rewrite P. symmetry. apply Permutation_middle.
      * rewrite C. cbn [addKeyFrame a_first]. destruct (a_first a); reflexivity.
Qed.

Lemma frames_spec ks : NoDup (ids ks) ->
  let a := fold_left addKeyFrame ks new_adjuster in
  ordered (a_frames a) /\ Permutation (a_frames a) ks /\
  a_first a = match ks with [] => None | k :: _ => Some (k_id k) end.
Proof.
  intros ND. destruct (fold_spec ks new_adjuster) as (A & B & C); cbn; auto.
  - constructor.
  - split; [exact A|split; [|exact C]]. cbn in B. rewrite app_nil_r in B. exact B.
Qed.

Lemma id_inj (l : list bframe) a b : NoDup (ids l) -> In a l -> In b l -> k_id a = k_id b -> a = b.
Proof.
  induction l as [|x l IH]; intros ND A B E; [contradiction|].
  cbn in ND. inversion ND as [|? ? N1 N2]; subst. destruct A as [->|A], B as [->|B]; auto.
  - elim N1. rewrite E. now apply in_map.
  - elim N1. rewrite <- E. now apply in_map.
Qed.

Lemma second_frame_spec f ks l sec : NoDup (ids (f :: ks)) -> ordered l -> Permutation l (f :: ks) ->
  second_frame (k_id f) l = Some sec -> In sec ks /\ forall j, In j ks -> (k_id sec <= k_id j)%Z.
Proof.
  intros ND O P H. cbn in ND. inversion ND as [|? ? N1 N2]; subst.
  assert (G : forall l, ordered l -> second_frame (k_id f) l = Some sec ->
     In sec l /\ k_id sec <> k_id f /\ forall j, In j l -> k_id j <> k_id f -> (k_id sec <= k_id j)%Z).
  { clear. induction l as [|x l IH]; intros O H; [discriminate|]. inversion O as [|? ? O1 O2]; subst.
    unfold second_frame in H. cbn in H. destruct (k_id x =? k_id f)%Z eqn:E; cbn in H.
    - apply Z.eqb_eq in E. destruct (IH O1 H) as (A & B & C). split; [now right|split; [exact B|]].
      intros j [<-|J] N; [congruence|now apply C].
    - apply Z.eqb_neq in E. injection H as <-. split; [now left|split; [exact E|]].
      intros j [<-|J] _; [lia|]. rewrite Forall_forall in O2. specialize (O2 _ J). cbn in O2. lia. }
  destruct (G l O H) as (A & B & C). split.
  - apply (Permutation_in _ P) in A. destruct A as [<-|A]; [congruence|exact A].
  - intros j J. apply C.
    + apply (Permutation_in _ (Permutation_sym P)). now right.
    + intros E. apply N1. rewrite <- E. now apply in_map.
Qed.

Lemma second_frame_none f ks l : NoDup (ids (f :: ks)) -> Permutation l (f :: ks) ->
  second_frame (k_id f) l = None -> ks = [].
Proof.
  intros ND P H. destruct ks as [|k ks]; [reflexivity|]. exfalso. unfold second_frame in H.
  pose proof (find_none _ _ H k) as N. cbn in N.
  assert (I : In k l) by (apply (Permutation_in _ (Permutation_sym P)); right; now left).
  specialize (N I). apply negb_false_iff, Z.eqb_eq in N.
  cbn in ND. inversion ND as [|? ? N1 N2]; subst. apply N1. now left.
Qed.

Lemma find_frame_first f ks l : NoDup (ids (f :: ks)) -> Permutation l (f :: ks) -> find_frame l (k_id f) = Some f.
Proof.
  intros ND P. assert (I : In f l) by (apply (Permutation_in _ (Permutation_sym P)); now left).
  assert (ND' : NoDup (ids l)) by (apply (Permutation_NoDup (Permutation_sym (Permutation_map k_id P)) ND)).
  unfold find_frame. destruct (find _ l) as [x|] eqn:F.
  - apply find_some in F. destruct F as [X E]. apply Z.eqb_eq in E. f_equal. eapply id_inj; eauto.
  - pose proof (find_none _ _ F f I) as N. cbn in N. apply Z.eqb_neq in N. congruence.
Qed.

(* ---------- numbered lists ---------- *)

Lemma in_numbered {A} (l : list A) n i x : In (i, x) (numbered n l) <-> exists j, i = (n + j)%nat /\ nth_error l j = Some x.
Proof.
  revert n; induction l as [|y l IH]; intros n; cbn.
  - split; [contradiction|]. intros (j & _ & H). destruct j; discriminate.
  - rewrite IH. split.
    + intros [E|(j & -> & H)].
      * injection E as -> ->. exists 0%nat. split; [lia|reflexivity].
      * exists (S j). split; [lia|exact H].
    + intros ([|j] & -> & H).
      * left. cbn in H. injection H as ->. f_equal. lia.
      * right. exists j. split; [lia|exact H].
Qed.

Lemma numbered_nodup {A} (l : list A) n : NoDup (map fst (numbered n l)).
Proof.
  revert n; induction l as [|y l IH]; intros n; cbn; [constructor|]. constructor; [|apply IH].
  intros I. apply in_map_iff in I. destruct I as ([i x] & E & I). cbn in E. subst i.
  apply in_numbered in I. destruct I as (j & E & _). lia.
Qed.

Lemma nth_numbered {A} (l : list A) n i : nth_error (numbered n l) i = option_map (fun x => ((n + i)%nat, x)) (nth_error l i).
Proof.
  revert n i; induction l as [|y l IH]; intros n [|i]; cbn; try reflexivity.
  - now rewrite Nat.add_0_r.
  - rewrite IH. destruct (nth_error l i); cbn; [|reflexivity]. now rewrite Nat.add_succ_r.
Qed.

Lemma numbered_length {A} (l : list A) n : length (numbered n l) = length l.
Proof. revert n; induction l as [|y l IH]; intros n; cbn; [reflexivity|]. now rewrite IH. Qed.

(* ---------- the problem ---------- *)

Lemma in_residuals s isOOB l f sec sp r :
  In r (p_residuals (build s isOOB l f sec sp)) <-> contributes s isOOB l r.
Proof.
  cbn. rewrite in_flat_map. unfold contributes, frame_residuals. split.
  - intros (base & IB & H). apply in_flat_map in H. destruct H as ([n o] & IN & H). cbn in H.
    apply in_numbered in IN. destruct IN as (j & -> & NO). unfold point_residuals in H.
    destruct (o_lid o) eqn:L; [|contradiction]. apply in_flat_map in H. destruct H as (ref & IR & H).
    destruct (k_id ref =? k_id base)%Z eqn:E; [contradiction|]. destruct (isOOB base ref o) eqn:B; [contradiction|].
    apply in_map_iff in H. destruct H as (i & <- & I). apply in_seq in I. apply Z.eqb_neq in E. cbn.
    exists base, o, ref. repeat split; auto; try congruence. lia.
  - intros (base & o & ref & IB & IR & EB & ER & NE & P & L & B & PS). exists base. split; [exact IB|].
    apply in_flat_map. exists (r_point r, o). split.
    + apply in_numbered. exists (r_point r). split; [reflexivity|exact P].
    + cbn. unfold point_residuals. destruct (o_lid o) eqn:LO; [|congruence]. apply in_flat_map. exists ref. split; [exact IR|].
      destruct (k_id ref =? k_id base)%Z eqn:E; [apply Z.eqb_eq in E; congruence|]. rewrite B.
      apply in_map_iff. exists (r_pattern r). split; [|apply in_seq; lia]. destruct r; cbn in *. congruence.
Qed.

Lemma nodup_app {A} (l l' : list A) : NoDup l -> NoDup l' -> (forall x, In x l -> ~ In x l') -> NoDup (l ++ l').
Proof.
  induction 1 as [|x l N H IH]; intros H' D; cbn; [exact H'|]. constructor.
  - intros I. apply in_app_or in I. destruct I as [I|I]; [contradiction|]. apply (D x); [now left|exact I].
  - apply IH; auto. intros y Y. apply D. now right.
Qed.

Lemma nodup_flat_map {A B} (f : A -> list B) l :
  NoDup l -> (forall x, In x l -> NoDup (f x)) ->
  (forall x y b, In x l -> In y l -> In b (f x) -> In b (f y) -> x = y) -> NoDup (flat_map f l).
Proof.
  induction l as [|x l IH]; intros ND H1 H2; cbn; [constructor|].
  inversion ND as [|? ? N1 N2]; subst. apply nodup_app.
  - apply H1. now left.
  - apply IH; auto.
    + intros y Y. apply H1. now right.
    + intros y z b Y Z. apply H2; now right.
  - intros b B' C. apply in_flat_map in C. destruct C as (y & Y & C).
    assert (x = y) by (eapply H2; eauto; [now left|now right]). subst y. contradiction.
Qed.

Lemma nodup_of_map {A B} (f : A -> B) l : NoDup (map f l) -> NoDup l.
Proof.
  induction l as [|x l IH]; intros H; [constructor|]. cbn in H. inversion H; subst. constructor; auto.
  intros I. apply H2. now apply in_map.
Qed.

Lemma residuals_nodup s isOOB l f sec sp : NoDup (ids l) -> NoDup (p_residuals (build s isOOB l f sec sp)).
Proof.
  intros ND. cbn. assert (NL : NoDup l) by (eapply nodup_of_map; exact ND). apply nodup_flat_map.
  - exact NL.
  - intros base IB. unfold frame_residuals. apply nodup_flat_map.
    + eapply nodup_of_map, numbered_nodup.
    + intros [n o] _. unfold point_residuals. cbn. destruct (o_lid o); [|constructor].
      apply nodup_flat_map; [exact NL| |].
      * intros ref _. destruct (_ =? _)%Z; [constructor|]. destruct (isOOB _ _ _); [constructor|].
        apply FinFun.Injective_map_NoDup; [|apply seq_NoDup]. intros i j E. congruence.
      * intros x y b X Y BX BY. destruct (k_id x =? k_id base)%Z; [contradiction|]. destruct (isOOB base x o); [contradiction|].
        destruct (k_id y =? k_id base)%Z; [contradiction|]. destruct (isOOB base y o); [contradiction|].
        apply in_map_iff in BX, BY. destruct BX as (i & <- & _), BY as (j & E & _). injection E as E _.
        eapply id_inj; eauto.
    + intros [n o] [n' o'] b I I' BX BY. cbn in BX, BY.
      assert (G : forall n o, In b (point_residuals s isOOB l base n o) -> r_point b = n).
      { intros m q H. unfold point_residuals in H. destruct (o_lid q); [|contradiction]. apply in_flat_map in H.
        destruct H as (ref & _ & H). destruct (_ =? _)%Z; [contradiction|]. destruct (isOOB _ _ _); [contradiction|].
        apply in_map_iff in H. destruct H as (i & <- & _). reflexivity. }
      assert (n = n') by (rewrite <- (G _ _ BX), <- (G _ _ BY); reflexivity). subst n'.
      apply in_numbered in I, I'. destruct I as (j & E & H), I' as (j' & E' & H').
      assert (j = j') by lia. subst j'. congruence.
  - intros x y b X Y BX BY.
    assert (G : forall k, In b (frame_residuals s isOOB l k) -> r_base b = k_id k).
    { intros k H. unfold frame_residuals in H. apply in_flat_map in H. destruct H as ([n o] & _ & H).
      unfold point_residuals in H. cbn in H. destruct (o_lid o); [|contradiction]. apply in_flat_map in H.
      destruct H as (ref & _ & H). destruct (_ =? _)%Z; [contradiction|]. destruct (isOOB _ _ _); [contradiction|].
      apply in_map_iff in H. destruct H as (i & <- & _). reflexivity. }
    eapply id_inj; eauto. rewrite <- (G _ BX), <- (G _ BY). reflexivity.
Qed.

Lemma in_depth_blocks l id n : In (Depth id n) (flat_map depth_blocks l) <->
  exists k o, In k l /\ k_id k = id /\ is_point k n o /\ o_lid o <> None.
Proof.
  rewrite in_flat_map. split.
  - intros (k & K & H). unfold depth_blocks in H. apply in_flat_map in H. destruct H as ([m o] & IN & H). cbn in H.
    apply in_numbered in IN. destruct IN as (j & -> & NO). destruct (o_lid o) eqn:L; [|contradiction].
    destruct H as [H|[]]. injection H as <- <-. exists k, o. repeat split; auto. congruence.
  - intros (k & o & K & <- & P & L). exists k. split; [exact K|]. unfold depth_blocks. apply in_flat_map.
    exists (n, o). split; [apply in_numbered; exists n; split; [reflexivity|exact P]|]. cbn.
    destruct (o_lid o); [now left|congruence].
Qed.

(* ---------- the whole step ---------- *)

Lemma Forall2_in {A B} (P : A -> B -> Prop) l l' x : Forall2 P l l' -> In x l -> exists y, In y l' /\ P x y.
Proof.
  induction 1 as [|a b l l' H F IH]; intros I; [contradiction|]. destruct I as [<-|I].
  - exists b. split; [now left|exact H].
  - destruct (IH I) as (y & Y & Q). exists y. split; [now right|exact Q].
Qed.

(** partners in two lists related element by element are the elements of equal address *)
Lemma partner (P : bframe -> bframe -> Prop) l l' k k' :
  Forall2 P l l' -> Forall2 (fun a b => k_id b = k_id a) l l' -> NoDup (ids l) ->
  In k l -> In k' l' -> k_id k' = k_id k -> P k k'.
Proof.
  intros F. induction F as [|a b l l' H F IH]; intros I ND K K' E; [contradiction|].
  inversion I as [|? ? ? ? E1 I']; subst. cbn in ND. inversion ND as [|? ? N1 N2]; subst.
  assert (IDS : ids l' = ids l).
  { clear - I'. induction I' as [|x y l l' E I IH]; [reflexivity|]. cbn. f_equal; auto. }
  destruct K as [->|K], K' as [->|K'].
  - exact H.
  - elim N1. rewrite <- E, <- IDS. now apply in_map.
  - elim N1. rewrite <- E1, E. now apply in_map.
  - apply IH; auto.
Qed.

Lemma Forall2_and' {A B} (P Q : A -> B -> Prop) l l' : Forall2 P l l' -> Forall2 Q l l' -> Forall2 (fun x y => P x y /\ Q x y) l l'.
Proof. induction 1 as [|x y l l' H F IH]; intros G; [constructor|]. inversion G; subst. constructor; auto. Qed.

Lemma Forall2_impl' {A B} (P Q : A -> B -> Prop) l l' : (forall x y, P x y -> Q x y) -> Forall2 P l l' -> Forall2 Q l l'.
Proof. induction 2; constructor; auto. Qed.

Lemma Forall2_map_r {A B C} (P : A -> C -> Prop) (f : B -> C) l l' : Forall2 (fun x y => P x (f y)) l l' -> Forall2 P l (map f l').
Proof. induction 1; cbn; constructor; auto. Qed.

Lemma Forall2_refl' {A} (P : A -> A -> Prop) l : (forall x, P x x) -> Forall2 P l l.
Proof. intros H. induction l; constructor; auto. Qed.

(** marking one keyframe *)
Definition mark_frame (s : bsettings) (value : residual -> R) (rs : list residual) (second : Z) (k : bframe) : bframe :=
  if (k_id k =? second)%Z
  then {| k_id := k_id k; k_pose := k_pose k; k_light := k_light k;
          k_pts := map (fun no => mark s (map value
            (filter (fun r => (r_base r =? second)%Z && (r_point r =? fst no)%nat) rs)) (snd no)) (numbered 0 (k_pts k)) |}
  else k.

Lemma mark_frame_point s value rs second k n o' : k_id k = second ->
  is_point (mark_frame s value rs second k) n o' ->
  exists o, is_point k n o /\
    o' = mark s (map value (filter (fun r => (r_base r =? second)%Z && (r_point r =? n)%nat) rs)) o.
Proof.
  intros E H. unfold mark_frame in H. rewrite (proj2 (Z.eqb_eq _ _) E) in H. unfold is_point in *. cbn in H.
  rewrite nth_error_map, nth_numbered in H. destruct (nth_error (k_pts k) n) as [o|]; [|discriminate].
  cbn in H. injection H as <-. exists o. split; reflexivity.
Qed.

Lemma mark_frame_keeps s value rs second k :
  successor k (mark_frame s value rs second k) /\ same_params k (mark_frame s value rs second k).
Proof.
  unfold mark_frame. destruct (k_id k =? second)%Z eqn:E.
  - assert (G : forall n o o', nth_error (k_pts k) n = Some o ->
      nth_error (map (fun no => mark s (map value
            (filter (fun r => (r_base r =? second)%Z && (r_point r =? fst no)%nat) rs)) (snd no)) (numbered 0 (k_pts k))) n = Some o' ->
      o_pos o' = o_pos o /\ o_lid o' = o_lid o).
    { intros n o o' H1 H2. rewrite nth_error_map, nth_numbered, H1 in H2. cbn in H2. injection H2 as <-. apply mark_keeps. }
    split.
    + split; [reflexivity|split].
      * cbn. now rewrite map_length, numbered_length.
      * intros n o o' H1 H2. eapply G; eauto.
    + split; [reflexivity|split; [reflexivity|]]. intros n o o' H1 H2. eapply G; eauto.
  - split; (split; [reflexivity|split; [reflexivity|]]); intros n o o' H1 H2; unfold is_point in *; congruence.
Qed.

Lemma mark_all_map s value pr second l : mark_all s value pr second l = map (mark_frame s (value l) (p_residuals pr) second) l.
Proof. reflexivity. Qed.

(** everything about one call *)
Record step (s : bsettings) (isOOB : oob_test) (value : list bframe -> residual -> R)
  (ks l l1 l' : list bframe) (f sec : bframe) (pr : problem) (sp : spherical_plus) : Prop := {
  st_perm : Permutation l ks;
  st_first : first_of ks f;
  st_second : second_of ks sec;
  st_sp : sp_new (tr (k_pose f)) (vnorm (vsub (tr (k_pose sec)) (tr (k_pose f)))) (tr (k_pose sec)) = Ok sp;
  st_pr : pr = build s isOOB l (k_id f) sec sp;
  st_mark : l' = map (mark_frame s (value l1) (p_residuals pr) (k_id sec)) l1 }.

Lemma adjust_step s isOOB value solve ks l' : NoDup (ids ks) ->
  adjust_frames s isOOB value solve ks = Ok l' ->
  exists l f sec pr sp, step s isOOB value ks l (solve pr l) l' f sec pr sp.
Proof.
  intros ND H. unfold adjust_frames in H. destruct (frames_spec ks ND) as (O & P & F).
  set (a := fold_left addKeyFrame ks new_adjuster) in *. unfold adjust in H.
  destruct ks as [|f ks]; [rewrite F in H; discriminate|]. rewrite F in H.
  rewrite (find_frame_first f ks _ ND P) in H.
  destruct (second_frame (k_id f) (a_frames a)) as [sec|] eqn:S; [|discriminate].
  destruct (sp_new _ _ _) as [sp| | | |] eqn:SP; try discriminate. cbn [bind] in H. injection H as <-.
  destruct (second_frame_spec f ks _ _ ND O P S) as [S1 S2].
  exists (a_frames a), f, sec, (build s isOOB (a_frames a) (k_id f) sec sp), sp. constructor; auto.
  - exists ks. reflexivity.
  - exists f, ks. auto.
Qed.
