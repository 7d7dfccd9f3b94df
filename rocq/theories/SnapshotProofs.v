(** Proofs about snapshots (C22-C25). *)
From Coq Require Import Ascii String ZArith List Bool Lia ZifyBool Permutation Sorting.Sorted.
From Verif Require Import Outcome Dbl PlyModel PlySpec PlyProofs SnapshotModel SnapshotSpec.
Import ListNotations.
Open Scope Z_scope.

(** ** Words *)
Definition word (w : bytes) : Prop := w <> [] /\ Forall (fun c => c <> " "%char /\ c <> "010"%char) w.

Lemma tokens_word_gen w cur rest : Forall (fun c => c <> " "%char /\ c <> "010"%char) w ->
  tokens cur (w ++ rest) = tokens (rev w ++ cur) rest.
Proof.
  revert cur. induction w as [|c w IH]; intros cur H; [reflexivity|]. inversion H as [|? ? [A B] C]; subst.
  cbn [app tokens]. unfold is_space. rewrite (proj2 (Ascii.eqb_neq _ _) A), (proj2 (Ascii.eqb_neq _ _) B). cbn [orb].
  rewrite IH by auto. cbn [rev]. rewrite <- app_assoc. reflexivity.
Qed.

Lemma tokens_word w c rest : word w -> is_space c = true -> tokens [] (w ++ c :: rest) = w :: tokens [] rest.
Proof.
  intros [N F] H. rewrite tokens_word_gen by auto. rewrite app_nil_r. cbn [tokens]. rewrite H.
  destruct (rev w) eqn:E; [|rewrite <- E, rev_involutive; reflexivity].
  exfalso. apply N. rewrite <- (rev_involutive w), E. reflexivity.
Qed.
Lemma tokens_space c rest : is_space c = true -> tokens [] (c :: rest) = tokens [] rest.
Proof. intros H. cbn [tokens]. rewrite H. reflexivity. Qed.

(** ** Integers *)
Lemma digit_of_value c : digit_of c = digit_value c.
Proof.
  unfold digit_of, digit_value, nat_of_ascii. rewrite N_nat_Z. reflexivity.
Qed.
Lemma undec_read acc l any : (any = true \/ l <> []) -> undec acc l =
  match read_digits any acc l with Some (z, []) => Some z | _ => None end.
Proof.
  revert acc any. induction l as [|c l IH]; intros acc any H.
  - destruct H as [->|H]; [reflexivity|congruence].
  - cbn [undec read_digits]. rewrite digit_of_value. destruct (digit_value c); [apply IH; auto|]. destruct any; reflexivity.
Qed.
Lemma dec_nonempty z : 0 <= z -> dec z <> [].
Proof. intros H. destruct (dec_read z false 0 [] H) as (k & A & B & _). destruct (dec z); [simpl in B; lia|discriminate]. Qed.
Lemma dec_neg z : z < 0 -> dec z = "-"%char :: dec (- z).
Proof.
  intros H. unfold dec. destruct (Z.ltb_spec z 0); [|lia]. destruct (Z.ltb_spec (- z) 0); [lia|]. reflexivity.
Qed.
Lemma dec_word z : word (dec z).
Proof.
  split; [|apply dec_plain]. destruct (Z_lt_le_dec z 0); [rewrite dec_neg by auto; discriminate|apply dec_nonempty; auto].
Qed.
Lemma digit_not_minus d : 0 <= d <= 9 -> digit d <> "-"%char.
Proof. intros H E. pose proof (digit_value_digit d H) as A. rewrite E in A. discriminate. Qed.

Lemma undec_dec z : 0 <= z -> undec 0 (dec z) = Some z.
Proof.
  intros H. rewrite (undec_read _ _ false) by (right; apply dec_nonempty; auto).
  pose proof (dec_denotes z H) as A. unfold denotes in A. rewrite A. reflexivity.
Qed.

Lemma dec_head_not_minus z : 0 <= z -> forall c w, dec z = c :: w -> Ascii.eqb c "-" = false.
Proof.
  intros H c w E. pose proof (undec_dec z H) as A. rewrite E in A. cbn [undec] in A.
  destruct (Ascii.eqb_spec c "-"); [subst c; discriminate|reflexivity].
Qed.

Lemma parse_dec z : INT_MIN <= z <= INT_MAX -> parse_int (dec z) = Some z.
Proof.
  intros H. unfold parse_int.
  assert (I : in_int z = true) by (unfold in_int; lia).
  destruct (Z_lt_le_dec z 0) as [N|N].
  - rewrite dec_neg by auto. cbn [Ascii.eqb Bool.eqb]. change (Ascii.eqb "-" "-") with true. cbn iota.
    destruct (dec (- z)) eqn:E; [exfalso; apply (dec_nonempty (- z)); [lia|auto]|].
    rewrite <- E, undec_dec by lia. cbn [option_map]. rewrite Z.opp_involutive, I. reflexivity.
  - destruct (dec z) as [|c w] eqn:E; [exfalso; apply (dec_nonempty z N E)|].
    rewrite (dec_head_not_minus z N c w E), <- E, undec_dec, I by auto. reflexivity.
Qed.

Lemma dec_inj a b : dec a = dec b -> a = b.
Proof.
  destruct (Z_lt_le_dec a 0) as [A|A]; destruct (Z_lt_le_dec b 0) as [B|B]; intros E.
  - rewrite (dec_neg a), (dec_neg b) in E by auto. apply (f_equal (@tl ascii)) in E. cbn [tl] in E. pose proof (undec_dec (-a) ltac:(lia)) as X. rewrite E, undec_dec in X by lia.
    injection X as X. lia.
  - rewrite dec_neg in E by auto. symmetry in E. pose proof (dec_head_not_minus b B _ _ E). discriminate.
  - rewrite (dec_neg b) in E by auto. pose proof (dec_head_not_minus a A _ _ E). discriminate.
  - pose proof (undec_dec a A) as X. rewrite E, undec_dec in X by auto. congruence.
Qed.

Lemma kf_dir_inj a b : kf_dir a = kf_dir b -> a = b.
Proof. intros E. apply dec_inj. exact (app_inv_head _ _ _ E). Qed.
Lemma pkf_name_inj a b : pkf_name a = pkf_name b -> a = b.
Proof. intros E. apply dec_inj. apply app_inv_head in E. apply app_inv_tail in E. exact E. Qed.

Lemma int_of_size_id n : Z.of_nat n <= INT_MAX -> int_of_size n = Z.of_nat n.
Proof. unfold int_of_size, INT_MAX. intros H. rewrite Z.mod_small; lia. Qed.

Lemma beq_eq a b : beq a b = true <-> a = b.
Proof. unfold beq. destruct (list_eq_dec ascii_dec a b); split; congruence. Qed.
Lemma beq_refl a : beq a a = true.
Proof. apply beq_eq; reflexivity. Qed.
Lemma beq_neq a b : a <> b -> beq a b = false.
Proof. intros H. destruct (beq a b) eqn:E; [apply beq_eq in E; contradiction|reflexivity]. Qed.

Section Snapshot.
Variable D : Type.
Variable dprint : D -> bytes.
Variable dparse : bytes -> option D.
Variable dneg : D -> D.
Variable dexp : D -> D.
Variable dzero : D.
Variable is_inf : D -> bool.
Variable qnormalize : (D * D * D * D) -> (D * D * D * D).
Hypothesis CODEC : codec_ok dprint dparse.
Hypothesis NEG : forall x, dneg (dneg x) = x.
Variable ps : nat.

Notation vec2 := (D * D)%type.
Notation vec3 := (D * D * D)%type.
Notation skf := (skf D).
Notation ipt := (ipt D).
Notation opt := (opt D).
Notation pkf := (pkf D).
Notation num k := (p_num (k_pre k)).

Lemma dword x : word (dprint x).
Proof. destruct (CODEC x) as (_ & A & B). split; auto. Qed.

(** ** Reading back what was written *)
Lemma get_d_put x s : get_d D dparse (dprint x :: s) = Ok (x, s).
Proof. unfold get_d. rewrite (proj1 (CODEC x)). reflexivity. Qed.
Lemma get_z_put z s : INT_MIN <= z <= INT_MAX -> get_z (dec z :: s) = Ok (z, s).
Proof. intros H. unfold get_z. rewrite parse_dec by auto. reflexivity. Qed.

Lemma tok_d x r : tokens [] (put_d D dprint x ++ r) = dprint x :: tokens [] r.
Proof. unfold put_d. rewrite <- app_assoc. apply tokens_word; [apply dword|reflexivity]. Qed.
Lemma tok_z z r : tokens [] (put_z z ++ r) = dec z :: tokens [] r.
Proof. unfold put_z. rewrite <- app_assoc. apply tokens_word; [apply dec_word|reflexivity]. Qed.
Lemma tok_vec l r : tokens [] (put_vec D dprint l ++ r) = map dprint l ++ tokens [] r.
Proof.
  unfold put_vec. rewrite <- app_assoc. induction l as [|x l IH]; [apply tokens_space; reflexivity|].
  cbn [flat_map map]. rewrite <- !app_assoc. cbn [app]. rewrite tokens_word by (apply dword || reflexivity).
  cbn [app]. f_equal. exact IH.
Qed.
Lemma tok_light l r : tokens [] (put_light D dprint l ++ r) = dprint (fst l) :: dprint (snd l) :: tokens [] r.
Proof.
  unfold put_light. rewrite <- !app_assoc. cbn [app]. rewrite tokens_word by (apply dword || reflexivity).
  rewrite <- app_assoc. cbn [app]. rewrite tokens_word by (apply dword || reflexivity). reflexivity.
Qed.

Lemma rt_v2 v r : get_v2 D dparse (tokens [] (put_v2 D dprint v ++ r)) = Ok (v, tokens [] r).
Proof. destruct v as [x y]. unfold put_v2. rewrite tok_vec. unfold get_v2. cbn [map app]. rewrite !get_d_put; cbn [bind]; rewrite get_d_put. reflexivity. Qed.
Lemma rt_light v r : get_v2 D dparse (tokens [] (put_light D dprint v ++ r)) = Ok (v, tokens [] r).
Proof. destruct v as [x y]. rewrite tok_light. unfold get_v2. cbn [fst snd]. rewrite get_d_put; cbn [bind]; rewrite get_d_put. reflexivity. Qed.
Lemma rt_v3 v r : get_v3 D dparse (tokens [] (put_v3 D dprint v ++ r)) = Ok (v, tokens [] r).
Proof. destruct v as [[x y] z]. unfold put_v3. rewrite tok_vec. unfold get_v3. cbn [map app]. do 3 (rewrite get_d_put; cbn [bind]). reflexivity. Qed.
Lemma rt_pose p r : qnormalize (fst p) = fst p ->
  get_pose D dparse qnormalize (tokens [] (put_pose D dprint p ++ r)) = Ok (p, tokens [] r).
Proof.
  destruct p as [[[[x y] z] w] t]. cbn [fst]. intros H. unfold put_pose, put_q. cbn [fst snd].
  rewrite <- app_assoc, tok_vec. unfold get_pose, get_q, get_v3 at 1. cbn [map app]. do 4 (rewrite get_d_put; cbn [bind]).
  rewrite rt_v3. cbn [bind]. rewrite H. reflexivity.
Qed.
Lemma rt_z z r : INT_MIN <= z <= INT_MAX -> get_z (tokens [] (put_z z ++ r)) = Ok (z, tokens [] r).
Proof. intros H. rewrite tok_z. apply get_z_put; auto. Qed.
Lemma rt_d x r : get_d D dparse (tokens [] (put_d D dprint x ++ r)) = Ok (x, tokens [] r).
Proof. rewrite tok_d. apply get_d_put. Qed.

Lemma put_all_len {A} (put : A -> bytes) l : put_all put (length l) l = Ok (flat_map put l).
Proof. induction l as [|a l IH]; [reflexivity|]. cbn [length put_all flat_map]. rewrite IH. reflexivity. Qed.
Lemma get_all_put {A} (get : list bytes -> outcome (A * list bytes)) (put : A -> bytes) l r :
  (forall a r, In a l -> get (tokens [] (put a ++ r)) = Ok (a, tokens [] r)) ->
  get_all get (length l) (tokens [] (flat_map put l ++ r)) = Ok (l, tokens [] r).
Proof.
  intros H. induction l as [|a l IH]; [reflexivity|]. cbn [length get_all flat_map]. rewrite <- app_assoc.
  rewrite H by (left; reflexivity). cbn [bind]. rewrite IH by (intros; apply H; right; auto). reflexivity.
Qed.

(** ** Points *)
Definition restored_imm (p : ipt) : ipt :=
  {| i_p := i_p p; i_dirs := i_dirs p; i_int := i_int p; i_grad := i_grad p; i_gradn := i_gradn p;
     i_min := i_min p; i_max := i_max p; i_depth := i_depth p; i_quality := i_quality p; i_energy := i_energy p;
     i_stddev := i_stddev p; i_state := i_state p;
     i_lastTraced := negb (is_inf (i_max p)); i_numTraced := if is_inf (i_max p) then 0 else 1;
     i_before := i_depth p; i_level := 0; i_pyrChanged := Some false |}.
Definition restored_opt (p : opt) : opt :=
  {| o_p := o_p p; o_logInv := o_logInv p; o_stddev := o_stddev p; o_state := None |}.

Definition imm_text (p : ipt) : bytes :=
  put_v2 D dprint (i_p p) ++ flat_map (put_v3 D dprint) (i_dirs p) ++
  match i_dirs p with [] => [] | d :: _ => put_v3 D dprint d end ++
  flat_map (put_d D dprint) (i_int p) ++ flat_map (put_v2 D dprint) (i_grad p) ++ flat_map (put_v2 D dprint) (i_gradn p) ++
  put_d D dprint (i_min p) ++ put_d D dprint (i_max p) ++ put_d D dprint (i_depth p) ++ put_d D dprint (i_quality p) ++
  put_d D dprint (i_energy p) ++ put_d D dprint (i_stddev p) ++ put_z (i_state p).

Lemma store_imm_text p : imm_ok ps p -> store_imm D dprint ps p = Ok (imm_text p).
Proof.
  intros (PS & A & B & C & E & _). unfold store_imm. rewrite <- A at 1. rewrite put_all_len. cbn [bind].
  destruct (i_dirs p) as [|d ds] eqn:Ed; [simpl in A; lia|]. cbn [bind].
  rewrite <- B at 1. rewrite put_all_len. cbn [bind]. rewrite <- C at 1. rewrite put_all_len. cbn [bind].
  rewrite <- E at 1. rewrite put_all_len. cbn [bind]. unfold imm_text. rewrite Ed. reflexivity.
Qed.

Lemma load_imm_text p r : imm_ok ps p ->
  load_imm D dparse is_inf ps (tokens [] (imm_text p ++ r)) = Ok (restored_imm p, tokens [] r).
Proof.
  intros (PS & A & B & C & E & St). unfold imm_text. destruct (i_dirs p) as [|d ds] eqn:Ed; [simpl in A; lia|].
  rewrite <- !app_assoc. unfold load_imm. rewrite rt_v2. cbn [bind].
  rewrite <- A at 1. rewrite get_all_put by (intros; apply rt_v3). cbn [bind]. rewrite rt_v3. cbn [bind].
  rewrite <- B at 1. rewrite get_all_put by (intros; apply rt_d). cbn [bind].
  rewrite <- C at 1. rewrite get_all_put by (intros; apply rt_v2). cbn [bind].
  rewrite <- E at 1. rewrite get_all_put by (intros; apply rt_v2). cbn [bind].
  do 6 (rewrite rt_d; cbn [bind]). rewrite rt_z by auto. cbn [bind]. unfold restored_imm. rewrite Ed. reflexivity.
Qed.

Definition opt_text (p : opt) : bytes :=
  put_v2 D dprint (o_p p) ++ put_v3 D dprint (dzero, dzero, dzero) ++ put_d D dprint (dneg (o_logInv p)) ++
  put_d D dprint (o_stddev p) ++ put_d D dprint (dexp (dneg (o_logInv p))) ++ put_d D dprint (dexp (dneg (o_logInv p))).

Lemma load_opt_text p r : load_opt D dparse dneg (tokens [] (opt_text p ++ r)) = Ok (restored_opt p, tokens [] r).
Proof.
  unfold opt_text. rewrite <- !app_assoc. unfold load_opt. rewrite rt_v2. cbn [bind]. rewrite rt_v3. cbn [bind].
  do 4 (rewrite rt_d; cbn [bind]). rewrite NEG. reflexivity.
Qed.

Lemma store_points_text {A} (st : A -> outcome bytes) (tx : A -> bytes) l : Forall (fun a => st a = Ok (tx a)) l ->
  store_points st l = Ok (put_z (int_of_size (length l)), flat_map tx l).
Proof.
  intros H. unfold store_points.
  assert (G : forall acc, ofold (fun acc a => bind (st a) (fun b => Ok (acc ++ b))) l acc = Ok (acc ++ flat_map tx l)).
  { induction H as [|a l Ha H IH]; intros acc; [cbn; rewrite app_nil_r; reflexivity|].
    cbn [ofold flat_map]. rewrite Ha. cbn [bind]. rewrite IH, app_assoc. reflexivity. }
  rewrite G. reflexivity.
Qed.

Lemma load_points_text {A} (get : list bytes -> outcome (A * list bytes)) (tx : A -> bytes) (re : A -> A) l :
  Forall (fun a => forall r, get (tokens [] (tx a ++ r)) = Ok (re a, tokens [] r)) l ->
  Z.of_nat (length l) <= INT_MAX ->
  load_points get (Z.of_nat (length l)) (Some (flat_map tx l)) = Ok (map re l).
Proof.
  intros H Hl. unfold load_points. destruct (Z.ltb_spec (Z.of_nat (length l)) 0); [lia|]. rewrite Nat2Z.id.
  assert (G : get_all get (length l) (tokens [] (flat_map tx l)) = Ok (map re l, [])).
  { clear Hl. induction H as [|a l Ha H IH]; [reflexivity|]. cbn [length get_all flat_map map]. rewrite Ha. cbn [bind].
    rewrite IH by lia. reflexivity. }
  rewrite G. reflexivity.
Qed.

Lemma load_pkf_text f : pkf_ok qnormalize f -> load_pkf D dparse qnormalize (Some (store_pkf D dprint f)) = Ok f.
Proof.
  intros [A B]. unfold load_pkf, store_pkf. rewrite rt_pose by auto. cbn [bind]. rewrite rt_z by auto. cbn [bind].
  rewrite <- (app_nil_r (put_light D dprint (p_light f))). rewrite rt_light. cbn [bind]. destruct f; reflexivity.
Qed.

(** ** Keyframes *)
Definition restored (hist : list skf) (k : skf) : skf :=
  let r := refresh hist k in
  {| k_pre := k_pre k; k_pose := k_pose k; k_light := k_light k; k_imm := map restored_imm (k_imm k);
     k_opt := map restored_opt (k_opt k); k_tracked := k_tracked r |}.

Lemma restored_same hist k : kf_same (refresh hist k) (restored hist k).
Proof.
  unfold kf_same, restored, refresh. cbn. repeat (split; [reflexivity|]). split; [|split; [|reflexivity]].
  - induction (k_imm k); cbn [map]; constructor; auto. unfold imm_same, restored_imm; cbn. tauto.
  - induction (k_opt k); cbn [map]; constructor; auto. unfold opt_same, restored_opt; cbn. tauto.
Qed.

Definition own_text (k : skf) : bytes :=
  put_z (Z.of_nat (length (k_imm k))) ++ put_z (Z.of_nat (length (k_opt k))) ++ put_z (num k) ++
  put_pose D dprint (k_pose k) ++ put_light D dprint (k_light k) ++
  put_z (Z.of_nat (length (k_tracked k))) ++ flat_map (fun t => put_z (p_num t)) (k_tracked k).

(** What a keyframe's files must hold to be read back as [k]. *)
Definition files_hold (f : fs) (k : skf) : Prop :=
  fs_in f (kf_dir (num k)) (lit "pkf.txt") = Some (store_pkf D dprint (k_pre k)) /\
  fs_in f (kf_dir (num k)) (lit "immaturePoints.txt") = Some (flat_map imm_text (k_imm k)) /\
  fs_in f (kf_dir (num k)) (lit "optimizedPoints.txt") = Some (flat_map opt_text (k_opt k)) /\
  fs_in f (kf_dir (num k)) (lit "kf.txt") = Some (own_text k).

Definition tracked_hold (f : fs) (hist : list skf) : Prop :=
  forall n t, last_tracked hist n = Some t -> fs_root f (pkf_name n) = Some (store_pkf D dprint t).

Lemma last_tracked_some (hist : list skf) t : In t (flat_map k_tracked hist) ->
  exists u, last_tracked hist (p_num t) = Some u /\ p_num u = p_num t /\ In u (flat_map k_tracked hist).
Proof.
  intros H. unfold last_tracked. destruct (find _ (rev _)) as [u|] eqn:E.
  - apply find_some in E as [A B]. exists u. rewrite <- in_rev in A. apply Z.eqb_eq in B. auto.
  - exfalso. apply in_rev in H. pose proof (find_none _ _ E _ H) as X. simpl in X. rewrite Z.eqb_refl in X. discriminate.
Qed.

Lemma load_tracked_text f (hist : list skf) l : tracked_hold f hist -> incl l (flat_map k_tracked hist) ->
  Forall (pkf_ok qnormalize) (flat_map k_tracked hist) -> Z.of_nat (length l) <= INT_MAX ->
  load_tracked D dparse qnormalize f (tokens [] (put_z (Z.of_nat (length l)) ++ flat_map (fun t => put_z (p_num t)) l)) =
  Ok (map (fun t => match last_tracked hist (p_num t) with Some u => u | None => t end) l, []).
Proof.
  intros Ht Hi Hok Hl. rewrite Forall_forall in Hok. unfold load_tracked. rewrite rt_z by (unfold INT_MIN; lia). cbn [bind].
  destruct (Z.ltb_spec (Z.of_nat (length l)) 0); [lia|]. rewrite Nat2Z.id. clear Hl.
  induction l as [|t l IH]; [reflexivity|]. cbn [length get_all flat_map map].
  assert (It : In t (flat_map k_tracked hist)) by (apply Hi; left; reflexivity).
  rewrite rt_z by (apply (Hok t It)). cbn [bind].
  destruct (last_tracked_some _ _ It) as (u & E & Eu & Iu). rewrite E. rewrite (Ht _ _ E).
  rewrite load_pkf_text by (apply Hok; auto). cbn [bind].
  assert (Hi' : incl l (flat_map k_tracked hist)) by (intros x Hx; apply Hi; right; exact Hx).
  specialize (IH Hi'). rewrite IH by lia. reflexivity.
Qed.

(** The keyframe a directory holds; [load_kf] is its insertion. *)
Definition entry (f : fs) (d : bytes) : outcome skf :=
  bind (load_pkf D dparse qnormalize (fs_in f d (lit "pkf.txt"))) (load_own D dparse dneg is_inf qnormalize ps f d).

Lemma load_own_pre f d pre k : load_own D dparse dneg is_inf qnormalize ps f d pre = Ok k -> k_pre k = pre.
Proof.
  unfold load_own. destruct (fs_in f d (lit "kf.txt")); [|discriminate]. intros H.
  repeat (apply bind_ok_inv in H as (? & ? & H); match type of H with (let '(_, _) := ?x in _) = _ => destruct x | _ => idtac end;
    try match type of H with (if ?b then _ else _) = _ => destruct b; [discriminate|] end).
  injection H as <-. reflexivity.
Qed.

Lemma load_kf_entry f m d m' : load_kf D dparse dneg is_inf qnormalize ps f m d = Ok m' <->
  exists k, entry f d = Ok k /\ kmem D (num k) m = false /\ m' = kinsert D (num k) k m.
Proof.
  unfold entry, load_kf. destruct (load_pkf D dparse qnormalize (fs_in f d (lit "pkf.txt"))) as [pre| | | |]; cbn [bind];
    [|split; [discriminate|intros (k & E & _); discriminate]..].
  split.
  - intros H. destruct (kmem D (p_num pre) m) eqn:E; [discriminate|]. apply bind_ok_inv in H as (k & A & B). injection B as <-.
    exists k. split; [exact A|]. apply load_own_pre in A. rewrite A. auto.
  - intros (k & A & B & ->). pose proof (load_own_pre _ _ _ _ A) as E. rewrite E in *. rewrite B, A. reflexivity.
Qed.

(** ** The map *)
Lemma kinsert_in n k m : kmem D n m = false -> Permutation ((n, k) :: m) (kinsert D n k m).
Proof.
  induction m as [|[n' k'] m IH]; intros H; [reflexivity|]. cbn [kmem existsb fst] in H. apply orb_false_iff in H as [A B].
  cbn [kinsert]. destruct (Z.ltb_spec n n'); [reflexivity|]. rewrite Z.eqb_sym, A. rewrite perm_swap. constructor. apply IH; exact B.
Qed.
Lemma kinsert_sorted n k m : kmem D n m = false -> StronglySorted Z.lt (map fst m) ->
  StronglySorted Z.lt (map fst (kinsert D n k m)).
Proof.
  induction m as [|[n' k'] m IH]; intros H S; [repeat constructor|]. pose proof H as H0. cbn [kmem existsb fst] in H. apply orb_false_iff in H as [A B].
  cbn [kinsert]. cbn [map fst] in S. inversion S as [|? ? S1 S2]; subst.
  destruct (Z.ltb_spec n n').
  - cbn [map fst]. constructor; [exact S|]. constructor; [lia|]. eapply Forall_impl; [|exact S2]. cbn. intros; lia.
  - rewrite Z.eqb_sym, A. cbn [map fst]. constructor; [apply IH; auto|].
    apply Forall_forall. intros x Hx. pose proof (Permutation_map fst (kinsert_in n k m B)) as P.
    apply (Permutation_in _ (Permutation_sym P)) in Hx. cbn [map fst] in Hx. destruct Hx as [<-|Hx]; [lia|].
    rewrite Forall_forall in S2; auto.
Qed.
Lemma kmem_in n m : kmem D n m = true <-> In n (map fst m).
Proof.
  unfold kmem. rewrite existsb_exists, in_map_iff. split; intros (e & A & B).
  - apply Z.eqb_eq in B. eauto.
  - exists e. split; [auto|]. apply Z.eqb_eq; auto.
Qed.
Lemma kmem_false n m : kmem D n m = false <-> ~ In n (map fst m).
Proof. rewrite <- kmem_in. destruct (kmem D n m); split; congruence. Qed.

Lemma sorted_unique (m m' : list (Z * skf)) : StronglySorted Z.lt (map fst m) -> StronglySorted Z.lt (map fst m') ->
  Permutation m m' -> m = m'.
Proof.
  revert m'. induction m as [|[n k] m IH]; intros m' S S' P.
  - apply Permutation_nil in P. auto.
  - destruct m' as [|[n' k'] m']; [apply Permutation_sym, Permutation_nil in P; discriminate|].
    cbn [map fst] in S, S'. inversion S as [|? ? S1 S2]; inversion S' as [|? ? S1' S2']; subst.
    rewrite Forall_forall in S2, S2'.
    assert (E : (n, k) = (n', k')).
    { assert (I : In (n, k) ((n', k') :: m')) by (eapply Permutation_in; [exact P|left; reflexivity]).
      assert (I' : In (n', k') ((n, k) :: m)) by (eapply Permutation_in; [symmetry; exact P|left; reflexivity]).
      destruct I as [I|I]; [auto|]. destruct I' as [I'|I']; [auto|].
      apply (in_map fst) in I, I'. cbn in I, I'. specialize (S2 _ I'). specialize (S2' _ I). lia. }
    injection E as <- <-. f_equal. apply IH; auto. eapply Permutation_cons_inv; eauto.
Qed.

(** Loading a list of directories, characterised without order. *)
Lemma load_char f ds m0 m : StronglySorted Z.lt (map fst m0) ->
  (ofold (load_kf D dparse dneg is_inf qnormalize ps f) ds m0 = Ok m <->
   exists ks, Forall2 (fun d k => entry f d = Ok k) ds ks /\ StronglySorted Z.lt (map fst m) /\
     Permutation m (m0 ++ map (fun k => (num k, k)) ks)).
Proof.
  revert m0. induction ds as [|d ds IH]; intros m0 S0.
  - cbn [ofold]. split.
    + intros H; injection H as <-. exists []. split; [constructor|]. split; [exact S0|]. rewrite app_nil_r. reflexivity.
    + intros (ks & F & S & P). inversion F; subst. cbn [map] in P. rewrite app_nil_r in P. f_equal. apply sorted_unique; auto. symmetry; auto.
  - cbn [ofold]. split.
    + intros H. apply bind_ok_inv in H as (m1 & A & B). apply load_kf_entry in A as (k & E & M & ->).
      assert (S1 : StronglySorted Z.lt (map fst (kinsert D (num k) k m0))) by (apply kinsert_sorted; auto).
      apply (IH _ S1) in B as (ks & F & S & P).
      exists (k :: ks). split; [constructor; auto|]. split; [exact S|]. rewrite P. cbn [map].
      rewrite <- (kinsert_in _ _ _ M). cbn [app]. apply Permutation_middle.
    + intros (ks & F & S & P). inversion F as [|? k ? ks' E F']; subst. cbn [map] in P.
      assert (M : kmem D (num k) m0 = false).
      { apply kmem_false. intros I. assert (N : NoDup (map fst m)).
        { clear - S. induction (map fst m) as [|x l IH]; constructor; inversion S as [|? ? S1 S2]; subst; auto.
          intros I. rewrite Forall_forall in S2. specialize (S2 _ I). lia. }
        apply (Permutation_NoDup (Permutation_map fst P)) in N. rewrite map_app in N. cbn [map fst] in N.
        apply NoDup_remove_2 in N. apply N. apply in_app_iff; auto. }
      assert (A : load_kf D dparse dneg is_inf qnormalize ps f m0 d = Ok (kinsert D (num k) k m0)) by (apply load_kf_entry; eauto).
      rewrite A. cbn [bind]. apply IH; [apply kinsert_sorted; auto|]. exists ks'. split; [auto|]. split; [auto|].
      rewrite P, <- (kinsert_in _ _ _ M). symmetry. cbn [app]. apply Permutation_middle.
Qed.

(** C24 *)
Lemma filter_perm {A} (p : A -> bool) l l' : Permutation l l' -> Permutation (filter p l) (filter p l').
Proof.
  induction 1; cbn [filter]; try destruct (p x); try destruct (p y); auto using perm_swap, Permutation_refl.
  eapply Permutation_trans; eauto.
Qed.
Lemma Forall2_perm {A B} (R : A -> B -> Prop) l l' : Permutation l l' -> forall r, Forall2 R l r ->
  exists r', Permutation r r' /\ Forall2 R l' r'.
Proof.
  induction 1; intros r F.
  - inversion F; subst. exists []. auto.
  - inversion F as [|? b ? r0 H0 F0]; subst. destruct (IHPermutation _ F0) as (r' & P & F'). exists (b :: r'). auto.
  - inversion F as [|? b ? r0 H0 F0]; subst. inversion F0 as [|? c ? r1 H1 F1]; subst. exists (c :: b :: r1).
    split; [apply perm_swap|auto].
  - destruct (IHPermutation1 _ F) as (r1 & P1 & F1). destruct (IHPermutation2 _ F1) as (r2 & P2 & F2).
    exists r2. split; [eapply Permutation_trans; eauto|auto].
Qed.

Theorem load_order_free f order order' m : Permutation order order' ->
  load dparse dneg is_inf qnormalize ps f order = Ok m -> load dparse dneg is_inf qnormalize ps f order' = Ok m.
Proof.
  intros P H. unfold load in *. apply load_char in H as (ks & F & S & Q); [|constructor]. apply load_char; [constructor|].
  destruct (Forall2_perm _ _ _ (filter_perm kf_prefix _ _ P) _ F) as (ks' & P' & F').
  exists ks'. split; [auto|]. split; [auto|]. rewrite Q. cbn [app]. apply Permutation_map. exact P'.
Qed.

(** ** The directory after saving *)
Definition stored (hist : list skf) (f : fs) : Prop :=
  NoDup (fs_dirs f) /\
  (forall d, In d (fs_dirs f) -> kf_prefix d = true -> exists k, In k hist /\ d = kf_dir (num k)) /\
  (forall k, In k hist -> In (kf_dir (num k)) (fs_dirs f)) /\
  (forall n k, last_kf hist n = Some k -> files_hold f k) /\
  tracked_hold f hist.

Lemma clean_stored f : clean f -> stored [] f.
Proof.
  intros [N C]. split; [auto|]. split; [intros d I E; apply beq_eq in E; exfalso; exact (C d I E)|]. split; [intros k []|].
  split; intros n k H; discriminate.
Qed.

Lemma find_app_or {A} (p : A -> bool) l r : find p (l ++ r) = match find p l with Some a => Some a | None => find p r end.
Proof. induction l as [|a l IH]; [reflexivity|]. cbn [app find]. destruct (p a); auto. Qed.
Lemma last_kf_snoc (hist : list skf) k n : last_kf (hist ++ [k]) n = if num k =? n then Some k else last_kf hist n.
Proof. unfold last_kf. rewrite rev_app_distr. reflexivity. Qed.
Lemma last_tracked_snoc (hist : list skf) k n : last_tracked (hist ++ [k]) n =
  match find (fun t => p_num t =? n) (rev (k_tracked k)) with Some t => Some t | None => last_tracked hist n end.
Proof.
  unfold last_tracked. rewrite flat_map_app. cbn [flat_map]. rewrite app_nil_r, rev_app_distr. apply find_app_or.
Qed.
Lemma last_kf_num (hist : list skf) n k : last_kf hist n = Some k -> num k = n /\ In k hist.
Proof. unfold last_kf. intros H. apply find_some in H as [A B]. rewrite <- in_rev in A. apply Z.eqb_eq in B. auto. Qed.

Notation put_tracked := (fun f t => write_root (pkf_name (p_num t)) (store_pkf D dprint t) f).
Lemma fold_dirs l f : fs_dirs (fold_left put_tracked l f) = fs_dirs f.
Proof. revert f. induction l as [|t l IH]; intros f; [reflexivity|]. cbn [fold_left]. rewrite IH. reflexivity. Qed.
Lemma fold_in l f : fs_in (fold_left put_tracked l f) = fs_in f.
Proof. revert f. induction l as [|t l IH]; intros f; [reflexivity|]. cbn [fold_left]. rewrite IH. reflexivity. Qed.
Lemma fold_root l f n : fs_root (fold_left put_tracked l f) (pkf_name n) =
  match find (fun t => p_num t =? n) (rev l) with Some t => Some (store_pkf D dprint t) | None => fs_root f (pkf_name n) end.
Proof.
  induction l as [|t l IH] using rev_ind; [reflexivity|]. rewrite fold_left_app, rev_app_distr. cbn [fold_left rev app find].
  cbn [fs_root write_root]. destruct (Z.eqb_spec (p_num t) n) as [E|E].
  - subst n. rewrite beq_refl. reflexivity.
  - rewrite beq_neq; [exact IH|]. intros H. apply pkf_name_inj in H. congruence.
Qed.

Lemma kf_dir_prefix n : kf_prefix (kf_dir n) = true.
Proof. reflexivity. Qed.

Lemma existsb_beq d l : existsb (beq d) l = true <-> In d l.
Proof.
  rewrite existsb_exists. split; [intros (x & A & B); apply beq_eq in B; subst; auto|].
  intros H. exists d. split; [auto|apply beq_refl].
Qed.

Lemma store_kf_ok hist f k : kf_ok ps qnormalize k -> stored hist f ->
  exists f', store_kf D dprint dneg dexp dzero ps f k = Ok f' /\ stored (hist ++ [k]) f'.
Proof.
  intros (K1 & K2 & K3 & K4 & K5 & K6 & K7) (S1 & S2 & S3 & S4 & S5). unfold store_kf.
  rewrite (store_points_text _ imm_text) by (eapply Forall_impl; [|exact K3]; intros; apply store_imm_text; auto). cbn [bind fst snd].
  rewrite (store_points_text _ opt_text) by (apply Forall_forall; intros; reflexivity). cbn [bind fst snd].
  rewrite !int_of_size_id by auto.
  eexists. split; [reflexivity|]. set (d := kf_dir (num k)).
  set (g := write_in d (lit "optimizedPoints.txt") _ _). 
  assert (Gd : fs_dirs g = if existsb (beq d) (fs_dirs f) then fs_dirs f else fs_dirs f ++ [d]) by reflexivity.
  split; [|split; [|split; [|split]]]; cbn [fs_dirs fs_in fs_root write_in].
  - rewrite fold_dirs, Gd. destruct (existsb (beq d) (fs_dirs f)) eqn:E; [auto|].
    apply (Permutation_NoDup (Permutation_cons_append (fs_dirs f) d)). constructor; [|auto].
    rewrite <- existsb_beq. congruence.
  - rewrite fold_dirs, Gd. intros x Hx Hp.
    assert (C : In x (fs_dirs f) \/ x = d) by (destruct (existsb (beq d) (fs_dirs f)); [auto|apply in_app_iff in Hx as [Hx|[Hx|[]]]; auto]).
    destruct C as [C|C].
    + destruct (S2 _ C Hp) as (k0 & A & B). exists k0. split; [apply in_app_iff; auto|auto].
    + exists k. split; [apply in_app_iff; right; left; reflexivity|exact C].
  - rewrite fold_dirs, Gd. intros k0 Hk. apply in_app_iff in Hk as [Hk|[<-|[]]].
    + specialize (S3 _ Hk). destruct (existsb (beq d) (fs_dirs f)); [auto|apply in_app_iff; auto].
    + destruct (existsb (beq d) (fs_dirs f)) eqn:E; [apply existsb_beq; exact E|apply in_app_iff; right; left; reflexivity].
  - intros n k0 H. rewrite last_kf_snoc in H. unfold files_hold. cbn [fs_in write_in]. rewrite fold_in.
    destruct (Z.eqb_spec (num k) n) as [E|E].
    + injection H as <-. fold d. rewrite beq_refl. cbn [andb fs_in g write_in mkdir]. rewrite beq_refl. cbn [andb].
      repeat split; try reflexivity.
    + assert (Hn : beq (kf_dir (num k0)) d = false).
      { apply beq_neq. intros X. apply kf_dir_inj in X. apply last_kf_num in H. lia. }
      rewrite Hn. cbn [andb]. destruct (S4 _ _ H) as (F1 & F2 & F3 & F4). subst g. cbn [fs_in write_in mkdir]. rewrite Hn. cbn [andb].
      auto.
  - intros n t H. cbn [fs_root write_in]. rewrite fold_root. rewrite last_tracked_snoc in H.
    destruct (find _ (rev (k_tracked k))) as [u|]; [injection H as <-; reflexivity|]. apply S5. exact H.
Qed.

Lemma store_all hist f ks : Forall (kf_ok ps qnormalize) ks -> stored hist f ->
  exists f', ofold (store_kf D dprint dneg dexp dzero ps) ks f = Ok f' /\ stored (hist ++ ks) f'.
Proof.
  intros H. revert hist f. induction H as [|k ks Hk H IH]; intros hist f S.
  - exists f. rewrite app_nil_r. auto.
  - cbn [ofold]. destruct (store_kf_ok hist f k Hk S) as (f1 & A & B). rewrite A. cbn [bind].
    destruct (IH _ _ B) as (f2 & A2 & B2). exists f2. split; [exact A2|]. rewrite <- app_assoc in B2. exact B2.
Qed.

Lemma save_ok hist f cols ks : Forall (kf_ok ps qnormalize) ks -> stored hist f ->
  exists f', save dprint dneg dexp dzero ps cols ks f = Ok f' /\ stored (hist ++ ks) f'.
Proof.
  intros H S. unfold save. destruct (store_all hist f ks H S) as (f1 & A & S1 & S2 & S3 & S4 & S5). rewrite A. cbn [bind].
  eexists. split; [reflexivity|]. split; [exact S1|]. split; [exact S2|]. split; [exact S3|]. split.
  - intros n k Hk. exact (S4 n k Hk).
  - intros n t Ht. cbn [fs_root write_root]. rewrite beq_neq; [apply S5; exact Ht|]. discriminate.
Qed.

Notation saves := (saves dprint dneg dexp dzero ps).
Lemma saves_ok l : forall hist f, Forall (fun e => Forall (kf_ok ps qnormalize) (snd e)) l -> stored hist f ->
  exists f', saves l f = Ok f' /\ stored (hist ++ flat_map snd l) f'.
Proof.
  induction l as [|[cols ks] l IH]; intros hist f H S.
  - exists f. rewrite app_nil_r. auto.
  - inversion H as [|? ? H1 H2]; subst. cbn [saves flat_map snd]. destruct (save_ok hist f cols ks H1 S) as (f1 & A & B).
    rewrite A. cbn [bind]. destruct (IH _ _ H2 B) as (f2 & A2 & B2). exists f2. split; [exact A2|]. rewrite app_assoc. exact B2.
Qed.

(** ** Loading it *)
Lemma entry_ok hist f n k : Forall (kf_ok ps qnormalize) hist -> stored hist f -> last_kf hist n = Some k ->
  entry f (kf_dir n) = Ok (restored hist k).
Proof.
  intros Hok (S1 & S2 & S3 & S4 & S5) H. destruct (S4 _ _ H) as (F1 & F2 & F3 & F4).
  apply last_kf_num in H as [<- Hin]. rewrite Forall_forall in Hok. destruct (Hok _ Hin) as (K1 & K2 & K3 & K4 & K5 & K6 & K7).
  unfold entry. rewrite F1, load_pkf_text by auto. cbn [bind]. unfold load_own. rewrite F4, F2, F3. unfold own_text.
  rewrite rt_z by (unfold INT_MIN; lia). cbn [bind].
  rewrite (load_points_text _ imm_text restored_imm) by (first [exact K5|eapply Forall_impl; [|exact K3]; intros; apply load_imm_text; auto]).
  cbn [bind]. rewrite rt_z by (unfold INT_MIN; lia). cbn [bind].
  rewrite (load_points_text _ opt_text restored_opt) by (first [exact K6|apply Forall_forall; intros; apply load_opt_text]). cbn [bind].
  rewrite rt_z by (apply K1). cbn [bind]. rewrite Z.eqb_refl. cbn [negb].
  rewrite rt_pose by auto. cbn [bind]. rewrite rt_light. cbn [bind].
  rewrite (load_tracked_text f hist) by
    (first [exact S5|exact K7|intros t Ht; apply in_flat_map; eauto|
            apply Forall_forall; intros t Ht; apply in_flat_map in Ht as (k1 & I1 & I2);
            destruct (Hok _ I1) as (_ & _ & _ & T & _); rewrite Forall_forall in T; auto]).
  reflexivity.
Qed.

Lemma last_kf_some (hist : list skf) k : In k hist -> exists k', last_kf hist (num k) = Some k'.
Proof.
  intros H. unfold last_kf. destruct (find _ (rev hist)) as [u|] eqn:E; [eauto|].
  exfalso. apply in_rev in H. pose proof (find_none _ _ E _ H) as X. simpl in X. rewrite Z.eqb_refl in X. discriminate.
Qed.

Theorem load_stored hist f order : Forall (kf_ok ps qnormalize) hist -> stored hist f -> Permutation order (fs_dirs f) ->
  exists m, load dparse dneg is_inf qnormalize ps f order = Ok m /\
    forall ks, merged hist ks -> holds m ks.
Proof.
  intros Hok S P.
  assert (HF : exists ks, Forall2 (fun d k => entry f d = Ok k) (filter kf_prefix order) ks /\
    map (fun k => kf_dir (num k)) ks = filter kf_prefix order /\
    Forall (fun k => exists n k0, last_kf hist n = Some k0 /\ k = restored hist k0) ks).
  { assert (Hd : forall d, In d (filter kf_prefix order) -> exists n k0, last_kf hist n = Some k0 /\ d = kf_dir n /\ num k0 = n).
    { intros d Hd. apply filter_In in Hd as [A B]. destruct S as (_ & S2 & _). 
      destruct (S2 d (Permutation_in _ P A) B) as (k & I & ->). destruct (last_kf_some _ _ I) as (k' & E).
      exists (num k), k'. split; [auto|]. split; [auto|]. apply last_kf_num in E. apply E. }
    induction (filter kf_prefix order) as [|d l IH]; [exists []; repeat constructor|].
    destruct IH as (ks & F & E & G); [intros; apply Hd; right; auto|].
    destruct (Hd d (or_introl eq_refl)) as (n & k0 & A & -> & En).
    exists (restored hist k0 :: ks). split; [constructor; [apply entry_ok; auto|auto]|]. split.
    - cbn [map]. f_equal; [f_equal; exact En|exact E].
    - constructor; [eauto|auto]. }
  destruct HF as (ks & F & Ed & G).
  assert (N : NoDup (map (fun k => num k) ks)).
  { assert (N : NoDup (map (fun k => kf_dir (num k)) ks)).
    { rewrite Ed. apply NoDup_filter. apply (Permutation_NoDup (Permutation_sym P)). apply S. }
    rewrite <- map_map in N. apply NoDup_map_inv in N. exact N. }
  assert (Hm : exists m, StronglySorted Z.lt (map fst m) /\ Permutation m (map (fun k => (num k, k)) ks)).
  { clear F Ed G. induction ks as [|k ks IH]; [exists []; repeat constructor|]. cbn [map] in N. inversion N; subst.
    destruct (IH H2) as (m & A & B). exists (kinsert D (num k) k m).
    assert (M : kmem D (num k) m = false).
    { apply kmem_false. intros I. apply H1. apply (Permutation_in _ (Permutation_map fst B)) in I. rewrite map_map in I. exact I. }
    split; [apply kinsert_sorted; auto|]. rewrite <- (kinsert_in _ _ _ M). cbn [map]. constructor. exact B. }
  destruct Hm as (m & Sm & Pm). exists m. split.
  - unfold load. apply load_char; [constructor|]. exists ks. auto.
  - intros ks0 Hks. split; [exact Sm|]. split.
    + intros n k' I. apply (Permutation_in _ Pm) in I. apply in_map_iff in I as (k & E & Ik). injection E as <- <-.
      rewrite Forall_forall in G. destruct (G _ Ik) as (n & k0 & A & ->). exists (refresh hist k0).
      split; [apply Hks; eauto|]. split; [reflexivity|apply restored_same].
    + intros k Hk. apply Hks in Hk as (n & k0 & A & ->). exists (restored hist k0). split; [|apply restored_same].
      apply (Permutation_in _ (Permutation_sym Pm)). apply in_map_iff. exists (restored hist k0). split; [reflexivity|].
      pose proof (last_kf_num _ _ _ A) as [En Iin].
      assert (Id : In (kf_dir (num k0)) (map (fun k => kf_dir (num k)) ks)).
      { rewrite Ed. apply filter_In. split; [|reflexivity]. apply (Permutation_in _ (Permutation_sym P)). apply S. exact Iin. }
      apply in_map_iff in Id as (k1 & E1 & I1). apply kf_dir_inj in E1. rewrite Forall_forall in G.
      destruct (G _ I1) as (n1 & k2 & A1 & ->). cbn in E1. pose proof (last_kf_num _ _ _ A1) as [En1 _].
      assert (n1 = n) by congruence. subst n1. assert (k2 = k0) by congruence. subst k2. exact I1.
Qed.

Definition current (hist : list skf) : list skf :=
  map (refresh hist) (flat_map (fun k => match last_kf hist (num k) with Some k0 => [k0] | None => [] end) hist).
Lemma current_merged hist : merged hist (current hist).
Proof.
  intros k. unfold current. rewrite in_map_iff. split.
  - intros (k0 & <- & H). apply in_flat_map in H as (k1 & I & H). destruct (last_kf hist (num k1)) eqn:E; [|destruct H].
    destruct H as [<-|[]]. eauto.
  - intros (n & k0 & A & ->). exists k0. split; [reflexivity|]. apply in_flat_map. exists k0.
    apply last_kf_num in A as B. destruct B as [<- B]. split; [exact B|]. rewrite A. left; reflexivity.
Qed.

Lemma tracked_consistent_last (ks : list skf) t : tracked_consistent ks -> In t (flat_map k_tracked ks) -> last_tracked ks (p_num t) = Some t.
Proof. intros C I. destruct (last_tracked_some _ _ I) as (u & E & En & Iu). rewrite E. f_equal. apply C; auto. Qed.

Lemma last_tracked_app (old ks : list skf) n : last_tracked (old ++ ks) n =
  match last_tracked ks n with Some t => Some t | None => last_tracked old n end.
Proof. unfold last_tracked. rewrite flat_map_app, rev_app_distr. apply find_app_or. Qed.
Lemma last_kf_app (old ks : list skf) n : last_kf (old ++ ks) n =
  match last_kf ks n with Some t => Some t | None => last_kf old n end.
Proof. unfold last_kf. rewrite rev_app_distr. apply find_app_or. Qed.

Lemma refresh_id (old ks : list skf) k : tracked_consistent ks -> In k ks -> refresh (old ++ ks) k = k.
Proof.
  intros C I. unfold refresh. destruct k as [a b c d e tr] eqn:Ek. cbn. f_equal.
  rewrite <- (map_id tr) at 2. apply map_ext_in. intros t Ht. rewrite last_tracked_app.
  rewrite tracked_consistent_last; [reflexivity|exact C|]. apply in_flat_map. eexists. split; [exact I|exact Ht].
Qed.

Lemma last_kf_unique (ks : list skf) k : NoDup (map (fun k => num k) ks) -> In k ks -> last_kf ks (num k) = Some k.
Proof.
  intros N I. destruct (last_kf_some _ _ I) as (k' & E). rewrite E. f_equal. apply last_kf_num in E as [En I'].
  clear -N I I' En. induction ks as [|x ks IH]; [destruct I|]. cbn [map] in N. inversion N; subst.
  destruct I as [->|I]; destruct I' as [<-|I']; auto.
  - exfalso. apply H1. apply in_map_iff. exists k'. split; auto.
  - exfalso. apply H1. apply in_map_iff. exists k. split; auto.
Qed.

Lemma merged_over (old ks : list skf) : NoDup (map (fun k => num k) ks) -> tracked_consistent ks ->
  (forall k, In k old -> exists k', In k' ks /\ num k' = num k) -> merged (old ++ ks) ks.
Proof.
  intros N C H k. split.
  - intros I. exists (num k), k. rewrite last_kf_app, last_kf_unique by auto. split; [reflexivity|]. symmetry. apply refresh_id; auto.
  - intros (n & k0 & A & ->). rewrite last_kf_app in A. destruct (last_kf ks n) eqn:E.
    + injection A as ->. apply last_kf_num in E as [_ I]. rewrite refresh_id; auto.
    + exfalso. apply last_kf_num in A as [<- I]. destruct (H _ I) as (k' & I' & En). rewrite <- En in E.
      destruct (last_kf_some _ _ I') as (k2 & E2). congruence.
Qed.

(** C22 *)
Theorem round_trip f cols ks : clean f -> Forall (kf_ok ps qnormalize) ks -> NoDup (map (fun k => num k) ks) ->
  tracked_consistent ks ->
  exists f', save dprint dneg dexp dzero ps cols ks f = Ok f' /\
    forall order, Permutation order (fs_dirs f') ->
    exists m, load dparse dneg is_inf qnormalize ps f' order = Ok m /\ holds m ks.
Proof.
  intros Hc Hok N C. destruct (save_ok [] f cols ks Hok (clean_stored _ Hc)) as (f' & A & B). exists f'. split; [exact A|].
  intros order P. destruct (load_stored _ _ order Hok B P) as (m & E & H). exists m. split; [exact E|]. apply H.
  apply (merged_over [] ks); auto. intros k [].
Qed.

(** C23 *)
Theorem reuse f l : clean f -> Forall (fun e => Forall (kf_ok ps qnormalize) (snd e)) l ->
  exists f', saves l f = Ok f' /\
    forall order, Permutation order (fs_dirs f') ->
    exists m ks, load dparse dneg is_inf qnormalize ps f' order = Ok m /\ merged (flat_map snd l) ks /\ holds m ks.
Proof.
  intros Hc Hok. destruct (saves_ok l [] f Hok (clean_stored _ Hc)) as (f' & A & B). exists f'. split; [exact A|].
  intros order P.
  assert (Hall : Forall (kf_ok ps qnormalize) (flat_map snd l)).
  { apply Forall_forall. intros k Hk. apply in_flat_map in Hk as (e & I & Hk). rewrite Forall_forall in Hok.
    specialize (Hok _ I). rewrite Forall_forall in Hok. auto. }
  destruct (load_stored _ _ order Hall B P) as (m & E & H). exists m, (current (flat_map snd l)).
  split; [exact E|]. split; [apply current_merged|]. apply H. apply current_merged.
Qed.

Theorem reuse_exact f l cols ks : clean f -> Forall (fun e => Forall (kf_ok ps qnormalize) (snd e)) (l ++ [(cols, ks)]) ->
  NoDup (map (fun k => num k) ks) -> tracked_consistent ks ->
  exists f', saves (l ++ [(cols, ks)]) f = Ok f' /\
    forall order, Permutation order (fs_dirs f') ->
    exists m, load dparse dneg is_inf qnormalize ps f' order = Ok m /\
      (holds m ks <-> forall k, In k (flat_map snd l) -> exists k', In k' ks /\ num k' = num k).
Proof.
  intros Hc Hok N C. destruct (saves_ok _ [] f Hok (clean_stored _ Hc)) as (f' & A & B). exists f'. split; [exact A|].
  intros order P. cbn [app] in B. rewrite flat_map_app in B. cbn [flat_map snd] in B. rewrite app_nil_r in B.
  assert (Hall : Forall (kf_ok ps qnormalize) (flat_map snd l ++ ks)).
  { apply Forall_forall. intros k Hk. rewrite Forall_forall in Hok. apply in_app_iff in Hk as [Hk|Hk].
    - apply in_flat_map in Hk as (e & I & Hk). specialize (Hok e). rewrite Forall_forall in Hok. apply Hok; [apply in_app_iff; auto|auto].
    - specialize (Hok (cols, ks)). rewrite Forall_forall in Hok. apply Hok; [apply in_app_iff; right; left; reflexivity|auto]. }
  destruct (load_stored _ _ order Hall B P) as (m & E & H). exists m. split; [exact E|]. split.
  - intros Hm k Hk. destruct (H _ (current_merged _)) as (_ & _ & Hall2).
    assert (Ik : In k (flat_map snd l ++ ks)) by (apply in_app_iff; auto).
    destruct (last_kf_some _ _ Ik) as (k1 & E1).
    assert (Ic : In (refresh (flat_map snd l ++ ks) k1) (current (flat_map snd l ++ ks))) by (apply current_merged; eauto).
    destruct (Hall2 _ Ic) as (k' & I' & _). destruct Hm as (_ & Hm & _). destruct (Hm _ _ I') as (k2 & I2 & En & _).
    exists k2. split; [exact I2|]. apply last_kf_num in E1 as [E1 _]. cbn in En. congruence.
  - intros Hs. apply H. apply merged_over; auto.
Qed.

(** ** C25 *)
Lemma imm_same_store a b : imm_same a b -> store_imm D dprint ps a = store_imm D dprint ps b.
Proof. intros (A1 & A2 & A3 & A4 & A5 & A6 & A7 & A8 & A9 & A10 & A11 & A12). unfold store_imm. rewrite A1, A2, A3, A4, A5, A6, A7, A8, A9, A10, A11, A12. reflexivity. Qed.
Lemma opt_same_store a b : opt_same a b -> store_opt D dprint dneg dexp dzero a = store_opt D dprint dneg dexp dzero b.
Proof. intros (A1 & A2 & A3). unfold store_opt. rewrite A1, A2, A3. reflexivity. Qed.
Lemma points_same_store {A} (st : A -> outcome bytes) (R : A -> A -> Prop) l l' : (forall a b, R a b -> st a = st b) ->
  Forall2 R l l' -> store_points st l = store_points st l'.
Proof.
  intros H F. unfold store_points. 
  assert (E : forall acc, ofold (fun acc a => bind (st a) (fun b => Ok (acc ++ b))) l acc = ofold (fun acc a => bind (st a) (fun b => Ok (acc ++ b))) l' acc).
  { induction F as [|a b l l' Hab F IH]; intros acc; [reflexivity|]. cbn [ofold]. rewrite (H _ _ Hab). destruct (st b); cbn [bind]; auto. }
  rewrite E. assert (length l = length l') by (clear -F; induction F; cbn; congruence). rewrite H0. reflexivity.
Qed.

Theorem save_ignores_rest cols ks ks' f : Forall2 kf_same ks ks' ->
  save dprint dneg dexp dzero ps cols ks f = save dprint dneg dexp dzero ps cols ks' f.
Proof.
  intros F. unfold save. assert (E : ofold (store_kf D dprint dneg dexp dzero ps) ks f = ofold (store_kf D dprint dneg dexp dzero ps) ks' f); [|rewrite E; reflexivity].
  revert f. induction F as [|a b l l' Hab F IH]; intros f; [reflexivity|]. cbn [ofold].
  assert (E : store_kf D dprint dneg dexp dzero ps f a = store_kf D dprint dneg dexp dzero ps f b).
  { destruct Hab as (A1 & A2 & A3 & A4 & A5 & A6). unfold store_kf. rewrite A1, A2, A3, A6.
    rewrite (points_same_store _ _ _ _ imm_same_store A4), (points_same_store _ _ _ _ opt_same_store A5). reflexivity. }
  rewrite E. destruct (store_kf D dprint dneg dexp dzero ps f b); cbn [bind]; auto.
Qed.

Lemma get_all_forall {A} (get : list bytes -> outcome (A * list bytes)) (Q : A -> Prop) n : forall s l r,
  (forall s a r, get s = Ok (a, r) -> Q a) -> get_all get n s = Ok (l, r) -> Forall Q l.
Proof.
  induction n as [|n IH]; intros s l r H E; cbn [get_all] in E; [injection E as <- <-; constructor|].
  apply bind_ok_inv in E as ([a s1] & A1 & E). apply bind_ok_inv in E as ([l1 s2] & A2 & E). injection E as <- <-.
  constructor; eauto.
Qed.
Lemma load_points_forall {A} (get : list bytes -> outcome (A * list bytes)) (Q : A -> Prop) n file l :
  (forall s a r, get s = Ok (a, r) -> Q a) -> load_points get n file = Ok l -> Forall Q l.
Proof.
  intros H E. unfold load_points in E. destruct (n <? 0); [discriminate|]. destruct file.
  - apply bind_ok_inv in E as ([l1 r] & A1 & E). injection E as <-. eapply get_all_forall; eauto.
  - destruct (n =? 0); [injection E as <-; constructor|discriminate].
Qed.

Theorem load_forgets f order m n k : load dparse dneg is_inf qnormalize ps f order = Ok m -> In (n, k) m ->
  Forall (fun p => o_state p = None) (k_opt k) /\
  Forall (fun p => i_numTraced p = (if is_inf (i_max p) then 0 else 1) /\ i_lastTraced p = negb (is_inf (i_max p))) (k_imm k).
Proof.
  intros H I. unfold load in H. apply load_char in H as (ks & F & S & P); [|constructor]. cbn [app] in P.
  apply (Permutation_in _ P) in I. apply in_map_iff in I as (k0 & E & I). injection E as <- <-.
  assert (Hd : exists d, entry f d = Ok k0).
  { clear -F I. induction F as [|d k l ks Hd F IH]; [destruct I|]. destruct I as [->|I]; [eauto|auto]. }
  destruct Hd as (d & Hd). unfold entry in Hd. apply bind_ok_inv in Hd as (pre & _ & Hd). unfold load_own in Hd.
  destruct (fs_in f d (lit "kf.txt")); [|discriminate].
  apply bind_ok_inv in Hd as ([ni s1] & _ & Hd). apply bind_ok_inv in Hd as (imm & Hi & Hd).
  apply bind_ok_inv in Hd as ([no s2] & _ & Hd). apply bind_ok_inv in Hd as (opts & Ho & Hd).
  apply bind_ok_inv in Hd as ([n s3] & _ & Hd). destruct (negb (n =? p_num pre)); [discriminate|].
  apply bind_ok_inv in Hd as ([p s4] & _ & Hd). apply bind_ok_inv in Hd as ([l5 s5] & _ & Hd).
  apply bind_ok_inv in Hd as ([tr s6] & _ & Hd). injection Hd as <-. cbn [k_opt k_imm]. split.
  - eapply load_points_forall; [|exact Ho]. intros s a r E. unfold load_opt in E.
    repeat (apply bind_ok_inv in E as ([? ?] & _ & E)). injection E as <- <-. reflexivity.
  - eapply load_points_forall; [|exact Hi]. intros s a r E. unfold load_imm in E.
    repeat (apply bind_ok_inv in E as (? & _ & E); match type of E with (let '(_, _) := ?x in _) = _ => destruct x | _ => idtac end).
    injection E as <- <-. cbn. auto.
Qed.
End Snapshot.
