From Coq Require Import ZArith QArith List Bool Ascii String Lia Permutation Sorted ZifyBool FunctionalExtensionality.
From Verif Require Import Outcome PixelSelectorModel PixelSelectorSpec PixelSelectorProofs PlyModel SelModel SelSpec.
Import ListNotations.
Open Scope Z_scope.

(** ** Names *)
Lemma bytes_eqb_eq a : forall b, bytes_eqb a b = true <-> a = b.
Proof.
  induction a as [|x a IH]; intros [|y b]; cbn.
  - split; auto.
  - split; discriminate.
  - split; discriminate.
  - rewrite andb_true_iff, Ascii.eqb_eq, IH. split; [intros [-> ->]; auto|]. intros H. inversion H. auto.
Qed.

Lemma suffix_iff e s : Nat.leb (List.length e) (List.length s) && bytes_eqb (skipn (List.length s - List.length e) s) e = true <-> exists p, s = p ++ e.
Proof.
  rewrite andb_true_iff, bytes_eqb_eq. split.
  - intros [_ H]. exists (firstn (List.length s - List.length e) s). rewrite <- H at 2. symmetry. apply firstn_skipn.
  - intros [p ->]. rewrite app_length. split; [apply Nat.leb_le; lia|].
    replace (List.length p + List.length e - List.length e)%nat with (List.length p) by lia.
    rewrite skipn_app, skipn_all, Nat.sub_diag. reflexivity.
Qed.

Lemma is_image_iff s : is_image s = true <-> image_name s.
Proof.
  unfold is_image, ext, image_name. cbn [existsb]. rewrite orb_false_r, orb_true_iff, !suffix_iff. split.
  - intros [[p H]|[p H]]; exists p; auto.
  - intros [p [H|H]]; [left|right]; exists p; auto.
Qed.

Lemma slashed_end d : slashed d = [] \/ exists q, slashed d = q ++ ["/"%char].
Proof.
  unfold slashed. destruct (rev d) as [|c r] eqn:E.
  - left. apply (f_equal (@rev ascii)) in E. rewrite rev_involutive in E. exact E.
  - right. destruct (Ascii.eqb c "/") eqn:C; [|eauto]. apply Ascii.eqb_eq in C. subst c.
    apply (f_equal (@rev ascii)) in E. rewrite rev_involutive in E. cbn in E. eauto.
Qed.

Lemma app_tail {A} : forall (a b c d : list A), a ++ b = c ++ d -> (List.length d <= List.length b)%nat -> exists m, b = m ++ d.
Proof.
  induction a as [|x a IH]; intros b c d H L.
  - cbn in H. eauto.
  - destruct c as [|y c].
    + cbn in H. apply (f_equal (@List.length A)) in H. cbn in H. rewrite app_length in H. lia.
    + cbn in H. inversion H. eauto.
Qed.

Lemma tail_short {A} : forall (a b c d : list A), a ++ b = c ++ d -> (List.length b < List.length d)%nat -> exists m, m <> [] /\ d = m ++ b.
Proof.
  intros a b c d H L. symmetry in H. destruct (app_tail c d a b H) as [m ->]; [lia|]. exists m. split; auto.
  intros ->. cbn in L. lia.
Qed.

Lemma no_slash e m b q : (e = lit ".jpg" \/ e = lit ".png") -> m <> [] -> e = m ++ b -> (List.length m <= List.length (q ++ ["/"%char]))%nat ->
  (exists c, q ++ ["/"%char] = c ++ m) -> False.
Proof.
  intros He Hm E _ [c Hc]. destruct (@exists_last _ m Hm) as [m' [x ->]].
  rewrite app_assoc in Hc. apply app_inj_tail in Hc. destruct Hc as [_ <-].
  assert (I : In "/"%char e) by (rewrite E; apply in_or_app; left; apply in_or_app; right; cbn; auto).
  destruct He as [-> | ->]; cbn in I; repeat (destruct I as [I|I]; [discriminate|]); destruct I.
Qed.

Lemma image_of_slashed d nm : image_name (slashed d ++ nm) <-> image_name nm.
Proof.
  split.
  - intros [p H].
    assert (Q : exists e, (e = lit ".jpg" \/ e = lit ".png") /\ slashed d ++ nm = p ++ e).
    { destruct H as [H|H]; [exists (lit ".jpg")|exists (lit ".png")]; auto. }
    destruct Q as [e [He E]]. destruct (le_lt_dec (List.length e) (List.length nm)) as [L|L].
    + destruct (app_tail _ _ _ _ E L) as [m ->]. exists m. destruct He as [-> | ->]; auto.
    + exfalso. destruct (tail_short _ _ _ _ E L) as [m [Hm ->]].
      rewrite app_assoc in E. apply app_inv_tail in E.
      destruct (slashed_end d) as [S|[q S]].
      * rewrite S in E. symmetry in E. apply app_eq_nil in E. destruct E as [_ ->]. now apply Hm.
      * rewrite S in E. refine (no_slash (m ++ nm) m nm q He Hm eq_refl _ (ex_intro _ p E)). rewrite E, app_length. lia.
  - intros [p H]. exists (slashed d ++ p). destruct H as [-> | ->]; [left|right]; now rewrite app_assoc.
Qed.

(** ** Order *)
Lemma leb_refl a : bytes_leb a a = true.
Proof. induction a as [|x a IH]; cbn; auto. destruct (N.ltb _ _); auto. now rewrite Ascii.eqb_refl, IH. Qed.
Lemma ascii_inj x y : N_of_ascii x = N_of_ascii y -> x = y.
Proof. intros H. rewrite <- (ascii_N_embedding x), <- (ascii_N_embedding y). now f_equal. Qed.
Lemma leb_total a : forall b, bytes_leb a b = true \/ bytes_leb b a = true.
Proof.
  induction a as [|x a IH]; intros [|y b]; cbn; auto.
  destruct (N.ltb (N_of_ascii x) (N_of_ascii y)) eqn:E1; auto. destruct (N.ltb (N_of_ascii y) (N_of_ascii x)) eqn:E2; auto.
  assert (x = y) as -> by (apply ascii_inj; lia). rewrite Ascii.eqb_refl. cbn. auto.
Qed.
Lemma leb_trans a : forall b c, bytes_leb a b = true -> bytes_leb b c = true -> bytes_leb a c = true.
Proof.
  induction a as [|x a IH]; intros [|y b] [|z c]; cbn; auto; try discriminate.
  destruct (N.ltb (N_of_ascii x) (N_of_ascii y)) eqn:E1, (N.ltb (N_of_ascii y) (N_of_ascii z)) eqn:E2; intros H1 H2.
  - replace (N.ltb (N_of_ascii x) (N_of_ascii z)) with true by lia. auto.
  - apply andb_true_iff in H2. destruct H2 as [H2 _]. apply Ascii.eqb_eq in H2. subst z. now rewrite E1.
  - apply andb_true_iff in H1. destruct H1 as [H1 _]. apply Ascii.eqb_eq in H1. subst y. now rewrite E2.
  - apply andb_true_iff in H1, H2. destruct H1 as [H1 K1], H2 as [H2 K2]. apply Ascii.eqb_eq in H1, H2. subst.
    rewrite E1, Ascii.eqb_refl. cbn. eauto.
Qed.
Lemma leb_anti a : forall b, bytes_leb a b = true -> bytes_leb b a = true -> a = b.
Proof.
  induction a as [|x a IH]; intros [|y b]; cbn; auto; try discriminate.
  destruct (N.ltb (N_of_ascii x) (N_of_ascii y)) eqn:E1, (N.ltb (N_of_ascii y) (N_of_ascii x)) eqn:E2; intros H1 H2; try lia.
  - apply andb_true_iff in H2. destruct H2 as [H2 _]. apply Ascii.eqb_eq in H2. subst. lia.
  - apply andb_true_iff in H1. destruct H1 as [H1 _]. apply Ascii.eqb_eq in H1. subst. lia.
  - apply andb_true_iff in H1, H2. destruct H1 as [H1 K1], H2 as [H2 K2]. apply Ascii.eqb_eq in H1. subst. f_equal. auto.
Qed.
Lemma leb_before a : forall b, bytes_leb a b = true -> a <> b -> before a b.
Proof.
  induction a as [|x a IH]; intros [|y b]; cbn; intros H N; try congruence; try discriminate.
  - left. exists y, b. reflexivity.
  - destruct (N.ltb (N_of_ascii x) (N_of_ascii y)) eqn:E.
    + right. exists [], x, y, a, b. cbn. repeat split; auto. lia.
    + apply andb_true_iff in H. destruct H as [H K]. apply Ascii.eqb_eq in H. subst y.
      destruct (IH b K) as [[c [r ->]]|[p [u [v [r [s [-> [-> L]]]]]]]]; [congruence|left; exists c, r; reflexivity|].
      right. exists (x :: p), u, v, r, s. auto.
Qed.

Lemma put_perm x l : Permutation (x :: l) (put_in x l).
Proof.
  induction l as [|y l IH]; cbn; auto. destruct (bytes_leb x y); auto.
  eapply perm_trans; [apply perm_swap|]. now constructor.
Qed.
Lemma sort_perm l : Permutation l (sort l).
Proof. induction l as [|x l IH]; cbn; auto. eapply perm_trans; [constructor; exact IH|apply put_perm]. Qed.

Notation le := (fun a b => bytes_leb a b = true).
Lemma put_sorted x l : StronglySorted le l -> StronglySorted le (put_in x l).
Proof.
  induction 1 as [|y l S IH F]; cbn; [repeat constructor|]. destruct (bytes_leb x y) eqn:E.
  - constructor; [now constructor|]. constructor; auto. rewrite Forall_forall in *. intros z I. eapply leb_trans; eauto.
  - constructor; auto. rewrite Forall_forall in *. intros z I. apply (Permutation_in _ (Permutation_sym (put_perm x l))) in I.
    destruct I as [<-|I]; auto. destruct (leb_total x y); congruence.
Qed.
Lemma sort_sorted l : StronglySorted le (sort l).
Proof. induction l as [|x l IH]; cbn; [constructor|]. now apply put_sorted. Qed.

Lemma sorted_unique : forall l l', StronglySorted le l -> StronglySorted le l' -> Permutation l l' -> l = l'.
Proof.
  induction l as [|x l IH]; intros l' S S' P; [apply Permutation_nil in P; congruence|].
  destruct l' as [|y l']; [apply Permutation_sym, Permutation_nil in P; discriminate|].
  inversion S as [|a b Sl Fl]; subst. inversion S' as [|a b Sl' Fl']; subst. rewrite Forall_forall in Fl, Fl'.
  assert (x = y) as ->.
  { assert (I : In x (y :: l')) by (apply (Permutation_in _ P); cbn; auto).
    assert (J : In y (x :: l)) by (apply (Permutation_in _ (Permutation_sym P)); cbn; auto).
    destruct I as [->|I]; auto. destruct J as [->|J]; auto. apply leb_anti; auto. }
  f_equal. apply IH; auto. now apply Permutation_cons_inv in P.
Qed.
Lemma sort_same l l' : Permutation l l' -> sort l = sort l'.
Proof.
  intros P. apply sorted_unique; try apply sort_sorted.
  eapply perm_trans; [apply Permutation_sym, sort_perm|]. eapply perm_trans; [exact P|apply sort_perm].
Qed.

Lemma filter_sorted (f : bytes -> bool) l : StronglySorted le l -> StronglySorted le (filter f l).
Proof.
  induction 1 as [|y l S IH F]; cbn; [constructor|]. destruct (f y); auto. constructor; auto.
  rewrite Forall_forall in *. intros z I. apply filter_In in I. apply F, I.
Qed.
Lemma sorted_nth l : StronglySorted le l -> NoDup l -> forall i j a b,
  nth_error l i = Some a -> nth_error l j = Some b -> (i < j)%nat -> before a b.
Proof.
  induction 1 as [|y l S IH F]; intros N i j a b Hi Hj L; [destruct i; discriminate|].
  inversion N; subst. destruct j as [|j]; [lia|]. cbn in Hj. destruct i as [|i]; cbn in Hi.
  - inversion Hi; subst. apply nth_error_In in Hj. rewrite Forall_forall in F. apply leb_before; auto. intros ->. auto.
  - eapply IH; eauto. lia.
Qed.

(** The names of images of a directory *)
Definition images (l : list bytes) : list bytes := filter is_image (sort l).
Lemma images_order names : NoDup names -> in_order names (images names).
Proof.
  intros N. split.
  - intros nm. unfold images. rewrite filter_In, is_image_iff.
    split; intros [H K]; split; auto; [apply (Permutation_in _ (Permutation_sym (sort_perm names)))|apply (Permutation_in _ (sort_perm names))]; auto.
  - apply sorted_nth; [apply filter_sorted, sort_sorted|]. apply NoDup_filter. exact (Permutation_NoDup (sort_perm names) N).
Qed.

Lemma before_leb a b : before a b -> bytes_leb a b = true.
Proof.
  intros [[c [r ->]]|[p [x [y [r [s [-> [-> L]]]]]]]].
  - induction a as [|x a IH]; cbn; auto. rewrite Ascii.eqb_refl, IH. now destruct (N.ltb _ _).
  - induction p as [|u p IH]; cbn.
    + replace (N.ltb (N_of_ascii x) (N_of_ascii y)) with true by lia. auto.
    + rewrite Ascii.eqb_refl, IH. now destruct (N.ltb _ _).
Qed.
Lemma before_neq a b : before a b -> a <> b.
Proof.
  intros [[c [r E]]|[p [x [y [r [s [-> [-> L]]]]]]]] H.
  - subst b. apply (f_equal (@List.length ascii)) in H. rewrite app_length in H. cbn in H. lia.
  - apply app_inv_head in H. inversion H. subst. lia.
Qed.
Lemma in_order_unique names l : NoDup names -> in_order names l -> l = images names.
Proof.
  intros N [I O].
  assert (ND : NoDup l).
  { apply NoDup_nth_error. intros i j Hi E. destruct (nth_error l i) as [a|] eqn:Ea; [|apply nth_error_None in Ea; lia].
    symmetry in E. destruct (lt_eq_lt_dec i j) as [[L|]|L]; auto; exfalso.
    - exact (before_neq _ _ (O _ _ _ _ Ea E L) eq_refl).
    - exact (before_neq _ _ (O _ _ _ _ E Ea L) eq_refl). }
  apply sorted_unique.
  - clear I N. induction l as [|x l IH]; [constructor|]. inversion ND; subst. constructor.
    + apply IH; auto. intros i j a b A B L. apply (O (S i) (S j)); auto. lia.
    + apply Forall_forall. intros z Hz. apply In_nth_error in Hz. destruct Hz as [k Hk]. apply before_leb. apply (O 0%nat (S k)); auto. lia.
  - apply filter_sorted, sort_sorted.
  - apply NoDup_Permutation; auto.
    + apply NoDup_filter. exact (Permutation_NoDup (sort_perm names) N).
    + intros x. rewrite I. symmetry. apply (images_order names N).
Qed.

Section Run.
Variable maxloc : image -> Z -> Z -> Z -> Z * Z.
Variable shuffle : nat -> list (Z * Z) -> list (Z * Z).
Variable mag : Z -> Z -> Q.
Variable imread : bytes -> option gray.
Variable fuel : nat.
Notation show := (show maxloc shuffle mag imread fuel).
Notation sel st im := (select maxloc shuffle fuel ps_default st (grad_norm mag im) default_pointsNum).

(** Other files do not matter *)
Lemma show_images d : forall l st, show (slashed d) st l = show (slashed d) st (filter is_image l).
Proof.
  induction l as [|nm l IH]; intros st; cbn [filter]; auto.
  assert (E : is_image (slashed d ++ nm) = is_image nm) by (apply eq_true_iff_eq; rewrite !is_image_iff; apply image_of_slashed).
  destruct (is_image nm) eqn:I; cbn [SelModel.show]; rewrite E; auto.
  destruct (imread (slashed d ++ nm)); auto. destruct (sel st g) as [[px st']| | | |]; auto.
  destruct (pref_h g <=? 0); auto. now rewrite IH.
Qed.

Lemma show_prefix d : forall l st, (forall nm, In nm l -> is_image nm = true) ->
  let r := show (slashed d) st l in
  exists rest, map (fun nm => slashed d ++ nm) l = map fst (fst r) ++ rest /\ (snd r = Ok tt <-> rest = []).
Proof.
  induction l as [|nm l IH]; intros st A; cbn [map SelModel.show]; [exists []; cbn; tauto|].
  assert (E : is_image (slashed d ++ nm) = true).
  { apply is_image_iff, image_of_slashed, is_image_iff, A. cbn; auto. }
  rewrite E. destruct (imread (slashed d ++ nm)) as [im|]; [|eexists; cbn; split; [reflexivity|split; discriminate]].
  destruct (sel st im) as [[px st']| | | |] eqn:S; try (eexists; cbn; split; [reflexivity|split; discriminate]).
  destruct (pref_h im <=? 0); [eexists; cbn; split; [reflexivity|split; discriminate]|].
  destruct (IH st') as [rest [H K]]; [intros; apply A; cbn; auto|]. cbn zeta in H, K. exists rest. cbn [map fst snd app]. rewrite H. split; auto.
Qed.

Lemma show_read d : forall l st, (forall nm, In nm l -> is_image nm = true) ->
  forall fname px, In (fname, px) (fst (show (slashed d) st l)) -> exists im, imread fname = Some im.
Proof.
  induction l as [|nm l IH]; intros st A fname px H; cbn [SelModel.show] in H; [destruct H|].
  destruct (is_image (slashed d ++ nm)); [|apply (IH st) in H; auto; intros; apply A; cbn; auto].
  destruct (imread (slashed d ++ nm)) as [im|] eqn:R; [|destruct H].
  destruct (sel st im) as [[p st']| | | |]; try (destruct H; fail).
  destruct (pref_h im <=? 0); [destruct H|]. cbn in H. destruct H as [H|H]; [inversion H; subst; eauto|].
  apply (IH st') in H; auto. intros; apply A; cbn; auto.
Qed.

(** Stopping at the first empty image *)
Lemma show_empty d nm post : is_image nm = true -> imread (slashed d ++ nm) = None -> forall pre st, (forall n, In n pre -> is_image n = true) ->
  let r := show (slashed d) st (pre ++ nm :: post) in
  (List.length (fst r) <= List.length pre)%nat /\ snd r <> Ok tt /\ (List.length (fst r) = List.length pre -> snd r = Throw).
Proof.
  intros I N. assert (E : is_image (slashed d ++ nm) = true) by now apply is_image_iff, image_of_slashed, is_image_iff.
  induction pre as [|x pre IH]; intros st A; cbn [app SelModel.show].
  - rewrite E, N. cbn. repeat split; auto; discriminate.
  - assert (Ex : is_image (slashed d ++ x) = true).
    { apply is_image_iff, image_of_slashed, is_image_iff, A. cbn; auto. }
    rewrite Ex. destruct (imread (slashed d ++ x)) as [im|]; [|cbn; repeat split; auto; try lia; discriminate].
    destruct (sel st im) as [[px st']| | | |] eqn:S; try (cbn; repeat split; auto; try lia; discriminate).
    destruct (pref_h im <=? 0); [cbn; repeat split; auto; try lia; discriminate|].
    destruct (IH st') as [H1 [H2 H3]]; [intros; apply A; cbn; auto|]. cbn zeta in *. cbn [fst snd List.length].
    split; [lia|]. split; [exact H2|]. intros H. apply H3. lia.
Qed.
End Run.

(** ** Gradients *)
Lemma repl_near n v : 0 < n -> replicate n v = (if v <? 0 then 0 else if n <=? v then n - 1 else v).
Proof. intros H. unfold replicate. destruct (v <? 0) eqn:A; [lia|]. destruct (n <=? v) eqn:B; lia. Qed.
Lemma repl_in n v : 0 < n -> 0 <= replicate n v < n.
Proof. intros H. unfold replicate. lia. Qed.

Lemma slope_is im x y : 0 < g_rows im -> 0 < g_cols im -> slope im x y = twice_gx im x y ^ 2 + twice_gy im x y ^ 2.
Proof. intros R C. unfold slope, near, twice_gx, twice_gy. now rewrite !repl_near by auto. Qed.

Lemma diff_range im x y : proper im -> -255 <= twice_gx im x y <= 255 /\ -255 <= twice_gy im x y <= 255.
Proof.
  intros [R [C B]]. unfold twice_gx, twice_gy.
  assert (Q : forall a b, 0 <= g_at im (replicate (g_cols im) a) (replicate (g_rows im) b) <= 255).
  { intros a b. apply B; now apply repl_in. }
  pose proof (Q (x + 1) y). pose proof (Q (x - 1) y). pose proof (Q x (y + 1)). pose proof (Q x (y - 1)). lia.
Qed.

Lemma norm_low mag im x y t : mag_ok mag -> proper im -> 0 <= t <= 255 ->
  ((im_at (grad_norm mag im) x y <= inject_Z t)%Q <-> slope im x y <= 4 * t ^ 2).
Proof.
  intros [_ [_ M]] P T. cbn [im_at grad_norm]. destruct (diff_range im x y P). destruct P as [R [C _]]. rewrite slope_is by auto. now apply M.
Qed.

Lemma brighter_same mag c a b : 0 < g_rows a -> 0 < g_cols a -> brighter c a b -> grad_norm mag a = grad_norm mag b.
Proof.
  intros R C [Er [Ec B]]. unfold grad_norm. rewrite <- Er, <- Ec. f_equal. extensionality x. extensionality y.
  unfold twice_gx, twice_gy. rewrite <- Er, <- Ec. rewrite !B by now apply repl_in. f_equal; lia.
Qed.
Lemma negative_same mag c a b : mag_ok mag -> 0 < g_rows a -> 0 < g_cols a -> negative c a b -> grad_norm mag a = grad_norm mag b.
Proof.
  intros [_ [M _]] R C [Er [Ec B]]. unfold grad_norm. rewrite <- Er, <- Ec. f_equal. extensionality x. extensionality y.
  unfold twice_gx, twice_gy. rewrite <- Er, <- Ec. rewrite !B by now apply repl_in. apply M. ring.
Qed.

Lemma sum_nonneg n f : (forall k, 0 <= f k)%Q -> (0 <= sum_upto n f)%Q.
Proof.
  intros H. unfold sum_upto. induction (seq 0 (Z.to_nat n)) as [|a l IH]; cbn; [discriminate|].
  setoid_replace 0%Q with (0 + 0)%Q at 1 by reflexivity. apply Qplus_le_compat; auto.
Qed.
Lemma mean_nonneg g i j s m : 1 <= s -> (forall x y, 0 <= im_at g x y)%Q -> block_mean g i j s m -> (0 <= m)%Q.
Proof.
  intros Hs H B. unfold block_mean in B.
  assert (P : (0 <= m * inject_Z (s * s))%Q).
  { rewrite B. apply sum_nonneg. intros k. now apply sum_nonneg. }
  destruct (Qlt_le_dec m 0) as [L|L]; auto. exfalso.
  assert (Q : (m * inject_Z (s * s) < 0)%Q).
  { rewrite <- (Qmult_0_l (inject_Z (s * s))). apply Qmult_lt_r; auto. unfold Qlt. cbn. nia. }
  exact (Qlt_not_le _ _ Q P).
Qed.

Lemma genuine_steep mag im s thr p : mag_ok mag -> proper im -> 1 <= s -> (5 <= thr)%Q -> genuine (grad_norm mag im) s thr p ->
  (0 <= fst p <= g_cols im - 2) /\ (0 <= snd p <= g_rows im - 2) /\ 100 < slope im (fst p) (snd p).
Proof.
  intros M P Hs T G. destruct (genuine_inside _ _ _ _ Hs G) as [I1 I2]. split; [exact I1|]. split; [exact I2|].
  destruct G as [i [j [m [_ [_ [Bm L]]]]]].
  assert (M0 : (0 <= m)%Q) by (apply (mean_nonneg _ _ _ _ _ Hs) in Bm; auto; intros x y; apply (proj1 M)).
  destruct (Z_le_gt_dec (slope im (fst p) (snd p)) 100) as [S|S]; [|lia]. exfalso.
  assert (K : (im_at (grad_norm mag im) (fst p) (snd p) <= inject_Z 5)%Q) by (apply norm_low; auto; lia).
  apply (Qlt_not_le _ _ L). eapply Qle_trans; [exact K|]. rewrite <- (Qplus_0_l (inject_Z 5)). apply Qplus_le_compat; auto.
Qed.

Lemma default_low k thr : nth_error (thresholds ps_default) k = Some thr -> (5 <= thr)%Q.
Proof. destruct k as [|[|[|k]]]; cbn; intros H; [| | |destruct k; discriminate]; inversion H; discriminate. Qed.

Lemma in_concat_nth {A} (ls : list (list A)) p : In p (List.concat ls) -> exists k c, nth_error ls k = Some c /\ In p c.
Proof. intros H. apply in_concat in H. destruct H as [c [H I]]. apply In_nth_error in H. destruct H as [k K]. eauto. Qed.

Section Select.
Variable maxloc : image -> Z -> Z -> Z -> Z * Z.
Variable shuffle : nat -> list (Z * Z) -> list (Z * Z).
Variable mag : Z -> Z -> Q.
Hypothesis Mo : maxloc_ok maxloc.
Hypothesis So : shuffle_ok shuffle.
Hypothesis Ma : mag_ok mag.

(** Points returned are steep or fillers *)
Lemma block_cases fuel st g needed px st' : select maxloc shuffle fuel ps_default st g needed = Ok (px, st') ->
  0 < im_rows g -> 0 < im_cols g -> 0 <= lastBlock st -> 0 <= needed /\ exists block, 1 <= block /\ adapted_block ps_default st needed = Ok block.
Proof.
  intros H R C L. unfold select in H. destruct (adapted_block ps_default st needed) as [block| | | |] eqn:E; try discriminate. cbn [bind] in H.
  assert (B : 0 <= block).
  { unfold adapted_block in E. destruct (Qle_bool _ 0); [discriminate|]. destruct (lastFound st <? 0); [discriminate|].
    destruct (Dbl.in_int (Z.sgn _ * _)); [|discriminate]. inversion E. apply Z.mul_nonneg_nonneg; [now apply Z.sgn_nonneg|apply Z.sqrt_nonneg]. }
  assert (N : 0 <= needed).
  { unfold select_internal in H. destruct (thresholds ps_default) eqn:T; [discriminate|]. destruct (needed <? 0) eqn:N; [discriminate|lia]. }
  split; auto. exists block. split; auto. destruct (Z.eq_dec block 0) as [->|]; [|lia].
  rewrite internal_zero in H; auto; discriminate.
Qed.

Lemma steep fuel st im px st' : proper im -> 0 <= lastBlock st ->
  (Z.to_nat (g_rows im) <= fuel)%nat -> (Z.to_nat (g_cols im) <= fuel)%nat ->
  select maxloc shuffle fuel ps_default st (grad_norm mag im) default_pointsNum = Ok (px, st') ->
  0 <= lastBlock st' /\ forall p, In p px -> p = (0, 0) \/
    ((0 <= fst p <= g_cols im - 2) /\ (0 <= snd p <= g_rows im - 2) /\ 100 < slope im (fst p) (snd p)).
Proof using Mo So Ma.
  intros P L F1 F2 H. pose proof P as [R [C _]].
  destruct (block_cases _ _ _ _ _ _ H R C L) as [N [block [B E]]].
  destruct (select_ok maxloc shuffle fuel ps_default st (grad_norm mag im) default_pointsNum block Mo So ltac:(discriminate) E B N F1 F2)
    as [res [found [cands [kept [f [S [Len [Cd [_ [_ [Pk [Pr _]]]]]]]]]]]].
  rewrite H in S. inversion S; subst. cbn [lastBlock]. split; [lia|].
  intros p Ip. apply (Permutation_in _ Pr) in Ip. apply in_app_or in Ip. destruct Ip as [Ip|Ip]; [|left; now apply repeat_spec in Ip].
  right. apply in_concat_nth in Ip. destruct Ip as [k [c [K Ic]]].
  assert (Q : exists c', nth_error cands k = Some c' /\ In p c').
  { clear - Pk K Ic. revert k K. induction Pk as [|x y l l' [dr D] Pk IH]; intros [|k] K; cbn in K; try discriminate.
    - inversion K; subst. exists y. split; auto. apply (Permutation_in _ (Permutation_sym D)). apply in_or_app. auto.
    - apply (IH _ K). }
  destruct Q as [c' [K' Ic']].
  destruct (nth_error (thresholds ps_default) k) as [thr|] eqn:T.
  - destruct (Cd k c' thr K' T) as [_ [G _]]. apply (genuine_steep mag im _ thr p Ma P (pow_block k block B)); [now apply (default_low k)|]. now apply G.
  - apply nth_error_None in T. rewrite <- Len in T. assert (nth_error cands k <> None) by congruence. apply nth_error_Some in H0. lia.
Qed.

Lemma within_slope im x y : 0 < g_rows im -> 0 < g_cols im -> within 7 im -> slope im x y <= 100.
Proof.
  intros R C W. rewrite slope_is by auto. unfold twice_gx, twice_gy.
  assert (Q : forall a b c d, -7 <= g_at im (replicate (g_cols im) a) (replicate (g_rows im) b) - g_at im (replicate (g_cols im) c) (replicate (g_rows im) d) <= 7).
  { intros a b c d. pose proof (repl_in (g_cols im) a C). pose proof (repl_in (g_rows im) b R). pose proof (repl_in (g_cols im) c C). pose proof (repl_in (g_rows im) d R).
    pose proof (W (replicate (g_cols im) a) (replicate (g_rows im) b) (replicate (g_cols im) c) (replicate (g_rows im) d)).
    pose proof (W (replicate (g_cols im) c) (replicate (g_rows im) d) (replicate (g_cols im) a) (replicate (g_rows im) b)). lia. }
  pose proof (Q (x + 1) y (x - 1) y). pose proof (Q x (y + 1) x (y - 1)).
  set (u := _ - _) in *. set (v := _ - _) in *. nia.
Qed.

Lemma dim_none fuel st im block : proper im -> within 7 im -> adapted_block ps_default st default_pointsNum = Ok block -> 1 <= block ->
  (Z.to_nat (g_rows im) <= fuel)%nat -> (Z.to_nat (g_cols im) <= fuel)%nat ->
  select maxloc shuffle fuel ps_default st (grad_norm mag im) default_pointsNum = Ok ([], {| lastBlock := block; lastFound := 0 |}).
Proof using Mo So Ma.
  intros P W E B F1 F2. pose proof P as [R [C _]].
  destruct (select_ok maxloc shuffle fuel ps_default st (grad_norm mag im) default_pointsNum block Mo So ltac:(discriminate) E B ltac:(discriminate) F1 F2)
    as [res [found [cands [kept [f [S [Len [Cd [Fd [Lr _]]]]]]]]]].
  assert (Z0 : List.concat cands = []).
  { destruct (List.concat cands) as [|p l] eqn:Q; auto. exfalso.
    assert (I : In p (List.concat cands)) by (rewrite Q; cbn; auto). apply in_concat_nth in I. destruct I as [k [c [K Ic]]].
    destruct (nth_error (thresholds ps_default) k) as [thr|] eqn:T.
    - destruct (Cd k c thr K T) as [_ [G _]].
      destruct (genuine_steep mag im _ thr p Ma P (pow_block k block B) (default_low k thr T) (G p Ic)) as [_ [_ X]].
      pose proof (within_slope im (fst p) (snd p) R C W). lia.
    - apply nth_error_None in T. rewrite <- Len in T. assert (X : nth_error cands k <> None) by congruence. apply nth_error_Some in X. lia. }
  rewrite Z0 in Fd. cbn in Fd. subst found. rewrite S. destruct res; [reflexivity|]. cbn in Lr. lia.
Qed.

Lemma zero_stuck fuel block g : 0 < im_rows g -> 0 < im_cols g ->
  select maxloc shuffle fuel ps_default {| lastBlock := block; lastFound := 0 |} g default_pointsNum = NoFuel.
Proof.
  intros R C. unfold select. rewrite adapted_zero by (reflexivity || discriminate). cbn [bind].
  rewrite internal_zero; auto; discriminate.
Qed.

Variable imread : bytes -> option gray.
Variable fuel : nat.
Notation show := (show maxloc shuffle mag imread fuel).
Hypothesis Rd : forall fname im, imread fname = Some im -> proper im /\ (Z.to_nat (g_rows im) <= fuel)%nat /\ (Z.to_nat (g_cols im) <= fuel)%nat.

Lemma show_steep d : forall l st, 0 <= lastBlock st -> forall fname px, In (fname, px) (fst (show d st l)) ->
  exists im, imread fname = Some im /\ forall p, In p px -> p = (0, 0) \/
    ((0 <= fst p <= g_cols im - 2) /\ (0 <= snd p <= g_rows im - 2) /\ 100 < slope im (fst p) (snd p)).
Proof using Mo So Ma Rd.
  induction l as [|nm l IH]; intros st L fname px H; cbn [SelModel.show] in H; [destruct H|].
  destruct (is_image (d ++ nm)); [|apply (IH st); auto].
  destruct (imread (d ++ nm)) as [im|] eqn:R; [|destruct H]. destruct (Rd _ _ R) as [P [F1 F2]].
  destruct (select maxloc shuffle fuel ps_default st (grad_norm mag im) default_pointsNum) as [[p st']| | | |] eqn:S; try (destruct H; fail).
  destruct (steep fuel st im p st' P L F1 F2 S) as [L' Q].
  destruct (pref_h im <=? 0); [destruct H|]. cbn in H. destruct H as [H|H]; [inversion H; subst; eauto|]. apply (IH st' L' _ _ H).
Qed.
End Select.
