From Coq Require Import ZArith QArith Qround Ascii String List Bool Lia Lqa Permutation Sorted.
From Coq Require Import ZifyBool.
From Verif Require Import Outcome Dbl DblArith UtilModel UtilSpec.
Import ListNotations.
Open Scope Z_scope.

(** * drawLeveled *)

Lemma vset_at {A} (pre : list (option A)) o suf v :
  vset (pre ++ o :: suf) (Z.of_nat (List.length pre)) v = Ok (pre ++ Some v :: suf).
Proof.
  unfold vset. rewrite app_length. simpl List.length.
  replace ((0 <=? Z.of_nat (List.length pre)) &&
           (Z.of_nat (List.length pre) <? Z.of_nat (List.length pre + S (List.length suf)))) with true
    by (symmetry; lia).
  f_equal. rewrite Nat2Z.id, firstn_app, Nat.sub_diag, firstn_all. simpl firstn. rewrite app_nil_r.
  f_equal. f_equal.
  replace (S (List.length pre)) with (List.length (pre ++ [o])) by (rewrite app_length; simpl; lia).
  replace (pre ++ o :: suf) with ((pre ++ [o]) ++ suf) by (now rewrite <- app_assoc).
  rewrite skipn_app, Nat.sub_diag, skipn_all. reflexivity.
Qed.

Lemma place_down_fill n : forall pl idx (pre : list (option Z)) suf,
  (forall j, 0 <= j < Z.of_nat n -> idx (pl - j) = Z.of_nat (List.length pre) + j) ->
  place_down n pl idx (pre ++ repeat None n ++ suf) =
  Ok (pre ++ map (fun i => Some (pl - Z.of_nat i)) (seq 0 n) ++ suf).
Proof.
  induction n as [|n IH]; intros pl idx pre suf H; [reflexivity|].
  cbn [place_down repeat app].
  pose proof (H 0 ltac:(lia)) as H0. rewrite Z.sub_0_r, Z.add_0_r in H0. rewrite H0.
  rewrite vset_at. cbn [bind].
  replace (pre ++ Some pl :: repeat None n ++ suf) with ((pre ++ [Some pl]) ++ repeat None n ++ suf)
    by (now rewrite <- app_assoc).
  rewrite IH.
  - f_equal. rewrite <- app_assoc. f_equal. cbn [app seq map]. f_equal; [f_equal; lia|].
    f_equal. rewrite <- seq_shift, map_map. apply map_ext. intros a. f_equal. lia.
  - intros j Hj. replace (pl - 1 - j) with (pl - (j + 1)) by lia. rewrite H by lia.
    rewrite app_length. simpl. lia.
Qed.

Lemma hconcat_some l : hconcat (map Some l) = Ok l.
Proof. induction l as [|x l IH]; simpl; [reflexivity|]. now rewrite IH. Qed.

Lemma draw_leveled_even k resultW :
  0 < k ->
  draw_leveled (2 * k) resultW =
  Ok (map (fun i => 2 * k - 1 - Z.of_nat i) (seq 0 (Z.to_nat k)),
      map (fun i => k - 1 - Z.of_nat i) (seq 0 (Z.to_nat k))).
Proof.
  intros Hk. unfold draw_leveled.
  replace (Z.quot (2 * k) 2) with k
    by (rewrite Z.mul_comm, Z.quot_mul; lia).
  replace (2 * k - k) with k by lia.
  unfold idiv. replace (k =? 0) with false by (symmetry; lia). cbn [bind].
  replace ((k <? 0) || (k <? 0)) with false by (symmetry; lia). cbv zeta.
  replace (steps_down (2 * k - 1) k) with (Z.to_nat k) by (unfold steps_down; lia).
  pose proof (place_down_fill (Z.to_nat k) (2 * k - 1) (fun pl => 2 * k - pl - 1) [] []) as F1.
  cbn [app] in F1. rewrite !app_nil_r in F1. rewrite F1 by (simpl; intros; lia). clear F1.
  cbn [bind].
  replace (2 * k - 1 - Z.of_nat (Z.to_nat k)) with (k - 1) by lia.
  replace (steps_down (k - 1) 0) with (Z.to_nat k) by (unfold steps_down; lia).
  pose proof (place_down_fill (Z.to_nat k) (k - 1) (fun pl => k - pl - 1) [] []) as F2.
  cbn [app] in F2. rewrite !app_nil_r in F2. rewrite F2 by (simpl; intros; lia). clear F2.
  cbn [bind].
  rewrite <- !(map_map (fun i => _ - Z.of_nat i) Some), !hconcat_some. reflexivity.
Qed.

Lemma draw_leveled_odd k resultW : 0 < k -> draw_leveled (2 * k + 1) resultW = UB.
Proof.
  intros Hk. unfold draw_leveled.
  replace (Z.quot (2 * k + 1) 2) with k
    by (rewrite Z.quot_div_nonneg by lia; apply Z.div_unique with 1; lia).
  replace (2 * k + 1 - k) with (k + 1) by lia.
  unfold idiv. replace (k =? 0) with false by (symmetry; lia).
  replace (k + 1 =? 0) with false by (symmetry; lia). cbn [bind].
  replace ((k + 1 <? 0) || (k <? 0)) with false by (symmetry; lia). cbv zeta.
  replace (steps_down (2 * k + 1 - 1) (k + 1)) with (Z.to_nat k) by (unfold steps_down; lia).
  replace (Z.to_nat (k + 1)) with (Z.to_nat k + 1)%nat by lia. rewrite repeat_app.
  pose proof (place_down_fill (Z.to_nat k) (2 * k + 1 - 1) (fun pl => 2 * k + 1 - pl - 1) []
                (repeat None 1)) as F1.
  cbn [app] in F1. rewrite F1 by (simpl; intros; lia). clear F1. cbn [bind].
  replace (2 * k + 1 - 1 - Z.of_nat (Z.to_nat k)) with k by lia.
  replace (steps_down k 0) with (S (Z.to_nat k)) by (unfold steps_down; lia).
  cbn [place_down]. replace (k - k - 1) with (-1) by lia. reflexivity.
Qed.

Lemma draw_leveled_one resultW : draw_leveled 1 resultW = UB.
Proof.
  unfold draw_leveled. change (Z.quot 1 2) with 0. change (1 - 0) with 1.
  unfold idiv. cbn [Z.eqb bind]. reflexivity.
Qed.

Lemma draw_leveled_shows num resultW :
  0 < num -> Z.even num = true ->
  exists up down, draw_leveled num resultW = Ok (up, down) /\ shows_all_levels num up down.
Proof.
  intros Hp He. apply Z.even_spec in He. destruct He as [k ->].
  eexists _, _. split; [apply draw_leveled_even; lia|]. split.
  - replace (Z.to_nat (2 * k)) with (Z.to_nat k + Z.to_nat k)%nat by lia.
    rewrite seq_app, map_app. f_equal. simpl.
    assert (G : forall n s m, Z.of_nat m = k + Z.of_nat s ->
      map (fun i => k - 1 - Z.of_nat i) (seq s n) = map (fun i => 2 * k - 1 - Z.of_nat i) (seq m n)).
    { induction n as [|n IH]; intros s m E; [reflexivity|]. cbn [seq map]. f_equal; [lia|].
      apply IH. lia. }
    apply G. lia.
  - now rewrite !map_length.
Qed.

Lemma draw_leveled_odd_ub num resultW :
  0 < num -> Z.odd num = true -> draw_leveled num resultW = UB.
Proof.
  intros Hp Ho. apply Z.odd_spec in Ho. destruct Ho as [k ->].
  destruct (Z.eq_dec k 0) as [->|]; [apply draw_leveled_one|apply draw_leveled_odd; lia].
Qed.

(** * Doubles as an order *)

Lemma dle_fin x y : dle (Fin x) (Fin y) = true <-> (x <= y)%Q.
Proof. unfold dle, Qle. lia. Qed.
Lemma dlt_fin x y : dlt (Fin x) (Fin y) = true <-> (x < y)%Q.
Proof. unfold dlt, Qlt. lia. Qed.
Lemma dle_fin_false x y : dle (Fin x) (Fin y) = false <-> (y < x)%Q.
Proof. unfold dle, Qlt. lia. Qed.
Lemma dlt_fin_false x y : dlt (Fin x) (Fin y) = false <-> (y <= x)%Q.
Proof. unfold dlt, Qle. lia. Qed.

Lemma dle_refl a : dnan a = false -> dle a a = true.
Proof. destruct a; simpl; try discriminate; intros; try reflexivity. apply dle_fin. lra. Qed.
Lemma dle_trans a b c : dle a b = true -> dle b c = true -> dle a c = true.
Proof.
  destruct a, b, c; try discriminate; try reflexivity; intros H1 H2.
  apply dle_fin in H1, H2. apply dle_fin. lra.
Qed.
Lemma dle_total a b : dnan a = false -> dnan b = false -> dle a b = false -> dle b a = true.
Proof.
  destruct a, b; simpl; try discriminate; try reflexivity; intros _ _ H.
  apply dle_fin_false in H. apply dle_fin. lra.
Qed.
Lemma dlt_dle a b : dlt a b = true -> dle a b = true.
Proof.
  destruct a, b; simpl; try discriminate; try reflexivity; intros H.
  apply dlt_fin in H. apply dle_fin. lra.
Qed.
Lemma dlt_not_dle a b : dlt a b = true -> dle b a = false.
Proof.
  destruct a, b; simpl; try discriminate; try reflexivity; intros H.
  apply dlt_fin in H. apply dle_fin_false. lra.
Qed.
Lemma not_dle_dlt a b : dnan a = false -> dnan b = false -> dle b a = false -> dlt a b = true.
Proof.
  destruct a, b; simpl; try discriminate; try reflexivity; intros _ _ H.
  apply dle_fin_false in H. apply dlt_fin. lra.
Qed.
Lemma dle_dlt_trans a b c : dle a b = true -> dlt b c = true -> dlt a c = true.
Proof.
  destruct a, b, c; simpl; try discriminate; try reflexivity; intros H1 H2.
  apply dle_fin in H1. apply dlt_fin in H2. apply dlt_fin. lra.
Qed.

Definition no_nan (l : list dbl) : Prop := forall x, In x l -> dnan x = false.

Lemma no_nan_existsb l : existsb dnan l = false <-> no_nan l.
Proof.
  unfold no_nan. split.
  - intros H x Hx. destruct (dnan x) eqn:E; [|reflexivity].
    assert (existsb dnan l = true) by (apply existsb_exists; eauto). congruence.
  - intros H. destruct (existsb dnan l) eqn:E; [|reflexivity].
    apply existsb_exists in E. destruct E as (x & Hx & E). rewrite (H x Hx) in E. discriminate.
Qed.

Lemma dinsert_perm x l : Permutation (x :: l) (dinsert x l).
Proof.
  induction l as [|y l IH]; simpl; [reflexivity|].
  destruct (dle x y); [reflexivity|]. rewrite perm_swap. now constructor.
Qed.

Lemma dinsert_sorted x l :
  no_nan (x :: l) -> StronglySorted dleP l -> StronglySorted dleP (dinsert x l).
Proof.
  intros N S. induction S as [|y l S IH F]; simpl.
  - repeat constructor.
  - destruct (dle x y) eqn:E.
    + constructor; [constructor; assumption|]. constructor; [exact E|].
      eapply Forall_impl; [|exact F]. intros a Ha. eapply dle_trans; eassumption.
    + constructor.
      * apply IH. intros a Ha. apply N. simpl in *. tauto.
      * apply Forall_forall. intros a Ha.
        apply (Permutation_in _ (Permutation_sym (dinsert_perm x l))) in Ha.
        destruct Ha as [<-|Ha].
        -- apply dle_total; [apply N|apply N|assumption]; simpl; tauto.
        -- rewrite Forall_forall in F. now apply F.
Qed.

Lemma dsort_ok l s : dsort l = Ok s -> no_nan l /\ Permutation l s /\ StronglySorted dleP s.
Proof.
  unfold dsort. destruct (existsb dnan l) eqn:E; [discriminate|]. intros [= <-].
  apply no_nan_existsb in E. split; [assumption|].
  assert (P : Permutation l (fold_right dinsert [] l)).
  { clear E. induction l as [|x l IH]; simpl; [reflexivity|].
    rewrite <- dinsert_perm. now constructor. }
  split; [assumption|].
  induction l as [|x l IH]; simpl; [constructor|].
  assert (PP : Permutation l (fold_right dinsert [] l)).
  { eapply Permutation_cons_inv. rewrite P. simpl. symmetry. apply dinsert_perm. }
  apply dinsert_sorted.
  - intros a [<-|Ha]; [apply E; now left|]. apply E. right.
    eapply Permutation_in; [symmetry; exact PP|assumption].
  - apply IH; [|assumption]. intros a Ha. apply E. now right.
Qed.

Lemma count_perm p l l' : Permutation l l' -> count p l = count p l'.
Proof.
  unfold count. induction 1; simpl; try lia.
  - destruct (p x); simpl; lia.
  - destruct (p x), (p y); simpl; lia.
Qed.

Lemma count_app p l l' : count p (l ++ l') = (count p l + count p l')%nat.
Proof. unfold count. now rewrite filter_app, app_length. Qed.

Lemma count_le p l : (count p l <= List.length l)%nat.
Proof. unfold count. induction l as [|x l IH]; simpl; [lia|]. destruct (p x); simpl; lia. Qed.

Lemma count_all p l : (forall x, In x l -> p x = true) -> count p l = List.length l.
Proof.
  unfold count. induction l as [|x l IH]; simpl; intros H; [reflexivity|].
  rewrite (H x) by tauto. simpl. f_equal. apply IH. intros. apply H. tauto.
Qed.

Lemma count_none p l : (forall x, In x l -> p x = false) -> count p l = 0%nat.
Proof.
  unfold count. induction l as [|x l IH]; simpl; intros H; [reflexivity|].
  rewrite (H x) by tauto. apply IH. intros. apply H. tauto.
Qed.

Lemma count_impl p q l : (forall x, In x l -> p x = true -> q x = true) -> (count p l <= count q l)%nat.
Proof.
  unfold count. induction l as [|x l IH]; simpl; intros H; [lia|].
  assert (IHl := IH ltac:(intros; apply H; tauto)).
  destruct (p x) eqn:E; [rewrite (H x) by tauto; simpl; lia|]. destruct (q x); simpl; lia.
Qed.

Lemma sorted_app_inv (l1 : list dbl) v l2 : StronglySorted dleP (l1 ++ v :: l2) ->
  (forall x, In x l1 -> dle x v = true) /\ (forall x, In x l2 -> dle v x = true).
Proof.
  induction l1 as [|a l1 IH]; simpl; intros S; inversion S as [|? ? S' F]; subst.
  - split; [intros ? []|]. rewrite Forall_forall in F. exact F.
  - destruct (IH S') as [A B]. split; [|assumption].
    intros x [<-|Hx]; [|now apply A]. rewrite Forall_forall in F. apply F, in_or_app. right. now left.
Qed.

Lemma sorted_order_statistic l s k v :
  no_nan l -> Permutation l s -> StronglySorted dleP s -> nth_error s k = Some v ->
  order_statistic k l v.
Proof.
  intros N P S H.
  assert (I : In v l).
  { eapply Permutation_in; [symmetry; exact P|]. eapply nth_error_In; eassumption. }
  split; [assumption|].
  rewrite !(count_perm _ _ _ P).
  apply nth_error_split in H. destruct H as (l1 & l2 & -> & L).
  destruct (sorted_app_inv _ _ _ S) as [A B].
  rewrite !count_app. unfold count at 2 4. simpl.
  assert (V : dle v v = true) by (apply dle_refl; auto).
  rewrite V. destruct (dlt v v) eqn:E; [apply dlt_not_dle in E; congruence|].
  fold (count (fun x => dlt x v) l2). fold (count (fun x => dle x v) l2). simpl.
  rewrite (count_none (fun x => dlt x v) l2).
  2:{ intros x Hx. destruct (dlt x v) eqn:E'; [|reflexivity]. apply dlt_not_dle in E'.
      rewrite B in E' by assumption. discriminate. }
  rewrite (count_all (fun x => dle x v) l1) by assumption.
  pose proof (count_le (fun x => dlt x v) l1). fold (count (fun x => dle x v) l2). lia.
Qed.

Lemma order_statistic_le k k' l l' v v' :
  no_nan l -> Permutation l l' -> (k <= k')%nat ->
  order_statistic k l v -> order_statistic k' l' v' -> dleP v v'.
Proof.
  intros N P Hk [I [H1 H2]] [I' [H3 H4]]. unfold dleP.
  destruct (dle v v') eqn:E; [reflexivity|exfalso].
  assert (N' : no_nan l') by (intros x Hx; apply N; eapply Permutation_in; [symmetry|]; eassumption).
  assert (L : dlt v' v = true) by (apply not_dle_dlt; auto).
  rewrite <- !(count_perm _ _ _ P) in *.
  assert ((count (fun x => dle x v') l <= count (fun x => dlt x v) l)%nat).
  { apply count_impl. intros x _ Hx. eapply dle_dlt_trans; eassumption. }
  lia.
Qed.

Lemma order_statistic_unique k l l' v v' :
  no_nan l -> Permutation l l' -> order_statistic k l v -> order_statistic k l' v' -> deq v v'.
Proof.
  intros N P H H'. split.
  - eapply order_statistic_le; eauto.
  - eapply (order_statistic_le k k l' l); eauto.
    + intros x Hx. apply N. eapply Permutation_in; [symmetry|]; eassumption.
    + now symmetry.
Qed.

(** * setDepthColBounds *)

Lemma quantile_index_ok mul part size i :
  0 < size -> quantile_index mul part size = Ok i ->
  0 <= i < size /\
  exists t, to_int (mul part size) = Ok t /\ i = Z.max 0 (Z.min t (size - 1)).
Proof.
  unfold quantile_index. intros Hs H. destruct (to_int _) as [t| | | |]; try discriminate.
  cbn [bind] in H. injection H as <-. split; [|exists t; split; [reflexivity|]];
  destruct (t <? 0) eqn:E1; (destruct (_ >=? size) eqn:E2); lia.
Qed.

Lemma bounds_ok mul red blue cur depths a b :
  depths <> [] -> set_depth_col_bounds mul red blue cur depths = Ok (a, b) ->
  exists i j,
    quantile_index mul red (Z.of_nat (List.length depths)) = Ok i /\
    quantile_index mul blue (Z.of_nat (List.length depths)) = Ok j /\
    no_nan depths /\
    order_statistic (Z.to_nat i) depths a /\ order_statistic (Z.to_nat j) depths b.
Proof.
  intros Hne H. unfold set_depth_col_bounds in H. destruct depths as [|d ds]; [congruence|].
  apply bind_ok_inv in H. destruct H as (s & Hs & H).
  destruct (dsort_ok _ _ Hs) as (N & P & S).
  rewrite <- (Permutation_length P) in H.
  apply bind_ok_inv in H. destruct H as (i & Hi & H).
  apply bind_ok_inv in H. destruct H as (j & Hj & H).
  destruct (nth_error s (Z.to_nat i)) eqn:E1; [|discriminate].
  destruct (nth_error s (Z.to_nat j)) eqn:E2; [|discriminate].
  injection H as -> ->. exists i, j. split; [assumption|]. split; [assumption|].
  split; [assumption|].
  split; eapply sorted_order_statistic; eassumption.
Qed.

Lemma bounds_total mul red blue cur depths :
  no_nan depths ->
  (forall part, part = red \/ part = blue ->
     is_ok (to_int (mul part (Z.of_nat (List.length depths))))) ->
  is_ok (set_depth_col_bounds mul red blue cur depths).
Proof.
  intros N H. unfold set_depth_col_bounds. destruct depths as [|d ds]; [eexists; reflexivity|].
  destruct (dsort (d :: ds)) as [s| | | |] eqn:Es;
    try (unfold dsort in Es; apply no_nan_existsb in N; rewrite N in Es; discriminate).
  destruct (dsort_ok _ _ Es) as (_ & P & _). cbn [bind].
  rewrite <- (Permutation_length P).
  assert (Q : forall part, part = red \/ part = blue -> exists i,
     quantile_index mul part (Z.of_nat (List.length (d :: ds))) = Ok i).
  { intros part Hp. destruct (H part Hp) as [t Ht]. unfold quantile_index. rewrite Ht.
    cbn [bind]. eauto. }
  destruct (Q red ltac:(tauto)) as [i Hi]. destruct (Q blue ltac:(tauto)) as [j Hj].
  rewrite Hi. cbn [bind]. rewrite Hj. cbn [bind].
  apply quantile_index_ok in Hi, Hj; try (simpl List.length; lia).
  destruct (nth_error s (Z.to_nat i)) eqn:E1.
  2:{ apply nth_error_None in E1. rewrite <- (Permutation_length P) in E1. lia. }
  destruct (nth_error s (Z.to_nat j)) eqn:E2.
  2:{ apply nth_error_None in E2. rewrite <- (Permutation_length P) in E2. lia. }
  eexists; reflexivity.
Qed.

Lemma bounds_permutation mul red blue cur depths depths' a b :
  Permutation depths depths' -> depths <> [] ->
  set_depth_col_bounds mul red blue cur depths = Ok (a, b) ->
  exists a' b', set_depth_col_bounds mul red blue cur depths' = Ok (a', b') /\ deq a a' /\ deq b b'.
Proof.
  intros P Hne H.
  destruct (bounds_ok _ _ _ _ _ _ _ Hne H) as (i & j & Hi & Hj & N & OA & OB).
  assert (N' : no_nan depths') by (intros x Hx; apply N; eapply Permutation_in; [symmetry|]; eassumption).
  assert (T : is_ok (set_depth_col_bounds mul red blue cur depths')).
  { apply bounds_total; [assumption|]. rewrite <- (Permutation_length P).
    assert (L : 0 < Z.of_nat (List.length depths)) by (destruct depths; [congruence|simpl; lia]).
    apply quantile_index_ok in Hi, Hj; try assumption.
    destruct Hi as (_ & t & Ht & _). destruct Hj as (_ & u & Hu & _).
    intros part [->| ->]; eexists; eassumption. }
  destruct T as [[a' b'] T]. exists a', b'. split; [assumption|].
  assert (Hne' : depths' <> []).
  { intros ->. apply Permutation_sym, Permutation_nil in P. congruence. }
  destruct (bounds_ok _ _ _ _ _ _ _ Hne' T) as (i' & j' & Hi' & Hj' & _ & OA' & OB').
  rewrite <- (Permutation_length P) in Hi', Hj'. rewrite Hi in Hi'. rewrite Hj in Hj'.
  injection Hi' as <-. injection Hj' as <-.
  split; [eapply (order_statistic_unique (Z.to_nat i) depths depths')|
          eapply (order_statistic_unique (Z.to_nat j) depths depths')]; assumption.
Qed.

Lemma quot_neg a b : a < 0 -> 0 < b -> Z.quot a b = - ((- a) / b).
Proof.
  intros Ha Hb. pose proof (Z.quot_opp_l (- a) b ltac:(lia)) as Q.
  rewrite Z.opp_involutive in Q. rewrite Q, Z.quot_div_nonneg by lia. reflexivity.
Qed.

Lemma qtrunc_mono x y : (x <= y)%Q -> qtrunc x <= qtrunc y.
Proof.
  unfold qtrunc, Qle. intros H.
  destruct x as [a b], y as [c d]; cbn [Qnum Qden] in *.
  destruct (Z_le_gt_dec 0 a) as [Ha|Ha].
  - assert (Hc : 0 <= c) by nia. rewrite !Z.quot_div_nonneg by lia.
    apply Z.div_le_lower_bound; [lia|].
    pose proof (Z.mul_div_le a (Z.pos b) ltac:(lia)). nia.
  - rewrite (quot_neg a) by lia.
    pose proof (Z.div_pos (- a) (Z.pos b) ltac:(lia) ltac:(lia)).
    destruct (Z_le_gt_dec 0 c) as [Hc|Hc].
    + pose proof (Z.quot_pos c (Z.pos d) ltac:(lia) ltac:(lia)). lia.
    + rewrite (quot_neg c) by lia.
      cut ((- c) / Z.pos d <= (- a) / Z.pos b); [lia|].
      apply Z.div_le_lower_bound; [lia|].
      pose proof (Z.mul_div_le (- c) (Z.pos d) ltac:(lia)). nia.
Qed.

Lemma to_int_mono a b x y :
  dle a b = true -> to_int a = Ok x -> to_int b = Ok y -> x <= y.
Proof.
  destruct a, b; simpl; try discriminate. intros H.
  destruct (in_int (qtrunc q)) eqn:E1; [|discriminate].
  destruct (in_int (qtrunc q0)) eqn:E2; [|discriminate].
  intros [= <-] [= <-]. apply qtrunc_mono. now apply dle_fin.
Qed.

Lemma bounds_ordered mul red blue cur depths a b :
  (forall n, dleP (mul red n) (mul blue n)) ->
  depths <> [] -> set_depth_col_bounds mul red blue cur depths = Ok (a, b) -> dleP a b.
Proof.
  intros M Hne H.
  destruct (bounds_ok _ _ _ _ _ _ _ Hne H) as (i & j & Hi & Hj & N & OA & OB).
  assert (L : 0 < Z.of_nat (List.length depths)) by (destruct depths; [congruence|simpl; lia]).
  apply quantile_index_ok in Hi, Hj; try assumption.
  destruct Hi as (Ri & t & Ht & Ei). destruct Hj as (Rj & u & Hu & Ej).
  eapply (order_statistic_le (Z.to_nat i) (Z.to_nat j)); eauto.
  pose proof (to_int_mono _ _ _ _ (M _) Ht Hu). lia.
Qed.

(** * depthCol *)

Definition channels (P : dbl -> Prop) (s : scalar) : Prop :=
  let '(b, g, r) := s in P b /\ P g /\ P r.

Lemma in_bounds_int z : 0 <= z <= 255 -> in_bounds (of_int z).
Proof. intros H. unfold in_bounds, dleP, of_int, dle, inject_Z. simpl. lia. Qed.

Lemma in_bounds_fin q : in_bounds (Fin q) <-> (0 <= q <= 255)%Q.
Proof.
  unfold in_bounds, dleP, of_int. rewrite !dle_fin. unfold inject_Z. reflexivity.
Qed.

Lemma to_uchar_ok c : in_bounds c -> is_ok (to_uchar c).
Proof.
  destruct c; try (intros [H1 H2]; discriminate). rewrite in_bounds_fin. intros [H1 H2].
  simpl.
  assert (qtrunc 0 <= qtrunc q) by now apply qtrunc_mono.
  assert (qtrunc q <= qtrunc 255) by now apply qtrunc_mono.
  change (qtrunc 0) with 0 in *. change (qtrunc 255) with 255 in *.
  replace ((0 <=? qtrunc q) && (qtrunc q <=? 255)) with true by (symmetry; lia).
  eexists; reflexivity.
Qed.

Lemma to_vec3b_ok s : channels in_bounds s -> is_ok (to_vec3b s).
Proof.
  destruct s as [[b g] r]. simpl. intros (Hb & Hg & Hr).
  apply to_uchar_ok in Hb, Hg, Hr. destruct Hb as [x Hx], Hg as [y Hy], Hr as [z Hz].
  rewrite Hx, Hy, Hz. eexists; reflexivity.
Qed.

Lemma red_ok : channels in_bounds CV_RED.
Proof. repeat split; reflexivity. Qed.
Lemma blue_ok : channels in_bounds CV_BLUE.
Proof. repeat split; reflexivity. Qed.

Lemma frac_bounds (a d : Q) : (0 < d -> 0 <= a -> a <= d -> 0 <= a / d <= 1)%Q.
Proof.
  intros Hd H0 H1. split.
  - apply Qle_shift_div_l; [assumption|]. lra.
  - apply Qle_shift_div_r; [assumption|]. lra.
Qed.

Lemma depth_col_inside d lo hi :
  (lo < hi -> lo <= d -> d <= hi -> channels in_bounds (depth_col (Fin d) (Fin lo) (Fin hi)))%Q.
Proof.
  intros H Hl Hh. unfold depth_col.
  replace (dlt (Fin d) (Fin lo)) with false by (symmetry; now apply dlt_fin_false).
  replace (dlt (Fin hi) (Fin d)) with false by (symmetry; now apply dlt_fin_false).
  cbn [dadd of_int ddiv]. replace (Qeq_bool (inject_Z 2) 0) with false by reflexivity.
  set (mid := ((lo + hi) / inject_Z 2)%Q).
  assert (M : (mid * 2 == lo + hi)%Q).
  { unfold mid. change (inject_Z 2) with 2%Q. field. }
  cbn [dsub dopp dadd].
  assert (D : Qeq_bool (hi + - mid) 0 = false).
  { destruct (Qeq_bool (hi + - mid) 0) eqn:E; [|reflexivity]. apply Qeq_bool_eq in E. lra. }
  destruct (dlt (Fin mid) (Fin d)) eqn:E; cbn [ddiv smul sadd CV_GREEN CV_BLUE CV_RED of_int dmul];
    rewrite !D; cbn [dmul dadd channels]; rewrite !in_bounds_fin; unfold inject_Z.
  - apply dlt_fin in E.
    pose proof (frac_bounds (hi + - d) (hi + - mid) ltac:(lra) ltac:(lra) ltac:(lra)) as F1.
    pose proof (frac_bounds (d + - mid) (hi + - mid) ltac:(lra) ltac:(lra) ltac:(lra)) as F2.
    set (x := ((hi + - d) / (hi + - mid))%Q) in *. set (y := ((d + - mid) / (hi + - mid))%Q) in *.
    repeat split; lra.
  - apply dlt_fin_false in E.
    pose proof (frac_bounds (mid + - d) (hi + - mid) ltac:(lra) ltac:(lra) ltac:(lra)) as F1.
    pose proof (frac_bounds (d + - lo) (hi + - mid) ltac:(lra) ltac:(lra) ltac:(lra)) as F2.
    set (x := ((mid + - d) / (hi + - mid))%Q) in *. set (y := ((d + - lo) / (hi + - mid))%Q) in *.
    repeat split; lra.
Qed.

Lemma depth_col_channels d lo hi :
  ~ (lo == hi)%Q -> dnan d = false -> channels in_bounds (depth_col d (Fin lo) (Fin hi)).
Proof.
  intros H Hd.
  destruct (dlt d (Fin lo)) eqn:E1; [unfold depth_col; rewrite E1; apply red_ok|].
  destruct (dlt (Fin hi) d) eqn:E2; [unfold depth_col; rewrite E1, E2; apply blue_ok|].
  destruct d as [d| | |]; try discriminate.
  apply dlt_fin_false in E1, E2. apply depth_col_inside; lra.
Qed.

Lemma depth_col_ends lo hi : (lo < hi)%Q ->
  let '(b, g, r) := depth_col (Fin lo) (Fin lo) (Fin hi) in
  let '(b', g', r') := depth_col (Fin hi) (Fin lo) (Fin hi) in
  deq b (of_int 0) /\ deq g (of_int 0) /\ deq r (of_int 255) /\
  deq b' (of_int 255) /\ deq g' (of_int 0) /\ deq r' (of_int 0).
Proof.
  intros H. unfold depth_col.
  replace (dlt (Fin lo) (Fin lo)) with false by (symmetry; apply dlt_fin_false; lra).
  replace (dlt (Fin hi) (Fin hi)) with false by (symmetry; apply dlt_fin_false; lra).
  replace (dlt (Fin hi) (Fin lo)) with false by (symmetry; apply dlt_fin_false; lra).
  cbn [dadd of_int ddiv]. replace (Qeq_bool (inject_Z 2) 0) with false by reflexivity.
  set (mid := ((lo + hi) / inject_Z 2)%Q).
  assert (M : (mid * 2 == lo + hi)%Q).
  { unfold mid. change (inject_Z 2) with 2%Q. field. }
  replace (dlt (Fin mid) (Fin lo)) with false by (symmetry; apply dlt_fin_false; lra).
  replace (dlt (Fin mid) (Fin hi)) with true by (symmetry; apply dlt_fin; lra).
  cbn [dsub dopp dadd].
  assert (D : Qeq_bool (hi + - mid) 0 = false).
  { destruct (Qeq_bool (hi + - mid) 0) eqn:E; [|reflexivity]. apply Qeq_bool_eq in E. lra. }
  cbn [ddiv smul sadd CV_GREEN CV_BLUE CV_RED of_int dmul]; rewrite !D; cbn [dmul dadd].
  unfold deq, dleP, of_int. rewrite !dle_fin. unfold inject_Z.
  assert (A1 : ((mid + - lo) / (hi + - mid) == 1)%Q).
  { setoid_replace (mid + - lo)%Q with (hi + - mid)%Q by lra. field. lra. }
  assert (A2 : ((lo + - lo) / (hi + - mid) == 0)%Q) by (field; lra).
  assert (A3 : ((hi + - hi) / (hi + - mid) == 0)%Q) by (field; lra).
  assert (A4 : ((hi + - mid) / (hi + - mid) == 1)%Q) by (field; lra).
  rewrite A1, A2, A3, A4. repeat split; lra.
Qed.

Lemma depth_col_equal_bounds lo : depth_col (Fin lo) (Fin lo) (Fin lo) = (NaN, NaN, NaN).
Proof.
  unfold depth_col.
  replace (dlt (Fin lo) (Fin lo)) with false by (symmetry; apply dlt_fin_false; lra).
  cbn [dadd of_int ddiv]. replace (Qeq_bool (inject_Z 2) 0) with false by reflexivity.
  set (mid := ((lo + lo) / inject_Z 2)%Q).
  assert (M : (mid == lo)%Q).
  { unfold mid. change (inject_Z 2) with 2%Q. field. }
  replace (dlt (Fin mid) (Fin lo)) with false by (symmetry; apply dlt_fin_false; lra).
  cbn [dsub dopp dadd ddiv].
  assert (Z0 : Qeq_bool (lo + - mid) 0 = true) by (apply Qeq_eq_bool; lra). rewrite Z0.
  assert (I : forall q, (q == 0)%Q -> dinf q = NaN).
  { intros q Hq. unfold dinf. rewrite Hq. reflexivity. }
  rewrite !I by lra. reflexivity.
Qed.

Lemma draw_depth_pixel_equal lo : (0 < lo)%Q -> draw_depth_pixel (Fin lo) (Fin lo) (Fin lo) = UB.
Proof.
  intros H. unfold draw_depth_pixel.
  replace (dlt (of_int 0) (Fin lo)) with true by (symmetry; apply dlt_fin; exact H).
  rewrite depth_col_equal_bounds. reflexivity.
Qed.

Lemma draw_depth_pixel_ok d lo hi :
  ~ (lo == hi)%Q -> is_ok (draw_depth_pixel d (Fin lo) (Fin hi)).
Proof.
  intros H. unfold draw_depth_pixel. destruct (dlt (of_int 0) d) eqn:E; [|eexists; reflexivity].
  assert (N : dnan d = false) by (destruct d; [reflexivity..|discriminate]).
  destruct (to_vec3b_ok _ (depth_col_channels d lo hi H N)) as [c ->]. eexists; reflexivity.
Qed.

(** * fileInDir *)

Lemma append_assoc (a b c : string) : ((a ++ b) ++ c = a ++ (b ++ c))%string.
Proof. induction a; simpl; congruence. Qed.

Lemma append_nil (a : string) : (a ++ "" = a)%string.
Proof. induction a; simpl; congruence. Qed.

Lemma comps_app_slash p q : forall acc,
  comps_from acc (p ++ String "/" q) = comps_from acc p ++ components q.
Proof.
  induction p as [|c p IH]; intros acc; simpl.
  - destruct acc; reflexivity.
  - destruct (Ascii.eqb c "/"); [destruct acc|]; simpl; rewrite ?IH; reflexivity.
Qed.

Lemma string_back_some s c : string_back s = Some c -> exists p, s = (p ++ String c "")%string.
Proof.
  induction s as [|a s IH]; simpl; [discriminate|].
  destruct s as [|b s].
  - intros [= ->]. now exists EmptyString.
  - intros H. destruct (IH H) as [p ->]. now exists (String a p).
Qed.

Definition no_slash (f : string) : Prop := forall a b, f <> (a ++ String "/" b)%string.

Lemma comps_plain f : no_slash f -> forall acc, (acc ++ f <> "")%string ->
  comps_from acc f = [(acc ++ f)%string].
Proof.
  induction f as [|c f IH]; intros N acc Ha; simpl.
  - rewrite append_nil in *. destruct acc; [congruence|reflexivity].
  - destruct (Ascii.eqb c "/") eqn:E.
    + apply Ascii.eqb_eq in E. subst. exfalso. apply (N EmptyString f). reflexivity.
    + rewrite IH.
      * rewrite append_assoc. reflexivity.
      * intros a b ->. apply (N (String c a) b). reflexivity.
      * rewrite append_assoc. simpl. destruct acc; discriminate.
Qed.

Lemma file_in_dir_path dir f : dir <> EmptyString ->
  path_of (file_in_dir dir f) = (is_absolute dir, components dir ++ components f).
Proof.
  intros Hd. unfold path_of, file_in_dir.
  destruct ((1 <? Z.of_nat (String.length dir)) && _) eqn:E.
  - apply andb_true_iff in E. destruct E as [_ E].
    destruct (string_back dir) as [c|] eqn:B; [|discriminate].
    apply Ascii.eqb_eq in E. subst c. apply string_back_some in B. destruct B as [p ->].
    f_equal.
    + destruct p; reflexivity.
    + rewrite append_assoc. simpl. unfold components. unfold slash.
      rewrite !comps_app_slash. simpl. now rewrite app_nil_r.
  - f_equal.
    + destruct dir; [congruence|reflexivity].
    + simpl. unfold components. apply comps_app_slash.
Qed.

Lemma file_in_dir_named dir f : dir <> EmptyString -> f <> EmptyString -> no_slash f ->
  path_of (file_in_dir dir f) = (is_absolute dir, components dir ++ [f]).
Proof.
  intros Hd Hf N. rewrite file_in_dir_path by assumption.
  unfold components at 2. now rewrite (comps_plain f N EmptyString).
Qed.

Lemma file_in_dir_empty f : f <> EmptyString -> no_slash f ->
  path_of (file_in_dir "" f) = (true, [f]).
Proof.
  intros Hf N. unfold path_of, file_in_dir. simpl. f_equal.
  unfold components. simpl. now rewrite (comps_plain f N EmptyString).
Qed.
