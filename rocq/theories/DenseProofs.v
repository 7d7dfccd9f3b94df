From Coq Require Import Reals ZArith List Bool Lia Lra Sorted.
From Verif Require Import Outcome Pose GeomModel SphereModel SectorModel SectorSpec SectorProofs SectorMore SectorExamples ArcModel DenseModel DenseSpec.
Import ListNotations.
Open Scope R_scope.

Lemma grid_in n x : In x (grid n) <-> (0 <= x < n /\ x mod 10 = 0)%Z.
Proof.
  unfold grid, step. rewrite in_map_iff. split.
  - intros (k & <- & I). apply in_seq in I. split.
    + pose proof (Z.div_mod (n + 9) 10). pose proof (Z.mod_pos_bound (n + 9) 10). lia.
    + rewrite Z.mul_comm. apply Z_mod_mult.
  - intros [B M]. exists (Z.to_nat (x / 10)). pose proof (Z.div_mod x 10). pose proof (Z.div_pos x 10).
    split; [lia|]. apply in_seq. pose proof (Z.div_mod (n + 9) 10). pose proof (Z.mod_pos_bound (n + 9) 10). lia.
Qed.
Lemma pixels_in rows cols x y : In (x, y) (pixels rows cols) <-> tenth rows cols x y.
Proof.
  unfold pixels, tenth. rewrite in_flat_map. split.
  - intros (b & B & I). apply in_map_iff in I. destruct I as (a & E & A). injection E as -> ->. apply grid_in in A, B. tauto.
  - intros (A & B & C & D). exists y. split; [apply grid_in; tauto|]. apply in_map_iff. exists x. split; [reflexivity|apply grid_in; tauto].
Qed.

(** the order of the pixels *)
Definition prior (a b : Z * Z) : Prop := (snd a < snd b \/ snd a = snd b /\ fst a < fst b)%Z.
Lemma seq_sorted : forall n k, StronglySorted (fun a b => (10 * Z.of_nat a < 10 * Z.of_nat b)%Z) (seq k n).
Proof.
  induction n; intros k; cbn; constructor; [apply IHn|]. apply Forall_forall. intros j I. apply in_seq in I. change (10 * Z.of_nat k < 10 * Z.of_nat j)%Z. lia.
Qed.
Lemma sorted_map {A B} (f : A -> B) (P : B -> B -> Prop) l : StronglySorted (fun a b => P (f a) (f b)) l -> StronglySorted P (map f l).
Proof.
  induction 1; cbn; constructor; auto. apply Forall_forall. intros b I. apply in_map_iff in I. destruct I as (c & <- & I).
  rewrite Forall_forall in H0. auto.
Qed.
Lemma grid_sorted n : StronglySorted Z.lt (grid n).
Proof. unfold grid, step. apply sorted_map. apply seq_sorted. Qed.
Lemma sorted_app {A} (P : A -> A -> Prop) l r : StronglySorted P l -> StronglySorted P r -> (forall a b, In a l -> In b r -> P a b) -> StronglySorted P (l ++ r).
Proof.
  induction 1; cbn; intros R H1; [exact R|]. constructor.
  - apply IHStronglySorted; [exact R|]. intros a0 b I J. apply H1; [now right|exact J].
  - apply Forall_app. split; [assumption|]. apply Forall_forall. intros b I. apply H1; [now left|exact I].
Qed.
Lemma row_sorted y l : StronglySorted Z.lt l -> StronglySorted prior (map (fun x : Z => (x, y)) l).
Proof.
  induction 1; cbn; constructor; auto. apply Forall_forall. intros b I. apply in_map_iff in I. destruct I as (c & <- & I).
  rewrite Forall_forall in H0. right. cbn. auto.
Qed.
Lemma pixels_sorted rows cols : StronglySorted prior (pixels rows cols).
Proof.
  unfold pixels. pose proof (grid_sorted rows) as G. induction G as [|y l G IH F]; cbn; [constructor|].
  apply sorted_app; [apply row_sorted, grid_sorted|exact IH|]. intros a b A B. apply in_map_iff in A. destruct A as (x & <- & _).
  apply in_flat_map in B. destruct B as (y' & Y & B). apply in_map_iff in B. destruct B as (x' & <- & _).
  rewrite Forall_forall in F. left. cbn. auto.
Qed.

Section S.
Variable solve : vec -> vec -> vec -> vec -> R * R * R.
Variable last : vec -> vec -> vec -> plane.
Variable unmap : Z -> Z -> vec.
Notation dots := (dots solve last unmap).
Notation encl := (enclosingSector solve).

Lemma dots_step sec m x y l a m1 : NoDup (map fst m) -> encl m (unmap x y) = (a, m1) ->
  dots sec m ((x, y) :: l) =
    ((match a with Some ks => if same_sector a sec then [(x, y, plane_depth last (snd ks) (unmap x y))] else [] | None => [] end)
       ++ fst (dots sec m1 l), snd (dots sec m1 l)).
Proof.
  intros N E. cbn [DenseModel.dots]. rewrite E. unfold spherical_terrain. rewrite (query_repeat _ _ _ _ _ N E).
  destruct (dots sec m1 l) as [r m3]. destruct a as [ks|]; cbn [fst snd app same_sector]; [destruct sec as [k|]; [destruct (fst ks =? k)%Z|]|destruct sec]; reflexivity.
Qed.

Lemma left_same sec sec' : forall l m, NoDup (map fst m) -> snd (dots sec m l) = snd (dots sec' m l).
Proof.
  induction l as [|[x y] l IH]; intros m N; [reflexivity|]. destruct (encl m (unmap x y)) as [a m1] eqn:E.
  rewrite !(dots_step _ _ _ _ _ _ _ N E). cbn [snd]. apply IH. destruct (query_spec _ _ _ _ _ N E) as (_ & X & _). exact X.
Qed.
Lemma left_queries sec : forall l m, NoDup (map fst m) -> snd (dots sec m l) = snd (queries solve m (map (fun p => unmap (fst p) (snd p)) l)).
Proof.
  induction l as [|[x y] l IH]; intros m N; [reflexivity|]. destruct (encl m (unmap x y)) as [a m1] eqn:E.
  rewrite (dots_step _ _ _ _ _ _ _ N E). cbn [snd map fst queries]. rewrite E. destruct (query_spec _ _ _ _ _ N E) as (_ & X & _).
  rewrite (IH m1 X). destruct (queries solve m1 _). reflexivity.
Qed.
Lemma null_none : forall l m, NoDup (map fst m) -> fst (dots None m l) = [].
Proof.
  induction l as [|[x y] l IH]; intros m N; [reflexivity|]. destruct (encl m (unmap x y)) as [a m1] eqn:E.
  rewrite (dots_step _ _ _ _ _ _ _ N E). destruct (query_spec _ _ _ _ _ N E) as (_ & X & _). cbn [fst]. rewrite (IH m1 X). destruct a; reflexivity.
Qed.
Lemma dot_sound k x y d : forall l m, NoDup (map fst m) -> In (x, y, d) (fst (dots (Some k) m l)) ->
  In (x, y) l /\ exists s, In (k, s) m /\ isInSector solve (unmap x y) s = true /\ d = plane_depth last s (unmap x y).
Proof.
  induction l as [|[x0 y0] l IH]; intros m N I; [destruct I|]. destruct (encl m (unmap x0 y0)) as [a m1] eqn:E.
  rewrite (dots_step _ _ _ _ _ _ _ N E) in I. cbn [fst] in I. destruct (query_spec _ _ _ _ _ N E) as (S & X & _ & C). apply in_app_or in I. destruct I as [I|I].
  - destruct a as [[k' s]|]; [|destruct I]. cbn [same_sector fst snd] in I. destruct (Z.eqb_spec k' k); [|destruct I]. destruct I as [I|[]]. injection I as -> -> <-. subst k'.
    destruct C as (C1 & C2 & _). split; [now left|]. exists s. split; [eapply sub_in; eauto|]. split; [exact C2|reflexivity].
  - destruct (IH m1 X I) as (L & s & A & B). split; [now right|]. exists s. split; [eapply sub_in; eauto|exact B].
Qed.
Lemma dots_sub sec : forall l m, NoDup (map fst m) -> sub (map fst (fst (dots sec m l))) l.
Proof.
  induction l as [|[x y] l IH]; intros m N; [constructor|]. destruct (encl m (unmap x y)) as [a m1] eqn:E.
  rewrite (dots_step _ _ _ _ _ _ _ N E). destruct (query_spec _ _ _ _ _ N E) as (_ & X & _). cbn [fst]. specialize (IH m1 X).
  destruct a as [ks|]; [destruct (same_sector (Some ks) sec)|]; cbn [app map fst]; now constructor.
Qed.
Lemma sub_sorted {A} (P : A -> A -> Prop) l r : sub l r -> StronglySorted P r -> StronglySorted P l.
Proof.
  induction 1; intros R; [constructor| |]; inversion R; subst; auto. constructor; auto.
  apply Forall_forall. intros b I. rewrite Forall_forall in H3. apply H3. eapply sub_in; eauto.
Qed.
Lemma sorted_unmap {A B} (f : A -> B) (P : B -> B -> Prop) l : StronglySorted P (map f l) -> StronglySorted (fun a b => P (f a) (f b)) l.
Proof.
  induction l; cbn; intros S; constructor; inversion S; subst; auto. apply Forall_forall. intros b I. rewrite Forall_forall in H2. apply H2, in_map, I.
Qed.
Lemma dots_sorted sec rows cols m : NoDup (map fst m) -> StronglySorted before (fst (dots sec m (pixels rows cols))).
Proof.
  intros N. pose proof (sub_sorted _ _ _ (dots_sub sec (pixels rows cols) m N) (pixels_sorted rows cols)) as H. apply sorted_unmap in H. exact H.
Qed.
(** the dots of two sectors *)
Lemma dot_one k k' x y d d' : forall l m, NoDup (map fst m) -> NoDup l ->
  In (x, y, d) (fst (dots (Some k) m l)) -> In (x, y, d') (fst (dots (Some k') m l)) -> k = k' /\ d = d'.
Proof.
  induction l as [|[x0 y0] l IH]; intros m N ND I I'; [destruct I|]. destruct (encl m (unmap x0 y0)) as [a m1] eqn:E.
  rewrite (dots_step _ _ _ _ _ _ _ N E) in I; rewrite (dots_step _ _ _ _ _ _ _ N E) in I'. cbn [fst] in I, I'. destruct (query_spec _ _ _ _ _ N E) as (S & X & _ & C). inversion ND as [|? ? NI ND']; subst.
  apply in_app_or in I, I'. destruct I as [I|I], I' as [I'|I'].
  - destruct a as [[j s]|]; [|destruct I]. cbn [same_sector fst snd] in I, I'. destruct (Z.eqb_spec j k); [|destruct I]. destruct (Z.eqb_spec j k'); [|destruct I'].
    destruct I as [I|[]], I' as [I'|[]]. split; congruence.
  - exfalso. apply NI. destruct (dot_sound _ _ _ _ _ _ X I') as [L _]. destruct a as [ks|]; [|destruct I]. destruct (same_sector _ _); [|destruct I]. destruct I as [I|[]]. injection I as -> -> _. exact L.
  - exfalso. apply NI. destruct (dot_sound _ _ _ _ _ _ X I) as [L _]. destruct a as [ks|]; [|destruct I']. destruct (same_sector _ _); [|destruct I']. destruct I' as [I'|[]]. injection I' as -> -> _. exact L.
  - exact (IH m1 X ND' I I').
Qed.
(** what is still stored was drawn *)
Lemma dot_covered x y sec ks : forall l m, NoDup (map fst m) -> In (x, y) l -> In ks (snd (dots sec m l)) -> isInSector solve (unmap x y) (snd ks) = true ->
  exists k d, In (x, y, d) (fst (dots (Some k) m l)).
Proof.
  induction l as [|[x0 y0] l IH]; intros m N L I H; [destruct L|]. destruct (encl m (unmap x0 y0)) as [a m1] eqn:E.
  rewrite (dots_step _ _ _ _ _ _ _ N E) in I. cbn [snd] in I. destruct (query_spec _ _ _ _ _ N E) as (S & X & _ & C). destruct L as [L|L].
  - injection L as -> ->. destruct a as [[j s]|].
    + exists j, (plane_depth last s (unmap x y)). rewrite (dots_step _ _ _ _ _ _ _ N E). cbn [same_sector fst snd]. rewrite Z.eqb_refl. now left.
    + destruct C as [-> C]. rewrite (left_queries _ _ _ N) in I. destruct (queries solve m _) as [q m'] eqn:Q. cbn [snd] in I.
      destruct (queries_spec _ _ _ _ _ N Q) as (SS & _). rewrite (C ks) in H; [discriminate|]. eapply sub_in; eauto.
  - destruct (IH m1 X L I H) as (k & d & J). exists k, d. rewrite (dots_step _ _ _ _ _ _ _ N E). cbn [fst]. apply in_or_app. now right.
Qed.
(** every ray in at most one sector *)
Definition single (m : sectors) (r : vec) := forall a b, In a m -> In b m -> isInSector solve r (snd a) = true -> isInSector solve r (snd b) = true -> a = b.
Lemma single_query m r a m1 : NoDup (map fst m) -> single m r -> encl m r = (a, m1) ->
  m1 = m /\ forall ks, In ks m -> isInSector solve r (snd ks) = true -> a = Some ks.
Proof.
  intros N U E. pose proof (query_cases solve m r) as C. rewrite E in C. destruct a as [b|].
  - destruct C as (I & H & _ & F). split; [|intros ks J K; f_equal; apply U; auto]. rewrite (F N).
    assert (G : forall ks, In ks m -> negb (isInSector solve r (snd ks)) || (fst ks =? fst b)%Z = true).
    { intros ks J. destruct (isInSector solve r (snd ks)) eqn:K; [|reflexivity]. rewrite (U ks b J I K H). apply Z.eqb_refl. }
    clear - G. induction m as [|k m IH]; [reflexivity|]. cbn. rewrite G by now left. f_equal. apply IH. intros; apply G; now right.
  - destruct C as [-> C]. split; [reflexivity|]. intros ks J K. rewrite (C ks J) in K. discriminate.
Qed.
Lemma single_dots k m : NoDup (map fst m) -> forall l, (forall x y, In (x, y) l -> single m (unmap x y)) ->
  snd (dots (Some k) m l) = m /\ forall x y s, In (x, y) l -> In (k, s) m -> isInSector solve (unmap x y) s = true ->
    In (x, y, plane_depth last s (unmap x y)) (fst (dots (Some k) m l)).
Proof.
  intros N. induction l as [|[x0 y0] l IH]; intros U; [split; [reflexivity|intros x y s []]|]. destruct (encl m (unmap x0 y0)) as [a m1] eqn:E.
  rewrite (dots_step _ _ _ _ _ _ _ N E). destruct (single_query _ _ _ _ N (U _ _ (or_introl eq_refl)) E) as (-> & A). cbn [fst snd].
  destruct IH as [I1 I2]; [intros; apply U; now right|]. split; [exact I1|]. intros x y s L I H. apply in_or_app. destruct L as [L|L]; [left|right; auto].
  injection L as -> ->. rewrite (A (k, s) I H). cbn [same_sector fst snd]. rewrite Z.eqb_refl. now left.
Qed.
End S.

Lemma meets_depth last s r d : orthogonal_column last -> proper s -> r <> vzero ->
  (meets r s d <-> in_cone r s /\ d = plane_depth last s r).
Proof.
  intros O P Z. split.
  - intros (t & T & I & D). assert (C : in_cone r s).
    { destruct I as (u & v & w & U & V & W & _ & E). exists (u / t), (v / t), (w / t).
      assert (0 < / t) by (apply Rinv_0_lt_compat; lra). repeat (split; [apply Rmult_le_pos; lra|]).
      pose proof (f_equal vx E) as E1. pose proof (f_equal vy E) as E2. pose proof (f_equal vz E) as E3. cbn in E1, E2, E3.
      apply vec_eq; cbn; apply (Rmult_eq_reg_l t); try lra; [rewrite E1|rewrite E2|rewrite E3]; field; lra. }
    split; [exact C|]. destruct (terrain_point last s r O P Z C) as (t0 & _ & _ & E & U). rewrite E, D. rewrite (U t I). reflexivity.
  - intros [C ->]. destruct (terrain_point last s r O P Z C) as (t & T & I & E & _). exists t. auto.
Qed.

Lemma sorted_nodup l : StronglySorted prior l -> NoDup l.
Proof. induction 1; constructor; auto. intros I. rewrite Forall_forall in H0. destruct (H0 _ I); lia. Qed.

Theorem drawn solve last unmap k rows cols m l m' : cone_solver solve -> orthogonal_column last -> stored m -> sees unmap rows cols ->
  drawDenseTriangle solve last unmap (Some k) rows cols m = (l, m') ->
  StronglySorted before l /\
  forall x y d, In (x, y, d) l -> tenth rows cols x y /\ exists s, In (k, s) m /\ meets (unmap x y) s d.
Proof.
  unfold drawDenseTriangle. intros CS O (N & P) V E. split.
  - pose proof (dots_sorted solve last unmap (Some k) rows cols m N) as H. rewrite E in H. exact H.
  - intros x y d I. pose proof (dot_sound solve last unmap k x y d (pixels rows cols) m N) as H. rewrite E in H. destruct (H I) as (L & s & A & B & ->).
    apply pixels_in in L. split; [exact L|]. exists s. split; [exact A|]. apply (meets_depth last); [exact O|exact (P _ A)|exact (V _ _ L)|].
    split; [|reflexivity]. apply (in_sector_iff solve); auto. exact (P _ A).
Qed.
Theorem drawn_separate solve last unmap k rows cols m l m' : cone_solver solve -> orthogonal_column last -> stored m -> sees unmap rows cols ->
  separate unmap rows cols m -> drawDenseTriangle solve last unmap (Some k) rows cols m = (l, m') ->
  m' = m /\ forall x y d, In (x, y, d) l <-> tenth rows cols x y /\ exists s, In (k, s) m /\ meets (unmap x y) s d.
Proof.
  intros CS O S V U E. pose proof (drawn _ _ _ _ _ _ _ _ _ CS O S V E) as [_ D]. unfold drawDenseTriangle in E. destruct S as (N & P).
  destruct (single_dots solve last unmap k m N (pixels rows cols)) as [A B].
  { intros x y I a b Ia Ib Ha Hb. apply pixels_in in I. apply in_sector_iff in Ha, Hb; auto. eapply U; eauto. }
  rewrite E in A, B. cbn [fst snd] in A, B. split; [exact A|]. intros x y d. split; [apply D|]. intros (T & s & I & M).
  apply (meets_depth last) in M; [|exact O|exact (P _ I)|exact (V _ _ T)]. destruct M as [C ->]. apply B; [apply pixels_in, T|exact I|].
  apply in_sector_iff; auto. exact (P _ I).
Qed.
Theorem drawn_null solve last unmap rows cols m : stored m -> fst (drawDenseTriangle solve last unmap None rows cols m) = [].
Proof. intros [N _]. apply null_none, N. Qed.
Theorem drawn_left solve last unmap sec sec' rows cols m : cone_solver solve -> stored m ->
  let m' := snd (drawDenseTriangle solve last unmap sec rows cols m) in
  m' = snd (drawDenseTriangle solve last unmap sec' rows cols m) /\ sub m' m /\
  (forall ks, In ks m -> (forall x y, tenth rows cols x y -> ~ in_cone (unmap x y) (snd ks)) -> In ks m') /\
  (forall x y ks, tenth rows cols x y -> In ks m' -> in_cone (unmap x y) (snd ks) ->
     exists k d, In (x, y, d) (fst (drawDenseTriangle solve last unmap (Some k) rows cols m))).
Proof.
  intros CS (N & P) m'. unfold m', drawDenseTriangle. split; [apply left_same, N|].
  assert (G : sub (snd (dots solve last unmap sec m (pixels rows cols))) m /\
    (forall ks, In ks m -> (forall x y, tenth rows cols x y -> ~ in_cone (unmap x y) (snd ks)) -> In ks (snd (dots solve last unmap sec m (pixels rows cols))))).
  { rewrite (left_queries _ _ _ _ _ _ N). destruct (queries solve m _) as [q m2] eqn:Q. destruct (history _ _ _ _ _ CS N P Q) as (S & _ & _ & B & _). cbn [snd].
    split; [exact S|]. intros ks I H. apply B; [exact I|]. intros r R. apply in_map_iff in R. destruct R as ([x y] & <- & R). apply pixels_in in R. exact (H _ _ R). }
  split; [exact (proj1 G)|split; [exact (proj2 G)|]].
  intros x y ks T I C. apply (dot_covered solve last unmap x y sec ks); [exact N|apply pixels_in, T|exact I|].
  apply in_sector_iff; [exact CS| |exact C]. apply P. eapply sub_in; [exact (proj1 G)|exact I].
Qed.
Theorem drawn_one solve last unmap k k' rows cols m x y d d' : stored m ->
  In (x, y, d) (fst (drawDenseTriangle solve last unmap (Some k) rows cols m)) ->
  In (x, y, d') (fst (drawDenseTriangle solve last unmap (Some k') rows cols m)) -> k = k' /\ d = d'.
Proof. intros [N _]. apply dot_one; [exact N|apply sorted_nodup, pixels_sorted]. Qed.

(** An image of one row and two visited pixels *)
Definition look (x y : Z) : vec := if (x =? 0)%Z then V3 1 0 0 else V3 1 1 1.
Definition two : sectors := [(1%Z, axes); (2%Z, inner)].
Lemma look_sees : sees look 1 11.
Proof. intros x y _ E. unfold look in E. destruct (x =? 0)%Z; apply (f_equal vx) in E; cbn in E; lra. Qed.
Lemma two_stored : stored two. Proof. split; [exact two_nodup|exact two_proper]. Qed.
Theorem again : stored two /\ sees look 1 11 /\ forall solve last, cone_solver solve -> orthogonal_column last ->
  exists d m, drawDenseTriangle solve last look (Some 1%Z) 1 11 two = ([(0%Z, 0%Z, d)], m) /\ 0 < d /\
    drawDenseTriangle solve last look (Some 1%Z) 1 11 m = ([], m) /\
    fst (spherical_terrain solve last two (look 0 0)) = Some d /\ fst (spherical_terrain solve last m (look 0 0)) = None.
Proof.
  split; [exact two_stored|split; [exact look_sees|]]. intros solve last CS O.
  pose proof (forgets solve CS) as F. cbn [queries] in F. change [(1%Z, axes); (2%Z, inner)] with two in F.
  destruct (enclosingSector solve two (V3 1 0 0)) as [a m1] eqn:E1.
  destruct (enclosingSector solve m1 (V3 1 1 1)) as [b m2] eqn:E2.
  destruct (enclosingSector solve m2 (V3 1 0 0)) as [c m3] eqn:E3.
  injection F as -> -> -> ->. pose proof (none_same _ _ _ _ E3) as M. subst m2.
  assert (N : NoDup (map fst two)) by exact two_nodup. assert (N1 : NoDup (map fst m1)) by (destruct (query_spec _ _ _ _ _ N E1) as (_ & X & _); exact X).
  assert (N2 : NoDup (map fst [(2%Z, inner)])) by (cbn; constructor; [intros []|constructor]).
  exists (plane_depth last axes (V3 1 0 0)), [(2%Z, inner)]. unfold drawDenseTriangle. change (pixels 1 11) with [(0%Z, 0%Z); (10%Z, 0%Z)].
  split; [|split; [|split; [|split]]].
  - rewrite (dots_step solve last look (Some 1%Z) two 0 0 [(10%Z, 0%Z)] _ _ N E1), (dots_step solve last look (Some 1%Z) m1 10 0 [] _ _ N1 E2). reflexivity.
  - destruct (terrain_point last axes (V3 1 0 0) O axes_proper) as (t & T & _ & -> & _); [intros X; apply (f_equal vx) in X; cbn in X; lra|apply in_axes; lra|].
    rewrite vnorm_scale by lra. apply Rmult_lt_0_compat; [exact T|]. apply vnorm_pos. intros X. apply (f_equal vx) in X. cbn in X. lra.
  - pose proof (query_repeat _ _ _ _ _ N1 E2) as E4. rewrite (dots_step solve last look (Some 1%Z) _ 0 0 [(10%Z, 0%Z)] _ _ N2 E3), (dots_step solve last look (Some 1%Z) _ 10 0 [] _ _ N2 E4). reflexivity.
  - unfold spherical_terrain. change (look 0 0) with (V3 1 0 0). rewrite E1. reflexivity.
  - unfold spherical_terrain. change (look 0 0) with (V3 1 0 0). rewrite E3. reflexivity.
Qed.
Example separate_one : separate look 1 11 [(2%Z, inner)] /\ stored [(2%Z, inner)] /\ tenth 1 11 10 0 /\ cone_solver cramer /\ orthogonal_column plane_through /\
  exists d, meets (look 10 0) inner d.
Proof.
  split; [intros x y a b _ [<-|[]] [<-|[]] _ _; reflexivity|]. split; [split; [cbn; constructor; [intros []|constructor]|intros ks [<-|[]]; apply inner_proper]|].
  split; [unfold tenth; repeat split; lia|]. split; [exact cramer_ok|]. split; [exact plane_through_ok|].
  exists (plane_depth plane_through inner (look 10 0)). apply (meets_depth plane_through); [exact plane_through_ok|apply inner_proper| |].
  - intros X. apply (f_equal vx) in X. cbn in X. lra.
  - split; [|reflexivity]. exists (1/2), (1/2), (1/2). repeat split; try lra. apply vec_eq; cbn; lra.
Qed.
