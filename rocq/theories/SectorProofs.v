(** Proofs about sector queries and depth interpolation. *)
From Coq Require Import Reals ZArith List Bool Lia Lra Psatz.
From Verif Require Import Outcome Pose GeomModel SphereModel SectorModel SectorSpec.
Import ListNotations.
Open Scope R_scope.

Lemma Rleb_iff x y : Rleb x y = true <-> x <= y.
Proof. unfold Rleb. destruct (Rle_dec x y); split; intros; try easy. Qed.
Lemma Rltb_iff x y : Rltb x y = true <-> x < y.
Proof. unfold Rltb. destruct (Rlt_dec x y); split; intros; try easy. Qed.

Lemma vec_eq a b : vx a = vx b -> vy a = vy b -> vz a = vz b -> a = b.
Proof. destruct a, b; cbn; congruence. Qed.

(** coefficients are unique for independent rays *)
Lemma coords_unique a b c x y z x' y' z' : det3 a b c <> 0 ->
  vadd (vadd (vscale x a) (vscale y b)) (vscale z c) = vadd (vadd (vscale x' a) (vscale y' b)) (vscale z' c) ->
  x = x' /\ y = y' /\ z = z'.
Proof.
  intros D E.
  assert (E0 : x * vx a + y * vx b + z * vx c = x' * vx a + y' * vx b + z' * vx c) by (apply (f_equal vx) in E; exact E).
  assert (E1 : x * vy a + y * vy b + z * vy c = x' * vy a + y' * vy b + z' * vy c) by (apply (f_equal vy) in E; exact E).
  assert (E2 : x * vz a + y * vz b + z * vz c = x' * vz a + y' * vz b + z' * vz c) by (apply (f_equal vz) in E; exact E).
  unfold det3, dot, cross in D; cbn in D.
  destruct a as [a1 a2 a3], b as [b1 b2 b3], c as [c1 c2 c3]; cbn in *.
  set (dx := x - x'). set (dy := y - y'). set (dz := z - z').
  assert (F0 : dx * a1 + dy * b1 + dz * c1 = 0) by (unfold dx, dy, dz; lra).
  assert (F1 : dx * a2 + dy * b2 + dz * c2 = 0) by (unfold dx, dy, dz; lra).
  assert (F2 : dx * a3 + dy * b3 + dz * c3 = 0) by (unfold dx, dy, dz; lra).
  set (det := a1 * (b2 * c3 - b3 * c2) + a2 * (b3 * c1 - b1 * c3) + a3 * (b1 * c2 - b2 * c1)) in *.
  assert (G0 : dx * det = 0).
  { replace (dx * det) with ((dx * a1 + dy * b1 + dz * c1) * (b2 * c3 - b3 * c2)
      + (dx * a2 + dy * b2 + dz * c2) * (b3 * c1 - b1 * c3) + (dx * a3 + dy * b3 + dz * c3) * (b1 * c2 - b2 * c1))
      by (unfold det; ring). rewrite F0, F1, F2. ring. }
  assert (G1 : dy * det = 0).
  { replace (dy * det) with ((dx * a1 + dy * b1 + dz * c1) * (c2 * a3 - c3 * a2)
      + (dx * a2 + dy * b2 + dz * c2) * (c3 * a1 - c1 * a3) + (dx * a3 + dy * b3 + dz * c3) * (c1 * a2 - c2 * a1))
      by (unfold det; ring). rewrite F0, F1, F2. ring. }
  assert (G2 : dz * det = 0).
  { replace (dz * det) with ((dx * a1 + dy * b1 + dz * c1) * (a2 * b3 - a3 * b2)
      + (dx * a2 + dy * b2 + dz * c2) * (a3 * b1 - a1 * b3) + (dx * a3 + dy * b3 + dz * c3) * (a1 * b2 - a2 * b1))
      by (unfold det; ring). rewrite F0, F1, F2. ring. }
  apply Rmult_integral in G0, G1, G2. unfold dx, dy, dz in *. repeat split; lra.
Qed.

Lemma in_sector_iff solve ray s : cone_solver solve -> proper s ->
  (isInSector solve ray s = true <-> in_cone ray s).
Proof.
  intros CS P. unfold isInSector. specialize (CS (s0 s) (s1 s) (s2 s) ray P).
  destruct (solve (s0 s) (s1 s) (s2 s) ray) as [[x y] z].
  rewrite !andb_true_iff, !Rleb_iff. split.
  - intros [[X Y] Z]. exists x, y, z. auto.
  - intros (a & b & c & A & B & C & E). rewrite CS in E.
    destruct (coords_unique _ _ _ _ _ _ _ _ _ P E) as (-> & -> & ->). auto.
Qed.

Section Queries.
Variable solve : vec -> vec -> vec -> vec -> R * R * R.
Let hit ray (ks : Z * sector) := isInSector solve ray (snd ks).

Lemma min_element_in best l : In (min_element best l) (best :: l).
Proof.
  revert best; induction l as [|x l IH]; intros best; [now left|].
  cbn [min_element]. destruct (Rltb _ _).
  - destruct (IH x) as [<-|H]; [right; now left|right; now right].
  - destruct (IH best) as [<-|H]; [now left|right; now right].
Qed.

Lemma min_element_le best l : forall y, In y (best :: l) ->
  sectorBadness (snd (min_element best l)) <= sectorBadness (snd y).
Proof.
  revert best; induction l as [|x l IH]; intros best y H.
  - destruct H as [->|[]]. cbn. lra.
  - cbn [min_element]. destruct (Rltb _ _) eqn:E.
    + apply Rltb_iff in E. destruct H as [<-|[<-|H]].
      * pose proof (IH x x (or_introl eq_refl)). lra.
      * apply IH. now left.
      * apply IH. now right.
    + assert (~ sectorBadness (snd x) < sectorBadness (snd best)) by (intros X; apply Rltb_iff in X; congruence).
      destruct H as [<-|[<-|H]].
      * apply IH. now left.
      * pose proof (IH best best (or_introl eq_refl)). lra.
      * apply IH. now right.
Qed.

Lemma filter_sub {A} (f : A -> bool) l : sub (filter f l) l.
Proof. induction l as [|x l IH]; cbn; [constructor|]. destruct (f x); now constructor. Qed.

Lemma sub_refl {A} (l : list A) : sub l l.
Proof. induction l; now constructor. Qed.

Lemma sub_trans {A} (a b c : list A) : sub a b -> sub b c -> sub a c.
Proof.
  intros H1 H2; revert a H1. induction H2 as [l|x l l' H IH|x l l' H IH]; intros a H1.
  - inversion H1; subst. constructor.
  - inversion H1; subst; constructor; auto.
  - constructor. auto.
Qed.

Lemma sub_in {A} (a b : list A) x : sub a b -> In x a -> In x b.
Proof. induction 1; intros I; [contradiction| |]; cbn in *; intuition. Qed.

Lemma sub_map {A B} (f : A -> B) a b : sub a b -> sub (map f a) (map f b).
Proof. induction 1; cbn; now constructor. Qed.

Lemma sub_nodup {A} (a b : list A) : sub a b -> NoDup b -> NoDup a.
Proof.
  induction 1; intros N; [constructor| |]; inversion N; subst; auto.
  constructor; auto. intros I. eapply sub_in in I; eauto.
Qed.

Lemma query_cases m ray : let '(a, m') := enclosingSector solve m ray in
  match a with
  | None => m' = m /\ forall ks, In ks m -> hit ray ks = false
  | Some b => In b m /\ hit ray b = true /\
      (forall ks, In ks m -> hit ray ks = true -> sectorBadness (snd b) <= sectorBadness (snd ks)) /\
      (NoDup (map fst m) -> m' = filter (fun ks => negb (hit ray ks) || (fst ks =? fst b)%Z) m)
  end.
Proof.
  unfold enclosingSector. fold (hit ray).
  destruct (filter (hit ray) m) as [|x hits] eqn:F.
  - split; [reflexivity|]. intros ks I. destruct (hit ray ks) eqn:E; [|reflexivity].
    assert (X : In ks (filter (hit ray) m)) by (apply filter_In; auto). rewrite F in X. contradiction.
  - destruct hits as [|y hits].
    + assert (X : In x (filter (hit ray) m)) by (rewrite F; now left). apply filter_In in X. destruct X as [X1 X2].
      split; [exact X1|split; [exact X2|split]].
      * intros ks I H. assert (Y : In ks (filter (hit ray) m)) by (apply filter_In; auto).
        rewrite F in Y. destruct Y as [->|[]]. lra.
      * intros _. symmetry. clear - F.
        assert (G : forall ks, In ks m -> negb (hit ray ks) || (fst ks =? fst x)%Z = true).
        { intros ks I. destruct (hit ray ks) eqn:E; [|reflexivity]. cbn.
          assert (Y : In ks (filter (hit ray) m)) by (apply filter_In; auto).
          rewrite F in Y. destruct Y as [->|[]]. apply Z.eqb_refl. }
        clear F. induction m as [|k m IH]; [reflexivity|]. cbn. rewrite G by now left.
        f_equal. apply IH. intros ks I. apply G. now right.
    + set (b := min_element x (y :: hits)).
      assert (Ib : In b (filter (hit ray) m)) by (rewrite F; apply min_element_in).
      apply filter_In in Ib. destruct Ib as [Ib Hb]. split; [exact Ib|split; [exact Hb|split]].
      * intros ks I H. apply min_element_le. rewrite <- F. apply filter_In; auto.
      * intros _. reflexivity.
Qed.

Lemma key_unique (m : sectors) x y : NoDup (map fst m) -> In x m -> In y m -> fst x = fst y -> x = y.
Proof.
  induction m as [|z m IH]; intros N X Y E; [contradiction|].
  cbn in N. inversion N as [|? ? N1 N2]; subst.
  destruct X as [->|X], Y as [->|Y]; auto.
  - elim N1. rewrite E. now apply in_map.
  - elim N1. rewrite <- E. now apply in_map.
Qed.

(** one query *)
Lemma query_spec m ray a m' : NoDup (map fst m) -> enclosingSector solve m ray = (a, m') ->
  sub m' m /\ NoDup (map fst m') /\
  (forall ks, In ks m -> hit ray ks = false -> In ks m') /\
  match a with
  | None => m' = m /\ forall ks, In ks m -> hit ray ks = false
  | Some b => In b m' /\ hit ray b = true /\ (forall ks, In ks m' -> hit ray ks = true -> ks = b) /\
      (forall ks, In ks m -> hit ray ks = true -> sectorBadness (snd b) <= sectorBadness (snd ks))
  end.
Proof.
  intros ND E. pose proof (query_cases m ray) as C. rewrite E in C. destruct a as [b|].
  - destruct C as (Ib & Hb & MB & EM). specialize (EM ND).
    assert (S : sub m' m) by (rewrite EM; apply filter_sub).
    split; [exact S|split; [eapply sub_nodup; [apply sub_map, S|exact ND]|split]].
    + intros ks I H. rewrite EM. apply filter_In. split; [exact I|]. rewrite H. reflexivity.
    + split; [|split; [exact Hb|split; [|exact MB]]].
      * rewrite EM. apply filter_In. split; [exact Ib|]. rewrite Z.eqb_refl. apply orb_true_r.
      * intros ks I H. rewrite EM in I. apply filter_In in I. destruct I as [I K].
        rewrite H in K. cbn in K. apply Z.eqb_eq in K. eapply key_unique; eauto.
  - destruct C as [-> C]. split; [apply sub_refl|split; [exact ND|split; auto]].
Qed.

Lemma query_repeat m ray a m' : NoDup (map fst m) -> enclosingSector solve m ray = (a, m') ->
  enclosingSector solve m' ray = (a, m').
Proof.
  intros ND E. destruct (query_spec _ _ _ _ ND E) as (S & ND' & K & C).
  destruct (enclosingSector solve m' ray) as [a2 m2] eqn:E2.
  pose proof (query_cases m' ray) as C2. rewrite E2 in C2.
  destruct a as [b|].
  - destruct C as (Ib & Hb & U & _). destruct a2 as [b2|].
    + destruct C2 as (I2 & H2 & _ & EM). specialize (EM ND'). assert (b2 = b) by (apply U; auto). subst b2.
      f_equal. rewrite EM. clear - U ND'.
      assert (G : forall ks, In ks m' -> negb (hit ray ks) || (fst ks =? fst b)%Z = true).
      { intros ks I. destruct (hit ray ks) eqn:H; [|reflexivity]. rewrite (U ks I H). cbn. apply Z.eqb_refl. }
      clear U ND'. induction m' as [|k m IH]; [reflexivity|]. cbn. rewrite G by now left.
      f_equal. apply IH. intros ks I. apply G. now right.
    + destruct C2 as [_ C2]. rewrite (C2 b Ib) in Hb. discriminate.
  - destruct C as [-> C]. rewrite E in E2. injection E2 as <- <-. reflexivity.
Qed.

Lemma queries_spec : forall rays m l m', NoDup (map fst m) -> queries solve m rays = (l, m') ->
  sub m' m /\ NoDup (map fst m') /\ length l = length rays /\
  (forall i ray b, nth_error rays i = Some ray -> nth_error l i = Some (Some b) -> In b m /\ hit ray b = true) /\
  (forall ks, In ks m -> (forall ray, In ray rays -> hit ray ks = false) -> In ks m').
Proof.
  induction rays as [|r rays IH]; intros m l m' ND H.
  - cbn in H. injection H as <- <-. split; [apply sub_refl|split; [exact ND|split; [reflexivity|split]]].
    + intros i ray b N. destruct i; discriminate.
    + auto.
  - cbn in H. destruct (enclosingSector solve m r) as [a m1] eqn:E.
    destruct (queries solve m1 rays) as [l1 m2] eqn:E2. injection H as <- <-.
    destruct (query_spec _ _ _ _ ND E) as (S & ND1 & K & C).
    destruct (IH _ _ _ ND1 E2) as (S2 & ND2 & L & A & B).
    split; [eapply sub_trans; eauto|split; [exact ND2|split; [cbn; lia|split]]].
    + intros [|i] ray b N1 N2; cbn in N1, N2.
      * injection N1 as <-. injection N2 as ->. destruct C as (Ib & Hb & _). split; [eapply sub_in; eauto|exact Hb].
      * destruct (A _ _ _ N1 N2) as [A1 A2]. split; [eapply sub_in; eauto|exact A2].
    + intros ks I N. apply B; [apply K; [exact I|apply N; now left]|]. intros ray R. apply N. now right.
Qed.

(** a ray all of whose sectors are out of reach of the other queries keeps its answer *)
Lemma none_stays : forall rays m l m' ray, NoDup (map fst m) -> queries solve m rays = (l, m') ->
  fst (enclosingSector solve m ray) = None -> fst (enclosingSector solve m' ray) = None.
Proof.
  intros rays m l m' ray ND H N. destruct (queries_spec _ _ _ _ ND H) as (S & ND' & _).
  destruct (enclosingSector solve m ray) as [a m1] eqn:E. cbn in N. subst a.
  destruct (query_spec _ _ _ _ ND E) as (_ & _ & _ & _ & C).
  destruct (enclosingSector solve m' ray) as [[b|] m2] eqn:E2; [|reflexivity].
  destruct (query_spec _ _ _ _ ND' E2) as (S2 & _ & _ & Ib & Hb & _).
  rewrite C in Hb; [discriminate|]. eapply sub_in; [exact S|]. eapply sub_in; eauto.
Qed.
End Queries.

(* ---------- terrain ---------- *)

Lemma dot_comb n a b c u v w : dot n (vadd (vadd (vscale u a) (vscale v b)) (vscale w c)) = u * dot n a + v * dot n b + w * dot n c.
Proof. unfold dot, vadd, vscale; cbn. ring. Qed.

Lemma normal_zero n a b c : det3 a b c <> 0 -> dot n a = 0 -> dot n b = 0 -> dot n c = 0 -> n = vzero.
Proof.
  intros D A B C. destruct n as [n1 n2 n3], a as [a1 a2 a3], b as [b1 b2 b3], c as [c1 c2 c3].
  unfold det3, dot, cross in *; cbn in *.
  set (det := a1 * (b2 * c3 - b3 * c2) + a2 * (b3 * c1 - b1 * c3) + a3 * (b1 * c2 - b2 * c1)) in *.
  assert (G0 : n1 * det = 0).
  { replace (n1 * det) with ((n1 * a1 + n2 * a2 + n3 * a3) * (b2 * c3 - b3 * c2)
      + (n1 * b1 + n2 * b2 + n3 * b3) * (c2 * a3 - c3 * a2) + (n1 * c1 + n2 * c2 + n3 * c3) * (a2 * b3 - a3 * b2))
      by (unfold det; ring). rewrite A, B, C. ring. }
  assert (G1 : n2 * det = 0).
  { replace (n2 * det) with ((n1 * a1 + n2 * a2 + n3 * a3) * (b3 * c1 - b1 * c3)
      + (n1 * b1 + n2 * b2 + n3 * b3) * (c3 * a1 - c1 * a3) + (n1 * c1 + n2 * c2 + n3 * c3) * (a3 * b1 - a1 * b3))
      by (unfold det; ring). rewrite A, B, C. ring. }
  assert (G2 : n3 * det = 0).
  { replace (n3 * det) with ((n1 * a1 + n2 * a2 + n3 * a3) * (b1 * c2 - b2 * c1)
      + (n1 * b1 + n2 * b2 + n3 * b3) * (c1 * a2 - c2 * a1) + (n1 * c1 + n2 * c2 + n3 * c3) * (a1 * b2 - a2 * b1))
      by (unfold det; ring). rewrite A, B, C. ring. }
  apply Rmult_integral in G0, G1, G2. unfold vzero. f_equal; lra.
Qed.

Lemma plane_depth_value last s x y z : orthogonal_column last -> proper s -> 0 < x + y + z ->
  let r := vadd (vadd (vscale x (s0 s)) (vscale y (s1 s))) (vscale z (s2 s)) in
  plane_depth last s r = vnorm r / (x + y + z) /\
  dot (pn (last (s0 s) (s1 s) (s2 s))) r <> 0.
Proof.
  intros OC P PS r. unfold plane_depth. destruct (OC (s0 s) (s1 s) (s2 s) P) as (NZ & A & B & C).
  set (pl := last (s0 s) (s1 s) (s2 s)) in *.
  assert (D : pd pl <> 0).
  { intros D. rewrite D in *. destruct NZ as [NZ|NZ]; [|lra]. apply NZ.
    apply (normal_zero _ (s0 s) (s1 s) (s2 s)); [exact P|lra|lra|lra]. }
  assert (E : dot (pn pl) r = - pd pl * (x + y + z)).
  { unfold r. rewrite dot_comb. replace (dot (pn pl) (s0 s)) with (- pd pl) by lra.
    replace (dot (pn pl) (s1 s)) with (- pd pl) by lra. replace (dot (pn pl) (s2 s)) with (- pd pl) by lra. ring. }
  rewrite E. split; [field; split; lra|]. apply Rmult_integral_contrapositive_currified; lra.
Qed.

Lemma vnorm_scale k v : 0 <= k -> vnorm (vscale k v) = k * vnorm v.
Proof.
  intros K. unfold vnorm. replace (dot (vscale k v) (vscale k v)) with ((k * k) * dot v v) by (unfold dot, vscale; cbn; ring).
  rewrite sqrt_mult; [|nra|unfold dot; nra]. rewrite sqrt_square by exact K. reflexivity.
Qed.

Lemma dot_pos v : v <> vzero -> 0 < dot v v.
Proof.
  intros N. destruct (Rtotal_order 0 (dot v v)) as [H|[H|H]]; [exact H| |unfold dot in H; nra].
  exfalso. apply N. destruct v as [a b c]. unfold dot in H; cbn in H. unfold vzero.
  assert (a = 0) by nra. assert (b = 0) by nra. assert (c = 0) by nra. subst. reflexivity.
Qed.

Lemma vnorm_pos v : v <> vzero -> 0 < vnorm v.
Proof. intros N. apply sqrt_lt_R0, dot_pos, N. Qed.

Lemma cone_sum r s : r <> vzero -> forall x y z, 0 <= x -> 0 <= y -> 0 <= z ->
  r = vadd (vadd (vscale x (s0 s)) (vscale y (s1 s))) (vscale z (s2 s)) -> 0 < x + y + z.
Proof.
  intros N x y z X Y Z E. destruct (Rtotal_order 0 (x + y + z)) as [H|[H|H]]; [exact H| |lra].
  exfalso. apply N. assert (x = 0) by lra. assert (y = 0) by lra. assert (z = 0) by lra. subst.
  apply vec_eq; cbn; ring.
Qed.

(** The depth is that of the point where the ray meets the triangle. *)
Lemma terrain_point last s r : orthogonal_column last -> proper s -> r <> vzero -> in_cone r s ->
  exists t, 0 < t /\ in_triangle3 (vscale t r) (s0 s) (s1 s) (s2 s) /\
    plane_depth last s r = vnorm (vscale t r) /\
    (forall t', in_triangle3 (vscale t' r) (s0 s) (s1 s) (s2 s) -> t' = t).
Proof.
  intros OC P N (x & y & z & X & Y & Z & E).
  pose proof (cone_sum r s N x y z X Y Z E) as PS.
  destruct (plane_depth_value last s x y z OC P PS) as [V _]. rewrite <- E in V.
  exists (/ (x + y + z)). assert (I : 0 < / (x + y + z)) by now apply Rinv_0_lt_compat.
  split; [exact I|split; [|split]].
  - exists (x / (x + y + z)), (y / (x + y + z)), (z / (x + y + z)).
    assert (forall k, 0 <= k -> 0 <= k / (x + y + z)) by (intros k K; unfold Rdiv; apply Rmult_le_pos; lra).
    split; [auto|split; [auto|split; [auto|split]]].
    + field. lra.
    + rewrite E. apply vec_eq; cbn; field; lra.
  - rewrite V, vnorm_scale by lra. field. lra.
  - intros t' (u & v & w & U & V' & W & S & F).
    assert (G : vadd (vadd (vscale (t' * x) (s0 s)) (vscale (t' * y) (s1 s))) (vscale (t' * z) (s2 s)) =
                vadd (vadd (vscale u (s0 s)) (vscale v (s1 s))) (vscale w (s2 s))).
    { rewrite <- F, E. apply vec_eq; cbn; ring. }
    apply coords_unique in G; [|exact P]. destruct G as (G1 & G2 & G3).
    apply Rmult_eq_reg_r with (x + y + z); [|lra]. rewrite Rinv_l by lra. lra.
Qed.

Lemma terrain_corner last s k : orthogonal_column last -> proper s -> 0 < k ->
  plane_depth last s (vscale k (s0 s)) = vnorm (s0 s) /\
  plane_depth last s (vscale k (s1 s)) = vnorm (s1 s) /\
  plane_depth last s (vscale k (s2 s)) = vnorm (s2 s).
Proof.
  intros OC P K.
  assert (G : forall x y z i, 0 < x + y + z -> x + y + z = k ->
     vscale k i = vadd (vadd (vscale x (s0 s)) (vscale y (s1 s))) (vscale z (s2 s)) ->
     plane_depth last s (vscale k i) = vnorm i).
  { intros x y z i PS SK E. destruct (plane_depth_value last s x y z OC P PS) as [V _]. rewrite <- E in V. rewrite V, SK.
    rewrite vnorm_scale by lra. field. lra. }
  split; [|split].
  - apply (G k 0 0); try lra. apply vec_eq; cbn; ring.
  - apply (G 0 k 0); try lra. apply vec_eq; cbn; ring.
  - apply (G 0 0 k); try lra. apply vec_eq; cbn; ring.
Qed.

Lemma det_perm a b c : det3 b c a = det3 a b c /\ det3 b a c = - det3 a b c.
Proof. unfold det3, dot, cross; cbn. split; ring. Qed.

Lemma terrain_order last last' s s' r :
  orthogonal_column last -> orthogonal_column last' -> proper s -> r <> vzero -> in_cone r s ->
  (s' = Sec (s1 s) (s2 s) (s0 s) \/ s' = Sec (s1 s) (s0 s) (s2 s) \/ s' = s) ->
  plane_depth last' s' r = plane_depth last s r.
Proof.
  intros OC OC' P N (x & y & z & X & Y & Z & E) SS.
  pose proof (cone_sum r s N x y z X Y Z E) as PS.
  destruct (plane_depth_value last s x y z OC P PS) as [V _]. rewrite <- E in V. rewrite V.
  destruct (det_perm (s0 s) (s1 s) (s2 s)) as [D1 D2].
  destruct SS as [->|[->| ->]].
  - assert (P' : proper (Sec (s1 s) (s2 s) (s0 s))) by (unfold proper in *; cbn; lra).
    destruct (plane_depth_value last' _ y z x OC' P') as [V' _]; [lra|]. cbn [s0 s1 s2] in V'.
    replace (vadd (vadd (vscale y (s1 s)) (vscale z (s2 s))) (vscale x (s0 s))) with r in V'.
    + rewrite V'. f_equal. ring.
    + rewrite E. apply vec_eq; cbn; ring.
  - assert (P' : proper (Sec (s1 s) (s0 s) (s2 s))) by (unfold proper in *; cbn; lra).
    destruct (plane_depth_value last' _ y x z OC' P') as [V' _]; [lra|]. cbn [s0 s1 s2] in V'.
    replace (vadd (vadd (vscale y (s1 s)) (vscale x (s0 s))) (vscale z (s2 s))) with r in V'.
    + rewrite V'. f_equal. ring.
    + rewrite E. apply vec_eq; cbn; ring.
  - destruct (plane_depth_value last' _ x y z OC' P) as [V' _]; [lra|]. rewrite <- E in V'. exact V'.
Qed.

(** the whole query *)
Lemma spherical_query solve last m r : cone_solver solve -> orthogonal_column last ->
  NoDup (map fst m) -> (forall ks, In ks m -> proper (snd ks)) -> r <> vzero ->
  match fst (spherical_terrain solve last m r) with
  | None => forall ks, In ks m -> ~ in_cone r (snd ks)
  | Some d => exists ks t, In ks m /\ in_cone r (snd ks) /\ 0 < t /\
      in_triangle3 (vscale t r) (s0 (snd ks)) (s1 (snd ks)) (s2 (snd ks)) /\ d = vnorm (vscale t r) /\ 0 < d
  end.
Proof.
  intros CS OC ND PR N. unfold spherical_terrain.
  destruct (enclosingSector solve m r) as [a m'] eqn:E. cbn [fst].
  destruct (query_spec solve _ _ _ _ ND E) as (S & _ & _ & C). destruct a as [b|].
  - destruct C as (Ib & Hb & _). assert (IM : In b m) by (eapply sub_in; eauto).
    apply in_sector_iff in Hb; auto.
    destruct (terrain_point last (snd b) r OC (PR b IM) N Hb) as (t & T & I3 & V & _).
    exists b, t. repeat split; auto. rewrite V, vnorm_scale by lra. apply Rmult_lt_0_compat; [exact T|now apply vnorm_pos].
  - destruct C as [_ C]. intros ks I HC. apply in_sector_iff with (solve := solve) in HC; auto.
    rewrite (C ks I) in HC. discriminate.
Qed.

(* ---------- planar terrain ---------- *)

Lemma terrain_affine solve refs a b c p da db dc u v w :
  affine_solver solve -> area2 (tv_pos a) (tv_pos b) (tv_pos c) <> 0 ->
  (0 <= tv_index a)%Z -> (0 <= tv_index b)%Z -> (0 <= tv_index c)%Z ->
  nth_error refs (Z.to_nat (tv_index a)) = Some da ->
  nth_error refs (Z.to_nat (tv_index b)) = Some db ->
  nth_error refs (Z.to_nat (tv_index c)) = Some dc ->
  barycentric p (tv_pos a) (tv_pos b) (tv_pos c) u v w ->
  terrain solve refs (Some (a, b, c)) false p = Ok (Some (u * da + v * db + w * dc)).
Proof.
  intros AS AR IA IB IC NA NB NC (S & X & Y). unfold terrain.
  assert (G : forall i d, (0 <= i)%Z -> nth_error refs (Z.to_nat i) = Some d ->
    (if (i <? 0)%Z then UB else match nth_error refs (Z.to_nat i) with Some d => Ok d | None => UB end) = Ok d).
  { intros i d I E. rewrite E. destruct (i <? 0)%Z eqn:L; [apply Z.ltb_lt in L; lia|reflexivity]. }
  cbv zeta. rewrite (G _ _ IA NA). cbn [bind]. rewrite (G _ _ IB NB). cbn [bind]. rewrite (G _ _ IC NC). cbn [bind].
  specialize (AS (tv_pos a) (tv_pos b) (tv_pos c) da db dc AR).
  destruct (solve (tv_pos a) (tv_pos b) (tv_pos c) (da, db, dc)) as [[k0 k1] k2].
  destruct AS as (A & B & C). f_equal. f_equal. rewrite X, Y, <- A, <- B, <- C.
  replace k2 with (k2 * (u + v + w)) at 1 by (rewrite S; ring). ring.
Qed.

Lemma ref_depth_abs unit d : vnorm unit = 1 -> ref_depth unit d = Rabs d.
Proof.
  intros U. unfold ref_depth, vnorm in *.
  replace (dot (vscale d unit) (vscale d unit)) with ((d * d) * dot unit unit) by (unfold dot, vscale; cbn; ring).
  assert (DU : 0 <= dot unit unit) by (unfold dot; nra).
  assert (dot unit unit = 1) by (rewrite <- (sqrt_sqrt _ DU), U; ring).
  rewrite H, Rmult_1_r. change (d * d) with (Rsqr d). apply sqrt_Rsqr_abs.
Qed.
