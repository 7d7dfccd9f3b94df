(** Statements of the properties of sectors and terrain, from the lemmas and examples. *)
From Coq Require Import Reals ZArith List Bool Lia Lra Psatz.
From Verif Require Import Outcome Pose GeomModel SphereModel SectorModel SectorSpec SectorProofs SectorExamples.
Import ListNotations.
Open Scope R_scope.

(** Cauchy-Schwarz *)
Lemma cs a b : Rabs (dot a b) <= vnorm a * vnorm b.
Proof.
  unfold vnorm. rewrite <- sqrt_mult by (unfold dot; nra). rewrite <- sqrt_Rsqr_abs. apply sqrt_le_1_alt.
  destruct a as [a1 a2 a3], b as [b1 b2 b3]. unfold Rsqr, dot; cbn.
  pose proof (Rle_0_sqr (a1 * b2 - a2 * b1)). pose proof (Rle_0_sqr (a1 * b3 - a3 * b1)).
  pose proof (Rle_0_sqr (a2 * b3 - a3 * b2)). unfold Rsqr in *. nra.
Qed.

Lemma angle_spec a b : a <> vzero -> b <> vzero -> angle a b = angle_between a b.
Proof.
  intros A B. pose proof (dot_pos a A) as DA. pose proof (dot_pos b B) as DB.
  pose proof (vnorm_pos a A) as NA. pose proof (vnorm_pos b B) as NB. pose proof (cs a b) as C.
  unfold angle, angle_between, normalized.
  destruct (Rlt_dec 0 (dot a a)); [|lra]. destruct (Rlt_dec 0 (dot b b)); [|lra].
  assert (E : dot (vscale (/ vnorm a) a) (vscale (/ vnorm b) b) = dot a b / (vnorm a * vnorm b)).
  { transitivity (/ vnorm a * / vnorm b * dot a b); [unfold dot, vscale; cbn; ring|field; lra]. }
  rewrite E. assert (P : 0 < vnorm a * vnorm b) by nra.
  assert (Bd : -1 <= dot a b / (vnorm a * vnorm b) <= 1).
  { unfold Rabs in C. destruct (Rcase_abs (dot a b)); split.
    - apply Rmult_le_reg_r with (vnorm a * vnorm b); [exact P|]. unfold Rdiv.
      rewrite Rmult_assoc, Rinv_l by lra. lra.
    - apply Rmult_le_reg_r with (vnorm a * vnorm b); [exact P|]. unfold Rdiv.
      rewrite Rmult_assoc, Rinv_l by lra. lra.
    - apply Rmult_le_reg_r with (vnorm a * vnorm b); [exact P|]. unfold Rdiv.
      rewrite Rmult_assoc, Rinv_l by lra. lra.
    - apply Rmult_le_reg_r with (vnorm a * vnorm b); [exact P|]. unfold Rdiv.
      rewrite Rmult_assoc, Rinv_l by lra. lra. }
  destruct (Rlt_dec _ (-1)); [lra|]. destruct (Rlt_dec 1 _); [lra|]. reflexivity.
Qed.

Lemma angle_between_sym a b : angle_between a b = angle_between b a.
Proof. unfold angle_between. f_equal. unfold dot. f_equal; ring. Qed.

Lemma proper_rays s : proper s -> s0 s <> vzero /\ s1 s <> vzero /\ s2 s <> vzero.
Proof.
  unfold proper, det3, dot, cross, vzero. intros D.
  repeat split; intros E; rewrite E in D; cbn in D; apply D; ring.
Qed.

Lemma badness_spec s : proper s -> sectorBadness s = widest_angle s.
Proof.
  intros P. destruct (proper_rays s P) as (A & B & C). unfold sectorBadness, widest_angle.
  rewrite !angle_spec by assumption. rewrite (angle_between_sym (s2 s) (s0 s)). symmetry; apply Rmax_assoc.
Qed.

Lemma found_iff : forall solve m ray, cone_solver solve -> NoDup (map fst m) ->
  (forall ks, In ks m -> proper (snd ks)) ->
  (fst (enclosingSector solve m ray) = None <-> forall ks, In ks m -> ~ in_cone ray (snd ks)).
Proof.
  intros solve m ray CS ND PR. destruct (enclosingSector solve m ray) as [a m'] eqn:E.
  destruct (query_spec solve _ _ _ _ ND E) as (S & _ & _ & C). cbn [fst]. split.
  - intros ->. destruct C as [_ C]. intros ks I H. apply in_sector_iff with (solve := solve) in H; auto.
    rewrite (C ks I) in H. discriminate.
  - intros H. destruct a as [b|]; [|reflexivity]. destruct C as (Ib & Hb & _).
    assert (IM : In b m) by (eapply sub_in; eauto). apply in_sector_iff in Hb; auto. elim (H b IM Hb).
Qed.

Lemma sector_spec : forall solve m ray b m', cone_solver solve -> NoDup (map fst m) ->
  (forall ks, In ks m -> proper (snd ks)) -> enclosingSector solve m ray = (Some b, m') ->
  In b m /\ In b m' /\ in_cone ray (snd b) /\ sub m' m /\
  (forall ks, In ks m' -> in_cone ray (snd ks) -> ks = b) /\
  (forall ks, In ks m -> ~ in_cone ray (snd ks) -> In ks m') /\
  (forall ks, In ks m -> in_cone ray (snd ks) -> widest_angle (snd b) <= widest_angle (snd ks)).
Proof.
  intros solve m ray b m' CS ND PR E.
  destruct (query_spec solve _ _ _ _ ND E) as (S & _ & K & Ib & Hb & U & MB).
  assert (IM : In b m) by (eapply sub_in; eauto).
  split; [exact IM|split; [exact Ib|split; [apply in_sector_iff in Hb; auto|split; [exact S|split; [|split]]]]].
  - intros ks I H. apply U; [exact I|]. apply in_sector_iff; auto. apply PR. eapply sub_in; eauto.
  - intros ks I H. apply K; [exact I|]. destruct (isInSector solve ray (snd ks)) eqn:X; [|reflexivity].
    apply in_sector_iff in X; auto. elim (H X).
  - intros ks I H. rewrite <- !badness_spec by auto. apply MB; [exact I|]. apply in_sector_iff; auto.
Qed.

Lemma none_same : forall solve m ray m', enclosingSector solve m ray = (None, m') -> m' = m.
Proof. intros solve m ray m' E. pose proof (query_cases solve m ray) as C. rewrite E in C. apply C. Qed.

Lemma history : forall solve rays m l m', cone_solver solve -> NoDup (map fst m) ->
  (forall ks, In ks m -> proper (snd ks)) -> queries solve m rays = (l, m') ->
  sub m' m /\ length l = length rays /\
  (forall i ray b, nth_error rays i = Some ray -> nth_error l i = Some (Some b) -> In b m /\ in_cone ray (snd b)) /\
  (forall ks, In ks m -> (forall ray, In ray rays -> ~ in_cone ray (snd ks)) -> In ks m') /\
  (forall ray, fst (enclosingSector solve m ray) = None -> fst (enclosingSector solve m' ray) = None).
Proof.
  intros solve rays m l m' CS ND PR H. destruct (queries_spec solve _ _ _ _ ND H) as (S & ND' & L & A & B).
  split; [exact S|split; [exact L|split; [|split]]].
  - intros i ray b N1 N2. destruct (A _ _ _ N1 N2) as [I X]. split; [exact I|]. apply in_sector_iff in X; auto.
  - intros ks I N. apply B; [exact I|]. intros ray R. destruct (isInSector solve ray (snd ks)) eqn:X; [|reflexivity].
    apply in_sector_iff in X; auto. elim (N ray R X).
  - intros ray. eapply none_stays; eauto.
Qed.

Lemma two_proper : forall ks, In ks [(1%Z, axes); (2%Z, inner)] -> proper (snd ks).
Proof. intros ks [<-|[<-|[]]]; [apply axes_proper|apply inner_proper]. Qed.

Lemma two_nodup : NoDup (map fst [(1%Z, axes); (2%Z, inner)]).
Proof. cbn. constructor; [cbn; intros [X|[]]; discriminate|constructor; [intros []|constructor]]. Qed.

Lemma forgets_witness : exists m r1 r2 s1 s2,
  NoDup (map fst m) /\ (forall ks, In ks m -> proper (snd ks)) /\
  forall solve, cone_solver solve ->
    fst (queries solve m [r1; r2; r1]) = [Some s1; Some s2; None] /\ in_cone r1 (snd s1) /\ In s1 m.
Proof.
  exists [(1%Z, axes); (2%Z, inner)], (V3 1 0 0), (V3 1 1 1), (1%Z, axes), (2%Z, inner).
  split; [exact two_nodup|split; [exact two_proper|]]. intros solve CS. rewrite (forgets solve CS).
  split; [reflexivity|split; [apply in_axes; lra|now left]].
Qed.

Lemma sector_witness :
  cone_solver cramer /\ NoDup (map fst [(1%Z, axes); (2%Z, inner)]) /\
  (forall ks, In ks [(1%Z, axes); (2%Z, inner)] -> proper (snd ks)) /\
  enclosingSector cramer [(1%Z, axes); (2%Z, inner)] (V3 1 1 1) = (Some (2%Z, inner), [(2%Z, inner)]).
Proof.
  split; [exact cramer_ok|split; [exact two_nodup|split; [exact two_proper|]]].
  pose proof (forgets cramer cramer_ok) as F. cbn [queries] in F.
  destruct (enclosingSector cramer [(1%Z, axes); (2%Z, inner)] (V3 1 0 0)) as [a m1] eqn:E1.
  destruct (enclosingSector cramer m1 (V3 1 1 1)) as [b m2] eqn:E2.
  destruct (enclosingSector cramer m2 (V3 1 0 0)) as [c m3] eqn:E3.
  injection F as -> -> -> ->. apply none_same in E3. subst m2.
  assert (m1 = [(1%Z, axes); (2%Z, inner)]); [|subst; exact E2].
  pose proof (query_cases cramer [(1%Z, axes); (2%Z, inner)] (V3 1 0 0)) as C. rewrite E1 in C.
  destruct C as (_ & _ & _ & EM). rewrite (EM two_nodup). cbn [filter fst snd].
  rewrite Z.eqb_refl, orb_true_r. replace (isInSector cramer (V3 1 0 0) inner) with false; [reflexivity|].
  symmetry. destruct (isInSector cramer (V3 1 0 0) inner) eqn:X; [|reflexivity].
  apply in_sector_iff in X; [|exact cramer_ok|apply inner_proper]. destruct X as (p & q & r & A & B & C & E).
  pose proof (f_equal vx E) as F1. pose proof (f_equal vy E) as F2. pose proof (f_equal vz E) as F3.
  cbn in F1, F2, F3. lra.
Qed.

Lemma terrain_length : forall last s r k, orthogonal_column last -> proper s -> r <> vzero -> in_cone r s ->
  0 < k -> plane_depth last s (vscale k r) = plane_depth last s r.
Proof.
  intros last s r k OC P N (x & y & z & X & Y & Z & E) K.
  pose proof (cone_sum r s N x y z X Y Z E) as PS.
  destruct (plane_depth_value last s x y z OC P PS) as [V _]. rewrite <- E in V. rewrite V.
  destruct (plane_depth_value last s (k * x) (k * y) (k * z) OC P) as [V' _]; [nra|].
  replace (vadd (vadd (vscale (k * x) (s0 s)) (vscale (k * y) (s1 s))) (vscale (k * z) (s2 s))) with (vscale k r) in V'.
  - rewrite V', vnorm_scale by lra. field. split; nra.
  - rewrite E. apply vec_eq; cbn; ring.
Qed.

Lemma norm_triangle a b : vnorm (vadd a b) <= vnorm a + vnorm b.
Proof.
  pose proof (cs a b) as C. pose proof (Rle_abs (dot a b)) as AB.
  assert (PA : 0 <= vnorm a) by apply sqrt_pos. assert (PB : 0 <= vnorm b) by apply sqrt_pos.
  unfold vnorm at 1. rewrite <- (sqrt_square (vnorm a + vnorm b)) by lra. apply sqrt_le_1_alt.
  assert (A2 : vnorm a * vnorm a = dot a a) by (apply sqrt_sqrt; unfold dot; nra).
  assert (B2 : vnorm b * vnorm b = dot b b) by (apply sqrt_sqrt; unfold dot; nra).
  replace (dot (vadd a b) (vadd a b)) with (dot a a + 2 * dot a b + dot b b) by (unfold dot, vadd; cbn; ring).
  nra.
Qed.

Lemma terrain_bounded : forall last s r, orthogonal_column last -> proper s -> r <> vzero -> in_cone r s ->
  0 < plane_depth last s r <= Rmax (Rmax (vnorm (s0 s)) (vnorm (s1 s))) (vnorm (s2 s)).
Proof.
  intros last s r OC P N C. destruct (terrain_point last s r OC P N C) as (t & T & I & V & _). rewrite V. split.
  - rewrite vnorm_scale by lra. apply Rmult_lt_0_compat; [exact T|now apply vnorm_pos].
  - destruct I as (u & v & w & U & V' & W & S & ->).
    eapply Rle_trans; [apply norm_triangle|]. eapply Rle_trans; [apply Rplus_le_compat_r, norm_triangle|].
    rewrite !vnorm_scale by assumption.
    set (M := Rmax (Rmax (vnorm (s0 s)) (vnorm (s1 s))) (vnorm (s2 s))).
    assert (M0 : vnorm (s0 s) <= M) by (eapply Rle_trans; [apply Rmax_l|apply Rmax_l]).
    assert (M1 : vnorm (s1 s) <= M) by (eapply Rle_trans; [apply Rmax_r|apply Rmax_l]).
    assert (M2 : vnorm (s2 s) <= M) by apply Rmax_r.
    replace M with (u * M + v * M + w * M) by (transitivity ((u + v + w) * M); [ring|rewrite S; ring]). nra.
Qed.

Lemma axes_depth last : orthogonal_column last -> plane_depth last axes (V3 1 1 1) = sqrt 3 / 3.
Proof.
  intros OC. destruct (plane_depth_value last axes 1 1 1 OC axes_proper) as [V _]; [lra|]. cbn [s0 s1 s2 axes] in V.
  replace (vadd (vadd (vscale 1 (V3 1 0 0)) (vscale 1 (V3 0 1 0))) (vscale 1 (V3 0 0 1))) with (V3 1 1 1) in V
    by (apply vec_eq; cbn; ring).
  rewrite V. unfold vnorm. replace (dot (V3 1 1 1) (V3 1 1 1)) with 3 by (unfold dot; cbn; ring). field.
Qed.

Lemma unit_norm v : dot v v = 1 -> vnorm v = 1.
Proof. intros E. unfold vnorm. rewrite E. apply sqrt_1. Qed.

Lemma nearer_witness : exists s r, proper s /\ in_cone r s /\
  forall last, orthogonal_column last ->
    plane_depth last s r < Rmin (Rmin (vnorm (s0 s)) (vnorm (s1 s))) (vnorm (s2 s)).
Proof.
  exists axes, (V3 1 1 1). split; [exact axes_proper|split; [apply in_axes; lra|]].
  intros last OC. rewrite (axes_depth last OC). cbn [s0 s1 s2 axes].
  replace (vnorm (V3 1 0 0)) with 1 by (symmetry; apply unit_norm; unfold dot; cbn; ring).
  replace (vnorm (V3 0 1 0)) with 1 by (symmetry; apply unit_norm; unfold dot; cbn; ring).
  replace (vnorm (V3 0 0 1)) with 1 by (symmetry; apply unit_norm; unfold dot; cbn; ring).
  assert (E1 : Rmin 1 1 = 1) by (apply Rmin_left; lra). rewrite !E1.
  assert (sqrt 3 < 3); [|lra]. rewrite <- (sqrt_square 3) at 2 by lra. apply sqrt_lt_1_alt. lra.
Qed.

Lemma ref_nth : forall units depths i d, Forall (fun n => vnorm n = 1) units -> length units = length depths ->
  nth_error depths i = Some d -> nth_error (ref_depths units depths) i = Some (Rabs d).
Proof.
  induction units as [|x units IH]; intros [|y depths] i d F L N; try discriminate.
  - destruct i; discriminate.
  - inversion F; subst. destruct i as [|i]; cbn in *.
    + injection N as ->. f_equal. now apply ref_depth_abs.
    + apply IH; auto.
Qed.

Lemma planar_spec : forall solve units depths a b c p u v w da db dc,
  affine_solver solve -> area2 (tv_pos a) (tv_pos b) (tv_pos c) <> 0 ->
  Forall (fun n => vnorm n = 1) units -> length units = length depths ->
  known depths (tv_index a) da -> known depths (tv_index b) db -> known depths (tv_index c) dc ->
  barycentric p (tv_pos a) (tv_pos b) (tv_pos c) u v w ->
  terrain solve (ref_depths units depths) (Some (a, b, c)) false p =
    Ok (Some (u * Rabs da + v * Rabs db + w * Rabs dc)).
Proof.
  intros solve units depths a b c p u v w da db dc AS AR F L [IA NA] [IB NB] [IC NC] B.
  apply terrain_affine; auto using ref_nth.
Qed.

Lemma planar_range : forall solve units depths a b c p u v w da db dc d,
  affine_solver solve -> area2 (tv_pos a) (tv_pos b) (tv_pos c) <> 0 ->
  Forall (fun n => vnorm n = 1) units -> length units = length depths ->
  known depths (tv_index a) da -> known depths (tv_index b) db -> known depths (tv_index c) dc ->
  barycentric p (tv_pos a) (tv_pos b) (tv_pos c) u v w -> 0 <= u -> 0 <= v -> 0 <= w ->
  terrain solve (ref_depths units depths) (Some (a, b, c)) false p = Ok (Some d) ->
  Rmin (Rmin (Rabs da) (Rabs db)) (Rabs dc) <= d <= Rmax (Rmax (Rabs da) (Rabs db)) (Rabs dc).
Proof.
  intros solve units depths a b c p u v w da db dc d AS AR F L KA KB KC B U V W E.
  rewrite (planar_spec solve units depths a b c p u v w da db dc) in E by assumption.
  injection E as <-. destruct B as (S & _ & _).
  set (x := Rabs da). set (y := Rabs db). set (z := Rabs dc).
  set (m := Rmin (Rmin x y) z). set (M := Rmax (Rmax x y) z).
  assert (m <= x) by (eapply Rle_trans; [apply Rmin_l|apply Rmin_l]).
  assert (m <= y) by (eapply Rle_trans; [apply Rmin_l|apply Rmin_r]).
  assert (m <= z) by apply Rmin_r.
  assert (x <= M) by (eapply Rle_trans; [apply Rmax_l|apply Rmax_l]).
  assert (y <= M) by (eapply Rle_trans; [apply Rmax_r|apply Rmax_l]).
  assert (z <= M) by apply Rmax_r.
  replace m with (u * m + v * m + w * m) by (transitivity ((u + v + w) * m); [ring|rewrite S; ring]).
  replace M with (u * M + v * M + w * M) by (transitivity ((u + v + w) * M); [ring|rewrite S; ring]).
  split; nra.
Qed.

Lemma planar_none : forall solve refs tri boundary p,
  tri = None \/ boundary = true -> terrain solve refs tri boundary p = Ok None.
Proof. intros solve refs [[[a b] c]|] boundary p [H| ->]; try discriminate; reflexivity. Qed.

Lemma has_depth_witness : exists tri boundary,
  hasInterpolatedDepth tri boundary = UB /\
  forall solve refs p, terrain solve refs tri boundary p = Ok None.
Proof. exists None, false. split; reflexivity. Qed.

Lemma terrain_witness :
  orthogonal_column plane_through /\ proper axes /\ V3 1 1 1 <> vzero /\ in_cone (V3 1 1 1) axes /\
  plane_depth plane_through axes (V3 1 1 1) = sqrt 3 / 3.
Proof.
  split; [exact plane_through_ok|split; [exact axes_proper|split; [|split; [apply in_axes; lra|]]]].
  - unfold vzero. intros E. injection E. lra.
  - apply axes_depth, plane_through_ok.
Qed.

Lemma planar_witness :
  affine_solver affine_through /\
  terrain affine_through (ref_depths [V3 1 0 0; V3 0 1 0; V3 0 0 1] [-1; 2; 3])
    (Some (TV (P2 0 0) 0, TV (P2 2 0) 1, TV (P2 0 2) 2)) false (P2 1 1) = Ok (Some (5 / 2)).
Proof.
  split; [exact affine_through_ok|].
  assert (N : forall a b c, a * a + b * b + c * c = 1 -> vnorm (V3 a b c) = 1).
  { intros a b c E. unfold vnorm, dot; cbn. rewrite E. apply sqrt_1. }
  rewrite (planar_spec _ _ _ _ _ _ _ 0 (1/2) (1/2) (-1) 2 3).
  - f_equal. f_equal. rewrite (Rabs_right 2), (Rabs_right 3) by lra. field.
  - exact affine_through_ok.
  - unfold area2; cbn. lra.
  - repeat constructor; apply N; ring.
  - reflexivity.
  - split; [cbn; lia|reflexivity].
  - split; [cbn; lia|reflexivity].
  - split; [cbn; lia|reflexivity].
  - unfold barycentric; cbn. repeat split; lra.
Qed.
