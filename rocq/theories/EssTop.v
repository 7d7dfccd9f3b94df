(** The motion recovered from exact correspondences; the reprojection error. *)
From Coq Require Import Reals Lra Lia Psatz List Bool ZArith.
From Verif Require Import Outcome Pose PoseProofs GeomModel GeomSpec GeomProofs StereoModel EssModel EssSpec EssProofs EssMore.
Import ListNotations.
Open Scope R_scope.

Lemma flip_diag U y : orthonormal U ->
  mapply (mmul (mmul U (diag (-1) (-1) 1)) (mT U)) y = vsub (vscale (2 * dot (mcol2 U) y) (mcol2 U)) y.
Proof.
  intros O. pose proof (ortho_right U O) as R.
  transitivity (vsub (vscale (2 * dot (mcol2 U) y) (mcol2 U)) (mapply (mmul U (mT U)) y)).
  - clear. mring.
  - rewrite R, mapply_I. reflexivity.
Qed.
Lemma flip_rot U V e p : orthonormal U ->
  mapply (mmul (mmul U (Xmat (- e))) (mT V)) p =
  let y := mapply (mmul (mmul U (Xmat e)) (mT V)) p in vsub (vscale (2 * dot (mcol2 U) y) (mcol2 U)) y.
Proof.
  intros O. cbv zeta. rewrite <- flip_diag by exact O. rewrite <- mapply_mmul. f_equal.
  transitivity (mmul (mmul U (mmul (diag (-1) (-1) 1) (mmul (mmul (mT U) U) (Xmat e)))) (mT V)); [|rewrite !mmul_assoc; reflexivity].
  unfold orthonormal in O. rewrite O, mI_l. f_equal. f_equal. unfold Xmat. munfold. f_equal; f_equal; ring.
Qed.

Lemma vadd_cancel a b c : vadd a c = vadd b c -> a = b.
Proof.
  destruct a as [? ? ?], b as [? ? ?], c as [? ? ?]. munfold. intros H. injection H as H1 H2 H3. apply f_equal3; lra.
Qed.

Lemma both_front solve h c : (let (d0, d1) := triangulate solve h (fst c) (snd c) in Rltb 0 d0 && Rltb 0 d1) = true <->
  (let (d0, d1) := triangulate solve h (fst c) (snd c) in 0 < d0 /\ 0 < d1).
Proof. destruct (triangulate solve h (fst c) (snd c)). rewrite andb_true_iff, !Rltb_iff. reflexivity. Qed.

Lemma four_sides svd toQuat solve E g k : is_svd svd E -> converts toQuat -> basic_solver solve ->
  rigid g -> tr g <> vzero -> k <> 0 -> essential_of g E k ->
  exists sols, four_motions svd toQuat E = Ok sols /\ (exists s, In s sols /\ same_motion s (unit_tr g)) /\
    forall h, In h sols ->
      (same_motion h (unit_tr g) /\ forall c, seen_in_front g c ->
         let (d0, d1) := triangulate solve h (fst c) (snd c) in 0 < d0 /\ 0 < d1) \/
      (~ same_motion h (unit_tr g) /\ forall c, seen_in_front g c ->
         let (d0, d1) := triangulate solve h (fst c) (snd c) in ~ (0 < d0 /\ 0 < d1)).
Proof.
  intros S Q BS G T K HE. destruct (four_list svd toQuat E S) as (U & V & OU & DU & OV & DV & (s & a & b & c & HS & A & B & C & HD) & sols & F & _ & L).
  destruct (decompose g E k U V s a b c G T K HE OU DU OV DV HS A B C HD) as (w & e & W & HT & EE & HR & _).
  destruct (four_explain svd toQuat E g k S Q G T K HE) as (sols' & F' & EX & _). assert (sols' = sols) by congruence. subst sols'.
  exists sols. split; [exact F|]. split; [exact EX|]. clear EX F'. intros h Hh. apply L in Hh. destruct Hh as (e' & f & EE' & FF & ->).
  destruct (cand_ortho U V e' OU DU OV DV EE') as [O D]. pose proof (Q _ O D) as [QU QR].
  destruct (unit_col U w OU W) as (f0 & FF0 & HF0 & HN & HN').
  pose proof (col2_unit U OU) as UU.
  assert (AW : 0 < Rabs w) by (apply Rabs_pos_lt, W).
  assert (FW : f0 * w = Rabs w) by (rewrite HF0 at 1; destruct FF0 as [-> | ->]; ring).
  destruct (Req_dec e' e) as [Hee|Hee].
  - subst e'. assert (RR : forall p, rot (toQuat (mmul (mmul U (Xmat e)) (mT V))) p = rot (so3 g) p).
    { intros p. rewrite QR, <- rotm_apply, HR. reflexivity. }
    assert (HM : vscale f (mcol2 U) = vscale (f / w) (tr g)).
    { rewrite HT, vscale_scale. f_equal. field. exact W. }
    destruct (Req_dec f f0) as [Hf|Hf].
    + left. subst f0. split.
      * apply same_motion_intro; unfold unit_tr; cbn [so3 tr]; [exact RR|]. rewrite HT. symmetry. exact HN'.
      * intros [x y] (d1 & d2 & D1 & D2 & HA & NP). cbn [fst snd] in *.
        rewrite (triang_same solve g (SE (toQuat (mmul (mmul U (Xmat e)) (mT V))) (vscale f (mcol2 U))) (f / w) x y d1 d2
                   (proj1 BS) QU RR HM (Rgt_not_eq _ _ D2) HA NP).
        assert (P : 0 < f / w). { replace (f / w) with (/ Rabs w); [apply Rinv_0_lt_compat, AW|]. rewrite <- FW. destruct FF as [-> | ->]; field; exact W. }
        split; apply Rmult_lt_0_compat; assumption.
    + right. assert (FN : f = - f0) by (destruct FF as [-> | ->], FF0 as [-> | ->]; try contradiction; ring). split.
      * intros SM. specialize (SM vzero). unfold act, unit_tr in SM. cbn [so3 tr] in SM. rewrite !rot_zero, !vadd_zero_l, HT, HN' in SM.
        rewrite FN in SM. clear - SM UU FF0. destruct (mcol2 U) as [x y z]. revert SM UU. munfold. intros SM UU. injection SM as S1 S2 S3.
        destruct FF0 as [-> | ->]; nra.
      * intros [x y] (d1 & d2 & D1 & D2 & HA & NP). cbn [fst snd] in *.
        rewrite (triang_same solve g (SE (toQuat (mmul (mmul U (Xmat e)) (mT V))) (vscale f (mcol2 U))) (f / w) x y d1 d2
                   (proj1 BS) QU RR HM (Rgt_not_eq _ _ D2) HA NP).
        assert (P : f / w < 0). { replace (f / w) with (- / Rabs w); [pose proof (Rinv_0_lt_compat _ AW); lra|]. rewrite FN, <- FW. destruct FF0 as [-> | ->]; field; exact W. }
        intros [P1 _]. nra.
  - right. assert (EN : e' = - e) by (destruct EE as [-> | ->], EE' as [-> | ->]; try contradiction; ring). subst e'.
    assert (RR : forall p, rot (toQuat (mmul (mmul U (Xmat (- e))) (mT V))) p =
      vsub (vscale (2 * dot (mcol2 U) (rot (so3 g) p)) (mcol2 U)) (rot (so3 g) p)).
    { intros p. rewrite QR, flip_rot by exact OU. cbv zeta. rewrite <- HR, rotm_apply. reflexivity. }
    split.
    + intros SM. pose proof (SM vzero) as S0. unfold act, unit_tr in SM, S0. cbn [so3 tr] in SM, S0. rewrite !rot_zero, !vadd_zero_l in S0.
      assert (SR : forall p, rot (toQuat (mmul (mmul U (Xmat (- e))) (mT V))) p = rot (so3 g) p).
      { intros p. specialize (SM p). rewrite <- S0 in SM. exact (vadd_cancel _ _ _ SM). }
      assert (AL : forall y, y = vscale (dot (mcol2 U) y) (mcol2 U)).
      { intros y. pose proof (SR (rot (qconj (so3 g)) y)) as H. rewrite RR, (rot_conj_r (so3 g) y G) in H. clear - H.
        set (m := dot (mcol2 U) y) in *. clearbody m. destruct y as [? ? ?], (mcol2 U) as [? ? ?]. revert H. munfold. intros H. injection H as H1 H2 H3. f_equal; lra. }
      pose proof (AL (V3 1 0 0)) as A0. pose proof (AL (V3 0 1 0)) as A1. clear - A0 A1. destruct (mcol2 U) as [x y z]. revert A0 A1. munfold. intros A0 A1.
      injection A0 as H1 H2 H3. injection A1 as H4 H5 H6. nra.
    + intros [x y] (d1 & d2 & D1 & D2 & HA & NP). cbn [fst snd] in *.
      exact (triang_flip solve g (SE (toQuat (mmul (mmul U (Xmat (- e))) (mT V))) (vscale f (mcol2 U))) (mcol2 U) w f x y d1 d2
               BS QU UU HT eq_refl (RR x) D1 D2 HA).
Qed.

(** * extractMotion on exact correspondences *)
Lemma fold_choice (fr : se3 -> nat -> bool) (good : se3 -> Prop) inls : inls <> [] -> forall sols acc,
  (forall s, In s sols -> (good s /\ filter (fr s) inls = inls) \/ filter (fr s) inls = []) ->
  (exists s, In s sols /\ good s /\ filter (fr s) inls = inls) \/ (exists m, good m /\ acc = (m, inls, Z.of_nat (length inls))) ->
  (acc = (sid, [], 0%Z) \/ exists m, good m /\ acc = (m, inls, Z.of_nat (length inls))) ->
  exists m, good m /\ fold_left (fun (acc : se3 * list nat * Z) sol =>
    let '(bestSol, bestInds, bestNum) := acc in
    let cur := find_inliers_motion fr sol inls in
    if (Z.of_nat (length cur) >? bestNum)%Z then (sol, cur, Z.of_nat (length cur)) else acc) sols acc = (m, inls, Z.of_nat (length inls)).
Proof.
  intros NE. assert (LP : (0 < Z.of_nat (length inls))%Z) by (destruct inls; [contradiction|cbn; lia]).
  induction sols as [|s sols IH]; intros acc ALL EX AC.
  - cbn. destruct EX as [(s & [] & _)|(m & GM & ->)]. exists m. auto.
  - cbn [fold_left]. apply IH.
    + intros s' H. apply ALL. right. exact H.
    + destruct (ALL s (or_introl eq_refl)) as [[GS FS]|FS].
      * right. destruct AC as [->|(m & GM & ->)]; unfold find_inliers_motion; rewrite FS.
        -- destruct (Z.gtb_spec (Z.of_nat (length inls)) 0); [|lia]. exists s. auto.
        -- destruct (Z.gtb_spec (Z.of_nat (length inls)) (Z.of_nat (length inls))); [lia|]. exists m. auto.
      * destruct EX as [(s' & [<-|I] & GS & FS')|(m & GM & ->)].
        -- exfalso. apply NE. congruence.
        -- left. exists s'. auto.
        -- right. unfold find_inliers_motion. rewrite FS. cbn [length Z.of_nat]. destruct (Z.gtb_spec 0 (Z.of_nat (length inls))); [lia|]. exists m. auto.
    + destruct (ALL s (or_introl eq_refl)) as [[GS FS]|FS].
      * right. destruct AC as [->|(m & GM & ->)]; unfold find_inliers_motion; rewrite FS.
        -- destruct (Z.gtb_spec (Z.of_nat (length inls)) 0); [|lia]. exists s. auto.
        -- destruct (Z.gtb_spec (Z.of_nat (length inls)) (Z.of_nat (length inls))); [lia|]. exists m. auto.
      * destruct AC as [->|(m & GM & ->)]; unfold find_inliers_motion; rewrite FS; cbn [length Z.of_nat].
        -- left. reflexivity.
        -- right. destruct (Z.gtb_spec 0 (Z.of_nat (length inls))); [lia|]. exists m. auto.
Qed.

Lemma filter_all {A} (f : A -> bool) l : (forall x, In x l -> f x = true) -> filter f l = l.
Proof. induction l as [|x l IH]; intros H; [reflexivity|]. cbn. rewrite (H x (or_introl eq_refl)). f_equal. apply IH. intros y Hy. apply H. right. exact Hy. Qed.
Lemma filter_none {A} (f : A -> bool) l : (forall x, In x l -> f x = false) -> filter f l = [].
Proof. induction l as [|x l IH]; intros H; [reflexivity|]. cbn. rewrite (H x (or_introl eq_refl)). apply IH. intros y Hy. apply H. right. exact Hy. Qed.

Lemma extract_exact svd toQuat solve rays E g k inls : is_svd svd E -> converts toQuat -> basic_solver solve ->
  rigid g -> tr g <> vzero -> k <> 0 -> essential_of g E k -> inls <> [] ->
  (forall i, In i inls -> exists c, nth_error rays i = Some c /\ seen_in_front g c) ->
  exists m, same_motion m (unit_tr g) /\ extractMotion svd toQuat solve rays E inls = Ok (m, inls, Z.of_nat (length inls)).
Proof.
  intros S Q BS G T K HE NE SEEN. destruct (four_sides svd toQuat solve E g k S Q BS G T K HE) as (sols & F & (s0 & I0 & SM0) & SIDES).
  unfold extractMotion. rewrite F. cbn [bind]. unfold extract_motion.
  assert (CL : forall s, In s sols ->
    (same_motion s (unit_tr g) /\ filter (front_rays solve rays s) inls = inls) \/
    (~ same_motion s (unit_tr g) /\ filter (front_rays solve rays s) inls = [])).
  { intros s Hs. destruct (SIDES s Hs) as [[SM FR]|[SM FR]].
    - left. split; [exact SM|]. apply filter_all. intros i Hi. destruct (SEEN i Hi) as (c & N & C). unfold front_rays. rewrite N.
      specialize (FR c C). apply both_front in FR. destruct c as [x y]. exact FR.
    - right. split; [exact SM|]. apply filter_none. intros i Hi. destruct (SEEN i Hi) as (c & N & C). unfold front_rays. rewrite N.
      specialize (FR c C). pose proof (both_front solve s c) as BF. destruct c as [x y]. cbn [fst snd] in *.
      destruct (triangulate solve s x y) as [d0 d1]. apply not_true_is_false. intros H. apply FR, BF, H. }
  destruct (fold_choice (front_rays solve rays) (fun m => same_motion m (unit_tr g)) inls NE sols (sid, [], 0%Z)) as (m & GM & H).
  - intros s Hs. destruct (CL s Hs) as [[SM FS]|[_ FS]]; auto.
  - left. exists s0. split; [exact I0|]. split; [exact SM0|]. destruct (CL s0 I0) as [[_ FS]|[NS _]]; [exact FS|contradiction].
  - left. reflexivity.
  - exists m. split; [exact GM|]. f_equal. exact H.
Qed.

(** * Reprojection error *)
Lemma pnorm_zero p : p = P2 0 0 -> pnorm p = 0.
Proof. intros ->. unfold pnorm, pdot. cbn [px py]. replace (0 * 0 + 0 * 0) with 0 by ring. apply sqrt_0. Qed.
Lemma pnorm_nonneg p : 0 <= pnorm p. Proof. apply sqrt_pos. Qed.
Lemma psub_same p : psub p p = P2 0 0. Proof. destruct p. unfold psub. cbn. f_equal; ring. Qed.
Lemma flatten_on p n : dot p n = 0 -> flatten p n = p.
Proof. intros H. unfold flatten. rewrite H. unfold Rdiv. rewrite Rmult_0_l. destruct p as [? ? ?], n as [? ? ?]. munfold. f_equal; ring. Qed.

Lemma flatten_dot p n : dot n n <> 0 -> dot (flatten p n) n = 0.
Proof.
  intros H. unfold flatten. transitivity (dot p n - dot p n / dot n n * dot n n); [|field; exact H].
  set (k := dot p n / dot n n). clearbody k. destruct p as [? ? ?], n as [? ? ?]. munfold. ring.
Qed.
Lemma flatten_nearest p n : dot n n <> 0 -> nearest_in_plane n p (flatten p n).
Proof.
  intros H. split; [apply flatten_dot, H|]. intros x Hx.
  set (k := dot p n / dot n n). assert (E : vsub p (flatten p n) = vscale k n).
  { unfold flatten. fold k. clearbody k. clear. destruct p as [? ? ?], n as [? ? ?]. munfold. f_equal; ring. }
  assert (E2 : vsub p x = vadd (vscale k n) (vsub (flatten p n) x)).
  { unfold flatten. fold k. clearbody k. clear. destruct p as [? ? ?], n as [? ? ?], x as [? ? ?]. munfold. f_equal; ring. }
  assert (O : dot n (vsub (flatten p n) x) = 0).
  { transitivity (dot (flatten p n) n - dot x n); [|rewrite flatten_dot, Hx by exact H; ring]. destruct (flatten p n) as [? ? ?], n as [? ? ?], x as [? ? ?]. munfold. ring. }
  rewrite E, E2. set (r := vsub (flatten p n) x) in *. clearbody r. unfold vnorm. apply sqrt_le_1; [apply dot_self_nonneg|apply dot_self_nonneg|].
  assert (X : dot (vadd (vscale k n) r) (vadd (vscale k n) r) = dot (vscale k n) (vscale k n) + 2 * k * dot n r + dot r r).
  { clear. destruct n as [? ? ?], r as [? ? ?]. munfold. ring. }
  rewrite X, O. pose proof (dot_self_nonneg r). lra.
Qed.

Lemma reproj_exact mp E img ray : dot (snd ray) (mapply E (fst ray)) = 0 ->
  (mp (fst ray) = fst img \/ mp (snd ray) = snd img) ->
  reprojectionError mp E (mT E) img ray = 0.
Proof.
  intros H M. unfold reprojectionError. cbv zeta.
  assert (H1 : dot (fst ray) (mapply (mT E) (snd ray)) = 0).
  { rewrite <- mapply_dot. rewrite GeomProofs.dot_comm. exact H. }
  set (n1 := mapply (mT E) (snd ray)) in *. set (n2 := mapply E (fst ray)) in *.
  rewrite (flatten_on _ n1 H1), (flatten_on _ n2 H).
  replace (if Rltb (1 / 10000) (dot n1 n1) then fst ray else fst ray) with (fst ray) by (destruct (Rltb (1 / 10000) (dot n1 n1)); reflexivity).
  replace (if Rltb (1 / 10000) (dot n2 n2) then snd ray else snd ray) with (snd ray) by (destruct (Rltb (1 / 10000) (dot n2 n2)); reflexivity).
  destruct M as [M|M]; rewrite M, psub_same, (pnorm_zero _ eq_refl).
  - apply Rmin_left, pnorm_nonneg.
  - apply Rmin_right, pnorm_nonneg.
Qed.

Lemma reproj_either mp E img ray thr : 1 / 10000 < dot (mapply (mT E) (snd ray)) (mapply (mT E) (snd ray)) ->
  1 / 10000 < dot (mapply E (fst ray)) (mapply E (fst ray)) ->
  (reprojectionError mp E (mT E) img ray < thr <->
   (exists q, nearest_in_plane (mapply (mT E) (snd ray)) (fst ray) q /\ pnorm (psub (mp q) (fst img)) < thr) \/
   (exists q, nearest_in_plane (mapply E (fst ray)) (snd ray) q /\ pnorm (psub (mp q) (snd img)) < thr)).
Proof.
  intros H1 H2. unfold reprojectionError. cbv zeta.
  set (n1 := mapply (mT E) (snd ray)) in *. set (n2 := mapply E (fst ray)) in *.
  rewrite (proj2 (Rltb_iff _ _) H1), (proj2 (Rltb_iff _ _) H2).
  assert (N1 : dot n1 n1 <> 0) by lra. assert (N2 : dot n2 n2 <> 0) by lra.
  assert (UQ : forall n p q, dot n n <> 0 -> nearest_in_plane n p q -> q = flatten p n).
  { clear. intros n p q N [D M]. pose proof (M (flatten p n) (flatten_dot p n N)) as M1.
    set (k := dot p n / dot n n). assert (E : vsub p (flatten p n) = vscale k n).
    { unfold flatten. fold k. clearbody k. clear. destruct p as [? ? ?], n as [? ? ?]. munfold. f_equal; ring. }
    assert (E2 : vsub p q = vadd (vscale k n) (vsub (flatten p n) q)).
    { unfold flatten. fold k. clearbody k. clear. destruct p as [? ? ?], n as [? ? ?], q as [? ? ?]. munfold. f_equal; ring. }
    assert (O : dot n (vsub (flatten p n) q) = 0).
    { transitivity (dot (flatten p n) n - dot q n); [|rewrite flatten_dot, D by exact N; ring]. destruct (flatten p n) as [? ? ?], n as [? ? ?], q as [? ? ?]. munfold. ring. }
    rewrite E, E2 in M1. set (r := vsub (flatten p n) q) in *.
    assert (R0 : dot r r = 0).
    { assert (X : dot (vadd (vscale k n) r) (vadd (vscale k n) r) = dot (vscale k n) (vscale k n) + 2 * k * dot n r + dot r r).
      { clearbody r. clear. destruct n as [? ? ?], r as [? ? ?]. munfold. ring. }
      rewrite O in X. unfold vnorm in M1. apply sqrt_le_0 in M1; [|apply dot_self_nonneg|apply dot_self_nonneg]. pose proof (dot_self_nonneg r). lra. }
    assert (RZ : r = vzero) by (apply vnorm_0; unfold vnorm; rewrite R0; apply sqrt_0).
    unfold r in RZ. clear - RZ. destruct (flatten p n) as [a b c], q as [d e f]. revert RZ. munfold. intros H. injection H as H1 H2 H3. f_equal; lra. }
  split.
  - intros H. unfold Rmin in H. destruct (Rle_dec _ _) in H; [left|right]; eexists; (split; [apply flatten_nearest; assumption|exact H]).
  - intros [(q & NQ & H)|(q & NQ & H)]; apply UQ in NQ; try assumption; subst q; (eapply Rle_lt_trans; [|exact H]); [apply Rmin_l|apply Rmin_r].
Qed.

(** A ray close to the epipole: its partner is never moved. *)
Lemma reproj_near_first mp E img ray : dot (mapply (mT E) (snd ray)) (mapply (mT E) (snd ray)) <= 1 / 10000 ->
  mp (fst ray) = fst img -> reprojectionError mp E (mT E) img ray = 0.
Proof.
  intros H M. unfold reprojectionError. cbv zeta.
  destruct (Rltb (1 / 10000) (dot (mapply (mT E) (snd ray)) (mapply (mT E) (snd ray)))) eqn:C; [apply Rltb_iff in C; lra|].
  rewrite M, psub_same, (pnorm_zero _ eq_refl). apply Rmin_left, pnorm_nonneg.
Qed.
Lemma reproj_near_second mp E img ray : dot (mapply E (fst ray)) (mapply E (fst ray)) <= 1 / 10000 ->
  mp (snd ray) = snd img -> reprojectionError mp E (mT E) img ray = 0.
Proof.
  intros H M. unfold reprojectionError. cbv zeta.
  destruct (Rltb (1 / 10000) (dot (mapply E (fst ray)) (mapply E (fst ray)))) eqn:C; [apply Rltb_iff in C; lra|].
  rewrite M, psub_same, (pnorm_zero _ eq_refl). apply Rmin_right, pnorm_nonneg.
Qed.
Lemma normal_second g b : rigid g -> dot (mapply (mT (toEssential g)) b) (mapply (mT (toEssential g)) b) = dot (cross (tr g) b) (cross (tr g) b).
Proof.
  intros G. unfold toEssential. rewrite mT_mmul, mapply_mmul, mapply_dot, mT_invol, <- mapply_mmul.
  pose proof (ortho_right _ (rotm_ortho (so3 g) G)) as O. rewrite O, mapply_I. destruct (tr g) as [? ? ?], b as [? ? ?]. munfold. ring.
Qed.
Lemma normal_first g a : dot (mapply (toEssential g) a) (mapply (toEssential g) a) = dot (cross (tr g) (rot (so3 g) a)) (cross (tr g) (rot (so3 g) a)).
Proof. unfold toEssential. rewrite mapply_mmul, mapply_hat, rotm_apply. reflexivity. Qed.

Lemma epipole_first mp g img ray : rigid g -> vnorm (cross (tr g) (snd ray)) <= 1 / 100 -> mp (fst ray) = fst img ->
  reprojectionError mp (toEssential g) (mT (toEssential g)) img ray = 0.
Proof.
  intros G N M. apply reproj_near_first; [|exact M]. rewrite normal_second by exact G. rewrite <- vnorm_sq.
  pose proof (vnorm_nonneg (cross (tr g) (snd ray))). nra.
Qed.
Lemma epipole_second mp g img ray : rigid g -> vnorm (cross (tr g) (rot (so3 g) (fst ray))) <= 1 / 100 -> mp (snd ray) = snd img ->
  reprojectionError mp (toEssential g) (mT (toEssential g)) img ray = 0.
Proof.
  intros G N M. apply reproj_near_second; [|exact M]. rewrite normal_first. rewrite <- vnorm_sq.
  pose proof (vnorm_nonneg (cross (tr g) (rot (so3 g) (fst ray)))). nra.
Qed.

(** The residual and the error. *)
Lemma residual_error mp g img ray : rigid g ->
  1 / 100 < vnorm (cross (tr g) (snd ray)) -> 1 / 100 < vnorm (cross (tr g) (rot (so3 g) (fst ray))) ->
  let '(x0, y0, x1, y1) := reproj_residual mp img ray g in
  reprojectionError mp (toEssential g) (mT (toEssential g)) img ray = Rmin (sqrt (x0 * x0 + y0 * y0)) (sqrt (x1 * x1 + y1 * y1)).
Proof.
  intros G N1 N2. unfold reproj_residual. cbv zeta. fold (toEssential g).
  assert (H1 : 1 / 10000 < dot (mapply (mT (toEssential g)) (snd ray)) (mapply (mT (toEssential g)) (snd ray))).
  { rewrite normal_second by exact G. rewrite <- vnorm_sq. nra. }
  assert (H2 : 1 / 10000 < dot (mapply (toEssential g) (fst ray)) (mapply (toEssential g) (fst ray))).
  { rewrite normal_first. rewrite <- vnorm_sq. nra. }
  set (n1 := mapply (mT (toEssential g)) (snd ray)) in *. set (n2 := mapply (toEssential g) (fst ray)) in *.
  assert (C1 : Rltb (dot n1 n1) (1 / 10000) = false) by (apply not_true_is_false; rewrite Rltb_iff; lra).
  assert (C2 : Rltb (dot n2 n2) (1 / 10000) = false) by (apply not_true_is_false; rewrite Rltb_iff; lra).
  rewrite C1, C2. cbn [orb]. unfold reprojectionError. cbv zeta. fold n1 n2.
  rewrite (proj2 (Rltb_iff _ _) H1), (proj2 (Rltb_iff _ _) H2). reflexivity.
Qed.
Lemma residual_value mp g img ray : rigid g ->
  1 / 100 < vnorm (cross (tr g) (snd ray)) -> 1 / 100 < vnorm (cross (tr g) (rot (so3 g) (fst ray))) ->
  exists p q, nearest_in_plane (cross (tr g) (rot (so3 g) (fst ray))) (snd ray) q /\
    nearest_in_plane (cross (tr g) (snd ray)) (rot (so3 g) (fst ray)) (rot (so3 g) p) /\
    reproj_residual mp img ray g =
      (px (mp p) - px (fst img), py (mp p) - py (fst img), px (mp q) - px (snd img), py (mp q) - py (snd img)).
Proof.
  intros G N1 N2. unfold reproj_residual. cbv zeta. fold (toEssential g).
  assert (H1 : 1 / 10000 < dot (mapply (mT (toEssential g)) (snd ray)) (mapply (mT (toEssential g)) (snd ray))).
  { rewrite normal_second by exact G. rewrite <- vnorm_sq. nra. }
  assert (H2 : 1 / 10000 < dot (mapply (toEssential g) (fst ray)) (mapply (toEssential g) (fst ray))).
  { rewrite normal_first. rewrite <- vnorm_sq. nra. }
  exists (flatten (fst ray) (mapply (mT (toEssential g)) (snd ray))), (flatten (snd ray) (mapply (toEssential g) (fst ray))).
  split.
  { assert (E2 : mapply (toEssential g) (fst ray) = cross (tr g) (rot (so3 g) (fst ray))).
    { unfold toEssential. rewrite mapply_mmul, mapply_hat, rotm_apply. reflexivity. }
    rewrite <- E2. apply flatten_nearest. lra. }
  split.
  { set (b := snd ray) in *. set (a := fst ray) in *.
    assert (EN : rot (so3 g) (mapply (mT (toEssential g)) b) = vneg (cross (tr g) b)).
    { unfold toEssential. rewrite mT_mmul, mapply_mmul, <- rotm_apply, <- mapply_mmul, (ortho_right _ (rotm_ortho (so3 g) G)), mapply_I.
      destruct (tr g) as [? ? ?], b as [? ? ?]. munfold. f_equal; ring. }
    set (n := mapply (mT (toEssential g)) b) in *.
    assert (NN : dot n n <> 0) by lra.
    destruct (flatten_nearest a n NN) as [D M]. split.
    - transitivity (- dot (rot (so3 g) (flatten a n)) (rot (so3 g) n)); [|rewrite (rot_dot _ _ _ G), D; ring].
      rewrite EN. destruct (rot (so3 g) (flatten a n)) as [? ? ?], (cross (tr g) b) as [? ? ?]. munfold. ring.
    - intros x Hx. specialize (M (rot (qconj (so3 g)) x)).
      assert (V : forall u v, vsub (rot (so3 g) u) (rot (so3 g) v) = rot (so3 g) (vsub u v)).
      { clear. intros u v. destruct (so3 g) as [w [? ? ?]], u as [? ? ?], v as [? ? ?]. unfold rot. cbn [qw qv]. munfold. f_equal; ring. }
      rewrite V, (rot_norm _ _ G). rewrite <- (rot_conj_r (so3 g) x G), V, (rot_norm _ _ G). apply M.
      rewrite <- (rot_dot (so3 g) _ _ G), (rot_conj_r (so3 g) x G), EN. transitivity (- dot x (cross (tr g) b)); [|rewrite Hx; ring].
      destruct x as [? ? ?], (cross (tr g) b) as [? ? ?]. munfold. ring. }
  set (n1 := mapply (mT (toEssential g)) (snd ray)) in *. set (n2 := mapply (toEssential g) (fst ray)) in *.
  assert (C1 : Rltb (dot n1 n1) (1 / 10000) = false) by (apply not_true_is_false; rewrite Rltb_iff; lra).
  assert (C2 : Rltb (dot n2 n2) (1 / 10000) = false) by (apply not_true_is_false; rewrite Rltb_iff; lra).
  rewrite C1, C2. reflexivity.
Qed.
Lemma residual_near mp g img ray : rigid g ->
  vnorm (cross (tr g) (snd ray)) < 1 / 100 \/ vnorm (cross (tr g) (rot (so3 g) (fst ray))) < 1 / 100 ->
  reproj_residual mp img ray g = (0, 0, 0, 0).
Proof.
  intros G N. unfold reproj_residual. cbv zeta. fold (toEssential g).
  set (n1 := mapply (mT (toEssential g)) (snd ray)) in *. set (n2 := mapply (toEssential g) (fst ray)) in *.
  assert (C : Rltb (dot n2 n2) (1 / 10000) || Rltb (dot n1 n1) (1 / 10000) = true).
  { rewrite orb_true_iff, !Rltb_iff. destruct N as [N|N]; [right|left].
    - unfold n1. rewrite normal_second by exact G. rewrite <- vnorm_sq. pose proof (vnorm_nonneg (cross (tr g) (snd ray))). nra.
    - unfold n2. rewrite normal_first. rewrite <- vnorm_sq. pose proof (vnorm_nonneg (cross (tr g) (rot (so3 g) (fst ray)))). nra. }
  rewrite C. reflexivity.
Qed.
(** A correspondence seen in front of both cameras satisfies the epipolar constraint. *)
Lemma seen_epipolar g c E k : seen_in_front g c -> essential_of g E k -> dot (snd c) (mapply E (fst c)) = 0.
Proof.
  intros (d1 & d2 & D1 & D2 & HA & NP) HE. rewrite HE. unfold act in HA. rewrite rot_scale in HA.
  set (y := rot (so3 g) (fst c)) in *. set (t := tr g) in *. clearbody y t.
  assert (Z : d2 * dot (snd c) (vscale k (cross t y)) = 0).
  { transitivity (dot (vscale d2 (snd c)) (vscale k (cross t y))).
    - destruct (snd c) as [? ? ?], (cross t y) as [? ? ?]. munfold. ring.
    - rewrite <- HA. destruct t as [? ? ?], y as [? ? ?]. munfold. ring. }
  apply Rmult_integral in Z. destruct Z as [Z|Z]; [lra|exact Z].
Qed.
Lemma residual_exact mp g img ray : seen_in_front g ray -> mp (fst ray) = fst img -> mp (snd ray) = snd img ->
  reproj_residual mp img ray g = (0, 0, 0, 0).
Proof.
  intros SE M1 M2. unfold reproj_residual. cbv zeta. fold (toEssential g).
  assert (HE : essential_of g (toEssential g) 1) by (apply essential_matrix; unfold toEssential; rewrite mscale_1; reflexivity).
  pose proof (seen_epipolar g ray _ 1 SE HE) as H2.
  assert (H1 : dot (fst ray) (mapply (mT (toEssential g)) (snd ray)) = 0) by (rewrite <- mapply_dot, GeomProofs.dot_comm; exact H2).
  destruct (_ || _); [reflexivity|]. rewrite (flatten_on _ _ H1), (flatten_on _ _ H2), M1, M2, !psub_same. reflexivity.
Qed.

(** Exact correspondences are all inliers of a multiple of the true matrix. *)
Lemma inliers_exact mp thr cs E g k : 0 < thr -> essential_of g E k ->
  (forall img ray, In (img, ray) cs -> seen_in_front g ray /\ mp (fst ray) = fst img) ->
  findInliersEssential mp thr cs E = seq 0 (length cs).
Proof.
  intros T HE ALL. unfold findInliersEssential, find_inliers_essential. apply filter_all. intros i Hi. apply in_seq in Hi.
  destruct (nth_error cs i) as [[img ray]|] eqn:N; [|apply nth_error_None in N; lia].
  apply nth_error_In in N. destruct (ALL img ray N) as [S M]. apply Rltb_iff.
  rewrite (reproj_exact mp E img ray (seen_epipolar g ray E k S HE) (or_introl M)). exact T.
Qed.
