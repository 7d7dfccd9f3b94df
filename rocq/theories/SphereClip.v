(** Proofs about clipping an arc to the field of view. *)
From Coq Require Import Reals Bool Lra Psatz.
From Verif Require Import Outcome Pose PoseProofs GeomModel GeomSpec GeomProofs GeomExamples SphereModel SphereSpec SphereProofs.
Open Scope R_scope.

(** Signed excess over the border cone. *)
Definition excess (s : R) (d : vec) : R := vz d - cos s * vnorm d.

Lemma in_sector_excess s d : in_sector s d <-> 0 <= excess s d.
Proof. unfold in_sector, excess. split; lra. Qed.

Definition ez : vec := V3 0 0 1.
Lemma ez_unit : dot ez ez = 1.
Proof. unfold ez, dot. cbn. ring. Qed.

Lemma cos_range d : d <> vzero -> -1 <= vz d / vnorm d <= 1.
Proof.
  intros N. pose proof (vnorm_pos d N) as P. pose proof (vnorm_sq d) as Q. unfold dot in Q.
  assert (- vnorm d <= vz d <= vnorm d) by (split; nra).
  split; [apply Rmult_le_reg_r with (vnorm d)|apply Rmult_le_reg_r with (vnorm d)]; try exact P;
    unfold Rdiv; rewrite Rmult_assoc, Rinv_l by lra; lra.
Qed.

Lemma angle_z d : d <> vzero -> angle d ez = acos (vz d / vnorm d).
Proof.
  intros N. unfold angle. rewrite (normalized_unit _ ez_unit), (normalized_nz d N), dot_lin1.
  replace (/ vnorm d * dot d ez) with (vz d / vnorm d).
  - pose proof (cos_range d N). destruct (Rlt_dec _ (-1)); [lra|]. destruct (Rlt_dec 1 _); [lra|]. reflexivity.
  - unfold dot, ez. cbn [vx vy vz]. pose proof (vnorm_pos d N). field. lra.
Qed.

Lemma angle_bound d : d <> vzero -> 0 <= angle d ez <= PI.
Proof. intros N. rewrite angle_z by exact N. apply acos_bound. Qed.

Lemma cos_angle d : d <> vzero -> cos (angle d ez) = vz d / vnorm d.
Proof. intros N. rewrite angle_z by exact N. apply cos_acos, cos_range, N. Qed.

Lemma angle_le d t : d <> vzero -> 0 <= t <= PI -> (angle d ez <= t <-> in_sector t d).
Proof.
  intros N T. pose proof (angle_bound d N) as B. pose proof (cos_angle d N) as C.
  pose proof (vnorm_pos d N) as P.
  assert (E : vz d = cos (angle d ez) * vnorm d) by (rewrite C; field; lra).
  unfold in_sector. rewrite E. split; intros H.
  - apply Rmult_le_compat_r; [lra|]. apply cos_decr_1; lra.
  - apply Rmult_le_reg_r in H; [|exact P]. apply cos_decr_0; lra.
Qed.

Lemma angle_gt d t : d <> vzero -> 0 <= t <= PI -> (t < angle d ez <-> excess t d < 0).
Proof.
  intros N T. pose proof (angle_le d t N T) as A. rewrite in_sector_excess in A. split; intros H.
  - apply Rnot_le_lt. intros C. apply A in C. lra.
  - apply Rnot_le_lt. intros C. apply A in C. lra.
Qed.

(** ** Positive combinations *)
Lemma excess_scale s k d : 0 <= k -> excess s (vscale k d) = k * excess s d.
Proof.
  intros K. unfold excess. rewrite vnorm_scale, Rabs_right by lra.
  replace (vz (vscale k d)) with (k * vz d) by (destruct d; reflexivity). ring.
Qed.

Lemma vz_add a b : vz (vadd a b) = vz a + vz b.
Proof. destruct a, b; reflexivity. Qed.

Lemma excess_super s a b : 0 <= cos s -> excess s a + excess s b <= excess s (vadd a b).
Proof. intros C. unfold excess. rewrite vz_add. pose proof (vnorm_triangle a b). nra. Qed.

Lemma excess_sub s a b : cos s <= 0 -> excess s (vadd a b) <= excess s a + excess s b.
Proof. intros C. unfold excess. rewrite vz_add. pose proof (vnorm_triangle a b). nra. Qed.

Lemma on_arc_sym a b p : on_arc a b p -> on_arc b a p.
Proof.
  intros (N & x & y & X & Y & E). split; [exact N|]. exists y, x. split; [exact Y|]. split; [exact X|].
  rewrite E. apply vadd_comm.
Qed.

Lemma between_combination g e a b (d1 d2 p q : vec) :
  0 <= g -> 0 < e -> 0 <= a -> 0 <= b ->
  q = vadd (vscale g p) (vscale e d2) -> p = vadd (vscale a d1) (vscale b d2) ->
  vscale (1 + b * g / e) p = vadd (vscale a d1) (vscale (b / e) q).
Proof.
  intros G E A B Q P. rewrite Q.
  replace (vscale (1 + b * g / e) p) with (vadd p (vscale (b * g / e) p))
    by (destruct p; unfold vadd, vscale; cbn; f_equal; ring).
  rewrite P at 1. clear Q P.
  destruct p, d1, d2. unfold vadd, vscale. cbn. f_equal; field; lra.
Qed.

(** The rest of the arc is inside. *)
Lemma clipped_inside s d1 d2 p : excess s d1 < 0 -> 0 <= excess s d2 ->
  on_border s p -> on_arc d1 d2 p -> forall q, on_arc p d2 q -> in_sector s q.
Proof.
  intros O I [U Z] (NP & a & b & A & B & EP) q (NQ & g & e & G & E & EQ).
  assert (P0 : excess s p = 0) by (unfold excess; rewrite U, Z; ring).
  apply in_sector_excess. destruct (Rle_lt_dec 0 (cos s)) as [C|C].
  - rewrite EQ. pose proof (excess_super s (vscale g p) (vscale e d2) C) as S.
    rewrite !excess_scale, P0 in S by assumption. nra.
  - apply Rnot_lt_le. intros L. destruct (Req_dec e 0) as [E0|E0].
    + subst e. rewrite vscale_0, vadd_zero_r in EQ. rewrite EQ, excess_scale, P0 in L by exact G. lra.
    + assert (E' : 0 < e) by lra. pose proof (between_combination g e a b d1 d2 p q G E' A B EQ EP) as M.
      assert (BE : 0 <= b / e) by (unfold Rdiv; apply Rmult_le_pos; [exact B|left; apply Rinv_0_lt_compat, E']).
      assert (BG : 0 <= b * g / e) by (unfold Rdiv; apply Rmult_le_pos; [nra|left; apply Rinv_0_lt_compat, E']).
      pose proof (excess_sub s (vscale a d1) (vscale (b / e) q) (Rlt_le _ _ C)) as S.
      rewrite <- M, !excess_scale, P0 in S by (try assumption; lra).
      assert (AB : a = 0 /\ b / e = 0) by (split; nra). destruct AB as [-> AB].
      rewrite AB, !vscale_0, vadd_zero_l in M.
      apply NP. assert (X : vscale (/ (1 + b * g / e)) (vscale (1 + b * g / e) p) = vzero) by (rewrite M; apply vscale_zero).
      rewrite vscale_scale, Rinv_l, vscale_1 in X by lra. exact X.
Qed.

(** ** Existence of the crossing *)
Lemma cont_norm d1 d2 : continuity (fun t => vnorm (vadd (vscale (1 - t) d1) (vscale t d2))).
Proof.
  intros t. unfold vnorm.
  apply (continuity_pt_comp (fun t => dot (vadd (vscale (1 - t) d1) (vscale t d2)) (vadd (vscale (1 - t) d1) (vscale t d2))) sqrt).
  - destruct d1 as [a b c], d2 as [d e f]. unfold dot, vadd, vscale. cbn [vx vy vz]. reg.
  - apply continuity_pt_sqrt, dot_self_nonneg.
Qed.

Lemma cont_excess s d1 d2 : continuity (fun t => excess s (vadd (vscale (1 - t) d1) (vscale t d2))).
Proof.
  unfold excess. intros t. apply (continuity_pt_minus (fun t => vz (vadd (vscale (1 - t) d1) (vscale t d2)))
    (fun t => cos s * vnorm (vadd (vscale (1 - t) d1) (vscale t d2)))).
  - destruct d1 as [a b c], d2 as [d e f]. unfold vadd, vscale. cbn [vz]. reg.
  - apply (continuity_pt_scal (fun t => vnorm (vadd (vscale (1 - t) d1) (vscale t d2))) (cos s)), cont_norm.
Qed.

Lemma in_plane_zero a b d1 d2 : cross d1 d2 <> vzero -> vadd (vscale a d1) (vscale b d2) = vzero -> a = 0 /\ b = 0.
Proof.
  intros N E.
  assert (X : vscale a (cross d1 d2) = vzero).
  { transitivity (cross (vadd (vscale a d1) (vscale b d2)) d2); [destruct d1, d2; unfold cross, vadd, vscale; cbn; f_equal; ring|].
    rewrite E. destruct d2; unfold cross, vzero; cbn; f_equal; ring. }
  assert (Y : vscale b (cross d1 d2) = vzero).
  { transitivity (cross d1 (vadd (vscale a d1) (vscale b d2))); [destruct d1, d2; unfold cross, vadd, vscale; cbn; f_equal; ring|].
    rewrite E. destruct d1; unfold cross, vzero; cbn; f_equal; ring. }
  assert (K : forall k v, v <> vzero -> vscale k v = vzero -> k = 0).
  { intros k v V H. destruct (Req_dec k 0) as [|Z]; [assumption|]. exfalso. apply V.
    rewrite <- (vscale_1 v), <- (Rinv_l k Z), <- vscale_scale, H. apply vscale_zero. }
  split; eapply K; eassumption.
Qed.

Lemma crossing_exists s d1 d2 : cross d1 d2 <> vzero -> excess s d1 * excess s d2 <= 0 ->
  exists q, on_border s q /\ on_arc d1 d2 q.
Proof.
  intros N M.
  destruct (IVT_cor (fun t => excess s (vadd (vscale (1 - t) d1) (vscale t d2))) 0 1 (cont_excess s d1 d2)) as (t & T & H).
  - lra.
  - replace (vadd (vscale (1 - 0) d1) (vscale 0 d2)) with d1 by (destruct d1, d2; unfold vadd, vscale; cbn; f_equal; ring).
    replace (vadd (vscale (1 - 1) d1) (vscale 1 d2)) with d2 by (destruct d1, d2; unfold vadd, vscale; cbn; f_equal; ring).
    exact M.
  - set (w := vadd (vscale (1 - t) d1) (vscale t d2)) in *.
    assert (W : w <> vzero). { intros Z. destruct (in_plane_zero _ _ _ _ N Z). lra. }
    pose proof (vnorm_pos w W) as P. exists (normalized w).
    assert (UN : vnorm (normalized w) = 1) by (apply normalized_norm, W).
    rewrite (normalized_nz w W) in *. split.
    + split; [exact UN|]. replace (vz (vscale (/ vnorm w) w)) with (/ vnorm w * vz w) by (destruct w; reflexivity).
      unfold excess in H. replace (vz w) with (cos s * vnorm w) by lra. field. lra.
    + split; [apply unit_nz, unit_dot, UN|]. exists (/ vnorm w * (1 - t)), (/ vnorm w * t).
      assert (0 < / vnorm w) by (apply Rinv_0_lt_compat, P).
      split; [apply Rmult_le_pos; lra|]. split; [apply Rmult_le_pos; lra|].
      unfold w at 2. clear. destruct d1, d2. unfold vadd, vscale. cbn. f_equal; ring.
Qed.

(** ** The two solutions computed *)
Lemma span_coeffs d1 d2 p : cross d1 d2 <> vzero -> dot (cross d1 d2) p = 0 ->
  exists x y, vadd (vscale x d1) (vscale y d2) = p.
Proof.
  intros N H. pose proof (dot_pos _ N) as P. set (n := cross d1 d2) in *.
  exists (dot (cross p d2) n / dot n n), (dot (cross d1 p) n / dot n n).
  assert (E : vadd (vscale (dot (cross p d2) n) d1) (vscale (dot (cross d1 p) n) d2) = vsub (vscale (dot n n) p) (vscale (dot n p) n)).
  { unfold n. clear. destruct d1 as [a b c], d2 as [d e f], p as [x y z].
    unfold dot, cross, vadd, vsub, vscale. cbn [vx vy vz]. f_equal; ring. }
  rewrite H, vscale_0 in E.
  transitivity (vscale (/ dot n n) (vadd (vscale (dot (cross p d2) n) d1) (vscale (dot (cross d1 p) n) d2))).
  - generalize (dot (cross p d2) n) (dot (cross d1 p) n) (dot n n). intros. destruct d1, d2. unfold vadd, vscale, Rdiv. cbn. f_equal; ring.
  - rewrite E. clear - P. revert P. generalize (dot n n). intros k K. destruct p as [x y z]. unfold vsub, vscale, vzero. cbn [vx vy vz].
    f_equal; field; lra.
Qed.

Lemma not_both_zero n s d1 d2 : n = cross d1 d2 -> n <> vzero -> excess s d1 < 0 \/ excess s d2 < 0 ->
  (exists q, on_border s q /\ on_arc d1 d2 q) -> vx n * vx n + vy n * vy n <> 0.
Proof.
  intros E N O (q & [U Z] & _ & a & b & _ & _ & Q) H.
  assert (X : vx n = 0) by nra. assert (Y : vy n = 0) by nra.
  assert (C : vz n <> 0). { intros C. apply N. destruct n. cbn in *. subst. reflexivity. }
  assert (Z1 : vz d1 = 0).
  { pose proof (dot_cross_l d1 d2) as L. rewrite <- E in L. unfold dot in L. rewrite X, Y in L.
    assert (L' : vz n * vz d1 = 0) by lra. apply Rmult_integral in L'. tauto. }
  assert (Z2 : vz d2 = 0).
  { pose proof (dot_cross_r d1 d2) as L. rewrite <- E in L. unfold dot in L. rewrite X, Y in L.
    assert (L' : vz n * vz d2 = 0) by lra. apply Rmult_integral in L'. tauto. }
  assert (ZQ : vz q = 0).
  { rewrite Q, vz_add. replace (vz (vscale a d1)) with (a * vz d1) by (destruct d1; reflexivity).
    replace (vz (vscale b d2)) with (b * vz d2) by (destruct d2; reflexivity). rewrite Z1, Z2. ring. }
  unfold excess in O. rewrite <- Z, ZQ, Z1, Z2 in O. lra.
Qed.

Section Solutions.
Variables (s : R) (d1 d2 : vec).
Notation n := (cross d1 d2).
Notation k := (vx n * vx n + vy n * vy n).
Notation x0 := (- (vx n * vz n * cos s) / k).
Notation y0 := (- (vy n * vz n * cos s) / k).
Notation dd := (0 * 0 - k * (x0 * x0 + y0 * y0 - sin s * sin s)).
Notation sol t := (V3 (x0 - t * vy n) (y0 + t * vx n) (cos s)).

Lemma u_zero : k <> 0 -> vx n * y0 - vy n * x0 = 0.
Proof. intros K. field. exact K. Qed.

Lemma sol_plane t : k <> 0 -> dot n (sol t) = 0.
Proof. intros K. unfold dot. cbn [vx vy vz]. field. exact K. Qed.

Lemma sol_norm t : k <> 0 -> (t * k) * (t * k) = dd -> dot (sol t) (sol t) = 1.
Proof.
  intros K H. unfold dot. cbn [vx vy vz].
  assert (SC : cos s * cos s = 1 - sin s * sin s).
  { pose proof (sin2_cos2 s) as S. unfold Rsqr in S. lra. }
  assert (U : vx n * y0 - vy n * x0 = 0) by (apply u_zero, K).
  revert H U. generalize x0 y0. intros X Y H U.
  assert (T : t * t * k = sin s * sin s - (X * X + Y * Y)).
  { apply Rmult_eq_reg_r with k; [|exact K]. lra. }
  assert (E : (X - t * vy n) * (X - t * vy n) + (Y + t * vx n) * (Y + t * vx n)
              = X * X + Y * Y + 2 * t * (vx n * Y - vy n * X) + t * t * k) by ring.
  rewrite E, U, T, SC. ring.
Qed.

Lemma border_is_sol q : k <> 0 -> on_border s q -> dot n q = 0 ->
  let t := (vx n * vy q - vy n * vx q) / k in q = sol t /\ (t * k) * (t * k) = dd.
Proof.
  intros K [U Z] H t. apply unit_dot in U. unfold dot in U, H. rewrite Z in *.
  assert (SC : sin s * sin s = 1 - cos s * cos s).
  { pose proof (sin2_cos2 s) as S. unfold Rsqr in S. lra. }
  assert (E1 : vx q = x0 - t * vy n).
  { unfold t. replace (vx n * vz n * cos s) with (- vx n * (vx n * vx q + vy n * vy q)) by (replace (vx n * vx q + vy n * vy q) with (- (vz n * cos s)) by lra; ring).
    field. exact K. }
  assert (E2 : vy q = y0 + t * vx n).
  { unfold t. replace (vy n * vz n * cos s) with (- vy n * (vx n * vx q + vy n * vy q)) by (replace (vx n * vx q + vy n * vy q) with (- (vz n * cos s)) by lra; ring).
    field. exact K. }
  split.
  - destruct q as [a b c]. cbn [vx vy vz] in *. subst c. rewrite E1, E2 at 1. reflexivity.
  - rewrite SC. pose proof (u_zero K) as UZ. revert E1 E2 UZ. generalize x0 y0. intros X Y E1 E2 UZ.
    assert (Q : vx q * vx q + vy q * vy q = 1 - cos s * cos s) by lra. rewrite <- Q, E1, E2.
    replace ((X - t * vy n) * (X - t * vy n) + (Y + t * vx n) * (Y + t * vx n))
      with (X * X + Y * Y + 2 * t * (vx n * Y - vy n * X) + t * t * k) by ring.
    rewrite UZ. ring.
Qed.
End Solutions.

Lemma Rabs_small : Rltb (Rabs (1 - 1)) (1 / 10000) = true.
Proof. apply Rltb_iff. rewrite Rminus_diag_eq, Rabs_R0 by reflexivity. lra. Qed.

Theorem clip_core solve s d1 d2 : least_squares_solver solve -> 0 <= s <= PI ->
  d1 <> vzero -> d2 <> vzero -> cross d1 d2 <> vzero ->
  (s + 1 / 10000 < angle d1 ez /\ angle d2 ez <= s) \/ (angle d1 ez <= s /\ s + 1 / 10000 < angle d2 ez) ->
  exists p, on_border s p /\ on_arc d1 d2 p /\
    intersectOnSphere solve s d1 d2 = Ok (if Rlt_dec s (angle d1 ez) then (true, p, d2) else (true, d1, p)).
Proof.
  intros SOL S N1 N2 NP H.
  assert (X1 : s < angle d1 ez <-> excess s d1 < 0) by (apply angle_gt; assumption).
  assert (X2 : s < angle d2 ez <-> excess s d2 < 0) by (apply angle_gt; assumption).
  assert (M : excess s d1 * excess s d2 <= 0 /\ (excess s d1 < 0 \/ excess s d2 < 0)).
  { destruct H as [[A B]|[A B]].
    - assert (excess s d1 < 0) by (apply X1; lra).
      assert (0 <= excess s d2) by (apply Rnot_lt_le; intros C; apply X2 in C; lra). split; [nra|auto].
    - assert (excess s d2 < 0) by (apply X2; lra).
      assert (0 <= excess s d1) by (apply Rnot_lt_le; intros C; apply X1 in C; lra). split; [nra|auto]. }
  destruct M as [M O]. pose proof (crossing_exists s d1 d2 NP M) as EX.
  pose proof (not_both_zero _ s d1 d2 eq_refl NP O EX) as K.
  destruct EX as (q & QB & QA).
  assert (QP : dot (cross d1 d2) q = 0).
  { destruct QA as (_ & a & b & _ & _ & E). rewrite E, dot_add2, !dot_lin2, dot_cross_l, dot_cross_r. ring. }
  destruct (border_is_sol s d1 d2 q K QB QP) as [Q1 Q2]. cbv zeta in Q1, Q2.
  unfold intersectOnSphere. fold ez. cbv zeta.
  assert (B1 : Rltb (s + 1 / 10000) (angle d1 ez) && Rltb (s + 1 / 10000) (angle d2 ez) = false).
  { apply andb_false_iff. destruct H as [[A B]|[A B]]; [right|left]; apply not_true_is_false; rewrite Rltb_iff; lra. }
  assert (B2 : Rleb (angle d1 ez) (s + 1 / 10000) && Rleb (angle d2 ez) (s + 1 / 10000) = false).
  { apply andb_false_iff. destruct H as [[A B]|[A B]]; [left|right]; apply not_true_is_false; rewrite Rleb_iff; lra. }
  rewrite B1, B2. clear B1 B2. rewrite (u_zero s d1 d2 K).
  destruct (Req_EM_T _ 0) as [K'|_]; [contradiction|].
  pose proof (sol_plane s d1 d2) as SP. pose proof (sol_norm s d1 d2) as SN.
  set (n := cross d1 d2) in *. set (k := vx n * vx n + vy n * vy n) in *.
  set (x0 := - (vx n * vz n * cos s) / k) in *. set (y0 := - (vy n * vz n * cos s) / k) in *.
  set (D := 0 * 0 - k * (x0 * x0 + y0 * y0 - sin s * sin s)) in *.
  set (t := (vx n * vy q - vy n * vx q) / k) in *.
  assert (D0 : 0 <= D) by (rewrite <- Q2; apply Rle_0_sqr).
  destruct (Rlt_dec D 0) as [L|_]; [lra|].
  pose proof (sqrt_sqrt D D0) as SQ. set (r := sqrt D) in *.
  set (t1 := (0 - r) / k). set (t2 := (0 + r) / k).
  assert (T1 : t1 * k * (t1 * k) = D) by (unfold t1; rewrite <- SQ; field; exact K).
  assert (T2 : t2 * k * (t2 * k) = D) by (unfold t2; rewrite <- SQ; field; exact K).
  pose proof (SN t1 K T1) as U1. pose proof (SN t2 K T2) as U2.
  pose proof (SP t1 K) as P1. pose proof (SP t2 K) as P2.
  set (sol1 := V3 (x0 - t1 * vy n) (y0 + t1 * vx n) (cos s)) in *.
  set (sol2 := V3 (x0 - t2 * vy n) (y0 + t2 * vx n) (cos s)) in *.
  rewrite U1, U2, Rabs_small. cbn [negb].
  destruct (span_coeffs d1 d2 sol1 NP P1) as (c0 & c1 & E). 
  rewrite (solver_exact solve SOL d1 d2 sol1 c0 c1 NP E).
  assert (QT : q = sol1 \/ q = sol2).
  { assert (F : (t * k - r) * (t * k + r) = 0) by (transitivity (t * k * (t * k) - r * r); [ring|lra]).
    apply Rmult_integral in F. destruct F as [F|F].
    - right. unfold sol2. replace t2 with t; [exact Q1|]. unfold t2. apply Rmult_eq_reg_r with k; [|exact K].
      transitivity r; [lra|]. field. exact K.
    - left. unfold sol1. replace t1 with t; [exact Q1|]. unfold t1. apply Rmult_eq_reg_r with k; [|exact K].
      transitivity (- r); [lra|]. field. exact K. }
  exists (if Rleb 0 c0 && Rleb 0 c1 then sol1 else sol2).
  assert (G : on_border s (if Rleb 0 c0 && Rleb 0 c1 then sol1 else sol2) /\
              on_arc d1 d2 (if Rleb 0 c0 && Rleb 0 c1 then sol1 else sol2)).
  { destruct (Rleb 0 c0 && Rleb 0 c1) eqn:C.
    - apply andb_true_iff in C. rewrite !Rleb_iff in C. destruct C as [C0 C1].
      split; [split; [apply dot_unit, U1|reflexivity]|]. split; [apply unit_nz, U1|].
      exists c0, c1. repeat split; [exact C0|exact C1|symmetry; exact E].
    - destruct QT as [Q|Q]; [|rewrite <- Q; split; assumption]. exfalso.
      destruct QA as (_ & a & b & A & B & QE). rewrite Q in QE. rewrite <- E in QE.
      destruct (in_plane_zero (c0 - a) (c1 - b) d1 d2 NP) as [Z0 Z1].
      { clear - QE. destruct d1 as [p1 p2 p3], d2 as [q1 q2 q3]. unfold vadd, vscale, vzero in *. cbn [vx vy vz] in *.
        injection QE as E1 E2 E3. f_equal; lra. }
      apply andb_false_iff in C.
      destruct C as [C|C]; apply not_true_iff_false in C; rewrite Rleb_iff in C; lra. }
  destruct G as [G1 G2]. split; [exact G1|]. split; [exact G2|].
  destruct (Rlt_dec s (angle d1 ez)) as [A|A]; [reflexivity|].
  destruct (Rlt_dec s (angle d2 ez)) as [B|B]; [reflexivity|]. lra.
Qed.

Theorem clip_first solve s d1 d2 : least_squares_solver solve -> 0 <= s <= PI ->
  d1 <> vzero -> d2 <> vzero -> cross d1 d2 <> vzero ->
  s + 1 / 10000 < angle d1 ez -> angle d2 ez <= s ->
  exists p, intersectOnSphere solve s d1 d2 = Ok (true, p, d2) /\
    on_border s p /\ on_arc d1 d2 p /\ forall q, on_arc p d2 q -> in_sector s q.
Proof.
  intros SOL S N1 N2 NP A B. destruct (clip_core solve s d1 d2) as (p & P1 & P2 & E); auto.
  destruct (Rlt_dec s (angle d1 ez)) as [_|C]; [|lra]. exists p.
  split; [exact E|]. split; [exact P1|]. split; [exact P2|].
  apply (clipped_inside s d1 d2 p); [apply angle_gt; [assumption|assumption|lra]| |exact P1|exact P2].
  apply in_sector_excess, angle_le; assumption.
Qed.

Theorem clip_second solve s d1 d2 : least_squares_solver solve -> 0 <= s <= PI ->
  d1 <> vzero -> d2 <> vzero -> cross d1 d2 <> vzero ->
  angle d1 ez <= s -> s + 1 / 10000 < angle d2 ez ->
  exists p, intersectOnSphere solve s d1 d2 = Ok (true, d1, p) /\
    on_border s p /\ on_arc d1 d2 p /\ forall q, on_arc d1 p q -> in_sector s q.
Proof.
  intros SOL S N1 N2 NP A B. destruct (clip_core solve s d1 d2) as (p & P1 & P2 & E); auto.
  destruct (Rlt_dec s (angle d1 ez)) as [C|_]; [lra|]. exists p.
  split; [exact E|]. split; [exact P1|]. split; [exact P2|]. intros q Q.
  apply (clipped_inside s d2 d1 p); [apply angle_gt; [assumption|assumption|lra]| |exact P1| |].
  - apply in_sector_excess, angle_le; assumption.
  - apply on_arc_sym, P2.
  - apply on_arc_sym, Q.
Qed.

Theorem clip_none solve s d1 d2 :
  s + 1 / 10000 < angle d1 ez -> s + 1 / 10000 < angle d2 ez ->
  intersectOnSphere solve s d1 d2 = Ok (false, d1, d2).
Proof.
  intros A B. unfold intersectOnSphere. fold ez. cbv zeta.
  rewrite (proj2 (Rltb_iff _ _) A), (proj2 (Rltb_iff _ _) B). reflexivity.
Qed.

Theorem clip_both solve s d1 d2 :
  angle d1 ez <= s + 1 / 10000 -> angle d2 ez <= s + 1 / 10000 ->
  intersectOnSphere solve s d1 d2 = Ok (true, d1, d2).
Proof.
  intros A B. unfold intersectOnSphere. fold ez. cbv zeta.
  assert (X : Rltb (s + 1 / 10000) (angle d1 ez) = false) by (apply not_true_is_false; rewrite Rltb_iff; lra).
  rewrite X. cbn [andb]. rewrite (proj2 (Rleb_iff _ _) A), (proj2 (Rleb_iff _ _) B). reflexivity.
Qed.

Lemma angle_plane a : 0 <= a <= PI -> angle (V3 (sin a) 0 (cos a)) ez = a.
Proof.
  intros H. assert (U : dot (V3 (sin a) 0 (cos a)) (V3 (sin a) 0 (cos a)) = 1).
  { unfold dot. cbn [vx vy vz]. pose proof (sin2_cos2 a) as S. unfold Rsqr in S. lra. }
  rewrite angle_z by (apply unit_nz, U). rewrite (dot_unit _ U). cbn [vz].
  replace (cos a / 1) with (cos a) by field. apply acos_cos, H.
Qed.

(** An arc through the middle of the field of view between two ends outside of it is rejected. *)
Theorem clip_misses : forall s, 0 <= s -> s < PI / 2 - 1 / 10000 -> exists d1 d2,
  (forall solve, intersectOnSphere solve s d1 d2 = Ok (false, d1, d2)) /\
  exists q, on_arc d1 d2 q /\ same_direction ez q.
Proof.
  intros s S0 S. set (a := (s + 1 / 10000 + PI / 2) / 2). pose proof PI_RGT_0 as P.
  assert (A : s + 1 / 10000 < a < PI / 2) by (unfold a; lra).
  assert (C : 0 < cos a) by (apply cos_gt_0; lra).
  exists (V3 (sin a) 0 (cos a)), (V3 (- sin a) 0 (cos a)). split.
  - intros solve. apply clip_none.
    + rewrite angle_plane; lra.
    + assert (U : dot (V3 (- sin a) 0 (cos a)) (V3 (- sin a) 0 (cos a)) = 1).
      { unfold dot. cbn [vx vy vz]. pose proof (sin2_cos2 a) as Q. unfold Rsqr in Q. lra. }
      rewrite angle_z by (apply unit_nz, U). rewrite (dot_unit _ U). cbn [vz].
      replace (cos a / 1) with (cos a) by field. rewrite acos_cos; lra.
  - exists (V3 0 0 (2 * cos a)). split.
    + split.
      * intros H. unfold vzero in H. injection H as H. lra.
      * exists 1, 1. split; [lra|]. split; [lra|]. unfold vadd, vscale. cbn [vx vy vz]. f_equal; ring.
    + exists (2 * cos a). split; [lra|]. unfold ez, vscale. cbn [vx vy vz]. f_equal; ring.
Qed.

(** Ends straight ahead and straight back: the process is aborted. *)
Theorem clip_opposite solve s : 0 <= s -> s + 1 / 10000 < PI ->
  intersectOnSphere solve s (V3 0 0 1) (V3 0 0 (-1)) = Abort.
Proof.
  intros S L. unfold intersectOnSphere. fold ez. cbv zeta.
  assert (A1 : angle ez ez = 0).
  { replace ez with (V3 (sin 0) 0 (cos 0)) at 1 by (rewrite sin_0, cos_0; reflexivity). apply angle_plane. pose proof PI_RGT_0. lra. }
  assert (A2 : angle (V3 0 0 (-1)) ez = PI).
  { replace (V3 0 0 (-1)) with (V3 (sin PI) 0 (cos PI)) by (rewrite sin_PI, cos_PI; reflexivity). apply angle_plane. pose proof PI_RGT_0. lra. }
  rewrite A1, A2.
  assert (X : Rltb (s + 1 / 10000) 0 = false) by (apply not_true_is_false; rewrite Rltb_iff; lra).
  assert (Y : Rleb PI (s + 1 / 10000) = false) by (apply not_true_is_false; rewrite Rleb_iff; lra).
  rewrite X, Y, andb_false_r. cbn [andb].
  destruct (Req_EM_T _ 0) as [_|C]; [reflexivity|]. exfalso. apply C.
  unfold ez, cross. cbn [vx vy vz]. ring.
Qed.

(** One end in the tolerance band, the other straight back: the end in the band is replaced by a
    direction on the other side, the end straight back is kept. *)
Theorem clip_band solve : least_squares_solver solve -> exists s d1 d2 p,
  d1 <> vzero /\ d2 <> vzero /\ 0 <= s <= PI /\ s < angle d1 ez <= s + 1 / 10000 /\ s + 1 / 10000 < angle d2 ez /\
  intersectOnSphere solve s d1 d2 = Ok (true, p, d2) /\
  ~ on_arc d1 d2 p /\ ~ in_sector s d2 /\ ~ (exists q, on_arc d1 d2 q /\ in_sector s q).
Proof.
  intros SOL. pose proof PI_RGT_0 as P. pose proof PI2_3_2 as P32. set (e := 1 / 20000).
  set (a := PI / 2 + e). set (d1 := V3 (sin a) 0 (cos a)). set (d2 := V3 0 0 (-1)).
  assert (A1 : angle d1 ez = a) by (apply angle_plane; unfold a, e; lra).
  assert (A2 : angle d2 ez = PI).
  { unfold d2. replace (V3 0 0 (-1)) with (V3 (sin PI) 0 (cos PI)) by (rewrite sin_PI, cos_PI; reflexivity). apply angle_plane. lra. }
  assert (SA : 0 < sin a) by (apply sin_gt_0; unfold a, e; lra).
  assert (CA : cos a < 0) by (apply cos_lt_0; unfold a, e; lra).
  exists (PI / 2), d1, d2, (V3 (-1) 0 0). rewrite A1, A2.
  split; [unfold d1, vzero; intros C; injection C as C _; lra|].
  split; [unfold d2, vzero; intros C; injection C as C; lra|].
  split; [lra|]. split; [unfold a, e; lra|]. split; [unfold a, e in *; lra|].
  assert (NI : forall x y, 0 <= x -> 0 <= y -> vz (vadd (vscale x d1) (vscale y d2)) <= 0).
  { intros x y X Y. unfold d1, d2, vadd, vscale. cbn [vz]. nra. }
  split; [|split; [|split]].
  - unfold intersectOnSphere. fold ez. cbv zeta. rewrite A1, A2.
    assert (X : Rltb (PI / 2 + 1 / 10000) a = false) by (apply not_true_is_false; rewrite Rltb_iff; unfold a, e; lra).
    assert (Y : Rleb PI (PI / 2 + 1 / 10000) = false) by (apply not_true_is_false; rewrite Rleb_iff; lra).
    rewrite X, Y, andb_false_r. cbn [andb]. rewrite cos_PI2, sin_PI2.
    assert (CR : cross d1 d2 = V3 0 (sin a) 0) by (unfold d1, d2, cross; cbn [vx vy vz]; f_equal; ring).
    rewrite CR. cbn [vx vy vz]. set (w := sin a) in *.
    assert (K : 0 * 0 + w * w = w * w) by ring. rewrite K.
    destruct (Req_EM_T (w * w) 0) as [Z|_]; [nra|].
    replace (- (0 * 0 * 0) / (w * w)) with 0 by (field; lra). replace (- (w * 0 * 0) / (w * w)) with 0 by (field; lra).
    replace (0 * 0 - w * 0) with 0 by ring.
    replace (0 * 0 - w * w * (0 * 0 + 0 * 0 - 1 * 1)) with (w * w) by ring.
    destruct (Rlt_dec (w * w) 0) as [Z|_]; [nra|]. rewrite sqrt_square by lra.
    replace (0 - (0 - w) / (w * w) * w) with 1 by (field; lra). replace (0 - (0 + w) / (w * w) * w) with (-1) by (field; lra).
    replace (0 + (0 - w) / (w * w) * 0) with 0 by ring. replace (0 + (0 + w) / (w * w) * 0) with 0 by ring.
    replace (dot (V3 1 0 0) (V3 1 0 0)) with 1 by (unfold dot; cbn [vx vy vz]; ring).
    replace (dot (V3 (-1) 0 0) (V3 (-1) 0 0)) with 1 by (unfold dot; cbn [vx vy vz]; ring).
    rewrite Rabs_small. cbn [negb].
    rewrite (solver_exact solve SOL d1 d2 (V3 1 0 0) (/ w) (cos a / w)).
    + assert (Q : Rleb 0 (cos a / w) = false).
      { apply not_true_is_false. rewrite Rleb_iff. intros C.
        assert (0 < / w) by (apply Rinv_0_lt_compat; lra). unfold Rdiv in C. nra. }
      rewrite Q, andb_false_r. destruct (Rlt_dec (PI / 2) a) as [_|C]; [reflexivity|]. exfalso. apply C. unfold a, e. lra.
    + rewrite CR. intros C. unfold vzero in C. injection C as C. lra.
    + unfold d1, d2, vadd, vscale. cbn [vx vy vz]. fold w. f_equal; field; lra.
  - intros (_ & x & y & X & Y & E). unfold d1, d2, vadd, vscale in E. cbn [vx vy vz] in E. injection E as E _ _. nra.
  - unfold in_sector. rewrite cos_PI2. unfold d2. cbn [vz]. lra.
  - intros (q & (NQ & x & y & X & Y & E) & I). unfold in_sector in I. rewrite cos_PI2 in I.
    apply NQ. rewrite E in I. unfold d1, d2, vadd, vscale in I. cbn [vz] in I.
    assert (x = 0) by nra. assert (y = 0) by nra. subst x y. rewrite E, !vscale_0. apply vadd_zero_l.
Qed.

(** ** Forms for the theorems *)
Lemma outside_angle d t : d <> vzero -> 0 <= t <= PI -> ~ in_sector t d -> t < angle d ez.
Proof. intros N T H. apply Rnot_le_lt. intros C. apply H, angle_le; assumption. Qed.

Lemma clip_first' solve s d1 d2 : least_squares_solver solve -> 0 <= s -> s + 1 / 10000 <= PI ->
  d1 <> vzero -> d2 <> vzero -> ~ parallel d1 d2 ->
  ~ in_sector (s + 1 / 10000) d1 -> in_sector s d2 ->
  exists p, intersectOnSphere solve s d1 d2 = Ok (true, p, d2) /\
    on_border s p /\ on_arc d1 d2 p /\ forall q, on_arc p d2 q -> in_sector s q.
Proof.
  intros SOL S0 S N1 N2 NP A B. apply clip_first; try assumption; [lra| |].
  - apply outside_angle; [assumption|lra|assumption].
  - apply angle_le; [assumption|lra|assumption].
Qed.

Lemma clip_second' solve s d1 d2 : least_squares_solver solve -> 0 <= s -> s + 1 / 10000 <= PI ->
  d1 <> vzero -> d2 <> vzero -> ~ parallel d1 d2 ->
  in_sector s d1 -> ~ in_sector (s + 1 / 10000) d2 ->
  exists p, intersectOnSphere solve s d1 d2 = Ok (true, d1, p) /\
    on_border s p /\ on_arc d1 d2 p /\ forall q, on_arc d1 p q -> in_sector s q.
Proof.
  intros SOL S0 S N1 N2 NP A B. apply clip_second; try assumption; [lra| |].
  - apply angle_le; [assumption|lra|assumption].
  - apply outside_angle; [assumption|lra|assumption].
Qed.

Lemma clip_none' solve s d1 d2 : 0 <= s -> s + 1 / 10000 <= PI -> d1 <> vzero -> d2 <> vzero ->
  ~ in_sector (s + 1 / 10000) d1 -> ~ in_sector (s + 1 / 10000) d2 ->
  intersectOnSphere solve s d1 d2 = Ok (false, d1, d2).
Proof.
  intros S0 S N1 N2 A B. apply clip_none; apply outside_angle; try assumption; lra.
Qed.

Lemma clip_both' solve s d1 d2 : 0 <= s -> s + 1 / 10000 <= PI -> d1 <> vzero -> d2 <> vzero ->
  in_sector (s + 1 / 10000) d1 -> in_sector (s + 1 / 10000) d2 ->
  intersectOnSphere solve s d1 d2 = Ok (true, d1, d2).
Proof.
  intros S0 S N1 N2 A B. apply clip_both; apply angle_le; try assumption; lra.
Qed.

Lemma clip_band' solve : least_squares_solver solve -> exists s d1 d2 p,
  0 <= s /\ s + 1 / 10000 <= PI /\ in_sector (s + 1 / 10000) d1 /\ ~ in_sector (s + 1 / 10000) d2 /\
  intersectOnSphere solve s d1 d2 = Ok (true, p, d2) /\
  ~ on_arc d1 d2 p /\ ~ (exists q, on_arc d1 d2 q /\ in_sector s q).
Proof.
  intros SOL. destruct (clip_band solve SOL) as (s & d1 & d2 & p & N1 & N2 & S & A & B & E & F & _ & H).
  pose proof (angle_bound d2 N2) as B2.
  exists s, d1, d2, p. split; [lra|]. split; [lra|]. split; [apply angle_le; [assumption|lra|lra]|].
  split; [intros C; apply angle_le in C; [lra|assumption|lra]|]. split; [exact E|]. split; [exact F|exact H].
Qed.

(** A sector of 60 degrees. *)
Lemma sector_case : exists s d1 d2, 0 <= s /\ s + 1 / 10000 <= PI /\ d1 <> vzero /\ d2 <> vzero /\
  ~ parallel d1 d2 /\ ~ in_sector (s + 1 / 10000) d1 /\ in_sector s d2.
Proof.
  pose proof PI2_3_2 as P32.
  assert (N1 : V3 1 0 0 <> vzero) by (unfold vzero; intros C; injection C as C; lra).
  assert (N2 : ez <> vzero) by (apply unit_nz, ez_unit).
  exists (PI / 3), (V3 1 0 0), ez. split; [lra|]. split; [lra|]. split; [exact N1|]. split; [exact N2|]. split; [|split].
  - unfold parallel, ez, cross, vzero. cbn [vx vy vz]. intros C. injection C as C. lra.
  - intros C. apply angle_le in C; [|exact N1|lra].
    replace (V3 1 0 0) with (V3 (sin (PI / 2)) 0 (cos (PI / 2))) in C by (rewrite sin_PI2, cos_PI2; reflexivity).
    rewrite angle_plane in C; lra.
  - unfold in_sector. rewrite (dot_unit _ ez_unit), cos_PI3. unfold ez. cbn [vz]. lra.
Qed.
