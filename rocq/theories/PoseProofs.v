(** Facts about rigid motions. *)
From Coq Require Import Reals Lra Lia Psatz.
From Verif Require Import Pose.
Open Scope R_scope.

Ltac vdestruct :=
  repeat match goal with
         | v : vec |- _ => destruct v as [? ? ?]
         | q : quat |- _ => destruct q as [? ?]
         | g : se3 |- _ => destruct g as [? ?]
         end.
Ltac vring :=
  intros; vdestruct;
  unfold act, smul, sinv, sid, rot, qmul, qconj, qone, qnorm2, vadd, vsub, vscale, vneg, cross, dot,
    vzero in *;
  cbn [vx vy vz qw qv so3 tr] in *; f_equal; try ring; f_equal; try ring.

Lemma vadd_zero_l a : vadd vzero a = a. Proof. vring. Qed.
Lemma vadd_zero_r a : vadd a vzero = a. Proof. vring. Qed.
Lemma vadd_comm a b : vadd a b = vadd b a. Proof. vring. Qed.
Lemma vadd_assoc a b c : vadd a (vadd b c) = vadd (vadd a b) c. Proof. vring. Qed.
Lemma vscale_1 a : vscale 1 a = a. Proof. vring. Qed.
Lemma vscale_0 a : vscale 0 a = vzero. Proof. vring. Qed.
Lemma vscale_zero k : vscale k vzero = vzero. Proof. vring. Qed.
Lemma vscale_scale a b v : vscale a (vscale b v) = vscale (a * b) v. Proof. vring. Qed.
Lemma vneg_invol a : vneg (vneg a) = a. Proof. vring. Qed.

Lemma rot_mul a b p : rot (qmul a b) p = rot a (rot b p). Proof. vring. Qed.
Lemma rot_one p : rot qone p = p. Proof. vring. Qed.
Lemma rot_add q a b : rot q (vadd a b) = vadd (rot q a) (rot q b). Proof. vring. Qed.
Lemma rot_scale q k a : rot q (vscale k a) = vscale k (rot q a). Proof. vring. Qed.
Lemma rot_neg q a : rot q (vneg a) = vneg (rot q a). Proof. vring. Qed.
Lemma rot_zero q : rot q vzero = vzero. Proof. vring. Qed.
Lemma rot_opp q p : rot (Q4 (- qw q) (vneg (qv q))) p = rot q p. Proof. vring. Qed.

Lemma qmul_assoc a b c : qmul a (qmul b c) = qmul (qmul a b) c. Proof. vring. Qed.
Lemma qmul_one_r a : qmul a qone = a. Proof. vring. Qed.
Lemma qmul_one_l a : qmul qone a = a. Proof. vring. Qed.
Lemma qconj_mul a b : qconj (qmul a b) = qmul (qconj b) (qconj a). Proof. vring. Qed.
Lemma qconj_invol a : qconj (qconj a) = a. Proof. vring. Qed.
Lemma qnorm2_mul a b : qnorm2 (qmul a b) = qnorm2 a * qnorm2 b.
Proof. vdestruct. unfold qnorm2, qmul, vadd, vscale, cross, dot. cbn. ring. Qed.
Lemma qnorm2_conj a : qnorm2 (qconj a) = qnorm2 a.
Proof. vdestruct. unfold qnorm2, qconj, vneg, dot. cbn. ring. Qed.

Lemma qconj_l a : unit_quat a -> qmul (qconj a) a = qone.
Proof.
  unfold unit_quat. intros H. vdestruct.
  unfold qmul, qconj, qone, qnorm2, vadd, vscale, vneg, cross, dot, vzero in *. cbn in *.
  f_equal; [lra|]. f_equal; ring.
Qed.
Lemma qconj_r a : unit_quat a -> qmul a (qconj a) = qone.
Proof.
  intros H. rewrite <- (qconj_invol a) at 1. apply qconj_l. unfold unit_quat.
  rewrite qnorm2_conj. exact H.
Qed.

Lemma unit_mul a b : unit_quat a -> unit_quat b -> unit_quat (qmul a b).
Proof. unfold unit_quat. intros A B. rewrite qnorm2_mul, A, B. ring. Qed.
Lemma unit_conj a : unit_quat a -> unit_quat (qconj a).
Proof. unfold unit_quat. rewrite qnorm2_conj. auto. Qed.
Lemma unit_one : unit_quat qone.
Proof. unfold unit_quat, qnorm2, qone, dot, vzero. cbn. ring. Qed.

Lemma rot_conj_l q p : unit_quat q -> rot (qconj q) (rot q p) = p.
Proof. intros H. rewrite <- rot_mul, (qconj_l q H). apply rot_one. Qed.
Lemma rot_conj_r q p : unit_quat q -> rot q (rot (qconj q) p) = p.
Proof. intros H. rewrite <- rot_mul, (qconj_r q H). apply rot_one. Qed.

(** A rotation keeps scalar products. *)
Lemma rot_dot q a b : unit_quat q -> dot (rot q a) (rot q b) = dot a b.
Proof.
  intros H. assert (E : dot (rot q a) (rot q b) = qnorm2 q * qnorm2 q * dot a b).
  { vdestruct. unfold rot, qnorm2, vadd, vscale, cross, dot. cbn. ring. }
  rewrite E. unfold unit_quat in H. rewrite H. ring.
Qed.
Lemma rot_norm q a : unit_quat q -> vnorm (rot q a) = vnorm a.
Proof. intros H. unfold vnorm. rewrite (rot_dot q a a H). reflexivity. Qed.

(** * Rigid motions *)
Lemma act_mul g h p : act (smul g h) p = act g (act h p).
Proof. unfold act, smul. cbn [so3 tr]. rewrite rot_mul, rot_add, vadd_assoc. reflexivity. Qed.
Lemma act_id p : act sid p = p.
Proof. unfold act, sid. cbn [so3 tr]. rewrite rot_one. apply vadd_zero_r. Qed.
Lemma smul_assoc a b c : smul a (smul b c) = smul (smul a b) c.
Proof.
  unfold smul. cbn [so3 tr]. f_equal; [apply qmul_assoc|].
  rewrite rot_mul, rot_add, vadd_assoc. reflexivity.
Qed.
Lemma smul_id_l g : smul sid g = g.
Proof. destruct g as [q t]. unfold smul, sid. cbn [so3 tr]. rewrite qmul_one_l, rot_one, vadd_zero_r. reflexivity. Qed.
Lemma smul_id_r g : smul g sid = g.
Proof. destruct g as [q t]. unfold smul, sid. cbn [so3 tr]. rewrite qmul_one_r, rot_zero, vadd_zero_l. reflexivity. Qed.
Lemma sinv_l g : rigid g -> smul (sinv g) g = sid.
Proof.
  intros H. destruct g as [q t]. unfold smul, sinv, sid, rigid in *. cbn [so3 tr] in *.
  rewrite (qconj_l q H). f_equal. rewrite rot_neg. vring.
Qed.
Lemma sinv_r g : rigid g -> smul g (sinv g) = sid.
Proof.
  intros H. destruct g as [q t]. unfold smul, sinv, sid, rigid in *. cbn [so3 tr] in *.
  rewrite (qconj_r q H). f_equal. rewrite (rot_conj_r q _ H). vring.
Qed.
Lemma rigid_mul a b : rigid a -> rigid b -> rigid (smul a b).
Proof. unfold rigid, smul. cbn [so3]. apply unit_mul. Qed.
Lemma rigid_inv a : rigid a -> rigid (sinv a).
Proof. unfold rigid, sinv. cbn [so3]. apply unit_conj. Qed.
Lemma rigid_id : rigid sid.
Proof. apply unit_one. Qed.
Lemma sinv_mul a b : rigid a -> rigid b -> sinv (smul a b) = smul (sinv b) (sinv a).
Proof.
  intros A B. rewrite <- (smul_id_r (smul (sinv b) (sinv a))).
  rewrite <- (sinv_r (smul a b)) by (apply rigid_mul; assumption).
  rewrite !smul_assoc. rewrite <- (smul_assoc (sinv b) (sinv a) a), (sinv_l a A), smul_id_r.
  rewrite (sinv_l b B), smul_id_l. reflexivity.
Qed.
Lemma sinv_invol a : rigid a -> sinv (sinv a) = a.
Proof.
  intros A. rewrite <- (smul_id_r (sinv (sinv a))), <- (sinv_l a A), smul_assoc.
  rewrite (sinv_l (sinv a)) by (apply rigid_inv; exact A). apply smul_id_l.
Qed.

(** * Exponential and logarithm *)
Lemma dot_self_nonneg v : 0 <= dot v v.
Proof. vdestruct. unfold dot. cbn. nra. Qed.
Lemma vnorm_nonneg v : 0 <= vnorm v.
Proof. apply sqrt_pos. Qed.
Lemma vnorm_sq v : vnorm v * vnorm v = dot v v.
Proof. apply sqrt_sqrt, dot_self_nonneg. Qed.
Lemma vnorm_0 v : vnorm v = 0 -> v = vzero.
Proof.
  intros H. assert (D : dot v v = 0) by (rewrite <- vnorm_sq, H; ring).
  destruct v as [a b c]. unfold dot, vzero in *. cbn in *. f_equal; nra.
Qed.
Lemma vnorm_zero : vnorm vzero = 0.
Proof. unfold vnorm, dot, vzero. cbn. replace (0 * 0 + 0 * 0 + 0 * 0) with 0 by ring. apply sqrt_0. Qed.
Lemma vnorm_scale k v : vnorm (vscale k v) = Rabs k * vnorm v.
Proof.
  unfold vnorm. replace (dot (vscale k v) (vscale k v)) with (k * k * dot v v).
  - rewrite sqrt_mult_alt by nra. f_equal. apply sqrt_Rsqr_abs.
  - vdestruct. unfold dot, vscale. cbn. ring.
Qed.

Lemma so3_exp_zero : so3_exp vzero = qone.
Proof. unfold so3_exp. destruct (Req_EM_T (vnorm vzero) 0) as [_|N]; [reflexivity|]. destruct N. apply vnorm_zero. Qed.
Lemma Vmat_zero p : Vmat vzero p = p.
Proof. unfold Vmat. destruct (Req_EM_T (vnorm vzero) 0) as [_|N]; [reflexivity|]. destruct N. apply vnorm_zero. Qed.
Lemma Vinv_zero p : Vinv vzero p = p.
Proof. unfold Vinv. destruct (Req_EM_T (vnorm vzero) 0) as [_|N]; [reflexivity|]. destruct N. apply vnorm_zero. Qed.

(** exp gives rotations. *)
Lemma so3_exp_unit w : unit_quat (so3_exp w).
Proof.
  unfold so3_exp. destruct (Req_EM_T (vnorm w) 0) as [_|N]; [apply unit_one|].
  unfold unit_quat, qnorm2. cbn [qw qv]. set (t := vnorm w) in *.
  replace (dot (vscale (sin (t / 2) / t) w) (vscale (sin (t / 2) / t) w))
    with ((sin (t / 2) / t) * (sin (t / 2) / t) * (t * t)).
  - replace (cos (t / 2) * cos (t / 2) + sin (t / 2) / t * (sin (t / 2) / t) * (t * t))
      with (Rsqr (sin (t / 2)) + Rsqr (cos (t / 2))) by (unfold Rsqr; field; exact N).
    apply sin2_cos2.
  - unfold t. rewrite vnorm_sq. vdestruct. unfold dot, vscale. cbn. ring.
Qed.

(** exp (a / n * v) for a vector of length n. *)
Lemma so3_exp_along v n a :
  vnorm v = n -> 0 < n ->
  so3_exp (vscale (2 * a / n) v) = Q4 (cos a) (vscale (sin a / n) v).
Proof.
  intros Hn P. unfold so3_exp. rewrite vnorm_scale, Hn.
  assert (E : Rabs (2 * a / n) * n = 2 * Rabs a).
  { unfold Rdiv. rewrite !Rabs_mult, (Rabs_right 2), (Rabs_right (/ n)).
    - field. lra.
    - left. apply Rinv_0_lt_compat. exact P.
    - lra. }
  rewrite E. destruct (Req_EM_T (2 * Rabs a) 0) as [Z|NZ].
  - assert (a = 0) as -> by (destruct (Req_dec a 0); [assumption|apply Rabs_pos_lt in H; lra]).
    rewrite cos_0, sin_0. unfold qone, Rdiv. rewrite Rmult_0_l, vscale_0. reflexivity.
  - replace (2 * Rabs a / 2) with (Rabs a) by field. f_equal.
    + unfold Rabs. destruct (Rcase_abs a); [apply cos_neg|reflexivity].
    + rewrite vscale_scale. f_equal. unfold Rabs in *. destruct (Rcase_abs a).
      * rewrite sin_neg. field. lra.
      * field. split; lra.
Qed.

Lemma so3_exp_log q p : unit_quat q -> rot (so3_exp (so3_log q)) p = rot q p.
Proof.
  intros U. unfold so3_log. destruct (Req_EM_T (vnorm (qv q)) 0) as [Z|NZ].
  - rewrite so3_exp_zero, rot_one. apply vnorm_0 in Z.
    unfold unit_quat, qnorm2 in U. destruct q as [w v]. cbn [qw qv] in *. subst v.
    unfold dot, vzero in U. cbn in U. destruct p as [a b c].
    unfold rot, vadd, vscale, cross, dot, vzero. cbn.
    replace (w * w) with 1 by lra. f_equal; ring.
  - set (n := vnorm (qv q)) in *. assert (P : 0 < n) by (pose proof (vnorm_nonneg (qv q)); unfold n in *; lra).
    assert (N2 : n * n = 1 - qw q * qw q).
    { unfold n. rewrite vnorm_sq. unfold unit_quat, qnorm2 in U. lra. }
    destruct (Req_EM_T (qw q) 0) as [W|W].
    + rewrite W in N2. assert (n = 1) by nra.
      replace (PI / n) with (2 * (PI / 2) / n) by (field; lra).
      rewrite (so3_exp_along (qv q) n (PI / 2) eq_refl P), cos_PI2, sin_PI2.
      rewrite H. replace (1 / 1) with 1 by field. rewrite vscale_1.
      destruct q as [w v]. cbn [qw qv] in *. subst w. reflexivity.
    + rewrite (so3_exp_along (qv q) n (atan (n / qw q)) eq_refl P).
      rewrite cos_atan, sin_atan.
      assert (S : sqrt (1 + (n / qw q)²) = / Rabs (qw q)).
      { replace (1 + (n / qw q)²) with ((/ qw q)²).
        - rewrite sqrt_Rsqr_abs. apply Rabs_inv.
        - unfold Rsqr. apply (Rmult_eq_reg_r (qw q * qw q)); [|nra].
          field_simplify; [|assumption|assumption]. lra. }
      rewrite S.
      assert (A : Rabs (qw q) <> 0) by (apply Rabs_no_R0; exact W).
      destruct q as [w v]. cbn [qw qv] in *.
      unfold Rabs in *. destruct (Rcase_abs w).
      * rewrite <- (rot_opp (Q4 w v)). cbn [qw qv]. f_equal. f_equal.
        -- field. exact W.
        -- replace (n / w / / - w / n) with (-1).
           ++ vring.
           ++ field. split; [exact W|lra].
      * f_equal. f_equal.
        -- field. exact A.
        -- replace (n / w / / w / n) with 1.
           ++ apply vscale_1.
           ++ field. split; lra.
Qed.

(** V and its inverse. *)
Lemma cross_triple w p :
  cross w (cross w (cross w p)) = vscale (- (vnorm w * vnorm w)) (cross w p).
Proof. rewrite vnorm_sq. vring. Qed.
Lemma cross_add w a b : cross w (vadd a b) = vadd (cross w a) (cross w b). Proof. vring. Qed.
Lemma cross_sub w a b : cross w (vsub a b) = vsub (cross w a) (cross w b). Proof. vring. Qed.
Lemma cross_scale w k a : cross w (vscale k a) = vscale k (cross w a). Proof. vring. Qed.

Lemma V_combination p x y b c d e :
  b - 1 / 2 - e * (b * d - c / 2) = 0 -> d - b / 2 + c - e * (c * d) = 0 ->
  vadd (vadd (vadd (vsub p (vscale (1 / 2) x)) (vscale d y))
             (vscale b (vadd (vsub x (vscale (1 / 2) y)) (vscale d (vscale (- e) x)))))
       (vscale c (vadd (vsub y (vscale (1 / 2) (vscale (- e) x))) (vscale d (vscale (- e) y)))) = p.
Proof.
  intros H1 H2. destruct p as [p1 p2 p3], x as [x1 x2 x3], y as [y1 y2 y3].
  unfold vadd, vsub, vscale. cbn [vx vy vz].
  assert (G : forall p x y : R,
    p - 1 / 2 * x + d * y + b * (x - 1 / 2 * y + d * (- e * x)) +
    c * (y - 1 / 2 * (- e * x) + d * (- e * y)) = p).
  { intros q u v.
    transitivity (q + u * (b - 1 / 2 - e * (b * d - c / 2)) + v * (d - b / 2 + c - e * (c * d)));
      [field|]. rewrite H1, H2. ring. }
  f_equal; apply G.
Qed.

Lemma Vmat_Vinv w p : 0 < vnorm w < 2 * PI -> Vmat w (Vinv w p) = p.
Proof.
  intros [T0 T1]. unfold Vmat, Vinv.
  destruct (Req_EM_T (vnorm w) 0) as [Z|NZ]; [lra|]. pose proof (cross_triple w) as TR.
  set (t := vnorm w) in *.
  repeat rewrite ?cross_add, ?cross_sub, ?cross_scale, ?TR.
  assert (S : 0 < sin (t / 2)) by (apply sin_gt_0; lra).
  assert (C1 : 1 - cos t = 2 * (sin (t / 2) * sin (t / 2))).
  { replace t with (2 * (t / 2)) at 1 by field. rewrite cos_2a_sin. ring. }
  assert (S1 : sin t = 2 * (sin (t / 2) * cos (t / 2))).
  { replace t with (2 * (t / 2)) at 1 by field. rewrite sin_2a. ring. }
  assert (P : sin (t / 2) * sin (t / 2) + cos (t / 2) * cos (t / 2) = 1)
    by (pose proof (sin2_cos2 (t / 2)); unfold Rsqr in *; assumption).
  rewrite C1, S1. set (s := sin (t / 2)) in *. set (c := cos (t / 2)) in *.
  apply V_combination.
  - field. split; lra.
  - replace ((1 - t * (c / s) / 2) / (t * t) - 2 * (s * s) / (t * t) / 2 +
             (t - 2 * (s * c)) / (t * t * t) -
             t * t * ((t - 2 * (s * c)) / (t * t * t) * ((1 - t * (c / s) / 2) / (t * t))))
      with ((1 - (s * s + c * c)) / (t * t)) by (field; split; lra).
    rewrite P. field. lra.
Qed.

Lemma so3_log_range q : unit_quat q -> vnorm (so3_log q) <= PI.
Proof.
  intros U. pose proof PI_RGT_0 as PP. unfold so3_log. destruct (Req_EM_T (vnorm (qv q)) 0) as [Z|NZ].
  - rewrite vnorm_zero. lra.
  - assert (P : 0 < vnorm (qv q)) by (pose proof (vnorm_nonneg (qv q)); lra).
    destruct (Req_EM_T (qw q) 0) as [W|W]; rewrite vnorm_scale.
    + rewrite Rabs_right.
      * right. field. lra.
      * left. apply Rdiv_lt_0_compat; lra.
    + set (n := vnorm (qv q)) in *. set (a := atan (n / qw q)).
      assert (- PI / 2 < a < PI / 2) by apply atan_bound.
      unfold Rdiv at 1. rewrite !Rabs_mult, (Rabs_right 2), (Rabs_right (/ n)).
      * replace (2 * Rabs a * / n * n) with (2 * Rabs a) by (field; lra).
        unfold Rabs. destruct (Rcase_abs a); lra.
      * left. apply Rinv_0_lt_compat. exact P.
      * lra.
Qed.

(** exp (log g) moves every point as g does. *)
Lemma se3_exp_log g p : rigid g -> act (se3_exp (se3_log g)) p = act g p.
Proof.
  intros U. unfold act, se3_exp, se3_log. cbn [fst snd so3 tr].
  rewrite (so3_exp_log (so3 g) p U). f_equal.
  pose proof (so3_log_range _ U). pose proof (vnorm_nonneg (so3_log (so3 g))).
  destruct (Req_dec (vnorm (so3_log (so3 g))) 0) as [Z|NZ].
  - apply vnorm_0 in Z. rewrite Z, Vinv_zero. apply Vmat_zero.
  - apply Vmat_Vinv. pose proof PI_RGT_0. lra.
Qed.

Lemma tscale_1 x : tscale 1 x = x.
Proof. destruct x. unfold tscale. cbn [fst snd]. rewrite !vscale_1. reflexivity. Qed.

Lemma se3_exp_zero : se3_exp (vzero, vzero) = sid.
Proof. unfold se3_exp. cbn [fst snd]. rewrite so3_exp_zero, Vmat_zero. reflexivity. Qed.

(** Motions without rotation. *)
Lemma so3_log_trivial q : unit_quat q -> (forall p, rot q p = p) -> so3_log q = vzero.
Proof.
  intros U H. unfold so3_log. destruct (Req_EM_T (vnorm (qv q)) 0) as [_|NZ]; [reflexivity|].
  exfalso. apply NZ. unfold unit_quat, qnorm2 in U. destruct q as [w [a b c]].
  pose proof (H (V3 1 0 0)) as Hx. pose proof (H (V3 0 1 0)) as Hy. pose proof (H (V3 0 0 1)) as Hz.
  unfold rot, vadd, vscale, cross, dot in *. cbn [vx vy vz qw qv] in *.
  injection Hx as X1 X2 X3. injection Hy as Y1 Y2 Y3. injection Hz as Z1 Z2 Z3.
  assert (a = 0) by nra. assert (b = 0) by nra. assert (c = 0) by nra. subst.
  apply vnorm_zero.
Qed.

(** log after exp, below half a turn. *)
Lemma so3_log_exp w : vnorm w < PI -> so3_log (so3_exp w) = w.
Proof.
  intros L. pose proof (vnorm_nonneg w) as NN. unfold so3_exp.
  destruct (Req_EM_T (vnorm w) 0) as [Z|NZ].
  - apply vnorm_0 in Z. subst w. unfold so3_log, qone. cbn [qv].
    destruct (Req_EM_T (vnorm vzero) 0) as [_|N]; [reflexivity|]. destruct N. apply vnorm_zero.
  - set (t := vnorm w) in *.
    assert (S : 0 < sin (t / 2)) by (apply sin_gt_0; lra).
    assert (C : 0 < cos (t / 2)) by (apply cos_gt_0; lra).
    unfold so3_log. cbn [qw qv].
    assert (E : vnorm (vscale (sin (t / 2) / t) w) = sin (t / 2)).
    { rewrite vnorm_scale. fold t. rewrite Rabs_right; [field; lra|].
      left. apply Rdiv_lt_0_compat; lra. }
    rewrite E. destruct (Req_EM_T (sin (t / 2)) 0); [lra|].
    destruct (Req_EM_T (cos (t / 2)) 0); [lra|].
    change (sin (t / 2) / cos (t / 2)) with (tan (t / 2)).
    rewrite atan_tan by lra. rewrite vscale_scale.
    replace (2 * (t / 2) / sin (t / 2) * (sin (t / 2) / t)) with 1 by (field; lra).
    apply vscale_1.
Qed.

Lemma V_combination' p x y b c d e :
  b - 1 / 2 - e * (b * d - c / 2) = 0 -> d - b / 2 + c - e * (c * d) = 0 ->
  vadd (vsub (vadd (vadd p (vscale b x)) (vscale c y))
             (vscale (1 / 2) (vadd (vadd x (vscale b y)) (vscale c (vscale (- e) x)))))
       (vscale d (vadd (vadd y (vscale b (vscale (- e) x))) (vscale c (vscale (- e) y)))) = p.
Proof.
  intros H1 H2. destruct p as [p1 p2 p3], x as [x1 x2 x3], y as [y1 y2 y3].
  unfold vadd, vsub, vscale. cbn [vx vy vz].
  assert (G : forall p x y : R,
    p + b * x + c * y - 1 / 2 * (x + b * y + c * (- e * x)) +
    d * (y + b * (- e * x) + c * (- e * y)) = p).
  { intros q u v.
    transitivity (q + u * (b - 1 / 2 - e * (b * d - c / 2)) + v * (d - b / 2 + c - e * (c * d)));
      [field|]. rewrite H1, H2. ring. }
  f_equal; apply G.
Qed.

Lemma Vinv_Vmat w p : 0 < vnorm w < 2 * PI -> Vinv w (Vmat w p) = p.
Proof.
  intros [T0 T1]. unfold Vmat, Vinv.
  destruct (Req_EM_T (vnorm w) 0) as [Z|NZ]; [lra|]. pose proof (cross_triple w) as TR.
  set (t := vnorm w) in *.
  repeat rewrite ?cross_add, ?cross_sub, ?cross_scale, ?TR.
  assert (S : 0 < sin (t / 2)) by (apply sin_gt_0; lra).
  assert (C1 : 1 - cos t = 2 * (sin (t / 2) * sin (t / 2))).
  { replace t with (2 * (t / 2)) at 1 by field. rewrite cos_2a_sin. ring. }
  assert (S1 : sin t = 2 * (sin (t / 2) * cos (t / 2))).
  { replace t with (2 * (t / 2)) at 1 by field. rewrite sin_2a. ring. }
  assert (P : sin (t / 2) * sin (t / 2) + cos (t / 2) * cos (t / 2) = 1)
    by (pose proof (sin2_cos2 (t / 2)); unfold Rsqr in *; assumption).
  rewrite C1, S1. set (s := sin (t / 2)) in *. set (c := cos (t / 2)) in *.
  apply V_combination'.
  - field. split; lra.
  - replace ((1 - t * (c / s) / 2) / (t * t) - 2 * (s * s) / (t * t) / 2 +
             (t - 2 * (s * c)) / (t * t * t) -
             t * t * ((t - 2 * (s * c)) / (t * t * t) * ((1 - t * (c / s) / 2) / (t * t))))
      with ((1 - (s * s + c * c)) / (t * t)) by (field; split; lra).
    rewrite P. field. lra.
Qed.

Lemma se3_log_exp x : vnorm (snd x) < PI -> se3_log (se3_exp x) = x.
Proof.
  intros L. destruct x as [v w]. unfold se3_log, se3_exp. cbn [fst snd so3 tr] in *.
  rewrite (so3_log_exp w L). f_equal.
  destruct (Req_dec (vnorm w) 0) as [Z|NZ].
  - apply vnorm_0 in Z. subst w. rewrite Vmat_zero. apply Vinv_zero.
  - apply Vinv_Vmat. pose proof PI_RGT_0. pose proof (vnorm_nonneg w). lra.
Qed.
