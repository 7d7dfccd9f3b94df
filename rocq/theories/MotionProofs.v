(** Proofs for MotionModel. *)
From Coq Require Import Reals ZArith List Lra Lia Psatz.
From Verif Require Import Outcome Pose PoseProofs MotionModel MotionSpec.
Import ListNotations.
Open Scope R_scope.

(** * Prediction *)
Lemma screw_equal_gaps lbo last : rigid lbo -> rigid last ->
  same_motion (predict_screw 1 lbo last) (smul (smul last (sinv lbo)) last).
Proof.
  intros A B p. unfold predict_screw. rewrite tscale_1, !act_mul.
  rewrite se3_exp_log by (apply rigid_mul; [exact B|apply rigid_inv; exact A]).
  rewrite act_mul. reflexivity.
Qed.

Lemma rot_qmul_same a b p :
  (forall x, rot a x = rot b x) -> forall c, rot (qmul a c) p = rot (qmul b c) p.
Proof. intros H c. rewrite !rot_mul. apply H. Qed.

Lemma simple_equal_gaps lbo last : rigid lbo -> rigid last ->
  same_motion (predict_simple 1 lbo last) (smul (smul last (sinv lbo)) last).
Proof.
  intros A B p. unfold predict_simple. rewrite !vscale_1.
  set (g := smul last (sinv lbo)).
  assert (G : rigid g) by (apply rigid_mul; [exact B|apply rigid_inv; exact A]).
  rewrite !act_mul. unfold act. cbn [so3 tr].
  rewrite rot_mul, !(so3_exp_log (so3 g)) by exact G.
  rewrite rot_conj_r by exact G. reflexivity.
Qed.

(** Dependence on the base frame. *)
Lemma lbo_to_last_base a b h : rigid a -> rigid h ->
  smul (smul b h) (sinv (smul a h)) = smul b (sinv a).
Proof.
  intros A H. rewrite sinv_mul by assumption. rewrite smul_assoc.
  rewrite <- (smul_assoc b h (sinv h)), (sinv_r h H), smul_id_r. reflexivity.
Qed.

Lemma predict_base screw r a b h : rigid a -> rigid h ->
  predict_internal screw r (smul a h) (smul b h) = smul (predict_internal screw r a b) h.
Proof.
  intros A H. unfold predict_internal, predict_screw, predict_simple.
  rewrite lbo_to_last_base by assumption.
  destruct screw; rewrite smul_assoc; reflexivity.
Qed.

(** Uniform motions. *)
Lemma rigid_exp x : rigid (se3_exp x).
Proof. apply so3_exp_unit. Qed.

Lemma tscale_vnorm k x : vnorm (snd (tscale k x)) = Rabs k * vnorm (snd x).
Proof. destruct x. apply vnorm_scale. Qed.
Lemma tscale_tscale a b x : tscale a (tscale b x) = tscale (a * b) x.
Proof. destruct x. unfold tscale. cbn [fst snd]. rewrite !vscale_scale. reflexivity. Qed.

Lemma screw_uniform x k1 k2 lbo last : rigid lbo -> k1 <> 0 ->
  Rabs k1 * vnorm (snd x) < PI -> last = smul (se3_exp (tscale k1 x)) lbo ->
  predict_screw (k2 / k1) lbo last = smul (se3_exp (tscale k2 x)) last.
Proof.
  intros A K L ->. unfold predict_screw.
  rewrite <- (smul_assoc _ lbo (sinv lbo)), (sinv_r lbo A), smul_id_r.
  rewrite se3_log_exp by (rewrite tscale_vnorm; exact L).
  rewrite tscale_tscale. replace (k2 / k1 * k1) with k2 by (field; exact K). reflexivity.
Qed.

(** Both formulas predict the same rotation. *)
Lemma same_rotation r a b : so3 (predict_screw r a b) = so3 (predict_simple r a b).
Proof. reflexivity. Qed.

(** Translations. *)
Lemma no_rotation_rot g : no_rotation g -> forall p, rot (so3 g) p = p.
Proof.
  intros H p. specialize (H p vzero). unfold act in H. rewrite rot_zero in H.
  destruct (rot (so3 g) p) as [a b c]. destruct p as [x y z]. destruct (tr g) as [u v w].
  unfold vsub, vadd, vzero in H. cbn in H. injection H as H1 H2 H3. f_equal; lra.
Qed.

Lemma predict_translation screw r lbo last : rigid lbo -> rigid last ->
  no_rotation (smul last (sinv lbo)) ->
  forall p, act (predict_internal screw r lbo last) p
            = vadd (act last p) (vscale r (tr (smul last (sinv lbo)))).
Proof.
  intros A B N p. set (g := smul last (sinv lbo)) in *.
  assert (G : rigid g) by (apply rigid_mul; [exact B|apply rigid_inv; exact A]).
  pose proof (no_rotation_rot g N) as RT.
  pose proof (so3_log_trivial (so3 g) G RT) as LG.
  unfold predict_internal, predict_screw, predict_simple. fold g.
  destruct screw; rewrite act_mul.
  - unfold se3_log. rewrite LG, Vinv_zero. unfold tscale. cbn [fst snd]. rewrite vscale_zero.
    unfold act at 1. unfold se3_exp. cbn [so3 tr fst snd].
    rewrite so3_exp_zero, Vmat_zero, rot_one. reflexivity.
  - rewrite LG, vscale_zero, so3_exp_zero. unfold act at 1. cbn [so3 tr].
    rewrite rot_one, qmul_one_l. f_equal. f_equal.
    rewrite <- (RT (tr g)) at 1. apply rot_conj_l. exact G.
Qed.

(** Frame gaps. *)
Lemma time_ratio cur last lbo rest :
  (last <> lbo)%Z ->
  time_last_by_lbo (cur :: last :: lbo :: rest)
  = Ok (Some (IZR (cur - last) / IZR (last - lbo))).
Proof.
  intros N. unfold time_last_by_lbo. destruct (Z.eq_dec (lbo - last) 0) as [E|E]; [lia|].
  f_equal. f_equal. rewrite !minus_IZR.
  assert (IZR lbo - IZR last <> 0) by (rewrite <- minus_IZR; apply not_0_IZR; exact E).
  field. split; lra.
Qed.

Lemma predict_uniform screw table baseToWorld cur last lbo rest move :
  rigid (table lbo) -> rigid move -> rigid baseToWorld ->
  (cur - last = last - lbo)%Z -> (last <> lbo)%Z ->
  table last = smul move (table lbo) ->
  exists g, predict_base_to_cur screw table baseToWorld (cur :: last :: lbo :: rest) = Ok (Some g) /\
            same_motion g (smul (smul move (table last)) baseToWorld).
Proof.
  intros L M B G N T. unfold predict_base_to_cur. rewrite time_ratio by exact N. cbn [bind].
  rewrite G. replace (IZR (last - lbo) / IZR (last - lbo)) with 1
    by (field; apply not_0_IZR; lia).
  eexists. split; [reflexivity|]. rewrite predict_base by assumption. intros p.
  rewrite !act_mul. set (q := act baseToWorld p).
  assert (RL : rigid (table last)) by (rewrite T; apply rigid_mul; assumption).
  assert (E : smul (table last) (sinv (table lbo)) = move).
  { rewrite T, <- smul_assoc, (sinv_r _ L), smul_id_r. reflexivity. }
  destruct screw; cbn [predict_internal].
  - rewrite (screw_equal_gaps _ _ L RL), E, act_mul. reflexivity.
  - rewrite (simple_equal_gaps _ _ L RL), E, act_mul. reflexivity.
Qed.

(** * The simple formula is not exact for a screw with different gaps. *)
Definition quarter : tangent := (V3 1 0 0, V3 0 0 (PI / 2)).

Lemma vnorm_z a : 0 <= a -> vnorm (V3 0 0 a) = a.
Proof.
  intros H. unfold vnorm, dot. cbn [vx vy vz]. replace (0 * 0 + 0 * 0 + a * a) with (a * a) by ring.
  apply sqrt_square. exact H.
Qed.

Lemma simple_inexact :
  let lbo := sid in
  let last := smul (se3_exp (tscale 1 quarter)) lbo in
  rigid lbo /\ Rabs 1 * vnorm (snd quarter) < PI /\
  ~ same_motion (predict_simple (2 / 1) lbo last) (smul (se3_exp (tscale 2 quarter)) last).
Proof.
  pose proof PI_RGT_0 as PP. cbv zeta. split; [apply rigid_id|].
  split; [cbn [snd quarter]; rewrite vnorm_z, Rabs_R1; lra|].
  intros H.
  set (last := smul (se3_exp (tscale 1 quarter)) sid) in *.
  assert (R1 : last = se3_exp quarter) by (unfold last; rewrite smul_id_r, tscale_1; reflexivity).
  assert (RG : rigid last) by (rewrite R1; apply rigid_exp).
  (* compare at the point that [last] moves to the origin *)
  specialize (H (act (sinv last) vzero)). unfold predict_simple in H.
  assert (E0 : smul last (sinv sid) = last).
  { replace (sinv sid) with sid; [apply smul_id_r|].
    rewrite <- (smul_id_r (sinv sid)). symmetry. apply sinv_l, rigid_id. }
  rewrite E0, !act_mul in H. rewrite <- !(act_mul last (sinv last)) in H.
  rewrite (sinv_r last RG), act_id in H. unfold act in H. rewrite !rot_zero, !vadd_zero_l in H.
  cbn [tr] in H.
  assert (L1 : so3_log (so3 last) = V3 0 0 (PI / 2)).
  { rewrite R1. unfold se3_exp. cbn [so3]. apply so3_log_exp. cbn [snd quarter].
    rewrite vnorm_z; lra. }
  rewrite L1 in H. replace (2 / 1) with 2 in H by field.
  assert (W : vscale 2 (V3 0 0 (PI / 2)) = V3 0 0 PI).
  { unfold vscale. cbn. f_equal; field. }
  rewrite W in H.
  assert (RQ : so3_exp (V3 0 0 PI) = Q4 0 (V3 0 0 1)).
  { unfold so3_exp. rewrite vnorm_z by lra. destruct (Req_EM_T PI 0); [lra|].
    rewrite cos_PI2, sin_PI2. unfold vscale. cbn. f_equal. f_equal; field; lra. }
  rewrite RQ in H.
  assert (TR : tr last = V3 (2 / PI) (2 / PI) 0).
  { rewrite R1. unfold se3_exp, quarter. cbn [tr fst snd]. unfold Vmat. rewrite vnorm_z by lra.
    destruct (Req_EM_T (PI / 2) 0); [lra|]. rewrite cos_PI2, sin_PI2.
    unfold vadd, vscale, cross. cbn [vx vy vz]. f_equal; field; lra. }
  assert (SO : so3 last = Q4 (cos (PI / 2 / 2)) (V3 0 0 (sin (PI / 2 / 2)))).
  { rewrite R1. unfold se3_exp, quarter. cbn [so3 fst snd]. unfold so3_exp. rewrite vnorm_z by lra.
    destruct (Req_EM_T (PI / 2) 0); [lra|]. unfold vscale. cbn [vx vy vz]. f_equal. f_equal; field; lra. }
  assert (TE : tr (se3_exp (tscale 2 quarter)) = V3 0 (4 / PI) 0).
  { unfold se3_exp, quarter, tscale. cbn [tr fst snd]. rewrite W. unfold Vmat. rewrite vnorm_z by lra.
    destruct (Req_EM_T PI 0); [lra|]. rewrite cos_PI, sin_PI.
    unfold vadd, vscale, cross. cbn [vx vy vz]. f_equal; field; lra. }
  rewrite TE, TR, SO in H. clear TE TR SO RQ W L1 E0 RG R1.
  set (c := cos (PI / 2 / 2)) in *. set (s := sin (PI / 2 / 2)) in *.
  assert (SC : s * c = 1 / 2).
  { assert (X : sin (2 * (PI / 2 / 2)) = 2 * s * c) by apply sin_2a.
    replace (2 * (PI / 2 / 2)) with (PI / 2) in X by field. rewrite sin_PI2 in X. lra. }
  assert (CS : c * c = s * s).
  { assert (X : cos (2 * (PI / 2 / 2)) = c * c - s * s) by apply cos_2a.
    replace (2 * (PI / 2 / 2)) with (PI / 2) in X by field. rewrite cos_PI2 in X. lra. }
  unfold rot, qmul, qconj, vneg, vadd, vscale, cross, dot in H. cbn [vx vy vz qw qv] in H.
  injection H as H1 _ _.
  assert (I : 0 < 2 / PI) by (apply Rdiv_lt_0_compat; lra). set (u := 2 / PI) in *. nra.
Qed.

(** * Alignment *)
Lemma rigid_scale k g : rigid g -> rigid (scale_tr k g).
Proof. auto. Qed.

Lemma aligner_ok wf ws gf gs :
  rigid wf -> rigid ws -> rigid gf -> rigid gs ->
  1 / 1000 <= vnorm (tr (smul gs (sinv gf))) -> 1 / 1000 <= vnorm (tr (smul ws (sinv wf))) ->
  exists s, 0 < s /\ scaleGTToDso (aligner_new wf ws gf gs) = Some s /\
    rigid (gtToDso (aligner_new wf ws gf gs)) /\
    s = vnorm (tr (smul ws (sinv wf))) / vnorm (tr (smul gs (sinv gf))) /\
    align_world_to_frame (aligner_new wf ws gf gs) gf = Ok wf.
Proof.
  intros R1 R2 R3 R4 N1 N2. unfold aligner_new.
  destruct (Rlt_dec (vnorm (tr (smul gs (sinv gf)))) (1 / 1000)); [lra|].
  destruct (Rlt_dec (vnorm (tr (smul ws (sinv wf)))) (1 / 1000)); [lra|].
  eexists. cbn [scaleGTToDso gtToDso]. split; [|split; [reflexivity|split; [|split; [reflexivity|]]]].
  - apply Rdiv_lt_0_compat; lra.
  - apply rigid_mul; [|exact R1]. apply rigid_inv. exact R3.
  - unfold align_world_to_frame. cbn [scaleGTToDso gtToDso]. f_equal.
    rewrite smul_assoc, sinv_r by exact R3. apply smul_id_l.
Qed.

Lemma align_static wf ws gf gs :
  vnorm (tr (smul gs (sinv gf))) < 1 / 1000 \/ vnorm (tr (smul ws (sinv wf))) < 1 / 1000 ->
  scaleGTToDso (aligner_new wf ws gf gs) = None.
Proof.
  intros H. unfold aligner_new.
  destruct (Rlt_dec (vnorm (tr (smul gs (sinv gf)))) (1 / 1000)); [reflexivity|].
  destruct (Rlt_dec (vnorm (tr (smul ws (sinv wf)))) (1 / 1000)); [reflexivity|]. lra.
Qed.

(** Relative poses. *)
Lemma scale_relative s a b : rigid a ->
  smul (scale_tr s b) (sinv (scale_tr s a)) = scale_tr s (smul b (sinv a)).
Proof.
  intros A. unfold scale_tr, smul, sinv. cbn [so3 tr]. f_equal.
  repeat rewrite ?rot_neg, ?rot_scale. generalize (rot (so3 b) (rot (qconj (so3 a)) (tr a))) (tr b).
  intros u v. vring.
Qed.

Lemma align_relative al s a b a' b' :
  scaleGTToDso al = Some s -> rigid (gtToDso al) -> rigid a ->
  align_world_to_frame al a = Ok a' -> align_world_to_frame al b = Ok b' ->
  smul b' (sinv a') = scale_tr s (smul b (sinv a)).
Proof.
  intros S G A HA HB. unfold align_world_to_frame in *. rewrite S in *.
  injection HA as <-. injection HB as <-.
  rewrite lbo_to_last_base by (auto using rigid_scale).
  apply scale_relative. exact A.
Qed.

(** Camera centres. *)
Lemma center_rel g h cg ch : rigid g -> rigid h ->
  camera_center g cg -> camera_center h ch ->
  distance cg ch = vnorm (tr (smul h (sinv g))).
Proof.
  unfold camera_center, distance. intros G H Cg Ch.
  assert (E : act (smul h (sinv g)) vzero = act h cg).
  { rewrite act_mul, <- Cg, <- (act_mul (sinv g) g cg), (sinv_l g G), act_id. reflexivity. }
  unfold act at 1 in E. rewrite rot_zero, vadd_zero_l in E. rewrite E.
  assert (D : vsub (act h cg) (act h ch) = rot (so3 h) (vsub cg ch)).
  { unfold act. generalize (so3 h) (tr h). intros q t. vring. }
  rewrite Ch in D. replace (vsub (act h cg) vzero) with (act h cg) in D by (generalize (act h cg); intros u; vring).
  rewrite D. symmetry. apply rot_norm. exact H.
Qed.

Lemma align_distances al s a b a' b' ca cb ca' cb' :
  scaleGTToDso al = Some s -> 0 < s -> rigid (gtToDso al) -> rigid a -> rigid b ->
  align_world_to_frame al a = Ok a' -> align_world_to_frame al b = Ok b' ->
  camera_center a ca -> camera_center b cb -> camera_center a' ca' -> camera_center b' cb' ->
  distance ca' cb' = s * distance ca cb.
Proof.
  intros S P G A B HA HB Ca Cb Ca' Cb'.
  assert (RA : rigid a').
  { unfold align_world_to_frame in HA. rewrite S in HA. injection HA as <-.
    apply rigid_mul; [exact A|exact G]. }
  assert (RB : rigid b').
  { unfold align_world_to_frame in HB. rewrite S in HB. injection HB as <-.
    apply rigid_mul; [exact B|exact G]. }
  rewrite (center_rel a' b' ca' cb' RA RB Ca' Cb'), (center_rel a b ca cb A B Ca Cb).
  rewrite (align_relative al s a b a' b' S G A HA HB). cbn [scale_tr tr].
  rewrite vnorm_scale, Rabs_right by lra. reflexivity.
Qed.

(** The same ground-truth point seen from any frame gives the same aligned point. *)
Lemma align_points al s g g' x y :
  scaleGTToDso al = Some s -> rigid (gtToDso al) -> rigid g ->
  align_world_to_frame al g = Ok g' -> align_scale al (act g x) = Ok y ->
  act (sinv g') y = act (sinv (gtToDso al)) (vscale s x).
Proof.
  intros S G R HG HY. unfold align_world_to_frame, align_scale in *. rewrite S in *.
  injection HG as <-. injection HY as <-.
  rewrite sinv_mul by (auto using rigid_scale). rewrite act_mul. f_equal.
  assert (E : vscale s (act g x) = act (scale_tr s g) (vscale s x)).
  { unfold act, scale_tr. cbn [so3 tr]. rewrite rot_scale. generalize (rot (so3 g) x) (tr g). intros u v. vring. }
  rewrite E, <- act_mul, sinv_l by exact R. apply act_id.
Qed.

Lemma predict_few screw table b2w ns : (length ns < 3)%nat ->
  predict_base_to_cur screw table b2w ns = Abort.
Proof.
  intros H. destruct ns as [|a [|b [|c ns]]]; try reflexivity. cbn in H. lia.
Qed.

Lemma predict_zero_gap screw table b2w cur last rest :
  predict_base_to_cur screw table b2w (cur :: last :: last :: rest) = Ok None.
Proof.
  unfold predict_base_to_cur, time_last_by_lbo. destruct (Z.eq_dec (last - last) 0); [|lia].
  reflexivity.
Qed.

Lemma predict_gaps screw table b2w cur last lbo rest :
  rigid (table lbo) -> rigid b2w -> (last <> lbo)%Z ->
  predict_base_to_cur screw table b2w (cur :: last :: lbo :: rest)
  = Ok (Some (smul (predict_internal screw (IZR (cur - last) / IZR (last - lbo))
                     (table lbo) (table last)) b2w)).
Proof.
  intros A B N. unfold predict_base_to_cur. rewrite time_ratio by exact N. cbn [bind].
  rewrite predict_base by assumption. reflexivity.
Qed.

Lemma predict_uniform_screw table b2w cur last lbo rest x :
  rigid (table lbo) -> rigid b2w -> (last <> lbo)%Z ->
  Rabs (IZR (last - lbo)) * vnorm (snd x) < PI ->
  table last = smul (se3_exp (tscale (IZR (last - lbo)) x)) (table lbo) ->
  predict_base_to_cur true table b2w (cur :: last :: lbo :: rest)
  = Ok (Some (smul (smul (se3_exp (tscale (IZR (cur - last)) x)) (table last)) b2w)).
Proof.
  intros A B N L T. rewrite predict_gaps by assumption. cbn [predict_internal].
  assert (K : IZR (last - lbo) <> 0) by (apply not_0_IZR; lia).
  rewrite (screw_uniform x _ (IZR (cur - last)) _ _ A K L T). reflexivity.
Qed.

Lemma predict_translation_gaps screw table b2w cur last lbo rest :
  rigid (table lbo) -> rigid (table last) -> rigid b2w -> (last <> lbo)%Z ->
  no_rotation (smul (table last) (sinv (table lbo))) ->
  exists g, predict_base_to_cur screw table b2w (cur :: last :: lbo :: rest) = Ok (Some g) /\
    forall p, act g p = vadd (act (table last) (act b2w p))
                             (vscale (IZR (cur - last) / IZR (last - lbo))
                                (tr (smul (table last) (sinv (table lbo))))).
Proof.
  intros A B C N NR. rewrite predict_gaps by assumption. eexists. split; [reflexivity|].
  intros p. rewrite act_mul. apply predict_translation; assumption.
Qed.

(** The alignment in one statement. *)
Lemma align_all wf ws gf gs :
  rigid wf -> rigid ws -> rigid gf -> rigid gs ->
  1 / 1000 <= vnorm (tr (smul gs (sinv gf))) -> 1 / 1000 <= vnorm (tr (smul ws (sinv wf))) ->
  let al := aligner_new wf ws gf gs in
  align_world_to_frame al gf = Ok wf /\
  (exists s, 0 < s /\
    (forall a b a' b' ca cb ca' cb', rigid a -> rigid b ->
      align_world_to_frame al a = Ok a' -> align_world_to_frame al b = Ok b' ->
      camera_center a ca -> camera_center b cb -> camera_center a' ca' -> camera_center b' cb' ->
      distance ca' cb' = s * distance ca cb) /\
    (forall g, exists g', align_world_to_frame al g = Ok g') /\
    (forall x, exists y, align_scale al x = Ok y)) /\
  (forall gs' c1 c2 d1 d2, align_world_to_frame al gs = Ok gs' ->
     camera_center wf c1 -> camera_center gs' c2 -> camera_center ws d2 -> camera_center wf d1 ->
     distance c1 c2 = distance d1 d2) /\
  (forall a b a' b', rigid a -> rigid b ->
     align_world_to_frame al a = Ok a' -> align_world_to_frame al b = Ok b' ->
     forall p, rot (so3 (smul b' (sinv a'))) p = rot (so3 (smul b (sinv a))) p) /\
  (forall g h x g' h' y z, rigid g -> rigid h ->
     align_world_to_frame al g = Ok g' -> align_world_to_frame al h = Ok h' ->
     align_scale al (act g x) = Ok y -> align_scale al (act h x) = Ok z ->
     act (sinv g') y = act (sinv h') z).
Proof.
  intros R1 R2 R3 R4 N1 N2 al.
  destruct (aligner_ok wf ws gf gs R1 R2 R3 R4 N1 N2) as (s & P & S & G & E & F). fold al in S, G, F.
  split; [exact F|]. split; [|split; [|split]].
  - exists s. split; [exact P|]. split; [|split].
    + intros a b a' b' ca cb ca' cb' RA RB HA HB CA CB CA' CB'.
      exact (align_distances al s a b a' b' ca cb ca' cb' S P G RA RB HA HB CA CB CA' CB').
    + intros g. unfold align_world_to_frame. rewrite S. eexists. reflexivity.
    + intros x. unfold align_scale. rewrite S. eexists. reflexivity.
  - intros gs' c1 c2 d1 d2 A C1 C2 D2 D1.
    assert (RA : rigid gs').
    { unfold align_world_to_frame in A. rewrite S in A. injection A as <-.
      apply rigid_mul; [exact R4|exact G]. }
    rewrite (center_rel wf gs' c1 c2 R1 RA C1 C2), (center_rel wf ws d1 d2 R1 R2 D1 D2).
    rewrite (align_relative al s gf gs wf gs' S G R3 F A). cbn [scale_tr tr].
    rewrite vnorm_scale, Rabs_right by lra. rewrite E. field. intro Z0. rewrite Z0 in N1. lra.
  - intros a b a' b' RA RB A B p. rewrite (align_relative al s a b a' b' S G RA A B). reflexivity.
  - intros g h x g' h' y z RG RH A B Y Z.
    rewrite (align_points al s g g' x y S G RG A Y), (align_points al s h h' x z S G RH B Z).
    reflexivity.
Qed.

Lemma align_static_ub wf ws gf gs :
  vnorm (tr (smul gs (sinv gf))) < 1 / 1000 \/ vnorm (tr (smul ws (sinv wf))) < 1 / 1000 ->
  (forall g, align_world_to_frame (aligner_new wf ws gf gs) g = UB) /\
  (forall x, align_scale (aligner_new wf ws gf gs) x = UB).
Proof.
  intros H. pose proof (align_static wf ws gf gs H) as E.
  split; intros; [unfold align_world_to_frame|unfold align_scale]; rewrite E; reflexivity.
Qed.

(** Every rigid pose has exactly one centre. *)
Lemma center_exists g : rigid g -> exists c, camera_center g c /\ forall d, camera_center g d -> d = c.
Proof.
  intros G. exists (act (sinv g) vzero). unfold camera_center. split.
  - rewrite <- act_mul, sinv_r by exact G. apply act_id.
  - intros d D. rewrite <- D, <- act_mul, sinv_l by exact G. symmetry. apply act_id.
Qed.

Lemma same_rotation_act r lbo last p q :
  vsub (act (predict_screw r lbo last) p) (act (predict_screw r lbo last) q)
  = vsub (act (predict_simple r lbo last) p) (act (predict_simple r lbo last) q).
Proof.
  unfold act. rewrite <- (same_rotation r lbo last).
  generalize (rot (so3 (predict_screw r lbo last)) p) (rot (so3 (predict_screw r lbo last)) q)
    (tr (predict_screw r lbo last)) (tr (predict_simple r lbo last)). intros a b c d.
  destruct a, b, c, d. unfold vsub, vadd. cbn. f_equal; ring.
Qed.

Lemma sinv_sid : sinv sid = sid.
Proof. rewrite <- (smul_id_r (sinv sid)). apply sinv_l, rigid_id. Qed.

Lemma qmul_conj_case :
  qmul (Q4 0 (V3 0 0 1)) (Q4 0 (vneg (V3 0 0 1))) = qone.
Proof. change (Q4 0 (vneg (V3 0 0 1))) with (qconj (Q4 0 (V3 0 0 1))). apply qconj_r.
  unfold unit_quat, qnorm2, dot. cbn. ring. Qed.
