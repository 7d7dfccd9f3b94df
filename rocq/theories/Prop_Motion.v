(** C08, C47: motion prediction and ground-truth alignment. *)
From Coq Require Import Reals ZArith List Lra Lia.
From Verif Require Import Outcome Pose PoseProofs MotionModel MotionSpec MotionProofs.
Import ListNotations.
Open Scope R_scope.

(** ** C08 *)

(** Equal gaps: a camera repeating the motion [move] is predicted to repeat it once more. *)
Theorem C08_repeated_motion : forall screw table baseToWorld cur last lbo rest move,
  rigid (table lbo) -> rigid move -> rigid baseToWorld ->
  (cur - last = last - lbo)%Z -> (last <> lbo)%Z ->
  table last = smul move (table lbo) ->
  exists g, predict_base_to_cur screw table baseToWorld (cur :: last :: lbo :: rest) = Ok (Some g) /\
            same_motion g (smul (smul move (table last)) baseToWorld).
Proof. exact predict_uniform. Qed.
Print Assumptions C08_repeated_motion.

(** Any gaps: a screw motion [exp(k x)] at a constant rate is continued exactly by the screw formula. *)
Theorem C08_screw : forall table baseToWorld cur last lbo rest x,
  rigid (table lbo) -> rigid baseToWorld -> (last <> lbo)%Z ->
  Rabs (IZR (last - lbo)) * vnorm (snd x) < PI ->
  table last = smul (se3_exp (tscale (IZR (last - lbo)) x)) (table lbo) ->
  predict_base_to_cur true table baseToWorld (cur :: last :: lbo :: rest)
  = Ok (Some (smul (smul (se3_exp (tscale (IZR (cur - last)) x)) (table last)) baseToWorld)).
Proof. exact predict_uniform_screw. Qed.
Print Assumptions C08_screw.

(** The simple formula does not: a quarter turn about z with forward motion, second gap doubled. *)
Theorem C08_simple_refuted :
  let lbo := sid in
  let last := smul (se3_exp (tscale 1 quarter)) lbo in
  rigid lbo /\ Rabs 1 * vnorm (snd quarter) < PI /\
  ~ same_motion (predict_simple (2 / 1) lbo last) (smul (se3_exp (tscale 2 quarter)) last).
Proof. exact simple_inexact. Qed.
Print Assumptions C08_simple_refuted.

(** Both formulas predict the same rotation. *)
Theorem C08_rotation : forall r lbo last p q,
  vsub (act (predict_screw r lbo last) p) (act (predict_screw r lbo last) q)
  = vsub (act (predict_simple r lbo last) p) (act (predict_simple r lbo last) q).
Proof. exact same_rotation_act. Qed.
Print Assumptions C08_rotation.

(** A translation without rotation is continued in proportion to the gaps. *)
Theorem C08_translation : forall screw table baseToWorld cur last lbo rest,
  rigid (table lbo) -> rigid (table last) -> rigid baseToWorld -> (last <> lbo)%Z ->
  no_rotation (smul (table last) (sinv (table lbo))) ->
  exists g, predict_base_to_cur screw table baseToWorld (cur :: last :: lbo :: rest) = Ok (Some g) /\
    forall p, act g p = vadd (act (table last) (act baseToWorld p))
                             (vscale (IZR (cur - last) / IZR (last - lbo))
                                (tr (smul (table last) (sinv (table lbo))))).
Proof. exact predict_translation_gaps. Qed.
Print Assumptions C08_translation.

(** The prediction does not depend on the frame the motion is measured from. *)
Theorem C08_base : forall screw r a b h, rigid a -> rigid h ->
  predict_internal screw r (smul a h) (smul b h) = smul (predict_internal screw r a b) h.
Proof. exact predict_base. Qed.
Print Assumptions C08_base.

(** Fewer than three frames stop the program. *)
Theorem C08_few_frames : forall screw table baseToWorld numbers,
  (length numbers < 3)%nat ->
  predict_base_to_cur screw table baseToWorld numbers = Abort.
Proof. exact predict_few. Qed.
Print Assumptions C08_few_frames.

(** Two frames with the same number: division by zero, no pose. *)
Theorem C08_same_number_refuted : forall screw table baseToWorld cur last rest,
  predict_base_to_cur screw table baseToWorld (cur :: last :: last :: rest) = Ok None.
Proof. exact predict_zero_gap. Qed.
Print Assumptions C08_same_number_refuted.

Definition stepZ : se3 := SE (Q4 0 (V3 0 0 1)) (V3 1 2 3).
Example C08_repeated_motion_case :
  rigid sid /\ rigid stepZ /\ (7 - 5 = 5 - 3)%Z /\ (5 <> 3)%Z /\
  (fun k => if Z.eqb k 5 then smul stepZ sid else sid) 5%Z = smul stepZ sid.
Proof.
  assert (U : forall t, rigid (SE (Q4 0 (V3 0 0 1)) t)).
  { intros t. unfold rigid, unit_quat, qnorm2, dot. cbn. ring. }
  split; [apply rigid_id|]. split; [apply U|]. split; [lia|]. split; [lia|]. reflexivity.
Qed.
Example C08_screw_case :
  Rabs (IZR (5 - 3)) * vnorm (snd ((V3 1 0 0, V3 0 0 1) : tangent)) < PI.
Proof.
  cbn [snd]. rewrite vnorm_z by lra. replace (5 - 3)%Z with 2%Z by lia.
  rewrite Rabs_right by lra. pose proof PI2_3_2. lra.
Qed.
Example C08_translation_case :
  no_rotation (smul (SE qone (V3 1 2 3)) (sinv sid)) /\ tr (smul (SE qone (V3 1 2 3)) (sinv sid)) = V3 1 2 3.
Proof.
  rewrite sinv_sid, smul_id_r. split; [|reflexivity].
  intros a b. unfold act. cbn [so3 tr]. rewrite !rot_one. destruct a as [a1 a2 a3], b as [b1 b2 b3]. unfold vsub, vadd. cbn [vx vy vz].
  f_equal; ring.
Qed.

(** ** C47 *)

(** Both motions of at least a millimetre: the alignment is a similarity that maps the first pose
    to its estimate, scales all distances alike, keeps rotations, and maps a point to the same
    place from whichever frame it is seen. *)
Theorem C47_similarity : forall wf ws gf gs,
  rigid wf -> rigid ws -> rigid gf -> rigid gs ->
  1 / 1000 <= vnorm (tr (smul gs (sinv gf))) -> 1 / 1000 <= vnorm (tr (smul ws (sinv wf))) ->
  let al := aligner_new wf ws gf gs in
  align_world_to_frame al gf = Ok wf /\
  (exists s, 0 < s /\
    (forall a b a' b' ca cb ca' cb', rigid a -> rigid b ->
      align_world_to_frame al a = Ok a' -> align_world_to_frame al b = Ok b' ->
      camera_center a ca -> camera_center b cb -> camera_center a' ca' -> camera_center b' cb' ->
      distance ca' cb' = s * distance ca cb) /\
    (forall g, exists g', align_world_to_frame al g = Ok g') /\
    (forall x, exists y, align_scale al x = Ok y)) /\
  (forall gs' c1 c2 d1 d2, align_world_to_frame al gs = Ok gs' ->
     camera_center wf c1 -> camera_center gs' c2 -> camera_center ws d2 -> camera_center wf d1 ->
     distance c1 c2 = distance d1 d2) /\
  (forall a b a' b', rigid a -> rigid b ->
     align_world_to_frame al a = Ok a' -> align_world_to_frame al b = Ok b' ->
     forall p, rot (so3 (smul b' (sinv a'))) p = rot (so3 (smul b (sinv a))) p) /\
  (forall g h x g' h' y z, rigid g -> rigid h ->
     align_world_to_frame al g = Ok g' -> align_world_to_frame al h = Ok h' ->
     align_scale al (act g x) = Ok y -> align_scale al (act h x) = Ok z ->
     act (sinv g') y = act (sinv h') z).
Proof. exact align_all. Qed.
Print Assumptions C47_similarity.

(** Every rigid pose has exactly one camera centre, so the distances above always exist. *)
Theorem C47_centers : forall g, rigid g ->
  exists c, camera_center g c /\ forall d, camera_center g d -> d = c.
Proof. exact center_exists. Qed.
Print Assumptions C47_centers.

(** A shorter motion on either side: every use of the aligner reads an indeterminate scale. *)
Theorem C47_static_refuted : forall wf ws gf gs,
  vnorm (tr (smul gs (sinv gf))) < 1 / 1000 \/ vnorm (tr (smul ws (sinv wf))) < 1 / 1000 ->
  (forall g, align_world_to_frame (aligner_new wf ws gf gs) g = UB) /\
  (forall x, align_scale (aligner_new wf ws gf gs) x = UB).
Proof. exact align_static_ub. Qed.
Print Assumptions C47_static_refuted.

Example C47_case :
  rigid sid /\ rigid (SE qone (V3 0 0 4)) /\ rigid stepZ /\ rigid (SE (Q4 0 (V3 0 0 1)) (V3 1 2 5)) /\
  1 / 1000 <= vnorm (tr (smul (SE (Q4 0 (V3 0 0 1)) (V3 1 2 5)) (sinv stepZ))) /\
  1 / 1000 <= vnorm (tr (smul (SE qone (V3 0 0 4)) (sinv sid))).
Proof.
  assert (U : forall t, rigid (SE (Q4 0 (V3 0 0 1)) t)).
  { intros t. unfold rigid, unit_quat, qnorm2, dot. cbn. ring. }
  split; [apply rigid_id|]. split; [apply rigid_id|]. split; [apply U|]. split; [apply U|]. split.
  - unfold stepZ, smul, sinv, qconj. cbn [so3 tr qw qv].
    rewrite !rot_neg, <- rot_mul, qmul_conj_case, rot_one. unfold vadd, vneg. cbn [vx vy vz].
    match goal with |- _ <= vnorm ?v => replace v with (V3 0 0 2) by (f_equal; ring) end.
    rewrite vnorm_z; lra.
  - rewrite sinv_sid, smul_id_r. cbn [tr]. rewrite vnorm_z; lra.
Qed.
Example C47_static_case : vnorm (tr (smul sid (sinv sid))) < 1 / 1000.
Proof. rewrite sinv_sid, smul_id_r. cbn [tr sid]. unfold vzero. rewrite vnorm_z; lra. Qed.
