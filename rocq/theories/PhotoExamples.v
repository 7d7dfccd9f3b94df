(** A concrete case for the statements about the photometric residuals. *)
From Coq Require Import Reals ZArith List Bool Lra Psatz.
From Verif Require Import Outcome Pose PoseProofs GeomModel SphereModel CamModel CamProofs LightModel BundleModel
  BundleSpec BundleMore BundleExamples PhotoModel PhotoSpec PhotoProofs PhotoTop.
Import ListNotations.
Open Scope R_scope.

(** Two keyframes on one optical axis; the first has one point, at distance one on the axis. *)
Definition axis_cam : camera :=
  {| width := 10; height := 10; unmapPolyDeg := 0; unmapPolyCoeffs := [1]; center := P2 (1 / 2) (1 / 2); scale := 10;
     maxRadius := 1; minZ := 0; maxAngle := 1; mapPolyCoeffs := [0; 1] |}.
Definition axis_point : opoint := {| o_pos := V3 5 5 0; o_lid := Some 0; o_state := ACTIVE |}.
Definition axis_first : bframe := {| k_id := 1; k_pose := sid; k_light := (0, 0); k_pts := [axis_point] |}.
Definition axis_second : bframe := {| k_id := 2; k_pose := SE qone (V3 0 0 (-1)); k_light := (0, 0); k_pts := [] |}.
Definition axis_frames : list bframe := [axis_first; axis_second].
Definition axis_image (v1 v2 : R) (n : Z) (p : pt) : R := if (n =? 1)%Z then v1 else v2.
Definition axis_residual : residual := {| r_base := 1; r_point := 0; r_ref := 2; r_pattern := 0 |}.
Definition flat (n : Z) (p : pt) : R := 0.

Lemma axis_direction : direction axis_cam (P2 5 5) = V3 0 0 1.
Proof.
  unfold direction, unmap, axis_cam. cbn [px py scale center unmapPolyDeg unmapPolyCoeffs unmap_loop coeff nth].
  replace (5 / 10 - 1 / 2) with 0 by lra. unfold normalized, vnorm, dot. cbn [vx vy vz].
  replace (0 * 0 + 0 * 0 + 1 * 1) with 1 by ring. rewrite sqrt_1.
  destruct (Rlt_dec 0 1); [|lra]. unfold vscale. cbn. f_equal; field.
Qed.

Lemma axis_reprojected : reprojected axis_cam 0 sid (SE qone (V3 0 0 (-1))) (P2 5 5) = P2 5 5.
Proof.
  unfold reprojected. rewrite axis_direction, Ropp_0, exp_0.
  replace (act _ _) with (V3 0 0 2).
  2:{ rewrite smul_id_r. unfold act, sinv. cbn [so3 tr].
      replace (qconj qone) with qone by (unfold qconj, qone, vneg, vzero; cbn; f_equal; f_equal; ring).
      rewrite !rot_one. unfold vscale, vadd, vneg. cbn. f_equal; ring. }
  rewrite map_ray_axis. 2:{ unfold radius. cbn. replace (0 * 0 + 0 * 0) with 0 by ring. apply sqrt_0. }
  cbn. f_equal; field.
Qed.

Lemma axis_visible : is_oob axis_cam 2 axis_first axis_second axis_point = false.
Proof.
  unfold is_oob. cbn [o_lid axis_point k_pose axis_first axis_second]. unfold pixel. cbn [o_pos axis_point vx vy].
  rewrite axis_reprojected. unfold is_on_image. cbn [px py width height axis_cam].
  repeat match goal with |- context [Rle_dec ?a ?b] => destruct (Rle_dec a b); [|exfalso; lra] end. reflexivity.
Qed.

Lemma axis_rigid : all_rigid axis_frames.
Proof. intros f [<-|[<-|[]]]; unfold rigid, unit_quat, qnorm2, dot; cbn; ring. Qed.
Lemma axis_nodup : NoDup (map k_id axis_frames).
Proof. cbn. constructor; [intros [X|[]]; discriminate|constructor; [intros []|constructor]]. Qed.

Lemma axis_residuals sp : p_residuals (build settings0 (is_oob axis_cam 2) axis_frames 1 axis_second sp) = [axis_residual].
Proof.
  assert (P : point_residuals settings0 (is_oob axis_cam 2) axis_frames axis_first 0 axis_point = [axis_residual]).
  { unfold point_residuals. change (o_lid axis_point) with (Some 0). unfold axis_frames. cbn [flat_map].
    change (k_id axis_first =? k_id axis_first)%Z with true. change (k_id axis_second =? k_id axis_first)%Z with false.
    cbn iota. rewrite axis_visible. reflexivity. }
  change (p_residuals _) with (((point_residuals settings0 (is_oob axis_cam 2) axis_frames axis_first 0 axis_point ++ []) ++ []) : list residual).
  rewrite P. reflexivity.
Qed.

Lemma axis_value v1 v2 : photo_value axis_cam (axis_image v1 v2) [P2 0 0] axis_frames axis_residual = v2 - v1.
Proof.
  unfold photo_value. cbn. unfold direct_residual, ba_residual, axis_image, light_apply. cbn.
  rewrite Rminus_0_r, exp_0. ring.
Qed.

Lemma axis_cost v1 v2 sp : Rabs (v2 - v1) <= 12 ->
  cost axis_cam (axis_image v1 v2) flat [P2 0 0] 1 settings0
    (build settings0 (is_oob axis_cam 2) axis_frames 1 axis_second sp) axis_frames = (v2 - v1) * (v2 - v1) / 2.
Proof.
  intro H. unfold cost. rewrite axis_residuals. cbn [map fold_right].
  rewrite axis_value, huber_residual by (cbn; lra). cbn [b_outlierDiff settings0].
  destruct (Rle_dec (Rabs (v2 - v1)) 12); [|contradiction].
  unfold photo_weight. cbn. unfold flat. replace (1 * 1 + 0 * 0) with 1 by ring. rewrite sqrt_1. field.
Qed.

(** A turn about the x axis, a shift, and doubling. *)
Definition turn : se3 := SE (Q4 (3 / 5) (V3 (4 / 5) 0 0)) (V3 7 0 1).
Lemma turn_rigid : rigid turn.
Proof. unfold rigid, unit_quat, qnorm2, dot, turn. cbn. field. Qed.
Lemma turn_moves : k_pose (sim_frame turn 2 axis_second) <> k_pose axis_second.
Proof.
  intro H. assert (X := f_equal (fun p => vx (tr p)) H). revert X.
  cbn [k_pose sim_frame axis_second]. unfold sim_pose, smul. cbn [so3 tr]. unfold turn; cbn [so3 tr].
  rewrite rot_scale. unfold rot, dot, cross, vadd, vscale. cbn [vx vy vz qw qv]. lra.
Qed.

Lemma axis_case : forall sp,
  p_residuals (build settings0 (is_oob axis_cam 2) axis_frames 1 axis_second sp) = [axis_residual] /\
  photo_value axis_cam (axis_image 3 5) [P2 0 0] axis_frames axis_residual = 5 - 3 /\
  cost axis_cam (axis_image 3 5) flat [P2 0 0] 1 settings0
    (build settings0 (is_oob axis_cam 2) axis_frames 1 axis_second sp) axis_frames = (5 - 3) * (5 - 3) / 2 /\
  all_rigid axis_frames /\ NoDup (map k_id axis_frames) /\ rigid turn /\
  k_pose (sim_frame turn 2 axis_second) <> k_pose axis_second /\ 0 < b_outlierDiff settings0 /\
  unmap axis_cam (P2 5 5) <> vzero.
Proof.
  intro sp. split; [apply axis_residuals|]. split; [apply axis_value|].
  split; [apply axis_cost; rewrite Rabs_right; lra|].
  split; [exact axis_rigid|]. split; [exact axis_nodup|]. split; [exact turn_rigid|]. split; [exact turn_moves|].
  split; [cbn; lra|]. intro E. assert (X := f_equal vz E). cbn in X. lra.
Qed.
