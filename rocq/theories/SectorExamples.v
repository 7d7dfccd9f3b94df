(** Instances of the contracts and the witnesses of the statements about sectors and terrain. *)
From Coq Require Import Reals ZArith List Bool Lia Lra Psatz.
From Verif Require Import Outcome Pose GeomModel SphereModel SectorModel SectorSpec SectorProofs.
Import ListNotations.
Open Scope R_scope.

(** Cramer's rule meets the contract of the 3x3 solver. *)
Definition cramer (a b c r : vec) : R * R * R :=
  (det3 r b c / det3 a b c, det3 a r c / det3 a b c, det3 a b r / det3 a b c).

Lemma cramer_ok : cone_solver cramer.
Proof.
  intros a b c r D. unfold cramer. apply vec_eq; cbn; unfold det3, dot, cross in *; cbn in *; field; lra.
Qed.

(** The plane through three points meets the contract of the QR factor. *)
Definition plane_through (a b c : vec) : plane :=
  Pl (vadd (vadd (cross b c) (cross c a)) (cross a b)) (- det3 a b c).

Lemma plane_through_ok : orthogonal_column plane_through.
Proof.
  intros a b c D. unfold plane_through; cbn [pn pd]. split; [right; lra|].
  unfold det3, dot, cross, vadd; cbn. repeat split; ring.
Qed.

(** Cramer's rule for the planar interpolation. *)
Definition affine_through (a b c : pt) (d : R * R * R) : R * R * R :=
  let '(d0, d1, d2) := d in
  let k0 := ((d1 - d0) * (py c - py a) - (d2 - d0) * (py b - py a)) / area2 a b c in
  let k1 := ((px b - px a) * (d2 - d0) - (px c - px a) * (d1 - d0)) / area2 a b c in
  (k0, k1, d0 - k0 * px a - k1 * py a).

Lemma affine_through_ok : affine_solver affine_through.
Proof.
  intros a b c d0 d1 d2 D. unfold affine_through. unfold area2 in *. repeat split; field; lra.
Qed.

(** The sector of the coordinate axes and a smaller one inside it. *)
Definition axes : sector := Sec (V3 1 0 0) (V3 0 1 0) (V3 0 0 1).
Definition inner : sector := Sec (V3 1 1 0) (V3 0 1 1) (V3 1 0 1).

Lemma axes_proper : proper axes.
Proof. unfold proper, det3, dot, cross; cbn. lra. Qed.
Lemma inner_proper : proper inner.
Proof. unfold proper, det3, dot, cross; cbn. lra. Qed.

Lemma acos_le x : 0 < x -> x <= 1 -> acos x < PI / 2.
Proof.
  intros X Y. destruct (Rle_lt_dec (PI / 2) (acos x)) as [H|H]; [|exact H].
  pose proof (acos_bound x) as B. pose proof PI_RGT_0.
  assert (C : cos (acos x) <= cos (PI / 2)) by (apply cos_decr_1; lra).
  rewrite cos_acos, cos_PI2 in C by lra. lra.
Qed.

Lemma angle_axes a b : dot a b = 0 -> angle a b = PI / 2.
Proof.
  intros D. unfold angle.
  replace (dot (normalized a) (normalized b)) with 0.
  - destruct (Rlt_dec 0 (-1)); [lra|]. destruct (Rlt_dec 1 0); [lra|]. apply acos_0.
  - unfold normalized. destruct (Rlt_dec 0 (dot a a)), (Rlt_dec 0 (dot b b)).
    + transitivity (/ vnorm a * / vnorm b * dot a b); [rewrite D; ring|unfold dot, vscale; cbn; ring].
    + transitivity (/ vnorm a * dot a b); [rewrite D; ring|unfold dot, vscale; cbn; ring].
    + transitivity (/ vnorm b * dot a b); [rewrite D; ring|unfold dot, vscale; cbn; ring].
    + auto.
Qed.

Lemma angle_acute a b : 0 < dot a b -> angle a b < PI / 2.
Proof.
  intros D. unfold angle.
  assert (A : 0 < dot a a).
  { apply dot_pos. intros ->. unfold dot in D; cbn in D. lra. }
  assert (B : 0 < dot b b).
  { apply dot_pos. intros ->. unfold dot in D; cbn in D. lra. }
  assert (C : 0 < dot (normalized a) (normalized b)).
  { unfold normalized. destruct (Rlt_dec 0 (dot a a)); [|lra]. destruct (Rlt_dec 0 (dot b b)); [|lra].
    replace (dot (vscale (/ vnorm a) a) (vscale (/ vnorm b) b)) with (/ vnorm a * / vnorm b * dot a b)
      by (unfold dot, vscale; cbn; ring).
    assert (0 < / vnorm a) by (apply Rinv_0_lt_compat, sqrt_lt_R0, A).
    assert (0 < / vnorm b) by (apply Rinv_0_lt_compat, sqrt_lt_R0, B).
    apply Rmult_lt_0_compat; [apply Rmult_lt_0_compat|]; assumption. }
  set (c := dot (normalized a) (normalized b)) in *.
  destruct (Rlt_dec c (-1)); [lra|]. destruct (Rlt_dec 1 c); apply acos_le; lra.
Qed.

Lemma inner_better : sectorBadness inner < sectorBadness axes.
Proof.
  unfold sectorBadness. cbn [s0 s1 s2 inner axes].
  rewrite !(angle_axes (V3 1 0 0)), !(angle_axes (V3 0 1 0)), !(angle_axes (V3 0 0 1)) by (unfold dot; cbn; ring).
  assert (X : forall p q, dot p q = 1 -> angle p q < PI / 2) by (intros p q E; apply angle_acute; lra).
  assert (angle (V3 1 1 0) (V3 0 1 1) < PI / 2) by (apply X; unfold dot; cbn; ring).
  assert (angle (V3 0 1 1) (V3 1 0 1) < PI / 2) by (apply X; unfold dot; cbn; ring).
  assert (angle (V3 1 0 1) (V3 1 1 0) < PI / 2) by (apply X; unfold dot; cbn; ring).
  repeat apply Rmax_lub_lt; try assumption; (eapply Rlt_le_trans; [eassumption|]); apply Rmax_r.
Qed.

Lemma in_axes x y z : 0 <= x -> 0 <= y -> 0 <= z -> in_cone (V3 x y z) axes.
Proof. intros X Y Z. exists x, y, z. repeat split; auto. apply vec_eq; cbn; ring. Qed.

Lemma forgets solve : cone_solver solve ->
  queries solve [(1%Z, axes); (2%Z, inner)] [V3 1 0 0; V3 1 1 1; V3 1 0 0] =
  ([Some (1%Z, axes); Some (2%Z, inner); None], [(2%Z, inner)]).
Proof.
  intros CS.
  assert (H1 : isInSector solve (V3 1 0 0) axes = true).
  { apply in_sector_iff; [exact CS|apply axes_proper|]. apply in_axes; lra. }
  assert (H2 : isInSector solve (V3 1 1 1) axes = true).
  { apply in_sector_iff; [exact CS|apply axes_proper|]. apply in_axes; lra. }
  assert (H3 : isInSector solve (V3 1 1 1) inner = true).
  { apply in_sector_iff; [exact CS|apply inner_proper|]. exists (1/2), (1/2), (1/2).
    repeat split; try lra. apply vec_eq; cbn; lra. }
  assert (H4 : isInSector solve (V3 1 0 0) inner = false).
  { destruct (isInSector solve (V3 1 0 0) inner) eqn:E; [|reflexivity].
    apply in_sector_iff in E; [|exact CS|apply inner_proper]. destruct E as (a & b & c & A & B & C & E).
    pose proof (f_equal vx E) as E1. pose proof (f_equal vy E) as E2. pose proof (f_equal vz E) as E3.
    cbn in E1, E2, E3. lra. }
  cbn [queries]. unfold enclosingSector at 1. cbn [filter snd]. rewrite H1, H4.
  unfold enclosingSector at 1. cbn [filter snd fst]. rewrite H2, H3. cbn [min_element snd].
  assert (RB : Rltb (sectorBadness inner) (sectorBadness axes) = true) by (apply Rltb_iff, inner_better).
  rewrite RB. cbn [fst negb orb]. change (1 =? 2)%Z with false. change (2 =? 2)%Z with true.
  unfold enclosingSector at 1. cbn [filter snd fst]. rewrite H4. reflexivity.
Qed.
