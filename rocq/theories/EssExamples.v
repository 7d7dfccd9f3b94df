(** Concrete oracles and cases for the geometry of two views. *)
From Coq Require Import Reals Lra Lia Psatz List Bool ZArith.
From Verif Require Import Outcome Pose PoseProofs GeomModel GeomSpec GeomProofs GeomExamples StereoModel EssModel EssSpec EssProofs EssMore EssTop.
Import ListNotations.
Open Scope R_scope.

(** * A conversion of rotations to quaternions *)
Definition trace (A : mat) : R := vx (mr0 A) + vy (mr1 A) + vz (mr2 A).
Definition quat_pos (A : mat) : quat :=
  let k := / (2 * sqrt (1 + trace A)) in
  Q4 (k * (1 + trace A)) (vscale k (V3 (vy (mr2 A) - vz (mr1 A)) (vz (mr0 A) - vx (mr2 A)) (vx (mr1 A) - vy (mr0 A)))).
Definition conv (A : mat) : quat :=
  if Rlt_dec 0 (1 + trace A) then quat_pos A
  else if Rlt_dec 0 (1 + trace (mmul (diag 1 (-1) (-1)) A)) then qmul (Q4 0 (V3 1 0 0)) (quat_pos (mmul (diag 1 (-1) (-1)) A))
  else if Rlt_dec 0 (1 + trace (mmul (diag (-1) 1 (-1)) A)) then qmul (Q4 0 (V3 0 1 0)) (quat_pos (mmul (diag (-1) 1 (-1)) A))
  else qmul (Q4 0 (V3 0 0 1)) (quat_pos (mmul (diag (-1) (-1) 1) A)).

Lemma rot_qscale k w v p : rot (Q4 (k * w) (vscale k v)) p = vscale (k * k) (rot (Q4 w v) p).
Proof. destruct v as [? ? ?], p as [? ? ?]. unfold rot. cbn [qw qv]. munfold. f_equal; ring. Qed.
Lemma qnorm2_qscale k w v : qnorm2 (Q4 (k * w) (vscale k v)) = k * k * qnorm2 (Q4 w v).
Proof. destruct v as [? ? ?]. unfold qnorm2. cbn [qw qv]. munfold. ring. Qed.

Lemma quat_pos_ok A : orthonormal A -> mdet A = 1 -> 0 < 1 + trace A ->
  unit_quat (quat_pos A) /\ forall p, rot (quat_pos A) p = mapply A p.
Proof.
  intros O D T. pose proof (rotation_cof A O D) as C. pose proof (ortho_right A O) as Rr. unfold orthonormal in O.
  set (n := 1 + trace A) in *. assert (S : sqrt n * sqrt n = n) by (apply sqrt_sqrt; lra).
  assert (K : forall x, / (2 * sqrt n) * / (2 * sqrt n) * (4 * n * x) = x).
  { intros x. assert (sqrt n <> 0) by (intros Z; rewrite Z in S; lra). replace (4 * n * x) with (4 * (sqrt n * sqrt n) * x) by (rewrite S; reflexivity). field. assumption. }
  unfold quat_pos. fold n.
  destruct A as [[a0 a1 a2] [a3 a4 a5] [a6 a7 a8]]. cbn [mr0 mr1 mr2 vx vy vz] in *.
  assert (N : n = 1 + (a0 + a4 + a8)) by reflexivity. clearbody n. clear D.
  revert O Rr C. unfold adj. munfold. intros O Rr C.
  injection O as O0 O1 O2 O3 O4 O5 O6 O7 O8. injection Rr as R0 R1 R2 R3 R4 R5 R6 R7 R8. injection C as C0 C1 C2 C3 C4 C5 C6 C7 C8.
  set (x := a7 - a5). set (y := a2 - a6). set (z := a3 - a1).
  assert (XX : x * x = n * (1 + a0 - a4 - a8)) by (unfold x; rewrite N; lra).
  assert (YY : y * y = n * (1 - a0 + a4 - a8)) by (unfold y; rewrite N; lra).
  assert (ZZ : z * z = n * (1 - a0 - a4 + a8)) by (unfold z; rewrite N; lra).
  assert (XY : x * y = n * (a3 + a1)) by (unfold x, y; rewrite N; lra).
  assert (XZ : x * z = n * (a6 + a2)) by (unfold x, z; rewrite N; lra).
  assert (YZ : y * z = n * (a7 + a5)) by (unfold y, z; rewrite N; lra).
  split.
  - unfold unit_quat. change (V3 (/ (2 * sqrt n) * x) (/ (2 * sqrt n) * y) (/ (2 * sqrt n) * z)) with (vscale (/ (2 * sqrt n)) (V3 x y z)).
    rewrite qnorm2_qscale. unfold qnorm2, dot. cbn [qw qv vx vy vz]. rewrite XX, YY, ZZ.
    refine (eq_trans _ (K 1)). f_equal. rewrite N. ring.
  - intros [p0 p1 p2]. change (V3 (/ (2 * sqrt n) * x) (/ (2 * sqrt n) * y) (/ (2 * sqrt n) * z)) with (vscale (/ (2 * sqrt n)) (V3 x y z)).
    rewrite rot_qscale. unfold rot. cbn [qw qv]. munfold.
    assert (ZX : n * x = n * (a7 - a5)) by reflexivity. assert (ZY : n * y = n * (a2 - a6)) by reflexivity. assert (ZW : n * z = n * (a3 - a1)) by reflexivity.
    apply f_equal3.
    + refine (eq_trans _ (K (a0 * p0 + a1 * p1 + a2 * p2))). f_equal.
      transitivity ((n * n - (x * x + y * y + z * z)) * p0 + 2 * (x * x * p0 + x * y * p1 + x * z * p2) + 2 * (n * y * p2 - n * z * p1)); [ring|].
      rewrite ZY, ZW, XX, YY, ZZ, XY, XZ, N. ring.
    + refine (eq_trans _ (K (a3 * p0 + a4 * p1 + a5 * p2))). f_equal.
      transitivity ((n * n - (x * x + y * y + z * z)) * p1 + 2 * (x * y * p0 + y * y * p1 + y * z * p2) + 2 * (n * z * p0 - n * x * p2)); [ring|].
      rewrite ZX, ZW, XX, YY, ZZ, XY, YZ, N. ring.
    + refine (eq_trans _ (K (a6 * p0 + a7 * p1 + a8 * p2))). f_equal.
      transitivity ((n * n - (x * x + y * y + z * z)) * p2 + 2 * (x * z * p0 + y * z * p1 + z * z * p2) + 2 * (n * x * p1 - n * y * p0)); [ring|].
      rewrite ZX, ZY, XX, YY, ZZ, XZ, YZ, N. ring.
Qed.

Lemma conv_half i D A : unit_quat i -> (forall p, rot i (mapply D p) = p) -> orthonormal D -> mdet D = 1 ->
  orthonormal A -> mdet A = 1 -> 0 < 1 + trace (mmul D A) ->
  unit_quat (qmul i (quat_pos (mmul D A))) /\ forall p, rot (qmul i (quat_pos (mmul D A))) p = mapply A p.
Proof.
  intros UI RI OD DD OA DA T. destruct (quat_pos_ok (mmul D A)) as [U R]; [apply ortho_mul; assumption|rewrite mdet_mmul, DD, DA; ring|exact T|].
  split; [apply unit_mul; assumption|]. intros p. rewrite rot_mul, R, mapply_mmul. apply RI.
Qed.
Lemma conv_ok : converts conv.
Proof.
  intros A O D. unfold conv. destruct (Rlt_dec 0 (1 + trace A)) as [T0|T0]; [apply quat_pos_ok; assumption|].
  assert (UX : unit_quat (Q4 0 (V3 1 0 0))) by (unfold unit_quat, qnorm2, dot; cbn; ring).
  assert (UY : unit_quat (Q4 0 (V3 0 1 0))) by (unfold unit_quat, qnorm2, dot; cbn; ring).
  assert (UZ : unit_quat (Q4 0 (V3 0 0 1))) by (unfold unit_quat, qnorm2, dot; cbn; ring).
  destruct (Rlt_dec 0 (1 + trace (mmul (diag 1 (-1) (-1)) A))) as [T1|T1].
  { apply conv_half; try assumption; [|unfold orthonormal; munfold; f_equal; f_equal; ring|munfold; ring].
    intros [? ? ?]. unfold rot. cbn [qw qv]. munfold. f_equal; ring. }
  destruct (Rlt_dec 0 (1 + trace (mmul (diag (-1) 1 (-1)) A))) as [T2|T2].
  { apply conv_half; try assumption; [|unfold orthonormal; munfold; f_equal; f_equal; ring|munfold; ring].
    intros [? ? ?]. unfold rot. cbn [qw qv]. munfold. f_equal; ring. }
  apply conv_half; try assumption; [|unfold orthonormal; munfold; f_equal; f_equal; ring|munfold; ring|].
  { intros [? ? ?]. unfold rot. cbn [qw qv]. munfold. f_equal; ring. }
  clear - T0 T1 T2. revert T0 T1 T2. unfold trace. mdestruct. munfold. intros. lra.
Qed.

(** * A solver *)
Lemma cramer_basic : basic_solver cramer.
Proof.
  split; [exact cramer_ok|]. intros u v b P. unfold cramer.
  destruct (Req_EM_T (dot u u * dot v v - dot u v * dot u v) 0) as [Z|Z].
  - destruct (Req_EM_T (dot u u) 0); [|right; reflexivity]. destruct (Req_EM_T (dot v v) 0); left; reflexivity.
  - exfalso. apply Z. rewrite <- lagrange. rewrite P. unfold dot, vzero. cbn. ring.
Qed.

(** * A motion along the axis and a point *)
Definition ahead : se3 := SE qone (V3 0 0 2).
Definition ahead_E : mat := M33 (V3 0 (-6) 0) (V3 6 0 0) (V3 0 0 0).
Definition ahead_svd (E : mat) : mat * mat := (mscale (-1) Wmat, mscale (-1) mI).
Lemma ahead_ok : rigid ahead /\ tr ahead <> vzero /\ essential_of ahead ahead_E 3 /\ is_svd ahead_svd ahead_E.
Proof.
  split; [apply rigid_id|]. split; [intros H; injection H as H; lra|]. split.
  - intros [x y z]. unfold ahead, ahead_E. cbn [so3 tr]. rewrite rot_one. munfold. f_equal; ring.
  - unfold is_svd, ahead_svd, svd_of, orthonormal. split; [munfold; f_equal; f_equal; ring|]. split; [munfold; f_equal; f_equal; ring|].
    exists 6, 6, 0. unfold ahead_E. repeat split; try lra. munfold. f_equal; f_equal; ring.
Qed.
Lemma ahead_seen : seen_in_front ahead (V3 1 0 1, V3 1 0 3).
Proof.
  exists 1, 1. split; [lra|]. split; [lra|]. unfold ahead, act. cbn [fst snd so3 tr]. rewrite !rot_one. split; [munfold; f_equal; ring|].
  unfold parallel. munfold. intros H. injection H as H1 H2 H3. lra.
Qed.

(** * A correspondence far from one epipolar line only *)
Definition pinhole (p : vec) : pt := P2 (vx p / vz p) (vy p / vz p).
Lemma one_sided D : 1 <= D ->
  let g := SE qone (V3 0 0 1) in let ray := (V3 (1 / 50) 0 1, V3 0 D 1) in let img := (P2 (1 / 50) 0, P2 0 D) in
  rigid g /\ vnorm (tr g) = 1 /\ pinhole (fst ray) = fst img /\ pinhole (snd ray) = snd img /\
  reprojectionError pinhole (toEssential g) (mT (toEssential g)) img ray = 1 / 50 /\
  exists q, nearest_in_plane (mapply (toEssential g) (fst ray)) (snd ray) q /\ distance_pt (pinhole q) (snd img) = D.
Proof.
  intros HD. cbv zeta. assert (HE : toEssential (SE qone (V3 0 0 1)) = M33 (V3 0 (-1) 0) (V3 1 0 0) (V3 0 0 0)).
  { unfold toEssential. cbn [so3 tr]. unfold rotm. rewrite !rot_one. munfold. f_equal; f_equal; ring. }
  split; [apply rigid_id|]. split; [apply vnorm_one; cbn [tr]; munfold; ring|].
  split; [unfold pinhole; cbn [fst snd vx vy vz]; f_equal; field|]. split; [unfold pinhole; cbn [fst snd vx vy vz]; f_equal; field|].
  rewrite HE. cbn [fst snd].
  set (n1 := mapply (mT (M33 (V3 0 (-1) 0) (V3 1 0 0) (V3 0 0 0))) (V3 0 D 1)).
  set (n2 := mapply (M33 (V3 0 (-1) 0) (V3 1 0 0) (V3 0 0 0)) (V3 (1 / 50) 0 1)).
  assert (N1 : n1 = V3 D 0 0) by (unfold n1; munfold; f_equal; ring).
  assert (N2 : n2 = V3 0 (1 / 50) 0) by (unfold n2; munfold; f_equal; ring).
  assert (F1 : flatten (V3 (1 / 50) 0 1) n1 = V3 0 0 1) by (rewrite N1; unfold flatten; munfold; f_equal; field; lra).
  assert (F2 : flatten (V3 0 D 1) n2 = V3 0 0 1) by (rewrite N2; unfold flatten; munfold; f_equal; field; lra).
  assert (D1 : dot n1 n1 = D * D) by (rewrite N1; munfold; ring). assert (D2 : dot n2 n2 = 1 / 2500) by (rewrite N2; munfold; field).
  split.
  - unfold reprojectionError. cbv zeta. cbn [fst snd]. fold n1 n2.
    rewrite (proj2 (Rltb_iff _ _)) by (rewrite D1; nra). rewrite (proj2 (Rltb_iff _ _)) by (rewrite D2; lra). rewrite F1, F2.
    unfold pnorm, pinhole, psub, pdot. cbn [vx vy vz px py].
    replace ((0 / 1 - 1 / 50) * (0 / 1 - 1 / 50) + (0 / 1 - 0) * (0 / 1 - 0)) with (1 / 50 * (1 / 50)) by field.
    replace ((0 / 1 - 0) * (0 / 1 - 0) + (0 / 1 - D) * (0 / 1 - D)) with (D * D) by field.
    rewrite !sqrt_square by lra. apply Rmin_left. lra.
  - exists (flatten (V3 0 D 1) n2). split; [apply flatten_nearest; lra|]. rewrite F2. unfold distance_pt, dist2, pinhole. cbn [vx vy vz px py].
    match goal with |- sqrt ?e = _ => replace e with (D * D) by field end. apply sqrt_square. lra.
Qed.
