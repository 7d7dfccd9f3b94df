(** C102, C103: the motion of an essential matrix and the reprojection error. *)
From Coq Require Import Reals List Bool ZArith.
From Verif Require Import Outcome Pose GeomModel GeomSpec GeomExamples StereoModel EssModel EssSpec EssProofs EssMore
  EssTop EssExamples.
Import ListNotations.
Open Scope R_scope.

(** ** C102 *)
(** Whatever the matrix, the signs of the decomposition never stop the program, and the four motions
    are rigid with translations of length one. *)
Theorem C102_rigid : forall svd toQuat E, is_svd svd E -> converts toQuat ->
  exists sols, four_motions svd toQuat E = Ok sols /\ length sols = 4%nat /\
    forall s, In s sols -> rigid s /\ vnorm (tr s) = 1.
Proof. exact four_rigid. Qed.
Print Assumptions C102_rigid.

(** Every motion that explains the matrix is among the four, up to the length of its translation, and
    each of the four explains the matrix. *)
Theorem C102_all : forall svd toQuat E g k, is_svd svd E -> converts toQuat ->
  rigid g -> tr g <> vzero -> k <> 0 -> essential_of g E k ->
  exists sols, four_motions svd toQuat E = Ok sols /\
    (exists s, In s sols /\ same_motion s (unit_tr g)) /\
    (forall s, In s sols -> exists k', k' <> 0 /\ essential_of s E k').
Proof. exact four_explain. Qed.
Print Assumptions C102_all.

(** Of the four, the true one sees every point in front of both cameras, the others see none. *)
Theorem C102_front : forall svd toQuat solve E g k, is_svd svd E -> converts toQuat -> basic_solver solve ->
  rigid g -> tr g <> vzero -> k <> 0 -> essential_of g E k ->
  exists sols, four_motions svd toQuat E = Ok sols /\ (exists s, In s sols /\ same_motion s (unit_tr g)) /\
    forall h, In h sols ->
      (same_motion h (unit_tr g) /\ forall c, seen_in_front g c ->
         let (d0, d1) := triangulate solve h (fst c) (snd c) in 0 < d0 /\ 0 < d1) \/
      (~ same_motion h (unit_tr g) /\ forall c, seen_in_front g c ->
         let (d0, d1) := triangulate solve h (fst c) (snd c) in ~ (0 < d0 /\ 0 < d1)).
Proof. exact four_sides. Qed.
Print Assumptions C102_front.

(** The motion extracted from any multiple of the essential matrix of exact correspondences is the
    true one with a translation of length one, and every correspondence stays an inlier. *)
Theorem C102_recovered : forall svd toQuat solve rays E g k inls,
  is_svd svd E -> converts toQuat -> basic_solver solve ->
  rigid g -> tr g <> vzero -> k <> 0 -> essential_of g E k -> inls <> [] ->
  (forall i, In i inls -> exists c, nth_error rays i = Some c /\ seen_in_front g c) ->
  exists m, same_motion m (unit_tr g) /\
    extractMotion svd toQuat solve rays E inls = Ok (m, inls, Z.of_nat (length inls)).
Proof. exact extract_exact. Qed.
Print Assumptions C102_recovered.

Example C102_oracles : converts conv /\ basic_solver cramer.
Proof. split; [exact conv_ok|exact cramer_basic]. Qed.
Example C102_case : rigid ahead /\ tr ahead <> vzero /\ essential_of ahead ahead_E 3 /\ is_svd ahead_svd ahead_E.
Proof. exact ahead_ok. Qed.
Example C102_seen : seen_in_front ahead (V3 1 0 1, V3 1 0 3).
Proof. exact ahead_seen. Qed.

(** ** C103 *)
(** Correspondences that meet the epipolar constraint exactly have error 0. *)
Theorem C103_exact : forall map E img ray, dot (snd ray) (mapply E (fst ray)) = 0 ->
  (map (fst ray) = fst img \/ map (snd ray) = snd img) ->
  reprojectionError map E (mT E) img ray = 0.
Proof. exact reproj_exact. Qed.
Print Assumptions C103_exact.

(** All exact correspondences are inliers of every multiple of the true matrix. *)
Theorem C103_inliers : forall map thr cs E g k, 0 < thr -> essential_of g E k ->
  (forall img ray, In (img, ray) cs -> seen_in_front g ray /\ map (fst ray) = fst img) ->
  findInliersEssential map thr cs E = seq 0 (length cs).
Proof. exact inliers_exact. Qed.
Print Assumptions C103_inliers.

(** Away from the epipoles a correspondence is accepted when one of the two points is close to the
    image of the nearest direction in its epipolar plane. *)
Theorem C103_either : forall map E img ray thr,
  1 / 10000 < dot (mapply (mT E) (snd ray)) (mapply (mT E) (snd ray)) ->
  1 / 10000 < dot (mapply E (fst ray)) (mapply E (fst ray)) ->
  (reprojectionError map E (mT E) img ray < thr <->
   (exists q, nearest_in_plane (mapply (mT E) (snd ray)) (fst ray) q /\ pnorm (psub (map q) (fst img)) < thr) \/
   (exists q, nearest_in_plane (mapply E (fst ray)) (snd ray) q /\ pnorm (psub (map q) (snd img)) < thr)).
Proof. exact reproj_either. Qed.
Print Assumptions C103_either.

(** It does not bound the distance of the other point: for every distance there is a correspondence
    with error 1/50 whose second point is that far from its place. *)
Theorem C103_both_refuted : forall D, 1 <= D ->
  let g := SE qone (V3 0 0 1) in let ray := (V3 (1 / 50) 0 1, V3 0 D 1) in let img := (P2 (1 / 50) 0, P2 0 D) in
  rigid g /\ vnorm (tr g) = 1 /\ pinhole (fst ray) = fst img /\ pinhole (snd ray) = snd img /\
  reprojectionError pinhole (toEssential g) (mT (toEssential g)) img ray = 1 / 50 /\
  exists q, nearest_in_plane (mapply (toEssential g) (fst ray)) (snd ray) q /\ distance_pt (pinhole q) (snd img) = D.
Proof. exact one_sided. Qed.
Print Assumptions C103_both_refuted.

(** A ray within 1/100 of the epipole matches everything: the error is 0 whatever the other ray is. *)
Theorem C103_epipole_refuted : forall map g img ray, rigid g ->
  (vnorm (cross (tr g) (snd ray)) <= 1 / 100 /\ map (fst ray) = fst img) \/
  (vnorm (cross (tr g) (rot (so3 g) (fst ray))) <= 1 / 100 /\ map (snd ray) = snd img) ->
  reprojectionError map (toEssential g) (mT (toEssential g)) img ray = 0.
Proof.
  exact (fun map g img ray G H => match H with
    | or_introl (conj N M) => epipole_first map g img ray G N M
    | or_intror (conj N M) => epipole_second map g img ray G N M
    end).
Qed.
Print Assumptions C103_epipole_refuted.

(** The refinement minimises the same distances: away from the epipoles the error is the smaller
    length of the two halves of the residual; close to them the residual is 0; for an exact
    correspondence it is 0. *)
Theorem C103_residual : forall map g img ray, rigid g ->
  1 / 100 < vnorm (cross (tr g) (snd ray)) -> 1 / 100 < vnorm (cross (tr g) (rot (so3 g) (fst ray))) ->
  let '(x0, y0, x1, y1) := reproj_residual map img ray g in
  reprojectionError map (toEssential g) (mT (toEssential g)) img ray =
  Rmin (sqrt (x0 * x0 + y0 * y0)) (sqrt (x1 * x1 + y1 * y1)).
Proof. exact residual_error. Qed.
Print Assumptions C103_residual.

(** The halves of the residual: the distances, in the first and in the second image, from the images
    of the nearest directions in the epipolar plane of the other ray. *)
Theorem C103_residual_value : forall map g img ray, rigid g ->
  1 / 100 < vnorm (cross (tr g) (snd ray)) -> 1 / 100 < vnorm (cross (tr g) (rot (so3 g) (fst ray))) ->
  exists p q, nearest_in_plane (cross (tr g) (rot (so3 g) (fst ray))) (snd ray) q /\
    nearest_in_plane (cross (tr g) (snd ray)) (rot (so3 g) (fst ray)) (rot (so3 g) p) /\
    reproj_residual map img ray g =
      (px (map p) - px (fst img), py (map p) - py (fst img), px (map q) - px (snd img), py (map q) - py (snd img)).
Proof. exact residual_value. Qed.
Print Assumptions C103_residual_value.

Theorem C103_residual_epipole : forall map g img ray, rigid g ->
  vnorm (cross (tr g) (snd ray)) < 1 / 100 \/ vnorm (cross (tr g) (rot (so3 g) (fst ray))) < 1 / 100 ->
  reproj_residual map img ray g = (0, 0, 0, 0).
Proof. exact residual_near. Qed.
Print Assumptions C103_residual_epipole.

Theorem C103_residual_exact : forall map g img ray, seen_in_front g ray -> map (fst ray) = fst img -> map (snd ray) = snd img ->
  reproj_residual map img ray g = (0, 0, 0, 0).
Proof. exact residual_exact. Qed.
Print Assumptions C103_residual_exact.

Example C103_case : rigid ahead /\ essential_of ahead ahead_E 3 /\ seen_in_front ahead (V3 1 0 1, V3 1 0 3).
Proof. exact (conj (proj1 ahead_ok) (conj (proj1 (proj2 (proj2 ahead_ok))) ahead_seen)). Qed.
