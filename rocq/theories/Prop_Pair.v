(** C104: the motion and the depths estimated from two views. *)
From Coq Require Import Reals List Bool ZArith.
From Verif Require Import Outcome Pose GeomModel GeomSpec GeomExamples StereoModel StereoSpec StopModel EssModel EssSpec
  EssExamples PairModel PairSpec PairTop PairExamples.
Import ListNotations.
Open Scope R_scope.

(** On exact correspondences findCoarseMotion gives the true motion with a translation of length one
    and all correspondences as inliers, and depths() the distances in units of the base line. *)
Theorem C104_coarse : forall map unmap svd toQuat solve est thr p runMax maxIter imgs g junk draws,
  let cs := List.map (with_ray unmap) imgs in let n := length imgs in
  decomposes svd (fun h => est (sample cs h)) n g junk -> converts toQuat -> basic_solver solve ->
  0 < thr -> 0 < p < 1 -> (1 <= maxIter < 2 ^ 31)%Z -> rigid g -> tr g <> vzero ->
  (forall img, In img imgs -> exists P, shows map unmap g img P) ->
  draws_five n draws ->
  (forall h E, five n h -> In E (est (sample cs h)) ->
     (forall i, (i < n)%nat -> agree map thr cs E i = true) -> true_matrix g E) ->
  (forall h, five n h -> exists E, In E (est (sample cs h)) /\ true_matrix g E) ->
  (exists it, (Z.of_nat it < maxIter)%Z /\ NoDup (draws it)) ->
  exists r e ds e',
    call_coarse map svd toQuat solve est thr p runMax maxIter cs junk draws (estimator_new cs) = Ok (r, e) /\
    same_motion r (unit_tr g) /\ g_inl (e_sge e) = seq 0 n /\
    call_depths solve cs e = Ok (ds, e') /\ length ds = n /\
    forall i img P, nth_error imgs i = Some img -> shows map unmap g img P ->
      nth_error ds i = Some (vnorm P / vnorm (tr g), vnorm (act g P) / vnorm (tr g)).
Proof. exact run_coarse. Qed.
Print Assumptions C104_coarse.

(** The same for findPreciseMotion, if the refinement leaves a motion alone whose residuals are all
    zero. *)
Theorem C104_precise : forall map unmap svd toQuat solve est thr p runMax maxIter imgs g junk draws,
  let cs := List.map (with_ray unmap) imgs in let n := length imgs in
  decomposes svd (fun h => est (sample cs h)) n g junk -> converts toQuat -> basic_solver solve ->
  0 < thr -> 0 < p < 1 -> (1 <= maxIter < 2 ^ 31)%Z -> rigid g -> tr g <> vzero ->
  (forall img, In img imgs -> exists P, shows map unmap g img P) ->
  draws_five n draws ->
  (forall h E, five n h -> In E (est (sample cs h)) ->
     (forall i, (i < n)%nat -> agree map thr cs E i = true) -> true_matrix g E) ->
  (forall h, five n h -> exists E, In E (est (sample cs h)) /\ true_matrix g E) ->
  (exists it, (Z.of_nat it < maxIter)%Z /\ NoDup (draws it)) ->
  forall refine,
  (forall m inls, (forall i img ray, In i inls -> nth_error cs i = Some (img, ray) ->
     reproj_residual map img ray m = (0, 0, 0, 0)) -> refine m inls = m) ->
  exists r e ds e',
    call_precise map svd toQuat solve est thr p runMax maxIter cs junk draws refine (estimator_new cs) = Ok (r, e) /\
    same_motion r (unit_tr g) /\ g_motion (e_sge e) = r /\ g_inl (e_sge e) = seq 0 n /\
    call_depths solve cs e = Ok (ds, e') /\ length ds = n /\
    forall i img P, nth_error imgs i = Some img -> shows map unmap g img P ->
      nth_error ds i = Some (vnorm P / vnorm (tr g), vnorm (act g P) / vnorm (tr g)).
Proof. exact run_precise. Qed.
Print Assumptions C104_precise.

Example C104_five_views : exists r e,
  call_coarse pinhole step_svd conv cramer step_est 1 (1 / 2) false 10 (map (with_ray lift) five_views) step_E step_draws
    (estimator_new (map (with_ray lift) five_views)) = Ok (r, e) /\
  same_motion r (unit_tr step_ahead) /\ g_inl (e_sge e) = seq 0 5.
Proof. exact five_views_found. Qed.

(** With outliers: if more than half of the correspondences are exact, a sample of exact ones is
    drawn early enough, the solver finds the essential matrix for it and finds no wrong matrix with
    as many inliers, then the motion found is the true one and all the exact correspondences are
    among the inliers. *)
Theorem C104_outliers : forall map unmap svd toQuat solve est thr p runMax maxIter imgs g good junk draws it,
  decomposes svd (fun h => est (sample (List.map (with_ray unmap) imgs) h)) (length imgs) g junk ->
  converts toQuat -> basic_solver solve -> 0 < thr -> 0 < p < 1 -> (1 <= maxIter < 2 ^ 31)%Z ->
  rigid g -> tr g <> vzero ->
  NoDup good ->
  (forall i, In i good -> exists img P, nth_error imgs i = Some img /\ shows map unmap g img P) ->
  (length imgs < 2 * length good)%nat ->
  let cs := List.map (with_ray unmap) imgs in let n := length imgs in
  draws_five n draws ->
  (forall h E, five n h -> In E (est (sample cs h)) ->
     (length good <= support (agree map thr cs) n E)%nat -> true_matrix g E) ->
  (forall h, five n h -> (forall i, In i h -> In (Z.to_nat i) good) ->
     exists E, In E (est (sample cs h)) /\ true_matrix g E) ->
  NoDup (draws it) -> (forall i, In i (draws it) -> In (Z.to_nat i) good) -> (Z.of_nat it < maxIter)%Z ->
  runMax = true \/ (forall k z, (0 <= k < Z.of_nat (length good))%Z ->
     stop_iter p (stop_ratio n k) = Ok z -> (Z.of_nat it < z)%Z) ->
  exists r st, coarse map svd toQuat solve est thr p runMax maxIter cs junk draws (sge_new sid) = Ok (r, st) /\
    same_motion r (unit_tr g) /\ same_motion (g_motion st) (unit_tr g) /\ incl good (g_inl st).
Proof. exact coarse_outliers. Qed.
Print Assumptions C104_outliers.

Example C104_six_views : exists r st,
  coarse pinhole step_svd conv cramer step_est 1 (1 / 2) true 10 (map (with_ray lift) six_views) step_E step_draws
    (sge_new sid) = Ok (r, st) /\
  same_motion r (unit_tr step_ahead) /\ incl (seq 0 5) (g_inl st).
Proof. exact six_views_found. Qed.

(** depths() computes once: whatever motion and inliers are found afterwards, it gives the same
    numbers, so depths asked for between findCoarseMotion and findPreciseMotion stay those of the
    coarse motion. *)
Theorem C104_depths_later_refuted : forall solve cs e ds e1, call_depths solve cs e = Ok (ds, e1) ->
  forall g, call_depths solve cs {| e_sge := g; e_depths := e_depths e1; e_evaluated := e_evaluated e1 |} =
    Ok (ds, {| e_sge := g; e_depths := e_depths e1; e_evaluated := e_evaluated e1 |}).
Proof. exact depths_frozen. Qed.
Print Assumptions C104_depths_later_refuted.

(** Asked for before any motion is found, they are all 0 for good. *)
Theorem C104_depths_first_refuted : forall solve cs, exists e1,
  call_depths solve cs (estimator_new cs) = Ok (repeat (0, 0) (length cs), e1) /\
  forall g, call_depths solve cs {| e_sge := g; e_depths := e_depths e1; e_evaluated := e_evaluated e1 |} =
    Ok (repeat (0, 0) (length cs), {| e_sge := g; e_depths := e_depths e1; e_evaluated := e_evaluated e1 |}).
Proof. exact depths_early. Qed.
Print Assumptions C104_depths_first_refuted.
