(** Model of StereoGeometryEstimator over its whole life (source/system/StereoGeometryEstimator.cpp
    20-60, 170-249, 310-362): the search of StereoModel run with the geometry of EssModel and the
    stopping rule of StopModel, the refinement and the depths.

    Oracles: those of EssModel, the five-point solver, the random draws and the ceres solver. *)
From Coq Require Import Reals List Bool ZArith.
From Verif Require Import Outcome Pose GeomModel StereoModel StopModel EssModel.
Import ListNotations.
Open Scope R_scope.
Open Scope outcome_scope.

(** normalized() of Eigen *)
Definition unit_ray (v : vec) : vec := if Rlt_dec 0 (vnorm v) then vscale (/ vnorm v) v else v.

(** 35-38: a correspondence with its rays. *)
Definition with_ray (unmap : pt -> vec) (img : pt * pt) : (pt * pt) * (vec * vec) :=
  (img, (unit_ray (unmap (fst img)), unit_ray (unmap (snd img)))).

Section Run.
Variable map : vec -> pt.                          (* cam->map *)
Variable svd : mat -> mat * mat.
Variable toQuat : mat -> quat.
Variable solve : vec -> vec -> vec -> R * R.
Variable est : list (vec * vec) -> list mat.       (* est.estimate, 209 *)
Variable thr : R.                                  (* settings.outlierReprojError *)
Variable p : R.                                    (* settings.successProb *)
Variable runMax : bool.                            (* settings.runMaxRansacIter *)
Variable maxIter : Z.                              (* settings.maxRansacIter *)
Variable cs : list ((pt * pt) * (vec * vec)).      (* imgCorresps and rays *)

(** 86-87 *)
Definition agree (E : mat) (i : nat) : bool :=
  match nth_error cs i with
  | Some (img, ray) => Rltb (reprojectionError map E (mT E) img ray) thr
  | None => false
  end.
Definition rays : list (vec * vec) := List.map snd cs.
(** 114-132 *)
Definition sols (E : mat) : list se3 := match four_motions svd toQuat E with Ok l => l | _ => [] end.

(** 205-207: the sample as it is given to the solver, the second ray first. *)
Definition sample (h : list Z) : list (vec * vec) :=
  flat_map (fun i => match nth_error rays (Z.to_nat i) with Some (a, b) => [(b, a)] | None => [] end) h.

(** 170-249 *)
Definition coarse (junk : mat) (draws : nat -> list Z) (g : sge se3) : outcome (se3 * sge se3) :=
  find_coarse sid agree (front_rays solve rays) sols toEssential (stop_q0 p maxIter)
    (stop_ratio (length cs)) stop_gtb (stop_iter p) runMax maxIter (length cs) junk draws
    (fun h => est (sample h)) g.

(** 310-362 *)
Definition precise (junk : mat) (draws : nat -> list Z) (refine : se3 -> list nat -> se3) (g : sge se3)
  : outcome (se3 * sge se3) :=
  find_precise sid agree (front_rays solve rays) sols toEssential (stop_q0 p maxIter)
    (stop_ratio (length cs)) stop_gtb (stop_iter p) runMax maxIter (length cs) junk draws
    (fun h => est (sample h)) refine g.

(** The estimator with its members _depths and depthsEvaluated (20-33). *)
Record estimator := { e_sge : sge se3; e_depths : list (R * R); e_evaluated : bool }.
Definition estimator_new : estimator :=
  {| e_sge := sge_new sid; e_depths := repeat (0, 0) (length cs); e_evaluated := false |}.

(** findCoarseMotion() and findPreciseMotion() leave the two members alone. *)
Definition call_coarse (junk : mat) (draws : nat -> list Z) (e : estimator) : outcome (se3 * estimator) :=
  let* (m, g) := coarse junk draws (e_sge e) in
  Ok (m, {| e_sge := g; e_depths := e_depths e; e_evaluated := e_evaluated e |}).
Definition call_precise (junk : mat) (draws : nat -> list Z) (refine : se3 -> list nat -> se3) (e : estimator)
  : outcome (se3 * estimator) :=
  let* (m, g) := precise junk draws refine (e_sge e) in
  Ok (m, {| e_sge := g; e_depths := e_depths e; e_evaluated := e_evaluated e |}).

(** Assignment to an element of a vector. *)
Fixpoint put_at {A} (l : list A) (i : nat) (x : A) : outcome (list A) :=
  match l, i with
  | [], _ => UB
  | _ :: l', O => Ok (x :: l')
  | y :: l', S i' => let* r := put_at l' i' x in Ok (y :: r)
  end.

(** 50-54 *)
Fixpoint fill (motion : se3) (inls : list nat) (ds : list (R * R)) : outcome (list (R * R)) :=
  match inls with
  | [] => Ok ds
  | i :: inls' =>
      match nth_error rays i with
      | None => UB
      | Some (a, b) => let* ds := put_at ds i (triangulate solve motion a b) in fill motion inls' ds
      end
  end.

(** 45-58: depths() *)
Definition call_depths (e : estimator) : outcome (list (R * R) * estimator) :=
  if e_evaluated e then Ok (e_depths e, e)
  else
    let* ds := fill (g_motion (e_sge e)) (g_inl (e_sge e)) (e_depths e) in
    Ok (ds, {| e_sge := e_sge e; e_depths := ds; e_evaluated := true |}).
End Run.
