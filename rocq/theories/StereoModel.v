(** Models of source/system/StereoMatcher.cpp (filterOutStillMatches, match) and of
    source/system/StereoGeometryEstimator.cpp (findCoarseMotion, extractMotion, findInliers...,
    findPreciseMotion, depths).

    Oracles: keypoint detection and matching (the match list), the random draws, the five-point
    solver, the decomposition of an essential matrix into four motions, the two inlier tests, the
    non-linear refinement and the real-valued stopping rule. *)
From Coq Require Import List ZArith Bool QArith.
From Verif Require Import Outcome Dbl.
Import ListNotations.
Open Scope Z_scope.
Open Scope outcome_scope.

(** * filterOutStillMatches (StereoMatcher.cpp 22-39) *)

(** cv::DMatch, the two indices. *)
Record dmatch := { queryIdx : Z; trainIdx : Z }.

(** [v[i]] of a std::vector; out of range is undefined behaviour. *)
Definition vget {A} (v : list A) (i : Z) : outcome A :=
  if i <? 0 then UB else match nth_error v (Z.to_nat i) with Some a => Ok a | None => UB end.

(** StereoMatcher.cpp 29-33: the predicate; the norm of the displacement is compared by its
    square (exact arithmetic, threshold not negative or everything moves). *)
Definition moved (nonMove : Q) (kp0 kp1 : list (Q * Q)) (m : dmatch) : outcome bool :=
  let* p1 := vget kp0 (trainIdx m) in
  let* p2 := vget kp1 (queryIdx m) in
  let dx := (fst p1 - fst p2)%Q in
  let dy := (snd p1 - snd p2)%Q in
  Ok (negb (Qle_bool 0 nonMove) || negb (Qle_bool (dx * dx + dy * dy) (nonMove * nonMove))).

(** std::stable_partition with a predicate that may be undefined on some element. *)
Fixpoint stable_partition {A} (p : A -> outcome bool) (l : list A) : outcome (list A * list A) :=
  match l with
  | [] => Ok ([], [])
  | a :: l' =>
      let* b := p a in
      let* (y, n) := stable_partition p l' in
      Ok (if b : bool then (a :: y, n) else (y, a :: n))
  end.

(** StereoMatcher.cpp 22-39: (matches, stillMatches) afterwards. *)
Definition filter_out_still (nonMove : Q) (kp0 kp1 : list (Q * Q)) (matches : list dmatch)
  : outcome (list dmatch * list dmatch) :=
  stable_partition (moved nonMove kp0 kp1) matches.

Section Estimator.
Variables E M : Type.
Variable mid : M.                       (* SE3() *)
Variable inlierE : E -> nat -> bool.    (* 86-87: reprojectionError < outlierReprojError *)
Variable front : M -> nat -> bool.      (* 101-102: both triangulated depths positive *)
Variable solutions : E -> list M.       (* 114-132 *)
Variable toEssential : M -> E.

(** 80-93 *)
Definition find_inliers_essential (n : nat) (e : E) : list nat := filter (inlierE e) (seq 0 n).
(** 95-108 *)
Definition find_inliers_motion (m : M) (l : list nat) : list nat := filter (front m) l.

(** 137-167: the solution with most points in front, its points and their number. *)
Definition extract_motion (e : E) (l : list nat) : M * list nat * Z :=
  fold_left (fun (acc : M * list nat * Z) sol =>
    let '(bestSol, bestInds, bestNum) := acc in
    let cur := find_inliers_motion sol l in
    if Z.of_nat (length cur) >? bestNum then (sol, cur, Z.of_nat (length cur)) else acc)
    (solutions e) (mid, [], 0).

(** std::sort of the sample. *)
Fixpoint zinsert (x : Z) (l : list Z) : list Z :=
  match l with [] => [x] | y :: l' => if x <=? y then x :: l else y :: zinsert x l' end.
Definition zsort (l : list Z) : list Z := fold_right zinsert [] l.

(** 199-202 *)
Fixpoint is_repeated (l : list Z) : bool :=
  match l with
  | a :: ((b :: _) as l') => (a =? b) || is_repeated l'
  | _ => false
  end.

(** The stopping rule: doubles [T] with [q0] of line 193, the quotient of 228, the comparison of
    229 and the conversion of 231-233. *)
Variable T : Type.
Variable q0 : T.
Variable ratio : Z -> T.
Variable gtb : T -> T -> bool.
Variable newIter : T -> outcome Z.
Variable runMax : bool.                 (* settings.runMaxRansacIter *)

(** Variables of the loop.  [rs_res0] is results[0], the only entry that can be read without having
    been written in the same iteration; curInliersInds is overwritten before every use and left
    out. *)
Record rstate := {
  rs_bestInliers : Z; rs_bestMotion : M; rs_inl : list nat; rs_best : list nat; rs_res0 : E;
  rs_q : T; rs_iterNum : Z }.

(** 210-219: the matrix with most inliers among the found ones; the swap of 217 keeps its list. *)
Definition best_essential (n : nat) (res0 : E) (best : list nat) (found : list E)
  : Z * E * list nat :=
  fold_left (fun (acc : Z * E * list nat) e =>
    let '(maxI, maxE, inds) := acc in
    let cur := find_inliers_essential n e in
    if Z.of_nat (length cur) >? maxI then (Z.of_nat (length cur), e, cur) else acc)
    found (0, res0, best).

(** 196-234: one iteration; [draw]: the five random indices, [found]: the matrices found for the
    sorted sample. *)
Definition ransac_step (n : nat) (draw : list Z) (est : list Z -> list E) (st : rstate)
  : outcome rstate :=
  let h := zsort draw in
  if is_repeated h then Ok st else
  let found := est h in
  let res0 := match found with e :: _ => e | [] => rs_res0 st end in
  let '(_, maxE, inds) := best_essential n res0 (rs_best st) found in
  let '(curMotion, inds, maxInliers) := extract_motion maxE inds in
  let better := rs_bestInliers st <? maxInliers in
  let curQ := ratio maxInliers in
  let above := gtb curQ (rs_q st) in
  let* iterNum := if above then
                    let* z := newIter curQ in Ok (if runMax then rs_iterNum st else z)
                  else Ok (rs_iterNum st) in
  Ok {| rs_bestInliers := if better then maxInliers else rs_bestInliers st;
        rs_bestMotion := if better then curMotion else rs_bestMotion st;
        rs_inl := if better then inds else rs_inl st;
        rs_best := if better then rs_inl st else inds;
        rs_res0 := res0;
        rs_q := if above then curQ else rs_q st;
        rs_iterNum := iterNum |}.

(** 195: the loop from iteration [it] on; also returns the number of iterations done. *)
Fixpoint ransac_loop (fuel : nat) (n : nat) (draws : nat -> list Z) (est : list Z -> list E)
         (it : nat) (st : rstate) : outcome (rstate * nat) :=
  match fuel with
  | O => if Z.of_nat it <? rs_iterNum st then NoFuel else Ok (st, it)
  | S f => if Z.of_nat it <? rs_iterNum st then
             let* st' := ransac_step n (draws it) est st in
             ransac_loop f n draws est (S it) st'
           else Ok (st, it)
  end.

(** 184-193 *)
Definition ransac_init (maxRansacIter : Z) (junk : E) (inls : list nat) : rstate :=
  {| rs_bestInliers := -1; rs_bestMotion := mid; rs_inl := inls; rs_best := []; rs_res0 := junk;
     rs_q := q0; rs_iterNum := maxRansacIter |}.

(** The members motion, _inliersInds, coarseFound and preciseFound. *)
Record sge := { g_motion : M; g_inl : list nat; g_coarse : bool; g_precise : bool }.
Definition sge_new : sge := {| g_motion := mid; g_inl := []; g_coarse := false; g_precise := false |}.

(** 170-249: findCoarseMotion returns the motion and the new members.  With no rays the
    distribution of line 182 has the bounds 0 and -1: undefined behaviour. *)
Definition find_coarse (maxRansacIter : Z) (n : nat) (junk : E) (draws : nat -> list Z)
           (est : list Z -> list E) (g : sge) : outcome (M * sge) :=
  if g_coarse g || g_precise g then Ok (g_motion g, g) else
  if (n =? 0)%nat then UB else
  let* (st, _) := ransac_loop (Z.to_nat maxRansacIter) n draws est 0
                    (ransac_init maxRansacIter junk (g_inl g)) in
  let '(bestMotion, inls, _) := extract_motion (toEssential (rs_bestMotion st)) (rs_inl st) in
  Ok (bestMotion, {| g_motion := rs_bestMotion st; g_inl := inls; g_coarse := true;
                     g_precise := g_precise g |}).

(** 310-362: findPreciseMotion; [refine] is the result of ceres::Solve on the motion given the
    inliers. *)
Definition find_precise (maxRansacIter : Z) (n : nat) (junk : E) (draws : nat -> list Z)
           (est : list Z -> list E) (refine : M -> list nat -> M) (g : sge) : outcome (M * sge) :=
  if g_precise g then Ok (g_motion g, g) else
  let* g := if g_coarse g then Ok g
            else let* (_, g') := find_coarse maxRansacIter n junk draws est g in Ok g' in
  let motion := refine (g_motion g) (g_inl g) in
  let inls := find_inliers_motion motion (find_inliers_essential n (toEssential motion)) in
  Ok (motion, {| g_motion := motion; g_inl := inls; g_coarse := g_coarse g; g_precise := true |}).

End Estimator.
Arguments rs_bestInliers {E M T}. Arguments rs_bestMotion {E M T}. Arguments rs_inl {E M T}.
Arguments rs_best {E M T}. Arguments rs_res0 {E M T}. Arguments rs_q {E M T}.
Arguments rs_iterNum {E M T}.
Arguments g_motion {M}. Arguments g_inl {M}. Arguments g_coarse {M}. Arguments g_precise {M}.
Arguments sge_new {M} mid.
Arguments extract_motion {E M} mid front solutions e l.
Arguments find_inliers_essential {E} inlierE n e.
Arguments find_inliers_motion {M} front m l.
Arguments best_essential {E} inlierE n res0 best found.
Arguments ransac_step {E M} mid inlierE front solutions {T} ratio gtb newIter runMax n draw est st.
Arguments ransac_loop {E M} mid inlierE front solutions {T} ratio gtb newIter runMax fuel n draws est it st.
Arguments ransac_init {E M} mid {T} q0 maxRansacIter junk inls.
Arguments find_coarse {E M} mid inlierE front solutions toEssential {T} q0 ratio gtb newIter runMax
  maxRansacIter n junk draws est g.
Arguments find_precise {E M} mid inlierE front solutions toEssential {T} q0 ratio gtb newIter runMax
  maxRansacIter n junk draws est refine g.

(** * StereoMatcher::match (StereoMatcher.cpp 41-110) *)
Section Match.
Variables E M T P2 D : Type.
Variable mid : M.
Variable solutions : E -> list M.
Variable toEssential : M -> E.
Variable agrees : E -> P2 * P2 -> bool.    (* StereoGeometryEstimator.cpp 86-87 *)
Variable triang : M -> P2 * P2 -> D * D.   (* StereoGeometryEstimator.cpp 51, 101: two depths *)
Variable positive : D -> bool.             (* depth > 0 *)
Variable q0 : T.
Variable ratio : nat -> Z -> T.            (* StereoGeometryEstimator.cpp 228: of the ray number *)
Variable gtb : T -> T -> bool.
Variable newIter : T -> outcome Z.
Variable runMax : bool.
Variable toVec2 : Q * Q -> P2.             (* 66-67: cv::Point2f through cv::Point, rounded *)

(** StereoGeometryEstimator.cpp 80-108 on a list of correspondences. *)
Definition inlier_of (cs : list (P2 * P2)) (e : E) (i : nat) : bool :=
  match nth_error cs i with Some c => agrees e c | None => false end.
Definition front_of (cs : list (P2 * P2)) (m : M) (i : nat) : bool :=
  match nth_error cs i with
  | Some c => let (d0, d1) := triang m c in positive d0 && positive d1
  | None => false
  end.

(** 65-67 *)
Fixpoint corresps (kp0 kp1 : list (Q * Q)) (l : list dmatch) : outcome (list (P2 * P2)) :=
  match l with
  | [] => Ok []
  | m :: l' =>
      let* a := vget kp0 (trainIdx m) in
      let* b := vget kp1 (queryIdx m) in
      let* r := corresps kp0 kp1 l' in
      Ok ((toVec2 a, toVec2 b) :: r)
  end.

(** 102-107 with depths() of StereoGeometryEstimator.cpp 45-58: the points and depths of the
    inliers, in their order. *)
Fixpoint collect (motion : M) (cs : list (P2 * P2)) (inls : list nat)
  : outcome (list (P2 * P2 * (D * D))) :=
  match inls with
  | [] => Ok []
  | i :: inls' =>
      match nth_error cs i with
      | None => UB
      | Some c =>
          let* r := collect motion cs inls' in
          Ok ((c, triang motion c) :: r)
      end
  end.

(** 41-110 from the matches on (no keypoints or no matches: an exception, 54-58). *)
Definition stereo_match (nonMove : Q) (runAveraging : bool) (maxRansacIter : Z) (junk : E)
           (draws : nat -> list Z) (est : list (P2 * P2) -> list Z -> list E)
           (refine : M -> list nat -> M)
           (kp0 kp1 : list (Q * Q)) (matches : list dmatch)
  : outcome (M * list (P2 * P2 * (D * D))) :=
  match matches with
  | [] => Throw
  | _ =>
    let* (mv, _) := filter_out_still nonMove kp0 kp1 matches in
    let* cs := corresps kp0 kp1 mv in
    let n := length cs in
    let* (motion, g) :=
      if runAveraging
      then find_precise mid (inlier_of cs) (front_of cs) solutions toEssential q0 (ratio n) gtb
             newIter runMax maxRansacIter n junk draws (est cs) refine (sge_new mid)
      else find_coarse mid (inlier_of cs) (front_of cs) solutions toEssential q0 (ratio n) gtb
             newIter runMax maxRansacIter n junk draws (est cs) (sge_new mid) in
    let* res := collect (g_motion g) cs (g_inl g) in
    Ok (motion, res)
  end.
End Match.
Arguments inlier_of {E P2} agrees cs e i.
Arguments front_of {M P2 D} triang positive cs m i.
Arguments corresps {P2} toVec2 kp0 kp1 l.
Arguments collect {M P2 D} triang motion cs inls.
Arguments stereo_match {E M T P2 D} mid solutions toEssential agrees triang positive q0 ratio gtb
  newIter runMax toVec2 nonMove runAveraging maxRansacIter junk draws est refine kp0 kp1 matches.
