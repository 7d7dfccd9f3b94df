(** Two-view initialisation: C48, C49, C69. *)
From Coq Require Import List ZArith Bool QArith Reals Sorted.
From Verif Require Import Outcome StereoModel StereoSpec StereoProofs StopModel StopProofs.
Import ListNotations.
Open Scope Z_scope.

(** C48: the kept consensus set is that of an evaluated sample, and no evaluated sample has a
    larger one for any motion of its matrix; all samples up to the maximal number are looked at
    unless so many iterations as the stopping rule asks for no more than the kept inliers are done;
    the final front check keeps the points in front of the returned motion. *)
Theorem C48_best_consensus : forall E M (mid : M) (inlierE : E -> nat -> bool) front solutions
    toEssential T (q0 : T) ratio gtb newIter runMax maxIter n junk draws est r g,
  find_coarse mid inlierE front solutions toEssential q0 ratio gtb newIter runMax maxIter n junk
    draws est (sge_new mid) = Ok (r, g) ->
  exists done kept,
    Z.of_nat done <= Z.max 0 maxIter /\
    (maxIter <= Z.of_nat done \/
     (runMax = false /\ exists k z, 0 <= k <= Z.of_nat (length kept) /\
        newIter (ratio k) = Ok z /\ z <= Z.of_nat done)) /\
    ((kept = [] /\ g_motion g = mid) \/
     (exists it e, (it < done)%nat /\ evaluates inlierE n draws est it e /\
        In (g_motion g) (solutions e) /\
        kept = consensus inlierE front n e (g_motion g) /\ kept <> [])) /\
    (forall it e m, (it < done)%nat -> evaluates inlierE n draws est it e -> In m (solutions e) ->
        (length (consensus inlierE front n e m) <= length kept)%nat) /\
    ((r = mid /\ g_inl g = []) \/
     (In r (solutions (toEssential (g_motion g))) /\ g_inl g = filter (front r) kept /\
      g_inl g <> [])) /\
    (forall s, In s (solutions (toEssential (g_motion g))) ->
        (length (filter (front s) kept) <= length (g_inl g))%nat).
Proof.
  exact (fun E M mid inlierE front solutions toEssential T q0 ratio gtb newIter runMax maxIter n
             junk draws est r g =>
    coarse_consensus E M mid inlierE front solutions toEssential T q0 ratio gtb newIter runMax n
      draws est maxIter junk r g).
Qed.
Print Assumptions C48_best_consensus.

(** C48: inliers are increasing indices in front of both the kept and the returned motion. *)
Theorem C48_inliers : forall E M (mid : M) (inlierE : E -> nat -> bool) front solutions
    toEssential T (q0 : T) ratio gtb newIter runMax maxIter n junk draws est r g,
  find_coarse mid inlierE front solutions toEssential q0 ratio gtb newIter runMax maxIter n junk
    draws est (sge_new mid) = Ok (r, g) ->
  good_inliers front n (g_motion g) (g_inl g) /\ good_inliers front n r (g_inl g).
Proof.
  exact (fun E M mid inlierE front solutions toEssential T q0 ratio gtb newIter runMax maxIter n
             junk draws est r g =>
    coarse_inliers E M mid inlierE front solutions toEssential T q0 ratio gtb newIter runMax n
      draws est maxIter junk r g).
Qed.
Print Assumptions C48_inliers.

(** C48: at most the maximal number of iterations, exactly so many if asked for; the search ends
    for every sequence of draws. *)
Theorem C48_iterations : forall E M (mid : M) (inlierE : E -> nat -> bool) front solutions
    toEssential T (q0 : T) ratio gtb newIter runMax maxIter n junk draws est,
  (0 < n)%nat ->
  stop_ok n maxIter q0 ratio gtb (fun k z => newIter (ratio k) = Ok z) ->
  is_ok (find_coarse mid inlierE front solutions toEssential q0 ratio gtb newIter runMax maxIter n
           junk draws est (sge_new mid)) /\
  exists st done,
    ransac_loop mid inlierE front solutions ratio gtb newIter runMax (Z.to_nat maxIter) n draws est
      0 (ransac_init mid q0 maxIter junk []) = Ok (st, done) /\ Z.of_nat done <= Z.max 0 maxIter /\
    (runMax = true -> Z.of_nat done = Z.max 0 maxIter).
Proof.
  exact (fun E M mid inlierE front solutions toEssential T q0 ratio gtb newIter runMax maxIter n
             junk draws est =>
    coarse_total E M mid inlierE front solutions toEssential T q0 ratio gtb newIter runMax n
      draws est maxIter junk).
Qed.
Print Assumptions C48_iterations.

(** C48: the formula of the code is such a stopping rule (in real arithmetic). *)
Theorem C48_stopping_rule : forall p maxIter n,
  (0 < p < 1)%R -> (1 <= maxIter < 2 ^ 31)%Z -> (0 < n)%nat ->
  stop_ok n maxIter (stop_q0 p maxIter) (stop_ratio n) stop_gtb
    (fun k z => stop_iter p (stop_ratio n k) = Ok z).
Proof. exact real_stop_ok. Qed.
Print Assumptions C48_stopping_rule.

(** C48: with one to four correspondences no sample is evaluated. *)
Theorem C48_few : forall E M (mid : M) (inlierE : E -> nat -> bool) front solutions
    toEssential T (q0 : T) ratio gtb newIter runMax maxIter n junk draws est,
  (n < 5)%nat ->
  (forall it, length (draws it) = 5%nat /\ forall x, In x (draws it) -> 0 <= x < Z.of_nat n) ->
  (forall it e, ~ evaluates inlierE n draws est it e) /\
  (forall r g, find_coarse mid inlierE front solutions toEssential q0 ratio gtb newIter runMax
       maxIter n junk draws est (sge_new mid) = Ok (r, g) ->
     r = mid /\ g_motion g = mid /\ g_inl g = []).
Proof.
  exact (fun E M mid inlierE front solutions toEssential T q0 ratio gtb newIter runMax maxIter n
             junk draws est N D =>
    conj (few_no_evaluation E M mid inlierE front solutions toEssential n draws est N D)
      (fun r g => coarse_few E M mid inlierE front solutions toEssential T q0 ratio gtb newIter
         runMax n draws est maxIter junk r g N D)).
Qed.
Print Assumptions C48_few.

(** C48: without correspondences the call is undefined. *)
Theorem C48_none_refuted : forall E M (mid : M) (inlierE : E -> nat -> bool) front solutions
    toEssential T (q0 : T) ratio gtb newIter runMax maxIter n junk draws est,
  n = 0%nat ->
  find_coarse mid inlierE front solutions toEssential q0 ratio gtb newIter runMax maxIter n junk
    draws est (sge_new mid) = UB.
Proof.
  exact (fun E M mid inlierE front solutions toEssential T q0 ratio gtb newIter runMax maxIter n
             junk draws est =>
    coarse_none E M mid inlierE front solutions toEssential T q0 ratio gtb newIter runMax n
      draws est maxIter junk).
Qed.
Print Assumptions C48_none_refuted.

(** C48: the precise search keeps exactly the correspondences agreeing with the refined motion and
    in front of it, and later calls return the same. *)
Theorem C48_precise : forall E M (mid : M) (inlierE : E -> nat -> bool) front solutions
    toEssential T (q0 : T) ratio gtb newIter runMax maxIter n junk draws est refine g0 r g,
  g_precise g0 = false ->
  find_precise mid inlierE front solutions toEssential q0 ratio gtb newIter runMax maxIter n junk
    draws est refine g0 = Ok (r, g) ->
  r = g_motion g /\
  (forall i, In i (g_inl g) <->
     (i < n)%nat /\ inlierE (toEssential r) i = true /\ front r i = true) /\
  good_inliers front n r (g_inl g).
Proof.
  exact (fun E M mid inlierE front solutions toEssential T q0 ratio gtb newIter runMax maxIter n
             junk draws est refine g0 r g =>
    precise_ok E M mid inlierE front solutions toEssential T q0 ratio gtb newIter runMax n
      draws est maxIter junk refine g0 r g).
Qed.
Print Assumptions C48_precise.

Theorem C48_precise_again : forall E M (mid : M) (inlierE : E -> nat -> bool) front solutions
    toEssential T (q0 : T) ratio gtb newIter runMax maxIter n junk draws est refine g0 r g
    maxIter' junk' refine',
  g_precise g0 = false ->
  find_precise mid inlierE front solutions toEssential q0 ratio gtb newIter runMax maxIter n junk
    draws est refine g0 = Ok (r, g) ->
  find_precise mid inlierE front solutions toEssential q0 ratio gtb newIter runMax maxIter' n junk'
    draws est refine' g = Ok (r, g) /\
  find_coarse mid inlierE front solutions toEssential q0 ratio gtb newIter runMax maxIter' n junk'
    draws est g = Ok (r, g).
Proof.
  exact (fun E M mid inlierE front solutions toEssential T q0 ratio gtb newIter runMax maxIter n
             junk draws est refine g0 r g maxIter' junk' refine' =>
    precise_again E M mid inlierE front solutions toEssential T q0 ratio gtb newIter runMax n
      draws est maxIter junk refine maxIter' junk' refine' g0 r g).
Qed.
Print Assumptions C48_precise_again.

(** A search over ten correspondences with two samples: the second repeats an index, the first
    finds two matrices; matrix 1 has the most inliers and its second motion most points in front. *)
Definition demo_inlier (e : Z) (i : nat) : bool := if e =? 1 then (i <? 8)%nat else (i <? 5)%nat.
Definition demo_front (m : Z) (i : nat) : bool :=
  if m =? 12 then (2 <=? i)%nat else if m =? 11 then (i <? 2)%nat else false.
Definition demo_solutions (e : Z) : list Z := if e =? 1 then [11; 12; 13; 14] else [21; 22; 23; 24].
Definition demo_draws (it : nat) : list Z := if (it =? 0)%nat then [7; 2; 9; 0; 4] else [3; 3; 1; 2; 8].

Example C48_witness :
  find_coarse 0 demo_inlier demo_front demo_solutions (fun _ => 1) (1 # 2)%Q
    (fun k => k # 10)%Q (fun a b => negb (Qle_bool a b)) (fun _ => Ok 2) false 100 10 7
    demo_draws (fun _ => [5; 1]) (sge_new 0)
  = Ok (12, {| g_motion := 12; g_inl := [2; 3; 4; 5; 6; 7]%nat; g_coarse := true;
               g_precise := false |}).
Proof. vm_compute. reflexivity. Qed.

Example C48_few_witness :
  find_coarse 0 demo_inlier demo_front demo_solutions (fun _ => 1) (1 # 2)%Q
    (fun k => k # 4)%Q (fun a b => negb (Qle_bool a b)) (fun _ => Ok 2) false 20 4 7
    (fun _ => [3; 0; 2; 1; 2]) (fun _ => [5; 1]) (sge_new 0)
  = Ok (0, {| g_motion := 0; g_inl := []; g_coarse := true; g_precise := false |}).
Proof. vm_compute. reflexivity. Qed.

(** C49: a stable partition by the displacement. *)
Theorem C49_partition : forall t kp0 kp1 ms mv still,
  filter_out_still t kp0 kp1 ms = Ok (mv, still) ->
  interleaving mv still ms /\
  (forall m, In m ms -> exists p q,
     nth_error kp0 (Z.to_nat (trainIdx m)) = Some p /\
     nth_error kp1 (Z.to_nat (queryIdx m)) = Some q /\
     (In m mv -> farther_than t p q) /\ (In m still -> ~ farther_than t p q)).
Proof. exact filter_out_still_ok. Qed.
Print Assumptions C49_partition.

(** C49: defined whenever the indices of the matches are those of keypoints. *)
Theorem C49_defined : forall t kp0 kp1 ms,
  (forall m, In m ms -> 0 <= trainIdx m < Z.of_nat (length kp0) /\
                        0 <= queryIdx m < Z.of_nat (length kp1)) ->
  is_ok (filter_out_still t kp0 kp1 ms).
Proof. exact filter_out_still_total. Qed.
Print Assumptions C49_defined.

Definition demo_kp0 : list (Q * Q) := [(10, 10); (50, 20); (7, 7)]%Q.
Definition demo_kp1 : list (Q * Q) := [(11, 10); (80, 20); (7, 40)]%Q.
Definition dm q t := {| queryIdx := q; trainIdx := t |}.
Example C49_witness :
  filter_out_still 5 demo_kp0 demo_kp1 [dm 1 1; dm 0 0; dm 2 2]
  = Ok ([dm 1 1; dm 2 2], [dm 0 0]).
Proof. vm_compute. reflexivity. Qed.

(** C69: every reported pair of points and depths belongs to one moved match, in increasing order of
    the matches, with positive depths triangulated with one motion, the returned one if the motion
    is refined. *)
Theorem C69_match : forall E M T P2 D (mid : M) (solutions : E -> list M) toEssential agrees
    (triang : M -> P2 * P2 -> D * D) positive (q0 : T) ratio gtb newIter runMax toVec2
    nonMove avg maxIter junk draws est refine kp0 kp1 ms motion res,
  stereo_match mid solutions toEssential agrees triang positive q0 ratio gtb newIter runMax toVec2
    nonMove avg maxIter junk draws est refine kp0 kp1 ms = Ok (motion, res) ->
  exists mv still used inls,
    filter_out_still nonMove kp0 kp1 ms = Ok (mv, still) /\
    StronglySorted lt inls /\
    Forall2 (fun i r => exists m p q, nth_error mv i = Some m /\
       nth_error kp0 (Z.to_nat (trainIdx m)) = Some p /\
       nth_error kp1 (Z.to_nat (queryIdx m)) = Some q /\
       fst r = (toVec2 p, toVec2 q) /\ snd r = triang used (fst r) /\
       positive (fst (snd r)) = true /\ positive (snd (snd r)) = true) inls res /\
    (avg = true -> used = motion).
Proof. exact match_ok. Qed.
Print Assumptions C69_match.

(** C69: the returned motion is the one of the depths also without refinement, if a motion is among
    the decompositions of its own essential matrix and every correspondence is in front of at most
    one of the decompositions. *)
Theorem C69_coarse_motion : forall E M T P2 D (mid : M) (solutions : E -> list M) toEssential agrees
    (triang : M -> P2 * P2 -> D * D) positive (q0 : T) ratio gtb newIter runMax toVec2
    nonMove maxIter junk draws est refine kp0 kp1 ms motion res,
  (forall m, In m (solutions (toEssential m))) ->
  (forall e s s' c, In s (solutions e) -> In s' (solutions e) ->
     positive (fst (triang s c)) = true -> positive (snd (triang s c)) = true ->
     positive (fst (triang s' c)) = true -> positive (snd (triang s' c)) = true -> s = s') ->
  stereo_match mid solutions toEssential agrees triang positive q0 ratio gtb newIter runMax toVec2
    nonMove false maxIter junk draws est refine kp0 kp1 ms = Ok (motion, res) ->
  Forall (fun r => snd r = triang motion (fst r)) res.
Proof. exact match_coarse_motion. Qed.
Print Assumptions C69_coarse_motion.

(** C69: the call succeeds if some match moved and the indices are those of keypoints. *)
Theorem C69_defined : forall E M T P2 D (mid : M) (solutions : E -> list M) toEssential agrees
    (triang : M -> P2 * P2 -> D * D) positive (q0 : T) ratio gtb newIter runMax toVec2
    nonMove avg maxIter junk draws est refine kp0 kp1 ms mv still,
  (forall m, In m ms -> 0 <= trainIdx m < Z.of_nat (length kp0) /\
                        0 <= queryIdx m < Z.of_nat (length kp1)) ->
  filter_out_still nonMove kp0 kp1 ms = Ok (mv, still) ->
  mv <> [] ->
  stop_ok (length mv) maxIter q0 (ratio (length mv)) gtb
    (fun k z => newIter (ratio (length mv) k) = Ok z) ->
  is_ok (stereo_match mid solutions toEssential agrees triang positive q0 ratio gtb newIter runMax
           toVec2 nonMove avg maxIter junk draws est refine kp0 kp1 ms).
Proof. exact match_total. Qed.
Print Assumptions C69_defined.

(** C69: without any match an exception is thrown, ... *)
Theorem C69_no_match : forall E M T P2 D (mid : M) (solutions : E -> list M) toEssential agrees
    (triang : M -> P2 * P2 -> D * D) positive (q0 : T) ratio gtb newIter runMax toVec2
    nonMove avg maxIter junk draws est refine kp0 kp1,
  stereo_match mid solutions toEssential agrees triang positive q0 ratio gtb newIter runMax toVec2
    nonMove avg maxIter junk draws est refine kp0 kp1 [] = Throw.
Proof. exact match_none. Qed.
Print Assumptions C69_no_match.

(** ... but if all matches are still the behaviour is undefined. *)
Theorem C69_all_still_refuted : forall E M T P2 D (mid : M) (solutions : E -> list M) toEssential
    agrees (triang : M -> P2 * P2 -> D * D) positive (q0 : T) ratio gtb newIter runMax toVec2
    nonMove avg maxIter junk draws est refine kp0 kp1 ms still,
  ms <> [] -> filter_out_still nonMove kp0 kp1 ms = Ok ([], still) ->
  stereo_match mid solutions toEssential agrees triang positive q0 ratio gtb newIter runMax toVec2
    nonMove avg maxIter junk draws est refine kp0 kp1 ms = UB.
Proof. exact match_all_still. Qed.
Print Assumptions C69_all_still_refuted.

(** Six matches, the third one still, the last one behind the cameras. *)
Definition demo_tri (m : Z) (c : Q * Q * (Q * Q)) : Z * Z :=
  if m =? 12 then (if Qle_bool (fst (fst c)) 45 then (3, 4) else (-3, 4)) else (-1, -1).
Definition demo_p0 : list (Q * Q) := [(0, 0); (10, 0); (20, 0); (30, 0); (40, 0); (50, 0)]%Q.
Definition demo_p1 : list (Q * Q) := [(0, 9); (10, 9); (20, 0); (30, 9); (40, 9); (50, 9)]%Q.
Definition demo_match avg :=
  stereo_match 0 demo_solutions (fun _ => 1) (fun e (_ : Q * Q * (Q * Q)) => e =? 1) demo_tri
    (fun d => 0 <? d) (1 # 2)%Q (fun n k => k # Pos.of_nat n)%Q
    (fun a b => negb (Qle_bool a b)) (fun _ => Ok 2) false (fun p => p)
    5 avg 100 7 (fun _ => [4; 2; 0; 1; 3]) (fun _ _ => [5; 1]) (fun m _ => m)
    demo_p0 demo_p1 [dm 0 0; dm 1 1; dm 2 2; dm 3 3; dm 4 4; dm 5 5].
Example C69_witness :
  demo_match true =
  Ok (12, [((0, 0), (0, 9), (3, 4)%Z); ((10, 0), (10, 9), (3, 4)%Z); ((30, 0), (30, 9), (3, 4)%Z);
           ((40, 0), (40, 9), (3, 4)%Z)]%Q) /\
  demo_match false = demo_match true.
Proof. vm_compute. split; reflexivity. Qed.
Example C69_still_witness :
  filter_out_still 5 demo_p0 demo_p1 [dm 2 2] = Ok ([], [dm 2 2]).
Proof. vm_compute. reflexivity. Qed.
