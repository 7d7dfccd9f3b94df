(** Properties of the points projected onto the base keyframe, of the reference of the frame tracker,
    of the initializer's keyframes and of the point lists of a keyframe (C82-C86). *)
From Coq Require Import ZArith QArith Reals List Bool.
From Verif Require Import Outcome Pose PyramidModel PyramidSpec BaseModel BaseSpec BaseProofs BaseMore BaseInit BaseExamples.
Import ListNotations.
Open Scope Z_scope.

(** ** C82 *)

(** The outputs asked for are parallel columns of one list: the points that appear on the base keyframe, keyframe by
    keyframe in the order of their lists. *)
Theorem C82_listing : forall cmap unmap w h k fromLast kfs bn bf,
  well_keyed kfs -> is_base fromLast kfs bn bf -> rigid (f_pose bf) -> directed unmap -> depths_known k kfs bn ->
  exists ls, listing cmap unmap w h k kfs bn bf ls /\
    forall o, projectOntoBaseKf cmap unmap w h k fromLast kfs o = Ok (restricted o (columns ls)).
Proof. exact projected_all. Qed.
Print Assumptions C82_listing.

(** It is defined exactly when all depths that are needed are known. *)
Theorem C82_defined : forall cmap unmap w h k fromLast kfs o bn bf,
  is_base fromLast kfs bn bf -> o_depths o <> None ->
  (exists r, projectOntoBaseKf cmap unmap w h k fromLast kfs o = Ok r) <-> depths_known k kfs bn.
Proof. exact project_defined. Qed.
Print Assumptions C82_defined.

(** A point without depth in another keyframe, whatever its state, makes it undefined. *)
Theorem C82_unknown_refuted : forall cmap unmap w h k fromLast kfs o bn bf,
  is_base fromLast kfs bn bf -> o_depths o <> None -> ~ depths_known k kfs bn ->
  projectOntoBaseKf cmap unmap w h k fromLast kfs o = UB.
Proof. exact project_undefined. Qed.
Print Assumptions C82_unknown_refuted.

(** The points listed need not be active. *)
Theorem C82_outlier_refuted : exists cmap unmap w h kfs bn bf ls,
  directed unmap /\ (forall a b, cmap (unmap (inject_Z a, inject_Z b)) = (inject_Z a, inject_Z b)) /\
  well_keyed kfs /\ is_base false kfs bn bf /\ depths_known Optimized kfs bn /\
  (forall o, projectOntoBaseKf cmap unmap w h Optimized false kfs o = Ok (restricted o (columns ls))) /\
  exists l f p, In l ls /\ In (fst (l_ref l), f) kfs /\ nth_error (f_opt f) (snd (l_ref l)) = Some p /\
    b_state p = OUTLIER.
Proof. exact outlier_listed. Qed.
Print Assumptions C82_outlier_refuted.

Example C82_case : well_keyed kfs12 /\ is_base false kfs12 1 one /\ rigid (f_pose one) /\ directed pin_unmap /\
  depths_known Optimized kfs12 1 /\
  appears pin_map pin_unmap 8 8 Optimized kfs12 1 one (1, 0%nat) (inject_Z 3, inject_Z 2) 1 /\
  appears pin_map pin_unmap 8 8 Optimized kfs12 1 one (2, 0%nat) (inject_Z 3, inject_Z 2) (vnorm (V3 3 2 1)).
Proof.
  split; [apply keyed12|]. split; [exists [], (2, two); reflexivity|]. split; [apply rigid_at|].
  split; [apply pin_directed|]. split; [apply known12|]. split; apply appears12; auto.
Qed.

(** ** C83 *)

(** Level 0 of the reference: every pixel shows the last of the points that appear in it. *)
Theorem C83_reference : forall cmap unmap w h oc fromLast L kfs bn bf,
  let k := point_kind oc kfs in
  well_keyed kfs -> is_base fromLast kfs bn bf -> rigid (f_pose bf) -> directed unmap -> depths_known k kfs bn ->
  all_inside cmap unmap w h k kfs bn bf -> 1 <= L ->
  exists images depths m,
    trackerReference cmap unmap w h oc fromLast L kfs = Ok (images, depths) /\
    imagePyramid (f_image bf) L = Ok images /\ length depths = Z.to_nat L /\
    nth_error depths 0 = Some m /\ dcols m = gcols (f_image bf) /\ drows m = grows (f_image bf) /\
    forall x y,
      (dat m x y = (-1)%R /\ ~ exists r p d, appears cmap unmap w h k kfs bn bf r p d /\ falls p x y) \/
      (exists r p, appears cmap unmap w h k kfs bn bf r p (dat m x y) /\ falls p x y /\
         forall r' p' d', appears cmap unmap w h k kfs bn bf r' p' d' -> falls p' x y -> r' = r \/ ref_before r' r).
Proof. exact level0. Qed.
Print Assumptions C83_reference.

(** When the last keyframe is the base, its own active points are on top ... *)
Theorem C83_own : forall cmap unmap w h oc L kfs bn bf images depths m i p x y,
  let k := point_kind oc kfs in
  well_keyed kfs -> is_base true kfs bn bf -> rigid (f_pose bf) -> directed unmap -> depths_known k kfs bn ->
  all_inside cmap unmap w h k kfs bn bf -> 1 <= L ->
  trackerReference cmap unmap w h oc true L kfs = Ok (images, depths) -> nth_error depths 0 = Some m ->
  nth_error (getPoints k bf) i = Some p -> b_state p = ACTIVE -> falls (b_pos p) x y ->
  exists j q, (i <= j)%nat /\ nth_error (getPoints k bf) j = Some q /\ b_state q = ACTIVE /\
    falls (b_pos q) x y /\ b_depth q = Some (dat m x y).
Proof. exact own_on_top. Qed.
Print Assumptions C83_own.

(** ... otherwise the points of the last keyframe are, ... *)
Theorem C83_last : forall cmap unmap w h oc L kfs l bn bf n f images depths m r p d x y,
  let k := point_kind oc kfs in
  well_keyed kfs -> kfs = l ++ [(bn, bf); (n, f)] -> rigid (f_pose bf) -> directed unmap -> depths_known k kfs bn ->
  all_inside cmap unmap w h k kfs bn bf -> 1 <= L ->
  trackerReference cmap unmap w h oc false L kfs = Ok (images, depths) -> nth_error depths 0 = Some m ->
  appears cmap unmap w h k kfs bn bf r p d -> fst r = n -> falls p x y ->
  exists j q, appears cmap unmap w h k kfs bn bf (n, j) q (dat m x y) /\ falls q x y.
Proof. exact last_on_top. Qed.
Print Assumptions C83_last.

(** ... even an outlier that is farther away. *)
Theorem C83_hidden_refuted : exists cmap unmap w h kfs bn bf p i x y images depths m,
  directed unmap /\ (forall a b, cmap (unmap (inject_Z a, inject_Z b)) = (inject_Z a, inject_Z b)) /\
  well_keyed kfs /\ is_base false kfs bn bf /\ depths_known Optimized kfs bn /\
  all_inside cmap unmap w h Optimized kfs bn bf /\
  nth_error (f_opt bf) i = Some p /\ b_state p = ACTIVE /\ falls (b_pos p) x y /\ b_depth p = Some 1%R /\
  trackerReference cmap unmap w h NewKeyFrame false 1 kfs = Ok (images, depths) /\
  nth_error depths 0 = Some m /\ (1 < dat m x y)%R /\
  exists r q f d, appears cmap unmap w h Optimized kfs bn bf r q (dat m x y) /\ In (fst r, f) kfs /\
    nth_error (f_opt f) (snd r) = Some d /\ b_state d = OUTLIER.
Proof. exact hidden. Qed.
Print Assumptions C83_hidden_refuted.

(** A point that appears on the right or lower border of the image makes it undefined. *)
Theorem C83_border_refuted : forall cmap unmap w h oc fromLast L kfs bn bf r x d,
  let k := point_kind oc kfs in
  well_keyed kfs -> is_base fromLast kfs bn bf -> rigid (f_pose bf) -> directed unmap -> depths_known k kfs bn ->
  1 <= L -> gcols (f_image bf) = w -> grows (f_image bf) = h -> 0 <= w -> 0 <= h ->
  appears cmap unmap w h k kfs bn bf r x d -> (fst x == inject_Z w \/ snd x == inject_Z h)%Q ->
  trackerReference cmap unmap w h oc fromLast L kfs = UB.
Proof. exact border_undefined. Qed.
Print Assumptions C83_border_refuted.

Example C83_case : all_inside pin_map pin_unmap 8 8 Optimized kfs12 1 one /\ falls (inject_Z 3, inject_Z 2) 3 2 /\
  kfs12 = [] ++ [(1, one); (2, two)].
Proof. split; [apply inside12|]. split; [apply falls32|reflexivity]. Qed.

Example C83_border_case :
  well_keyed kfs_narrow /\ is_base false kfs_narrow 1 (narrow vzero [pt 1 2 ACTIVE 1]) /\
  rigid (SE qone vzero) /\ depths_known Optimized kfs_narrow 1 /\
  appears pin_map pin_unmap 3 8 Optimized kfs_narrow 1 (narrow vzero [pt 1 2 ACTIVE 1]) (2, 0%nat)
    (inject_Z 3, inject_Z 2) (vnorm (V3 3 2 1)).
Proof. exact narrow_border. Qed.

(** ** C84 *)

(** The coarser levels: weighted means of the points shown on level 0, with weight 1 at initialisation and the inverse
    deviation otherwise. *)
Theorem C84_coarse : forall cmap unmap w h oc fromLast L kfs bn bf,
  let k := point_kind oc kfs in
  well_keyed kfs -> is_base fromLast kfs bn bf -> rigid (f_pose bf) -> directed unmap -> depths_known k kfs bn ->
  all_inside cmap unmap w h k kfs bn bf -> 1 <= L ->
  exists images depths ls ws D W,
    trackerReference cmap unmap w h oc fromLast L kfs = Ok (images, depths) /\
    listing cmap unmap w h k kfs bn bf ls /\ length ws = length ls /\
    (forall i l x, nth_error ls i = Some l -> nth_error ws i = Some x -> weighted oc k kfs (l_ref l) x) /\
    deposited (map l_pos ls) (map l_depth ls) ws D W /\
    (forall l m, (1 <= l)%nat -> nth_error depths l = Some m ->
      dcols m = gcols (f_image bf) / 2 ^ Z.of_nat l /\ drows m = grows (f_image bf) / 2 ^ Z.of_nat l /\
      forall x y, 0 <= x -> 0 <= y -> cell_value l x y D W (dat m x y)).
Proof. exact coarse. Qed.
Print Assumptions C84_coarse.

(** At initialisation every cell with a point has a depth. *)
Theorem C84_initial : forall cmap unmap w h fromLast L kfs bn bf,
  well_keyed kfs -> is_base fromLast kfs bn bf -> rigid (f_pose bf) -> directed unmap -> depths_known Immature kfs bn ->
  all_inside cmap unmap w h Immature kfs bn bf -> 1 <= L ->
  (forall r x d, appears cmap unmap w h Immature kfs bn bf r x d -> (0 <= d)%R) ->
  exists images depths, trackerReference cmap unmap w h Initialized fromLast L kfs = Ok (images, depths) /\
    forall l m x y bx by_ r p d, (1 <= l)%nat -> nth_error depths l = Some m -> 0 <= x -> 0 <= y ->
      appears cmap unmap w h Immature kfs bn bf r p d -> falls p bx by_ -> in_block (Z.of_nat l) x y bx by_ ->
      (0 <= dat m x y)%R.
Proof. exact initial_filled. Qed.
Print Assumptions C84_initial.

(** When the same two keyframes are saved before any tracing and restored, no cell of a coarser level has. *)
Theorem C84_restored_refuted : forall cmap unmap w h fromLast L kfs bn bf,
  length kfs = 2%nat -> no_deviation Immature kfs ->
  well_keyed kfs -> is_base fromLast kfs bn bf -> rigid (f_pose bf) -> directed unmap -> depths_known Immature kfs bn ->
  all_inside cmap unmap w h Immature kfs bn bf -> 1 <= L ->
  exists images depths, trackerReference cmap unmap w h Restored fromLast L kfs = Ok (images, depths) /\
    forall l m x y, (1 <= l)%nat -> nth_error depths l = Some m -> 0 <= x -> 0 <= y -> dat m x y = (-1)%R.
Proof. exact restored_empty. Qed.
Print Assumptions C84_restored_refuted.

Example C84_case : exists f0 f1,
  createKeyFrames pin_unmap 8 8 false 2 10 sid flat_source flat_source = Ok (f0, f1, true) /\
  well_keyed (initialFrames 0 1 (f0, f1)) /\ is_base true (initialFrames 0 1 (f0, f1)) 1 f1 /\ rigid (f_pose f1) /\
  depths_known Immature (initialFrames 0 1 (f0, f1)) 1 /\ no_deviation Immature (initialFrames 0 1 (f0, f1)) /\
  all_inside pin_map pin_unmap 8 8 Immature (initialFrames 0 1 (f0, f1)) 1 f1 /\ f_imm f1 <> [] /\
  (forall r x d, appears pin_map pin_unmap 8 8 Immature (initialFrames 0 1 (f0, f1)) 1 f1 r x d -> (0 <= d)%R).
Proof. exact ready_case. Qed.

(** ** C85 *)

(** The keyframes made in the spherical mode. *)
Theorem C85_spherical : forall unmap w h ph needed g a b f0 f1 obs, 0 <= needed -> rigid g ->
  createKeyFrames unmap w h false ph needed g a b = Ok (f0, f1, obs) ->
  obs = true /\ f_pose f0 = sid /\ (forall v, act g (act (f_pose f1) v) = v) /\
  f_image f0 = c_image a /\ f_image f1 = c_image b /\ f_opt f0 = [] /\ f_opt f1 = [] /\
  initial_points unmap w h ph needed a f0 /\ initial_points unmap w h ph needed b f1.
Proof. exact create_spherical. Qed.
Print Assumptions C85_spherical.

(** All their points have depths, but none the deviation 1 that was set before the second selection. *)
Theorem C85_deviation_refuted : forall unmap w h ph needed g a b f0 f1 obs n0 n1 bn, 0 <= needed -> rigid g ->
  createKeyFrames unmap w h false ph needed g a b = Ok (f0, f1, obs) ->
  depths_known Immature (initialFrames n0 n1 (f0, f1)) bn /\
  no_deviation Immature (initialFrames n0 n1 (f0, f1)).
Proof. exact spherical_ready. Qed.
Print Assumptions C85_deviation_refuted.

(** Undefined when no selected pixel meets the terrain. *)
Theorem C85_no_hit_refuted : forall unmap w h ph needed g a b,
  (forall p, In p (c_first a) -> ~ exists d, hits unmap w h ph (c_spherical a) p d) ->
  createKeyFrames unmap w h false ph needed g a b = UB.
Proof. exact no_hit. Qed.
Print Assumptions C85_no_hit_refuted.

(** The keyframes made in the plain mode; the observers are not told. *)
Theorem C85_plain : forall unmap w h ph needed g a b, rigid g -> exists f0 f1,
  createKeyFrames unmap w h true ph needed g a b = Ok (f0, f1, false) /\
  f_pose f0 = sid /\ (forall v, act g (act (f_pose f1) v) = v) /\
  f_image f0 = c_image a /\ f_image f1 = c_image b /\ f_opt f0 = [] /\ f_opt f1 = [] /\
  Forall2 (plain_point (c_plain a)) (c_first a) (f_imm f0) /\
  Forall2 (plain_point (c_plain b)) (c_first b) (f_imm f1).
Proof. exact create_plain. Qed.
Print Assumptions C85_plain.

(** There a pixel of the other keyframe outside the terrain makes the reference of the tracker undefined ... *)
Theorem C85_plain_refuted : forall cmap unmap w h ph needed g a b f0 f1 obs (fromLast : bool) L n0 n1 p,
  rigid g -> n0 <> n1 -> createKeyFrames unmap w h true ph needed g a b = Ok (f0, f1, obs) ->
  let s := if fromLast then a else b in
  In p (c_first s) -> c_plain s (toVec2 p) = None ->
  trackerReference cmap unmap w h Initialized fromLast L (initialFrames n0 n1 (f0, f1)) = UB.
Proof. exact plain_undefined. Qed.
Print Assumptions C85_plain_refuted.

(** ... and a pixel too near to the border becomes active. *)
Theorem C85_plain_border_refuted : forall unmap w h ph needed g a b f0 f1 obs p, rigid g ->
  createKeyFrames unmap w h true ph needed g a b = Ok (f0, f1, obs) ->
  In p (c_first a) -> ~ well_inside w h ph p -> c_plain a (toVec2 p) <> None ->
  exists q, In q (f_imm f0) /\ b_pos q = toVec2 p /\ b_state q = ACTIVE.
Proof. exact plain_border. Qed.
Print Assumptions C85_plain_border_refuted.

Example C85_case : exists f0 f1,
  createKeyFrames pin_unmap 8 8 false 2 10 sid flat_source flat_source = Ok (f0, f1, true) /\
  length (f_imm f0) = 2%nat.
Proof. exact create_case. Qed.

Example C85_plain_case : In (0, 0) (c_first flat_source) /\ ~ well_inside 8 8 2 (0, 0) /\
  c_plain flat_source (toVec2 (0, 0)) <> None.
Proof. split; [right; now left|]. split; [unfold well_inside; cbn; intros [[H _] _]; now apply H|discriminate]. Qed.

(** ** C86 *)

(** Activating keeps order, position, depth and deviation. *)
Theorem C86_activate : forall f, Forall positive_depth (f_imm f) -> exists f' new,
  activateAllImmature f = Ok f' /\ f_imm f' = [] /\ f_opt f' = f_opt f ++ new /\
  Forall2 activated (f_imm f) new /\ f_pose f' = f_pose f /\ f_image f' = f_image f.
Proof. exact activate_all. Qed.
Print Assumptions C86_activate.

(** Deactivating keeps order, position and depth and forgets deviation and state. *)
Theorem C86_deactivate : forall w h ph f, exists new,
  f_imm (deactivateAllOptimized w h ph f) = f_imm f ++ new /\
  Forall2 (demoted w h ph) (f_opt f) new /\ f_opt (deactivateAllOptimized w h ph f) = [].
Proof. exact deactivate_all. Qed.
Print Assumptions C86_deactivate.

(** Activating a point that was never traced is undefined; one that is not active becomes so. *)
Theorem C86_unknown_refuted : forall f p, In p (f_imm f) -> b_depth p = None -> activateAllImmature f = UB.
Proof. exact activate_unknown. Qed.
Print Assumptions C86_unknown_refuted.

Theorem C86_state_refuted : forall f p, Forall positive_depth (f_imm f) -> In p (f_imm f) -> b_state p <> ACTIVE ->
  exists f' q, activateAllImmature f = Ok f' /\ In q (f_opt f') /\ b_pos q = b_pos p /\ b_depth q = b_depth p /\
    b_state q = ACTIVE.
Proof. exact activate_revives. Qed.
Print Assumptions C86_state_refuted.

Example C86_case : Forall positive_depth [pt 3 2 ACTIVE 1; pt 5 5 OUTLIER 7].
Proof.
  repeat constructor; [exists 1%R|exists 7%R]; (split; [reflexivity|]); apply (IZR_lt 0); reflexivity.
Qed.
