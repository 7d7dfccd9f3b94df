(** Notions for the statements about the bundle adjustment. *)
From Coq Require Import Reals ZArith List Permutation.
From Verif Require Import Outcome Pose SphereModel BundleModel.
Import ListNotations.
Open Scope R_scope.

Definition is_frame (l : list bframe) (k : bframe) : Prop := In k l.
Definition is_point (k : bframe) (n : nat) (o : opoint) : Prop := nth_error (k_pts k) n = Some o.

(** [k'] is [k] after a step: same keyframe, same points with the same positions. *)
Definition successor (k k' : bframe) : Prop :=
  k_id k' = k_id k /\ length (k_pts k') = length (k_pts k) /\
  forall n o o', is_point k n o -> is_point k' n o' -> o_pos o' = o_pos o.

Definition same_states (k k' : bframe) : Prop :=
  forall n o o', is_point k n o -> is_point k' n o' -> o_state o' = o_state o.
Definition same_params (k k' : bframe) : Prop :=
  k_pose k' = k_pose k /\ k_light k' = k_light k /\
  forall n o o', is_point k n o -> is_point k' n o' -> o_lid o' = o_lid o.

(** The value of one parameter of a block. *)
Definition parameter (l : list bframe) (b : block) (i : nat) (v : R) : Prop :=
  exists k, In k l /\
  match b with
  | Light id => k_id k = id /\ ((i = 0%nat /\ v = fst (k_light k)) \/ (i = 1%nat /\ v = snd (k_light k)))
  | Depth id n => k_id k = id /\ i = 0%nat /\ exists o, is_point k n o /\ o_lid o = Some v
  | _ => False
  end.

(** Contract of ceres::Solve: constant blocks and parameters outside the problem stay, finite
    depths stay finite, the bounds hold afterwards unless nothing was changed, and the
    parameterised translation is moved by steps of its parameterisation only. *)
Record solved (pr : problem) (l l' : list bframe) : Prop := {
  so_shape : Forall2 (fun k k' => successor k k' /\ same_states k k') l l';
  so_trans : Forall2 (fun k k' => In (Trans (k_id k)) (p_constant pr) -> tr (k_pose k') = tr (k_pose k)) l l';
  so_rot : Forall2 (fun k k' => In (Rot (k_id k)) (p_constant pr) -> so3 (k_pose k') = so3 (k_pose k)) l l';
  so_light : Forall2 (fun k k' => In (Light (k_id k)) (p_constant pr) -> k_light k' = k_light k) l l';
  so_depth : Forall2 (fun k k' => forall n o o', is_point k n o -> is_point k' n o' ->
     ~ In (Depth (k_id k) n) (p_blocks pr) \/ In (Depth (k_id k) n) (p_constant pr) -> o_lid o' = o_lid o) l l';
  so_finite : Forall2 (fun k k' => forall n o o', is_point k n o -> is_point k' n o' ->
     (o_lid o = None <-> o_lid o' = None)) l l';
  so_bounds : l' = l \/ forall b i lo hi v, In (b, i, lo, hi) (p_bounds pr) -> parameter l' b i v -> lo <= v <= hi;
  so_sphere : Forall2 (fun k k' => k_id k = fst (p_sphere pr) ->
     tr (k_pose k') = tr (k_pose k) \/ exists v d1 d2, tr (k_pose k') = sp_plus (snd (p_sphere pr)) v d1 d2) l l' }.
Definition solver (solve : problem -> list bframe -> list bframe) : Prop :=
  forall pr l, solved pr l (solve pr l).

(** The residuals do not depend on the states of the points. *)
Definition state_blind (value : list bframe -> residual -> R) : Prop :=
  forall l l' r, Forall2 (fun k k' => successor k k' /\ same_params k k') l l' -> value l' r = value l r.

(** Which residuals there should be: a point of finite depth, a different keyframe in which it is
    visible, every place of the pattern. *)
Definition contributes (s : bsettings) (isOOB : oob_test) (l : list bframe) (r : residual) : Prop :=
  exists base o ref, In base l /\ In ref l /\ k_id base = r_base r /\ k_id ref = r_ref r /\
    r_ref r <> r_base r /\ is_point base (r_point r) o /\ o_lid o <> None /\
    isOOB base ref o = false /\ (r_pattern r < b_patternSize s)%nat.

(** The first keyframe added, and the one with the least address among the others. *)
Definition first_of (ks : list bframe) (k : bframe) : Prop := exists ks', ks = k :: ks'.
Definition second_of (ks : list bframe) (k : bframe) : Prop :=
  exists f ks', ks = f :: ks' /\ In k ks' /\ forall j, In j ks' -> (k_id k <= k_id j)%Z.

Definition above (t : R) (l : list R) : nat := length (filter (fun v => if Rlt_dec t v then true else false) l).

(** What the marking should do, given the final residuals of the point. *)
Definition marked (t : R) (values : list R) (o o' : opoint) : Prop :=
  o_state o' = OOB /\ (o_state o = OOB \/ values = []) \/
  o_state o <> OOB /\ values <> [] /\
    (((length values <= 2 * above t values)%nat /\ o_state o' = OUTLIER) \/
     ((2 * above t values < length values)%nat /\ o_state o' = o_state o)).

(** [k'] is what became of the keyframe [k]. *)
Definition became (ks l' : list bframe) (k k' : bframe) : Prop := In k ks /\ In k' l' /\ k_id k' = k_id k.
