(** Model of source/system/BundleAdjuster.cpp in real arithmetic: the optimisation problem it builds,
    and the marking of points afterwards.  The solver, the reprojection test and the values of the
    residuals are oracles. *)
From Coq Require Import Reals ZArith List Bool.
From Verif Require Import Outcome Pose SphereModel.
Import ListNotations.
Open Scope R_scope.
Open Scope outcome_scope.

(** OptimizedPoint.h: the members read or written; [None] is a log inverse depth that is not finite. *)
Inductive ostate := ACTIVE | OOB | OUTLIER.
Record opoint := { o_pos : vec; o_lid : option R; o_state : ostate }.

(** KeyFrame.h: the members read or written; [k_id] stands for the address. *)
Record bframe := { k_id : Z; k_pose : se3; k_light : R * R; k_pts : list opoint }.

(** BundleAdjusterSettings *)
Record bsettings := {
  b_patternSize : nat;
  b_outlierDiff : R;
  b_minDepth : R; b_maxDepth : R;
  b_minA : R; b_maxA : R; b_minB : R; b_maxB : R;
  b_optimizeLight : bool;
  b_fixedRotation : bool;      (** fixedRotationOnSecondKF *)
  b_fixedMotion : bool }.      (** fixedMotionOnFirstAdjustent *)

(** Parameter blocks of the problem *)
Inductive block := Trans (id : Z) | Rot (id : Z) | Light (id : Z) | Depth (id : Z) (n : nat).

(** A residual: base keyframe, number of the point, reference keyframe, number in the pattern *)
Record residual := { r_base : Z; r_point : nat; r_ref : Z; r_pattern : nat }.

Record problem := {
  p_blocks : list block;
  p_constant : list block;
  p_bounds : list (block * nat * R * R);      (** block, index of the parameter, lower and upper bound *)
  p_sphere : Z * spherical_plus;      (** the parameterisation of the translation of the second keyframe *)
  p_residuals : list residual }.

(** BundleAdjuster.h: keyFrames (a std::set of pointers, in their order) and firstKeyFrame *)
Record adjuster := { a_frames : list bframe; a_first : option Z }.
Definition new_adjuster : adjuster := {| a_frames := []; a_first := None |}.

(** std::set::insert *)
Fixpoint insert_frame (k : bframe) (l : list bframe) : list bframe :=
  match l with
  | [] => [k]
  | x :: l' => if (k_id k <? k_id x)%Z then k :: l
               else if (k_id k =? k_id x)%Z then l else x :: insert_frame k l'
  end.

(** BundleAdjuster.cpp 28-32 *)
Definition addKeyFrame (a : adjuster) (k : bframe) : adjuster :=
  {| a_frames := insert_frame k (a_frames a);
     a_first := match a_first a with None => Some (k_id k) | Some f => Some f end |}.

(** BundleAdjuster.cpp 102-107 *)
Definition second_frame (first : Z) (l : list bframe) : option bframe :=
  find (fun k => negb (k_id k =? first)%Z) l.

Definition find_frame (l : list bframe) (id : Z) : option bframe := find (fun k => (k_id k =? id)%Z) l.

(** BundleAdjuster.cpp 20-26 as a function of the base frame, the reference frame and the point *)
Definition oob_test := bframe -> bframe -> opoint -> bool.

(** BundleAdjuster.cpp 173-232: the residuals of one point *)
Definition point_residuals (s : bsettings) (isOOB : oob_test) (l : list bframe) (base : bframe) (n : nat) (o : opoint)
  : list residual :=
  match o_lid o with
  | None => []
  | Some _ =>
      flat_map (fun ref =>
        if (k_id ref =? k_id base)%Z then []
        else if isOOB base ref o then []
        else map (fun i => {| r_base := k_id base; r_point := n; r_ref := k_id ref; r_pattern := i |})
                 (seq 0 (b_patternSize s))) l
  end.

Fixpoint numbered {A} (n : nat) (l : list A) : list (nat * A) :=
  match l with [] => [] | x :: l' => (n, x) :: numbered (S n) l' end.

Definition frame_residuals (s : bsettings) (isOOB : oob_test) (l : list bframe) (base : bframe) : list residual :=
  flat_map (fun no => point_residuals s isOOB l base (fst no) (snd no)) (numbered 0 (k_pts base)).

(** 182: the depth blocks of one keyframe *)
Definition depth_blocks (base : bframe) : list block :=
  flat_map (fun no => match o_lid (snd no) with None => [] | Some _ => [Depth (k_id base) (fst no)] end)
           (numbered 0 (k_pts base)).

(** BundleAdjuster.cpp 109-232.  [sp] is the parameterisation made at 143-150. *)
Definition build (s : bsettings) (isOOB : oob_test) (l : list bframe) (first : Z) (second : bframe)
           (sp : spherical_plus) : problem :=
  let lights := if b_optimizeLight s then [] else map (fun k => Light (k_id k)) l in
  {| p_blocks := flat_map (fun k => [Trans (k_id k); Rot (k_id k); Light (k_id k)]) l ++ flat_map depth_blocks l;
     p_constant := lights ++ [Trans first; Rot first; Light first] ++
       (if b_fixedRotation s then [Rot (k_id second)] else []) ++
       (if b_fixedMotion s && (Z.of_nat (length l) =? 2)%Z
        then [Trans (k_id second); Rot (k_id second); Light (k_id second)] else []);
     p_bounds := flat_map (fun k => [(Light (k_id k), 0%nat, b_minA s, b_maxA s); (Light (k_id k), 1%nat, b_minB s, b_maxB s)]) l ++
       map (fun b => (b, 0%nat, - ln (b_maxDepth s), - ln (b_minDepth s))) (flat_map depth_blocks l);
     p_sphere := (k_id second, sp);
     p_residuals := flat_map (frame_residuals s isOOB l) l |}.

(** Ascending order of the values. *)
Fixpoint insert (x : R) (l : list R) : list R :=
  match l with [] => [x] | y :: l' => if Rle_dec x y then x :: l else y :: insert x l' end.
Fixpoint sort (l : list R) : list R := match l with [] => [] | x :: l' => insert x (sort l') end.

(** 297-299: std::nth_element and the element at size / 2 of a non-empty vector *)
Definition median (l : list R) : R := nth (length l / 2) (sort l) 0.

(** 272-305: one point of the second keyframe; [values] are its residuals after the optimisation *)
Definition mark (s : bsettings) (values : list R) (o : opoint) : opoint :=
  match o_state o with
  | OOB => o
  | _ =>
      match values with
      | [] => {| o_pos := o_pos o; o_lid := o_lid o; o_state := OOB |}
      | _ => if Rlt_dec (b_outlierDiff s) (median values)
             then {| o_pos := o_pos o; o_lid := o_lid o; o_state := OUTLIER |} else o
      end
  end.

(** [value l r]: DirectResidual::operator() of residual [r] at the parameters of the frames [l] *)
Definition mark_all (s : bsettings) (value : list bframe -> residual -> R) (pr : problem) (second : Z)
           (l : list bframe) : list bframe :=
  map (fun k => if (k_id k =? second)%Z
       then {| k_id := k_id k; k_pose := k_pose k; k_light := k_light k;
               k_pts := map (fun no => mark s (map (value l)
                 (filter (fun r => (r_base r =? second)%Z && (r_point r =? fst no)%nat) (p_residuals pr))) (snd no))
                 (numbered 0 (k_pts k)) |}
       else k) l.

(** BundleAdjuster.cpp 99-313.  Without a first or a second keyframe a null pointer is dereferenced. *)
Definition adjust (s : bsettings) (isOOB : oob_test) (value : list bframe -> residual -> R)
           (solve : problem -> list bframe -> list bframe) (a : adjuster) : outcome (list bframe) :=
  match a_first a with
  | None => UB
  | Some first =>
      match find_frame (a_frames a) first, second_frame first (a_frames a) with
      | Some f, Some sec =>
          let center := tr (k_pose f) in
          let radius := vnorm (vsub (tr (k_pose sec)) center) in
          let* sp := sp_new center radius (tr (k_pose sec)) in
          let pr := build s isOOB (a_frames a) first sec sp in
          Ok (mark_all s value pr (k_id sec) (solve pr (a_frames a)))
      | _, _ => UB
      end
  end.

(** DsoSystem.cpp 528-532: a fresh adjuster gets the keyframes one after another. *)
Definition adjust_frames (s : bsettings) (isOOB : oob_test) (value : list bframe -> residual -> R)
           (solve : problem -> list bframe -> list bframe) (ks : list bframe) : outcome (list bframe) :=
  adjust s isOOB value solve (fold_left addKeyFrame ks new_adjuster).
