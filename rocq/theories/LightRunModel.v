(** Model of the affine light kept by DsoSystem between frames (lightKfToLast). *)
From Coq Require Import ZArith QArith Reals List.
From Verif Require Import Outcome Pose CamModel PyramidModel TrackerModel.
Import ListNotations.
Open Scope outcome_scope.

Notation light := (R * R)%type.

(** AffineLightTransform.h 9-10: the default light is the identity *)
Definition identity_light : light := (0%R, 0%R).

(** A keyframe: lightBaseToThis of its own frame and of the frames in trackedFrames. *)
Record kf_lights := KL { own : light; tracked : list light }.
(** The keyframes by number and lightKfToLast. *)
Record lights := { kfs : list kf_lights; lightKfToLast : light }.

(** What becomes of a tracked frame, DsoSystem.cpp 512-521: kept with the base keyframe, made a
    keyframe, or neither (a keyframe is due but continueChoosingKeyFrames is off). *)
Inductive fate := Kept | Promoted | Released.

(** One frame: what the tracker holds and is given, its fate, and the number of keyframes that
    marginalizeFrames() erases (DsoSystem.cpp 335-351). *)
Record tracking := {
  t_base : gray; t_points : list (Q * Q); t_depths : list R; t_weights : list R;
  t_frame : gray; t_predicted : se3; t_fate : fate; t_erased : nat }.

Definition keep_last (l : light) (ks : list kf_lights) : list kf_lights :=
  match rev ks with
  | [] => []
  | k :: before => rev before ++ [KL (own k) (tracked k ++ [l])]
  end.

(** DsoSystem.cpp 452-521: the parts that concern the light.  The second component is what
    trackFrame() was given and what it returned. *)
Definition add_frame (solve : level_problem -> estimate -> estimate) (trackable : trackable_test) (s : tracker_settings) (cam : camera)
           (t : tracking) (st : lights) : outcome (lights * (estimate * estimate)) :=
  let coarse := (t_predicted t, lightKfToLast st) in
  let* r := track_in_system solve trackable s cam (t_base t) (t_points t) (t_depths t) (t_weights t) (t_frame t) coarse in
  let l := snd (snd r) in
  Ok ({| kfs := match t_fate t with
                | Kept => keep_last l (kfs st)
                | Promoted => skipn (t_erased t) (kfs st ++ [KL l []])
                | Released => kfs st
                end;
         lightKfToLast := l |}, (coarse, snd r)).

Fixpoint add_frames (solve : level_problem -> estimate -> estimate) (trackable : trackable_test) (s : tracker_settings) (cam : camera)
         (ts : list tracking) (st : lights) : outcome (lights * list (estimate * estimate)) :=
  match ts with
  | [] => Ok (st, [])
  | t :: ts' =>
      let* r := add_frame solve trackable s cam t st in
      let* r' := add_frames solve trackable s cam ts' (fst r) in
      Ok (fst r', snd r :: snd r')
  end.

(** DsoSystem.cpp 386-441: after initialisation; the frames of the keyframes have the default
    light, and so has the system *)
Definition initial (n : nat) : lights := {| kfs := repeat (KL identity_light []) n; lightKfToLast := identity_light |}.

(** DsoSystem.cpp 81-84: the light of a restored system; back() of an empty vector is undefined, the
    keyframe before the last is there by line 60 *)
Definition restored_light (ks : list kf_lights) : outcome light :=
  match rev ks with
  | k :: k' :: _ =>
      let tr := match tracked k with [] => tracked k' | tr => tr end in
      match rev tr with [] => UB | l :: _ => Ok l end
  | _ => Abort
  end.
