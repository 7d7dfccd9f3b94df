(** What is said about the light along a run. *)
From Coq Require Import ZArith QArith Reals List.
From Verif Require Import Outcome Pose CamModel CamSpec PyramidModel PyramidSpec TrackerModel TrackerSpec LightRunModel.
Import ListNotations.

Definition within (s : tracker_settings) (l : light) : Prop := (s_minA s <= fst l <= s_maxA s)%R /\ (s_minB s <= snd l <= s_maxB s)%R.
Definition valid_tracking (t : tracking) : Prop := valid_base (t_base t) (t_points t) (t_depths t) (t_weights t).
Definition all_lights (st : lights) : list light := lightKfToLast st :: flat_map (fun k => own k :: tracked k) (kfs st).

(** the solver refuses infeasible starting points *)
Definition refuses (solve : level_problem -> estimate -> estimate) : Prop := forall pr e, ~ ((fst (l_boundsA pr) <= fst (snd e) <= snd (l_boundsA pr))%R /\ (fst (l_boundsB pr) <= snd (snd e) <= snd (l_boundsB pr))%R) -> solve pr e = e.

(** each frame is given the light found for the frame before *)
Fixpoint handed_on (l : light) (es : list (estimate * estimate)) : Prop :=
  match es with [] => True | e :: es' => snd (fst e) = l /\ handed_on (snd (snd e)) es' end.

(** the lights of the frames kept with the last keyframe *)
Definition end_tracked (ks : list kf_lights) : list light := match rev ks with [] => [] | k :: _ => tracked k end.
