(** Specification vocabulary for C97: what the sample program has to produce for each frame, as a
    function of the frame number, the flags and a few settings only. *)
From Coq Require Import List ZArith Bool.
From Verif Require Import Outcome DsoModel DsoSpec MainModel.
Import ListNotations.
Open Scope Z_scope.

Section Expected.
(** First frame, frames skipped by the initialisation, distance of keyframes, tracking against the
    newest keyframe, choosing of new keyframes. *)
Variables start skip shift : Z.
Variables last cont : bool.

(** The frame at which the system gets initialised. *)
Definition init_frame : Z := start + 1 + Z.of_nat (skip_count skip).
Definition period : Z := Z.abs shift.

(** The newest keyframe after frame [n]. *)
Definition newest (n : Z) : Z :=
  if cont then init_frame + period * ((n - init_frame) / period) else init_frame.

(** The keyframe frames are tracked against after frame [n]. *)
Definition base_at (n : Z) : Z :=
  if last then newest n else if newest n =? init_frame then start else newest n - period.

(** At frame [n] the tracker gets a new base. *)
Definition new_base (n : Z) : bool :=
  (n =? init_frame) || cont && (init_frame <? n) && ((n - init_frame) mod period =? 0).

(** The debug image and the image of all levels for frame [n]. *)
Definition debug_of (n : Z) : pic :=
  if n <=? init_frame then PBlack else PFull (base_at n) n (CRes n 0).
Definition levels_of (levels : nat) (n : Z) : list cell :=
  if n <=? init_frame then repeat CBlack levels else map (CRes n) (seq 0 levels).

Definition optional {A} (b : bool) (x : A) : list A := if b then [x] else [].

(** Everything produced in the iteration of frame [n]. *)
Definition frame_output (fl : main_flags) (plain : bool) (levels : nat) (n : Z) : list output :=
  let ready := (init_frame <=? n) && negb plain in
  optional (ready && fl_write fl) WInterp ++
  optional (ready && fl_interp fl) SInterp ++
  optional (fl_write fl) (WDebug n (debug_of n)) ++
  optional (fl_write fl) (WTrack n (levels_of levels n)) ++
  optional (fl_write fl && fl_pyr fl && new_base n) (WPyr n (base_at n)) ++
  optional (fl_debug fl) (SDebug (debug_of n)) ++
  optional (fl_track fl) (STrack (levels_of levels n)) ++
  optional (fl_debug fl || fl_track fl) SWait.

End Expected.

(** The frames of a run. *)
Definition frames_asked (fl : main_flags) : list Z :=
  map (fun i => fl_start fl + Z.of_nat i) (seq 0 (Z.to_nat (fl_count fl))).

(** Output of the loop over the frames. *)
Definition of_frame (o : output) : bool :=
  match o with
  | WArgs | WCloud | WCloudGT | WCloudHere | WSnapshot _ => false
  | _ => true
  end.

(** [a] is a beginning of [b]. *)
Definition beginning {A} (a b : list A) : Prop := exists r, b = a ++ r.

(** Images with a frame number in their name, as (directory, number), and interpolation.jpg. *)
Definition named (o : output) : list (nat * Z) :=
  match o with
  | WDebug n _ => [(0%nat, n)]
  | WTrack n _ => [(1%nat, n)]
  | WPyr n _ => [(2%nat, n)]
  | _ => []
  end.
Definition names (l : list output) : list (nat * Z) := flat_map named l.
Definition is_interp (o : output) : bool := match o with WInterp => true | _ => false end.

(** What is written before the first frame. *)
Definition header (fl : main_flags) : list output := WArgs :: WCloud :: optional (fl_gt fl) WCloudGT.
