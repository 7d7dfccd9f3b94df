(** Specification vocabulary for C94: the pointers an observer keeps from the notifications of a
    system, as DebugImageDrawer does (source/output/DebugImageDrawer.cpp:27-33). *)
From Coq Require Import List ZArith.
From Verif Require Import Outcome DsoModel DsoSpec.
Import ListNotations.
Open Scope Z_scope.

Section Told.
Variables P IP OP : Type.

(** The frame of the last newFrame notification; none if there was no such notification. *)
Definition told_frame (log : list (event P IP OP)) : option Z :=
  fold_left (fun o e => match e with EvNewFrame n => Some n | _ => o end) log None.

(** The keyframe of the last newKeyFrame notification. *)
Definition told_kf (log : list (event P IP OP)) : option Z :=
  fold_left (fun o e => match e with EvNewKf k => Some (kf_num k) | _ => o end) log None.
End Told.

Arguments told_frame {P IP OP} _.
Arguments told_kf {P IP OP} _.

(** The last element of a list. *)
Definition last_of (l : list Z) : option Z := hd_error (rev l).
