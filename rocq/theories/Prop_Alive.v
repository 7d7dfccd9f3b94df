(** C94: the frame and keyframe pointers an observer keeps. *)
From Coq Require Import List ZArith.
From Verif Require Import Outcome DsoModel DsoSpec DsoExamples AliveSpec AliveProofs.
Import ListNotations.
Open Scope Z_scope.

(** After every run the last frame notified is the last frame accepted, and none was notified up
    to the initialisation. *)
Theorem C94_last : forall P pid pmul pinv IP OP promote ready s obsA obsB cs st,
  run (P := P) (IP := IP) (OP := OP) pid pmul pinv promote ready s cs (init s obsA obsB) = Ok st ->
  told_frame (st_log st) = if (length (numbers cs) <=? S (S (skip_count (firstFramesSkip s))))%nat then None
                           else last_of (numbers cs).
Proof. intros P pid pmul pinv IP OP promote ready s obsA obsB cs st H. exact (proj1 (told_run P pid pmul pinv IP OP promote ready s obsA obsB cs st H)). Qed.
Print Assumptions C94_last.

(** While new keyframes are chosen, that frame belongs to a keyframe of the window. *)
Theorem C94_alive : forall P pid pmul pinv IP OP promote ready s obsA obsB cs st n,
  continueChoosing s = true ->
  run (P := P) (IP := IP) (OP := OP) pid pmul pinv promote ready s cs (init s obsA obsB) = Ok st ->
  told_frame (st_log st) = Some n -> In n (frames_of (st_kfs st)).
Proof.
  intros P pid pmul pinv IP OP promote ready s obsA obsB cs st n Hc H.
  exact (proj1 (proj2 (told_run P pid pmul pinv IP OP promote ready s obsA obsB cs st H)) n Hc).
Qed.
Print Assumptions C94_alive.

(** From the initialisation on, the last keyframe notified is the base keyframe of the window. *)
Theorem C94_base : forall P pid pmul pinv IP OP promote ready s obsA obsB cs st,
  run (P := P) (IP := IP) (OP := OP) pid pmul pinv promote ready s cs (init s obsA obsB) = Ok st ->
  ((length (numbers cs) <= S (skip_count (firstFramesSkip s)))%nat -> told_kf (st_log st) = None) /\
  ((S (S (skip_count (firstFramesSkip s))) <= length (numbers cs))%nat ->
     exists b, base_kf s (st_kfs st) = Ok b /\ told_kf (st_log st) = Some (kf_num b)).
Proof.
  intros P pid pmul pinv IP OP promote ready s obsA obsB cs st H.
  exact (proj2 (proj2 (told_run P pid pmul pinv IP OP promote ready s obsA obsB cs st H))).
Qed.
Print Assumptions C94_base.

(** Without new keyframes a frame that is due belongs to no keyframe when the call returns. *)
Theorem C94_released_refuted : forall P pid pmul pinv IP OP promote ready s obsA obsB cs fi st st' r l,
  continueChoosing s = false ->
  run (P := P) (IP := IP) (OP := OP) pid pmul pinv promote ready s cs (init s obsA obsB) = Ok st ->
  (S (S (skip_count (firstFramesSkip s))) <= length (numbers cs))%nat ->
  last_kf (st_kfs st) = Ok l -> due (shiftBetweenKeyFrames s) (kf_num l) (fi_num fi) = true ->
  add_frame pid pmul pinv promote ready s st fi = Ok (st', r) ->
  told_frame (st_log st') = Some (fi_num fi) /\ ~ In (fi_num fi) (frames_of (st_kfs st')).
Proof. exact told_released. Qed.
Print Assumptions C94_released_refuted.

(** Right after a promotion the notified keyframe is the notified frame itself, while that frame
    was tracked against the keyframe notified before. *)
Theorem C94_own_base : forall P pid pmul pinv IP OP promote ready s obsA obsB cs fi st st' r l,
  trackFromLastKf s = true -> continueChoosing s = true ->
  run (P := P) (IP := IP) (OP := OP) pid pmul pinv promote ready s cs (init s obsA obsB) = Ok st ->
  (S (S (skip_count (firstFramesSkip s))) <= length (numbers cs))%nat ->
  last_kf (st_kfs st) = Ok l -> due (shiftBetweenKeyFrames s) (kf_num l) (fi_num fi) = true ->
  add_frame pid pmul pinv promote ready s st fi = Ok (st', r) ->
  told_frame (st_log st') = Some (fi_num fi) /\ told_kf (st_log st') = Some (fi_num fi) /\
  told_kf (st_log st) = Some (kf_num l) /\ kf_num l < fi_num fi.
Proof. exact told_promoted. Qed.
Print Assumptions C94_own_base.

Definition seen (last cont : bool) (ns : list Z) : option (option Z * option Z * list Z) :=
  match demo_run (demo last cont true) ns with
  | Ok st => Some (told_frame (st_log st), told_kf (st_log st), frames_of (st_kfs st))
  | _ => None
  end.

Example C94_case :
  seen true true [1; 2] = Some (None, None, []) /\
  seen true true [1; 2; 4] = Some (None, Some 4, [1; 4]) /\
  seen true true [1; 2; 4; 5; 6] = Some (Some 6, Some 4, [1; 4; 5; 6]) /\
  seen true true [1; 2; 4; 5; 7] = Some (Some 7, Some 7, [1; 4; 5; 7]) /\
  seen false true [1; 2; 4; 5; 7] = Some (Some 7, Some 4, [1; 5; 4; 7]) /\
  seen true false [1; 2; 4; 5; 7] = Some (Some 7, Some 4, [1; 4; 5]) /\
  seen false true demo_numbers = Some (Some 26, Some 22, [19; 23; 22; 26; 25]).
Proof. vm_compute. repeat split. Qed.
