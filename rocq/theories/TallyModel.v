(** The tracing of all immature points on a new frame and the counts put into the log:
    source/system/DsoSystem.cpp 480-505, settings.pyramid.levelNum being the same as that of the points. *)
From Coq Require Import List ZArith QArith Bool.
From Verif Require Import Outcome Dbl TraceModel.
Import ListNotations.
Open Scope Z_scope.
Open Scope outcome_scope.

(** The counts: totalTraced, totalGood, numTraced, numOnLevel *)
Record tally := { y_traced : Z; y_good : Z; y_times : list Z; y_levels : list Z }.

(** v[i]++ of a vector *)
Definition bump (v : list Z) (i : Z) : outcome (list Z) :=
  if (i <? 0) || (Z.of_nat (length v) <=? i) then UB
  else Ok (firstn (Z.to_nat i) v ++ (nth (Z.to_nat i) v 0 + 1) :: skipn (S (Z.to_nat i)) v).

(** DsoSystem.cpp 482 *)
Definition maxTraced : Z := 8.

(** DsoSystem.cpp 480-484; a vector of a negative size throws std::length_error *)
Definition tally0 (levels : Z) : outcome tally :=
  if levels <? 0 then Throw
  else Ok {| y_traced := 0; y_good := 0; y_times := repeat 0 (Z.to_nat maxTraced); y_levels := repeat 0 (Z.to_nat levels) |}.

Definition is_OK (st : tstatus) : bool := match st with OK => true | _ => false end.

(** DsoSystem.cpp 487-497: one point, traced with what [e] tells *)
Definition count_one (fuel : nat) (s : tsettings) (t : tally) (e : env) (p : ipoint) : outcome (tally * ipoint) :=
  let* (st, q) := traceOn fuel s e p in
  let* times := if i_num q <? maxTraced then bump (y_times t) (i_num q) else Ok (y_times t) in
  let* lv := if 0 <=? i_level q then bump (y_levels t) (i_level q) else Ok (y_levels t) in
  Ok ({| y_traced := if is_OK st then y_traced t + 1 else y_traced t;
         y_good := if isReady s q then y_good t + 1 else y_good t; y_times := times; y_levels := lv |}, q).

(** DsoSystem.cpp 485-498: the points of all keyframes one after another *)
Fixpoint count_all (fuel : nat) (s : tsettings) (t : tally) (l : list (env * ipoint)) : outcome (tally * list ipoint) :=
  match l with
  | [] => Ok (t, [])
  | (e, p) :: l' =>
      let* (t', q) := count_one fuel s t e p in
      let* (t'', qs) := count_all fuel s t' l' in
      Ok (t'', q :: qs)
  end.
Definition trace_frame (fuel : nat) (s : tsettings) (l : list (env * ipoint)) : outcome (tally * list ipoint) :=
  let* t := tally0 (t_levels s) in
  count_all fuel s t l.

(** Frame after frame: [news] are the points added before the frame, [stay] tells which points are still there
    afterwards (activated points and those of marginalised keyframes are not). *)
Record frame := { f_news : list ipoint; f_see : list env; f_stay : list bool }.
Fixpoint keep {A} (b : list bool) (l : list A) : list A :=
  match b, l with
  | true :: b', x :: l' => x :: keep b' l'
  | false :: b', _ :: l' => keep b' l'
  | _, _ => []
  end.
Fixpoint trace_frames (fuel : nat) (s : tsettings) (l : list ipoint) (fs : list frame) : outcome (list tally * list ipoint) :=
  match fs with
  | [] => Ok ([], l)
  | f :: fs' =>
      let* (t, qs) := trace_frame fuel s (combine (f_see f) (l ++ f_news f)) in
      let* (ts, r) := trace_frames fuel s (keep (f_stay f) qs) fs' in
      Ok (t :: ts, r)
  end.
