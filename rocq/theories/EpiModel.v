(** The debug drawing of a tracing: ImmaturePoint::drawTracing (source/system/ImmaturePoint.cpp
    433-464) and the place in traceOn where it is called (406-413).  The marks are listed in the order
    in which they are drawn; cv::line, cv::resize and the windows are left out. *)
From Coq Require Import List ZArith QArith Bool.
From Verif Require Import Outcome Dbl DblArith UtilModel TraceModel.
Import ListNotations.
Open Scope outcome_scope.
Open Scope Z_scope.

(** One call of cv::line, line 462: both ends, colour and thickness. *)
Record mark := { m_beg : Z * Z; m_end : Z * Z; m_col : scalar; m_thick : Z }.

(** defs.h: CV_BLACK *)
Definition CV_BLACK : scalar := (of_int 0, of_int 0, of_int 0).

(** energiesFound[i]; a negative index becomes a huge unsigned one *)
Definition entry (l : list (pos * dbl)) (i : Z) : outcome (pos * dbl) :=
  if i <? 0 then UB else match nth_error l (Z.to_nat i) with Some x => Ok x | None => UB end.

(** std::min_element with the order of lines 436-439: [k] is the place of the best so far, [b] its
    energy, [i] the place of the head of [l]. *)
Fixpoint min_from (k : Z) (b : dbl) (i : Z) (l : list (pos * dbl)) : Z :=
  match l with
  | [] => k
  | x :: l' => if dlt (snd x) b then min_from i (snd x) (i + 1) l' else min_from k b (i + 1) l'
  end.
Definition min_element (l : list (pos * dbl)) : Z :=
  match l with [] => 0 | x :: l' => min_from 0 (snd x) 1 l' end.

(** std::max_element, with the same names *)
Fixpoint max_from (k : Z) (b : dbl) (i : Z) (l : list (pos * dbl)) : Z :=
  match l with
  | [] => k
  | x :: l' => if dlt b (snd x) then max_from i (snd x) (i + 1) l' else max_from k b (i + 1) l'
  end.
Definition max_element (l : list (pos * dbl)) : Z :=
  match l with [] => 0 | x :: l' => max_from 0 (snd x) 1 l' end.

(** util.cpp 207 with the conversions to int *)
Definition to_cv_point (p : pos) : outcome (Z * Z) :=
  let* x := to_int (Fin (fst p)) in let* y := to_int (Fin (snd p)) in Ok (x, y).

(** ImmaturePoint.cpp 450-452 *)
Definition direction (l : list (pos * dbl)) (i : Z) (p : pos) : outcome pos :=
  if i =? Z.of_nat (length l) - 1
  then let* x := entry l (i - 1) in Ok (pos_sub p (fst x))
  else let* x := entry l (i + 1) in Ok (pos_sub (fst x) p).

(** ImmaturePoint.cpp 448-463: one turn of the loop; [unit] is Eigen's normalize(). *)
Definition draw_mark (unit : pos -> pos) (w : Z) (l : list (pos * dbl)) (mi : Z) (lo hi : dbl) (i : Z)
  : outcome mark :=
  let* x := entry l i in
  let '(p, e) := x in
  let* dir := direction l i p in
  let ort := unit (snd dir, - fst dir)%Q in
  let ort := if i =? mi then pos_scale 2 ort else ort in
  let half := pos_scale (inject_Z w / 2) ort in
  let* beg := to_cv_point (pos_add p half) in
  let* fin := to_cv_point (pos_sub p half) in
  Ok {| m_beg := beg; m_end := fin; m_col := if i =? mi then CV_BLACK else depth_col e lo hi;
        m_thick := if i =? mi then 3 else 1 |}.

Fixpoint draw_from (n : nat) (i : Z) (f : Z -> outcome mark) : outcome (list mark) :=
  match n with
  | O => Ok []
  | S n' => let* m := f i in let* ms := draw_from n' (i + 1) f in Ok (m :: ms)
  end.

(** ImmaturePoint.cpp 433-464 *)
Definition draw_tracing (unit : pos -> pos) (w : Z) (l : list (pos * dbl)) : outcome (list mark) :=
  let mi := min_element l in
  let* lo := entry l mi in
  let* hi := entry l (max_element l) in
  draw_from (length l) 0 (draw_mark unit w l mi (snd lo) (snd hi)).

(** ImmaturePoint.cpp 211-431 with debugType == DRAW_EPIPOLE: the result of traceOn and the marks drawn,
    None when line 406 is not reached or its test fails.  traceOn does not change the state. *)
Definition trace_drawn (unit : pos -> pos) (fuel : nat) (s : tsettings) (e : env) (p : ipoint)
  : outcome (tstatus * ipoint * option (list mark)) :=
  let* r := traceOn fuel s e p in
  match fst r with
  | OK =>
      if pstate_eqb (i_state (snd r)) ACTIVE then
        let* sampled := points_to_trace fuel s e in
        match sampled with
        | None => Ok (r, None)
        | Some pts =>
            let* found := visit_all s e (i_max p) search0 0 pts in
            let* ms := draw_tracing unit 5 (r_found found) in
            Ok (r, Some ms)
        end
      else Ok (r, None)
  | _ => Ok (r, None)
  end.
