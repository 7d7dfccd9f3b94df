(** C109: the counts of a traced frame *)
From Coq Require Import List ZArith QArith Bool.
From Verif Require Import Outcome Dbl TraceModel TraceExamples TallyModel TallySpec TallyProofs TallyTop.
Import ListNotations.
Open Scope Z_scope.

(** Every number of the log is the number of points it tells of. *)
Theorem C109_counts : forall fuel s l, 1 <= t_levels s -> Forall (fun ep => alive s (snd ep)) l ->
  forall rs, Forall2 (fun ep r => traceOn fuel s (fst ep) (snd ep) = Ok r) l rs ->
  exists t, trace_frame fuel s l = Ok (t, map snd rs) /\ counts s rs t.
Proof. exact frame_counts. Qed.
Print Assumptions C109_counts.

(** The numbers never go out of their arrays. *)
Theorem C109_defined : forall fuel s l, 1 <= t_levels s -> Forall (fun ep => alive s (snd ep)) l ->
  (is_ok (trace_frame fuel s l) <-> Forall (fun ep => is_ok (traceOn fuel s (fst ep) (snd ep))) l).
Proof. exact frame_defined. Qed.
Print Assumptions C109_defined.

(** The levels add up to all points, the times to those traced less than eight times; nothing is ever on the last of two or more levels. *)
Theorem C109_sums : forall fuel s l t qs, 1 <= t_levels s -> Forall (fun ep => alive s (snd ep)) l -> trace_frame fuel s l = Ok (t, qs) ->
  sum (y_levels t) = Z.of_nat (length l) /\
  sum (y_times t) = how_many (fun q => i_num q <? 8) qs /\
  0 <= y_traced t <= Z.of_nat (length l) /\
  (2 <= t_levels s -> nth (Z.to_nat (t_levels s - 1)) (y_levels t) 0 = 0).
Proof. exact frame_sums. Qed.
Print Assumptions C109_sums.

(** Frame after frame, with points added and dropped in between. *)
Theorem C109_run : forall fuel s (sees : env -> Prop), 1 <= t_levels s -> (forall e p, sees e -> alive s p -> is_ok (traceOn fuel s e p)) ->
  forall fs l, Forall (alive s) l -> Forall (fun f => Forall (alive s) (f_news f) /\ Forall sees (f_see f)) fs -> is_ok (trace_frames fuel s l fs).
Proof. exact run_defined. Qed.
Print Assumptions C109_run.

Theorem C109_run_points : forall fuel s fs l ts r, Forall (alive s) l -> Forall (fun f => Forall (alive s) (f_news f)) fs ->
  trace_frames fuel s l fs = Ok (ts, r) -> Forall (alive s) r.
Proof. exact run_alive. Qed.
Print Assumptions C109_run_points.

(** Whether a point can be traced without undefined behaviour depends on it only by its upper bound being infinite. *)
Theorem C109_defined_by : forall fuel s e p m, is_pinf m = is_pinf (i_max p) -> is_ok (traceOn fuel s e (fresh m)) -> is_ok (traceOn fuel s e p).
Proof. exact defined_by. Qed.
Print Assumptions C109_defined_by.

(** The level of a point is one of the pyramid, and not the last one unless it is the only one. *)
Theorem C109_level : forall s p, 1 <= t_levels s -> alive s p ->
  0 <= i_num p /\ 0 <= i_level p < t_levels s /\ (i_level p = 0 \/ i_level p < t_levels s - 1).
Proof. exact alive_range. Qed.
Print Assumptions C109_level.

(** A pyramid of one level: no tracing succeeds, no new point is ever ready. *)
Theorem C109_one_level_refuted : forall fuel s e p st q, t_levels s = 1 -> traceOn fuel s e p = Ok (st, q) -> st <> OK.
Proof. exact one_level. Qed.
Print Assumptions C109_one_level_refuted.
Theorem C109_one_level_ready_refuted : forall s, t_levels s = 1 -> forall fs ts r,
  Forall (fun f => Forall (fun p => exists on, p = new_ipoint on) (f_news f)) fs ->
  forall fuel, trace_frames fuel s [] fs = Ok (ts, r) ->
  Forall (fun t => y_traced t = 0 /\ y_good t = 0) ts /\ Forall (fun p => isReady s p = false) r.
Proof. exact one_level_never. Qed.
Print Assumptions C109_one_level_ready_refuted.

(** No level: undefined behaviour as soon as there is a point, be it one that is never traced. *)
Theorem C109_no_level_refuted : forall fuel s e p l, t_levels s = 0 -> i_state p = OOB -> i_level p = 0 -> trace_frame fuel s ((e, p) :: l) = UB.
Proof. exact no_level. Qed.
Print Assumptions C109_no_level_refuted.

Theorem C109_negative : forall fuel s l, t_levels s < 0 -> trace_frame fuel s l = Throw.
Proof. exact negative_levels. Qed.
Print Assumptions C109_negative.
