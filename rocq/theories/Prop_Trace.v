(** Properties of the tracing of immature points (C41-C44, C74). *)
From Coq Require Import List ZArith QArith Bool.
From Verif Require Import Outcome Dbl DblArith TraceModel TraceSpec TraceProofs TraceMore TraceExamples.
Import ListNotations.
Open Scope Z_scope.

(** C41: every status except OK leaves the depth estimate as it was. *)
Theorem C41_failure : forall fuel s e p st q,
  traceOn fuel s e p = Ok (st, q) -> st <> OK -> same_estimate p q.
Proof. exact failure_keeps. Qed.
Print Assumptions C41_failure.

(** C41: the three statuses reported before the search leave the whole point as it was. *)
Theorem C41_early : forall fuel s e p st q,
  traceOn fuel s e p = Ok (st, q) ->
  st = WAS_OOB \/ st = BIG_PREDICTED_ERROR \/ st = EPIPOLAR_OOB -> q = p.
Proof. exact early_exit. Qed.
Print Assumptions C41_early.

(** C41: out-of-bounds points, and only they, are reported as such. *)
Theorem C41_oob : forall fuel s e p,
  (i_state p = OOB -> traceOn fuel s e p = Ok (WAS_OOB, p)) /\
  (forall st q, traceOn fuel s e p = Ok (st, q) -> st = WAS_OOB -> i_state p = OOB).
Proof. exact oob_iff. Qed.
Print Assumptions C41_oob.

(** C41: over the life of a point the trace count is the number of OK results, the state never
    changes, and the depth is defined once there was one. *)
Theorem C41_life : forall fuel s es on sts q, trace_all fuel s es (new_ipoint on) = Ok (sts, q) ->
  i_num q = successes sts /\ length sts = length es /\ i_state q = i_state (new_ipoint on) /\
  (i_depth q = None <-> successes sts = 0) /\ (on = false -> Forall (fun st => st = WAS_OOB) sts).
Proof. exact life_count. Qed.
Print Assumptions C41_life.

(** C41: lastTraced tells how the last search along the curve ended ... *)
Theorem C41_flag : forall fuel s es p sts q st,
  trace_all fuel s es p = Ok (sts, q) -> last_search sts st -> (i_traced q = true <-> st = OK).
Proof. exact flag_life. Qed.
Print Assumptions C41_flag.

(** ... and is false without one. *)
Theorem C41_flag_new : forall fuel s es on sts q,
  trace_all fuel s es (new_ipoint on) = Ok (sts, q) -> Forall unsearched sts -> i_traced q = false.
Proof. exact flag_new. Qed.
Print Assumptions C41_flag_new.

(** It need not tell how the last tracing ended. *)
Theorem C41_flag_refuted : exists fuel s es q,
  trace_all fuel s es (new_ipoint true) = Ok ([OK; BIG_PREDICTED_ERROR], q) /\ i_traced q = true.
Proof. exact flag_stale. Qed.
Print Assumptions C41_flag_refuted.

(** C42: a successful re-trace divides the deviation at least by the improvement factor. *)
Theorem C42_retrace : forall fuel s e p q,
  traceOn fuel s e p = Ok (OK, q) -> t_full s = false -> 0 < i_num p -> i_dev p <> NaN ->
  deviation (e_dev e) -> (0 < t_impr s)%Q ->
  i_dev q <> NaN /\ dle (dmul (i_dev q) (Fin (t_impr s))) (i_dev p) = true.
Proof. exact retrace. Qed.
Print Assumptions C42_retrace.

(** C42: over its life the deviation never grows and a ready point stays ready. *)
Theorem C42_life : forall fuel s es1 es2 on sts1 sts2 p q,
  t_full s = false -> (1 <= t_impr s)%Q ->
  Forall (fun e => deviation (e_dev e)) (es1 ++ es2) ->
  trace_all fuel s es1 (new_ipoint on) = Ok (sts1, p) -> trace_all fuel s es2 p = Ok (sts2, q) ->
  dle (i_dev q) (i_dev p) = true /\ (isReady s p = true -> isReady s q = true).
Proof. exact life_dev. Qed.
Print Assumptions C42_life.

(** C42: n successful re-traces divide it at least by the n-th power of the factor. *)
Theorem C42_rate : forall fuel s es p sts q d,
  trace_all fuel s es p = Ok (sts, q) -> 0 < i_num p -> i_dev p = Fin d ->
  t_full s = false -> (1 <= t_impr s)%Q -> Forall (fun e => deviation (e_dev e)) es ->
  exists d', i_dev q = Fin d' /\ (d' * t_impr s ^ successes sts <= d)%Q.
Proof. exact history_shrink. Qed.
Print Assumptions C42_rate.

(** C42 fails across saving and restoring: a ready point whose depth interval is unbounded counts as
    never traced afterwards and may become not ready. *)
Theorem C42_restored_refuted : exists fuel s e1 e2 p q,
  t_full s = false /\ (1 <= t_impr s)%Q /\ deviation (e_dev e1) /\ deviation (e_dev e2) /\
  traceOn fuel s e1 (new_ipoint true) = Ok (OK, p) /\ isReady s p = true /\
  traceOn fuel s e2 p = Ok (BIG_PREDICTED_ERROR, p) /\
  traceOn fuel s e2 (restored p) = Ok (OK, q) /\ isReady s q = false /\ dlt (i_dev p) (i_dev q) = true.
Proof. exact restored_grows. Qed.
Print Assumptions C42_restored_refuted.

(** C43: the refined position is at most one unit from the middle of the two neighbours, and its
    energy is the one reported. *)
Theorem C43_position : forall gn ev dirf from to p d e,
  tracePrecise gn ev dirf from to = Ok (p, d, e) ->
  exists q, d = Fin q /\ (-1 <= q <= 1)%Q /\ displaced from to (dirf from to) q p /\
    (e = PInf \/ e = fst (fst (ev p))).
Proof. exact refine_result. Qed.
Print Assumptions C43_position.

Theorem C43_near : forall gn ev dirf from to p d e m,
  tracePrecise gn ev dirf from to = Ok (p, d, e) ->
  (fst (dirf from to) * fst (dirf from to) + snd (dirf from to) * snd (dirf from to) <= 1)%Q ->
  displaced from to (0, 0)%Q 0 m -> (dist2 p m <= 1)%Q.
Proof. exact refine_near. Qed.
Print Assumptions C43_near.

(** C43: its energy is not above the energy in the middle. *)
Theorem C43_energy : forall gn ev dirf from to p d e,
  0 <= gn -> (forall a b, peq a b -> ev a = ev b) ->
  tracePrecise gn ev dirf from to = Ok (p, d, e) ->
  forall m, displaced from to (0, 0)%Q 0 m -> fst (fst (ev m)) = NaN \/ dle e (fst (fst (ev m))) = true.
Proof. exact refine_energy. Qed.
Print Assumptions C43_energy.

(** C43: it is defined when no normal equation is 0 / 0 ... *)
Theorem C43_defined : forall gn ev dirf from to,
  (forall p, let '(_, h, b) := ev p in ddiv (dopp b) h <> NaN) ->
  exists r, tracePrecise gn ev dirf from to = Ok r.
Proof. exact refine_defined. Qed.
Print Assumptions C43_defined.

(** ... and undefined when the one at the start is. *)
Theorem C43_flat_refuted : forall gn ev dirf from to m e h b,
  1 <= gn -> (forall a b, peq a b -> ev a = ev b) ->
  displaced from to (0, 0)%Q 0 m -> ev m = (Fin e, Fin h, Fin b) -> (h == 0)%Q -> (b == 0)%Q ->
  tracePrecise gn ev dirf from to = UB.
Proof. exact refine_flat. Qed.
Print Assumptions C43_flat_refuted.

(** C43: the depth of a traced point belongs to the refined position times two to the level. *)
Theorem C43_depth : forall fuel s e p q,
  traceOn fuel s e p = Ok (OK, q) -> 0 < t_gn s ->
  exists pts i from to r k,
    points_to_trace fuel s e = Ok (Some pts) /\ (i < length pts)%nat /\
    nth_error (map fst pts) (i - 1) = Some from /\
    nth_error (map fst pts) (Nat.min (length pts - 1) (i + 1)) = Some to /\
    measured s e (i_max p) pts i (i_energy q) /\
    (-1 <= k <= 1)%Q /\ displaced from to (e_dir e from to) k r /\
    i_depth q = Some (e_triang e (Some (pos_scale (inject_Z (2 ^ i_level q)) r))).
Proof. exact refined_depth. Qed.
Print Assumptions C43_depth.

(** C43 fails for the discrete optimum: on level 0 the refined energy can be above it ... *)
Theorem C43_optimum_refuted : exists fuel s e p q eb ea,
  one_scene e /\ (forall far a l, nonneg (e_energy e far a l)) /\ i_state p = ACTIVE /\
  traceOn fuel s e p = Ok (OK, q) /\ i_level q = 0 /\
  i_before q = Some (Fin eb) /\ i_after q = Some (Fin ea) /\ (eb < ea)%Q.
Proof. exact optimum_lost. Qed.
Print Assumptions C43_optimum_refuted.

(** ... the depth can be that of a position far from the best sample ... *)
Theorem C43_far_refuted : exists fuel s e p q pts i pt a d0 d,
  one_scene e /\ i_state p = ACTIVE /\
  traceOn fuel s e p = Ok (OK, q) /\ points_to_trace fuel s e = Ok (Some pts) /\
  nth_error pts i = Some (pt, a) /\ measured s e (i_max p) pts i (i_energy q) /\ i_level q = 0 /\
  (forall j x, measured s e (i_max p) pts j x -> at_least (i_energy q) x) /\
  e_depth e a = Fin d0 /\ i_depth q = Some (Fin d) /\ (d0 + 9 < d)%Q.
Proof. exact far_from_optimum. Qed.
Print Assumptions C43_far_refuted.

(** ... and on level 1 also when the best sample is the middle of its neighbours one pixel away. *)
Theorem C43_level_refuted : exists fuel s e p q pts i pt a d0 d,
  one_scene e /\ i_state p = ACTIVE /\
  traceOn fuel s e p = Ok (OK, q) /\ points_to_trace fuel s e = Ok (Some pts) /\
  nth_error pts i = Some (pt, a) /\ measured s e (i_max p) pts i (i_energy q) /\ i_level q = 1 /\
  (exists u v, nth_error (map fst pts) (i - 1) = Some u /\ nth_error (map fst pts) (i + 1) = Some v /\
     displaced u v (0, 0)%Q 0 pt /\ (dist2 u pt == 1)%Q /\ (dist2 v pt == 1)%Q) /\
  e_depth e a = Fin d0 /\ i_depth q = Some (Fin d) /\ (d + 7 < d0)%Q.
Proof. exact level_lost. Qed.
Print Assumptions C43_level_refuted.

(** C44: the samples are runs along the curve, each listed twice. *)
Theorem C44_doubled : forall fuel s e pts, points_to_trace fuel s e = Ok (Some pts) ->
  doubled (e_point e) (e_delta e) pts.
Proof. exact samples_doubled. Qed.
Print Assumptions C44_doubled.

(** C44: with limited search it is one run from the far end, at most maxSearchCount long. *)
Theorem C44_limited : forall fuel s e pts, t_full s = false -> points_to_trace fuel s e = Ok (Some pts) ->
  exists r maxc, pts = r ++ r /\ run (e_point e) (e_delta e) (Fin 0) r /\
    to_int (Fin (t_search_rel s * inject_Z (e_wh e))) = Ok maxc /\
    Z.of_nat (length r) <= Z.max 1 maxc /\
    e_on e (e_point e (Fin 0)) = true /\
    (forall k p a, nth_error r k = Some (p, a) -> (S k < length r)%nat -> e_on e p = true).
Proof. exact samples_limited. Qed.
Print Assumptions C44_limited.

Theorem C44_terminates : forall fuel s e maxc,
  t_full s = false -> to_int (Fin (t_search_rel s * inject_Z (e_wh e))) = Ok maxc ->
  (2 <= fuel)%nat -> maxc + 1 <= Z.of_nat fuel -> exists r, points_to_trace fuel s e = Ok r.
Proof. exact samples_terminate. Qed.
Print Assumptions C44_terminates.

(** C44: the best sample is in the first half, and a lower bound past the end of the run is taken
    between the last and the first sample. *)
Theorem C44_bound : forall fuel s e p q d,
  traceOn fuel s e p = Ok (OK, q) -> t_full s = false -> i_max p <> PInf -> e_dev e = Fin d -> (0 <= d)%Q ->
  exists r i first last,
    points_to_trace fuel s e = Ok (Some (r ++ r)) /\ (i < length r)%nat /\
    measured s e (i_max p) (r ++ r) i (i_energy q) /\
    nth_error (map fst r) 0 = Some first /\ nth_error (map fst r) (length r - 1) = Some last /\
    (let x := (inject_Z (Z.of_nat i) + 2 * d)%Q in
     (0 < x)%Q -> Z.of_nat (length r) <= INT_MAX ->
     (inject_Z (Z.of_nat (length r) - 1) <= x < inject_Z (Z.of_nat (length r)))%Q ->
     exists pm, i_min q = e_triang e (Some pm) /\
       peq pm (pos_add last (pos_scale (x - inject_Z (Z.of_nat (length r) - 1)) (pos_sub first last)))).
Proof. exact bound_wraps. Qed.
Print Assumptions C44_bound.

(** C44: so the depth interval of a traced point can be empty. *)
Theorem C44_interval_refuted : exists fuel s e p q lo hi,
  one_scene e /\ i_state p = ACTIVE /\ traceOn fuel s e p = Ok (OK, q) /\
  i_min q = Fin lo /\ i_max q = Fin hi /\ (hi < lo)%Q.
Proof. exact interval_empty. Qed.
Print Assumptions C44_interval_refuted.

(** C74: what an OK result guarantees about the measured energies. *)
Theorem C74_accepted : forall fuel s e p q,
  traceOn fuel s e p = Ok (OK, q) ->
  (forall far a l, nonneg (e_energy e far a l)) ->
  exists pts i pt a E,
    points_to_trace fuel s e = Ok (Some pts) /\
    nth_error pts i = Some (pt, a) /\
    i_energy q = Fin E /\ (0 <= E)%Q /\
    measured s e (i_max p) pts i (Fin E) /\
    (forall j x, measured s e (i_max p) pts j x -> at_least (Fin E) x /\ ((j < i)%nat -> x = NaN \/ dlt (Fin E) x = true)) /\
    (E <= t_energy_factor s * inject_Z (t_ps s) * t_th s * t_th s)%Q /\
    (forall j pt' a' x, nth_error pts j = Some (pt', a') -> measured s e (i_max p) pts j x ->
       ((t_second_dist s <= 0)%Q \/ (t_second_dist s * t_second_dist s <= dist2 pt' pt)%Q) ->
       at_least (Fin (t_quality s * E)) x /\
       (x = NaN \/ dlt (Fin (t_second_factor s * inject_Z (t_ps s) * t_th s * t_th s)) x = true)) /\
    i_level q <> t_levels s - 1.
Proof. exact accepted. Qed.
Print Assumptions C74_accepted.
