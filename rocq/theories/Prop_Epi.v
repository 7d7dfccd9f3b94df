(** C105: the drawing of a tracing. *)
From Coq Require Import List ZArith QArith Bool.
From Verif Require Import Outcome Dbl DblArith UtilModel UtilSpec UtilProofs TraceModel TraceSpec TraceExamples EpiModel EpiSpec EpiProofs EpiTop EpiExamples.
Import ListNotations.
Open Scope Z_scope.

(** C105: two samples are enough for the drawing to be defined. *)
Theorem C105_defined : forall unit w l, (2 <= length l)%nat -> bounded unit -> 0 <= w <= 1000 -> within l ->
  exists ms, draw_tracing unit w l = Ok ms /\ length ms = length l.
Proof. exact draw_defined. Qed.
Print Assumptions C105_defined.

(** C105: without two samples it is undefined. *)
Theorem C105_short_refuted : forall unit w l, (length l < 2)%nat -> draw_tracing unit w l = UB.
Proof. exact draw_short. Qed.
Print Assumptions C105_short_refuted.

(** C105: one stroke across the curve at every sample, the first lowest one black, thick and long. *)
Theorem C105_shows : forall unit w l ms, real l -> draw_tracing unit w l = Ok ms ->
  length ms = length l /\ exists mi lo hi, lowest l mi lo /\ highest l hi /\
  forall i p x m, nth_error l i = Some (p, x) -> nth_error ms i = Some m ->
  exists d n, leads l i d /\ n = unit (snd d, - fst d)%Q /\
    (normalises unit (snd d, - fst d)%Q -> normal_to d n) /\
    ((i = mi /\ across p n (inject_Z w) m /\ m_col m = CV_BLACK /\ m_thick m = 3) \/
     (i <> mi /\ across p n (inject_Z w / 2) m /\ m_col m = depth_col x lo hi /\ m_thick m = 1)).
Proof. exact draw_shows. Qed.
Print Assumptions C105_shows.

Example C105_case : (2 <= length three)%nat /\ within three /\ real three /\
  normalises axis_unit (0, -1)%Q /\ lowest three 1 (Fin 1) /\ highest three (Fin 7).
Proof. exact three_fits. Qed.
Example C105_case_drawn : draw_tracing axis_unit 5 three =
  Ok [{| m_beg := (10, 17); m_end := (10, 22); m_col := depth_col (Fin 7) (Fin 1) (Fin 7); m_thick := 1 |};
      {| m_beg := (11, 15); m_end := (11, 25); m_col := CV_BLACK; m_thick := 3 |};
      {| m_beg := (12, 17); m_end := (12, 22); m_col := depth_col (Fin 3) (Fin 1) (Fin 7); m_thick := 1 |}].
Proof. exact three_drawn. Qed.

(** C105: switching the drawing on does not make a tracing undefined and does not change it; a
    successful tracing of an active point is drawn, and the best sample is the black one. *)
Theorem C105_best : forall unit fuel s e p q, traceOn fuel s e p = Ok (OK, q) -> i_state p = ACTIVE ->
  bounded unit -> on_sheet e -> (forall far a l, e_energy e far a l <> NaN) ->
  exists pts ms i pt a m n,
    trace_drawn unit fuel s e p = Ok (OK, q, Some ms) /\
    points_to_trace fuel s e = Ok (Some pts) /\ length ms = length pts /\
    nth_error pts i = Some (pt, a) /\ measured s e (i_max p) pts i (i_energy q) /\
    nth_error ms i = Some m /\ across pt n 5 m /\ m_col m = CV_BLACK /\ m_thick m = 3 /\
    (forall j m', nth_error ms j = Some m' -> j <> i -> m_thick m' = 1).
Proof. exact best_marked. Qed.
Print Assumptions C105_best.

Theorem C105_harmless : forall unit fuel s e p st q, traceOn fuel s e p = Ok (st, q) ->
  bounded unit -> on_sheet e ->
  exists d, trace_drawn unit fuel s e p = Ok (st, q, d) /\ (d <> None <-> st = OK /\ i_state p = ACTIVE).
Proof. exact drawing_harmless. Qed.
Print Assumptions C105_harmless.

(** C105: with limited search, for a point of bounded depth, the black mark is drawn over later by
    the thin mark of the same sample, in the colour of the lowest energy. *)
Theorem C105_overdrawn_refuted : forall unit fuel s e p q, traceOn fuel s e p = Ok (OK, q) -> i_state p = ACTIVE ->
  bounded unit -> on_sheet e -> (forall far a l, e_energy e far a l <> NaN) ->
  t_full s = false -> i_max p <> PInf ->
  exists r ms i pt a m m' n n' hi,
    trace_drawn unit fuel s e p = Ok (OK, q, Some ms) /\
    points_to_trace fuel s e = Ok (Some (r ++ r)) /\
    nth_error r i = Some (pt, a) /\
    nth_error ms i = Some m /\ across pt n 5 m /\ m_col m = CV_BLACK /\ m_thick m = 3 /\
    nth_error ms (length r + i) = Some m' /\ across pt n' (5 # 2) m' /\ m_thick m' = 1 /\
    m_col m' = depth_col (i_energy q) (i_energy q) hi /\
    (exists j, measured s e (i_max p) (r ++ r) j hi) /\
    (forall j x, measured s e (i_max p) (r ++ r) j x -> dle x hi = true).
Proof. exact best_overdrawn. Qed.
Print Assumptions C105_overdrawn_refuted.

Example C105_traced_case : (exists q, traceOn 60 dflt short_line again = Ok (OK, q) /\ i_energy q = Fin 0) /\
  i_state again = ACTIVE /\ bounded axis_unit /\ on_sheet short_line /\
  (forall far a l, e_energy short_line far a l <> NaN) /\ t_full dflt = false /\ i_max again <> PInf.
Proof. exact (conj again_ok again_fits). Qed.
Example C105_traced_drawn : exists q ms, trace_drawn axis_unit 60 dflt short_line again = Ok (OK, q, Some ms) /\
  length ms = 42%nat /\
  (exists m, nth_error ms 10 = Some m /\ m_beg m = (10, -5) /\ m_end m = (10, 5) /\ m_thick m = 3) /\
  (exists m, nth_error ms 31 = Some m /\ m_beg m = (10, -2) /\ m_end m = (10, 2) /\ m_thick m = 1 /\
     m_col m = depth_col (Fin 0) (Fin 0) (Fin 10000)).
Proof. exact again_drawn. Qed.
