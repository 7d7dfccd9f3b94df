(** Property theorems about the output writers: C17-C21.  [fmt] is the number printer of
    iostreams, [conv] the conversion of an infinite double to int. *)
From Coq Require Import Ascii String ZArith QArith List Bool Permutation Sorting.Sorted.
From Verif Require Import Outcome Dbl DsoModel DsoSpec DsoExamples PlyModel PlySpec PlyProofs
  OutputModel OutputSpec OutputProofs CloudProofs OutputExamples.
Import ListNotations.
Open Scope Z_scope.

(** C17: after any sequence of appends and count updates ending with an update, the file parses,
    declares exactly its number of vertex lines, and these are the appended points in order. *)
Theorem C17_incremental_file fmt ops : fmt_ok fmt ->
  Z.of_nat (List.length (given ops)) <= INT_MAX ->
  Forall (fun pc => color_ok (snd pc)) (given ops) ->
  exists h vs, ply_run fmt (ops ++ [UpdateCount]) ply_open = Ok h /\
    parse_ply (h_file h) = Some (Z.of_nat (List.length vs), vs) /\
    Forall2 (vertex_words fmt 6) (given ops) vs.
Proof. exact (fun F => ply_well_formed fmt F ops). Qed.
Print Assumptions C17_incremental_file.

(** C17: at any other moment the file parses and declares the count of the last update. *)
Theorem C17_between_updates fmt ops : fmt_ok fmt ->
  Z.of_nat (List.length (given ops)) <= INT_MAX ->
  Forall (fun pc => color_ok (snd pc)) (given ops) ->
  exists h vs, ply_run fmt ops ply_open = Ok h /\
    parse_ply (h_file h) = Some (declared 0 0 ops, vs) /\
    Forall2 (vertex_words fmt 6) (given ops) vs.
Proof. exact (fun F => ply_declared fmt F ops). Qed.
Print Assumptions C17_between_updates.

(** C17: an update rewrites only the count field. *)
Theorem C17_update_local fmt ops h h' : Z.of_nat (List.length (given ops)) <= INT_MAX ->
  ply_run fmt ops ply_open = Ok h -> update_count h = Ok h' ->
  List.length (h_file h') = List.length (h_file h) /\
  forall i, (i < 36 \/ 55 <= i)%nat -> nth_error (h_file h') i = nth_error (h_file h) i.
Proof. exact (ply_update_local fmt ops h h'). Qed.
Print Assumptions C17_update_local.

(** C17: the counter overflows exactly when more than INT_MAX points were appended. *)
Theorem C17_counter_overflow fmt ops h ps cs : ply_run fmt ops ply_open = Ok h ->
  INT_MAX < Z.of_nat (List.length (given ops) + List.length (combine ps cs)) -> put_points fmt h ps cs = UB.
Proof. exact (ply_overflow fmt ops h ps cs). Qed.
Print Assumptions C17_counter_overflow.

Example C17_example : fmt_ok demo_fmt /\
  bind (ply_run demo_fmt (demo_ops ++ [UpdateCount]) ply_open) (fun h => Ok (parse_ply (h_file h))) =
  Ok (Some (11, [[lit "1"; lit "2"; lit "nan"; lit "3"; lit "2"; lit "1"];
                 [lit "5"; lit "6"; lit "70"; lit "10"; lit "0"; lit "255"]] ++
                repeat [lit "4"; lit "4"; lit "4"; lit "9"; lit "8"; lit "7"] 9)).
Proof. exact (conj demo_fmt_ok demo_ply). Qed.

(** C18: the one-shot export holds exactly the points with three finite coordinates, in order,
    with their colours, and declares their number. *)
Theorem C18_one_shot_export fmt ps cs : fmt_ok fmt ->
  (List.length ps <= List.length cs)%nat -> Forall color_ok cs ->
  exists f vs, print_in_ply fmt ps cs = Ok f /\ parse_ply f = Some (Z.of_nat (List.length vs), vs) /\
    Forall2 (vertex_words fmt 15) (filter finite_point (combine ps cs)) vs.
Proof. exact (fun F => print_well_formed fmt F ps cs). Qed.
Print Assumptions C18_one_shot_export.

(** C18: with fewer colours than points it reads past the colours. *)
Theorem C18_short_colors fmt ps cs : (List.length cs < List.length ps)%nat -> print_in_ply fmt ps cs = UB.
Proof. exact (print_short_colors fmt ps cs). Qed.
Print Assumptions C18_short_colors.

Example C18_example :
  bind (print_in_ply demo_fmt [(Fin 1, PInf, Fin 3); (Fin 5, Fin 6, Fin 70)] [(1, 2, 3); (255, 0, 10)])
       (fun f => Ok (parse_ply f)) =
  Ok (Some (1, [[lit "5"; lit "6"; lit "70"; lit "10"; lit "0"; lit "255"]])).
Proof. exact demo_print. Qed.

Section Run.
Variables P : Type.
Variable pid : P.
Variable pmul : P -> P -> P.
Variable pinv : P -> P.
Variables IP OP : Type.
Variable promote : IP -> OP.
Variable ready : IP -> bool.
Variable s : dso_settings.
Variables obsA obsB : list nat.
Notation run := (run pid pmul pinv promote ready s).
Notation fresh := (init s obsA obsB : state P IP OP).
Notation trajectory := (tw_run pmul pinv).

(** C19: before shutdown the writer runs normally; frame numbers strictly increase and every line
    carries the frame's pose at the moment its keyframe was reported. *)
Theorem C19_increasing cs st : flush_free s -> run cs fresh = Ok st ->
  exists w, trajectory inf_to_int (st_log st) = Ok w /\ StronglySorted Z.lt (map fst (tw_written w)) /\
    (forall e, In e (tw_written w) -> In e (out_frames pmul pinv (reported (st_log st)))).
Proof. exact (faithful_before_shutdown _ _ _ _ _ _ _ _ _ _ _ cs st). Qed.

(** C19: whatever the undefined conversion at shutdown yields, the order is kept. *)
Theorem C19_increasing_any_flush v cs st : ordered s -> run cs fresh = Ok st ->
  forall log, log = st_log st \/ log = destroy st ->
  exists w, trajectory (Ok v) log = Ok w /\ StronglySorted Z.lt (map fst (tw_written w)) /\
    (forall e, In e (tw_written w) -> In e (out_frames pmul pinv (reported log))).
Proof. exact (written_increasing _ _ _ _ _ _ _ _ _ _ _ v cs st). Qed.

(** C20: a conversion above all numbers writes everything at shutdown, each frame once. *)
Theorem C20_complete_if_large v cs st : ordered s -> run cs fresh = Ok st ->
  (forall n, In n (numbers cs) -> n < v) ->
  exists w, trajectory (Ok v) (destroy st) = Ok w /\
    Permutation (tw_written w) (out_frames pmul pinv (reported (destroy st))) /\
    StronglySorted Z.lt (map fst (tw_written w)).
Proof. exact (complete_at_shutdown _ _ _ _ _ _ _ _ _ _ _ v cs st). Qed.

(** C20: a conversion not above any number (INT_MIN in practice) writes nothing more. *)
Theorem C20_lost_if_small v cs st : ordered s -> run cs fresh = Ok st ->
  (forall n, In n (numbers cs) -> v <= n) ->
  exists w1 w, trajectory (Ok v) (st_log st) = Ok w1 /\ trajectory (Ok v) (destroy st) = Ok w /\
    tw_written w = tw_written w1.
Proof. exact (nothing_at_shutdown _ _ _ _ _ _ _ _ _ _ _ v cs st). Qed.

(** C20: shutdown always executes the undefined conversion. *)
Theorem C20_shutdown_undefined cs st : run cs fresh = Ok st -> trajectory inf_to_int (destroy st) = UB.
Proof. exact (shutdown_undefined _ _ _ _ _ _ _ _ _ _ _ cs st). Qed.

(** C21: at shutdown the cloud file parses, declares its number of vertices, and holds exactly the
    optimised and traced immature points of every keyframe, once, in the order the keyframes were
    reported; and there is one file per keyframe with its finite points. *)
Theorem C21_cloud fmt opt_point imm_point imm_traced cs st : fmt_ok fmt -> run cs fresh = Ok st ->
  let ks := reported (destroy st) in
  let points := cloud_points opt_point imm_point imm_traced in
  Z.of_nat (List.length (flat_map points ks)) <= INT_MAX ->
  (forall k pc, In k ks -> In pc (points k) -> color_ok (snd pc)) ->
  exists w vs, cw_run fmt opt_point imm_point imm_traced (destroy st) = Ok w /\
    parse_ply (h_file (cw_holder w)) = Some (Z.of_nat (List.length vs), vs) /\
    Forall2 (vertex_words fmt 6) (flat_map points ks) vs /\
    Forall2 (kf_file fmt points) ks (cw_files w).
Proof. exact (cloud_run _ _ _ _ _ _ _ _ _ _ _ fmt opt_point imm_point imm_traced cs st). Qed.

End Run.
Print Assumptions C19_increasing.
Print Assumptions C19_increasing_any_flush.
Print Assumptions C20_complete_if_large.
Print Assumptions C20_lost_if_small.
Print Assumptions C20_shutdown_undefined.
Print Assumptions C21_cloud.

(** C19: the two excluded settings fail on the demo sequence. *)
Theorem C19_lbo_two_refuted :
  written_numbers (Ok INT_MAX) (window (demo false true true) 2) =
    Ok [1; 5; 6; 4; 8; 9; 7; 12; 10; 15; 13; 17; 16; 19; 23; 22; 25; 26] /\
  before_shutdown (window (demo false true true) 2) = UB.
Proof. exact (conj lbo_two_disordered lbo_two_undefined). Qed.
Print Assumptions C19_lbo_two_refuted.
Theorem C19_last_one_refuted : before_shutdown (window (demo true true true) 1) = UB.
Proof. exact last_one_undefined. Qed.
Print Assumptions C19_last_one_refuted.

Example C19_example : flush_free (demo true true true) /\
  before_shutdown (demo true true true) = Ok [1; 4; 5; 6; 7; 8; 9; 10; 12; 13; 15; 16; 17].
Proof. split; [right; left; split; [reflexivity|discriminate]|exact before_last]. Qed.
Example C20_example : ordered (demo false true true) /\
  written_numbers (Ok INT_MAX) (demo false true true) =
    Ok [1; 4; 5; 6; 7; 8; 9; 10; 12; 13; 15; 16; 17; 19; 22; 23; 25; 26] /\
  written_numbers (Ok INT_MIN) (demo true true true) = Ok [1; 4; 5; 6; 7; 8; 9; 10; 12; 13; 15; 16; 17].
Proof. split; [intros _ _; discriminate|]. exact (conj written_lbo written_min). Qed.
Example C21_example : demo_cloud = Ok (Some 23, 9%nat, Some (lit "/kf13.ply")).
Proof. exact demo_cloud_value. Qed.
