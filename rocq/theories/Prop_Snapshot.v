(** Property theorems about snapshots: C22-C25.  Quantified over the representation of doubles and
    its text form; [qnormalize] is the normalisation Sophus applies to a loaded quaternion. *)
From Coq Require Import Ascii String ZArith List Bool Permutation.
From Verif Require Import Outcome Dbl PlyModel SnapshotModel SnapshotSpec SnapshotProofs SnapshotExamples.
Import ListNotations.
Open Scope Z_scope.

Section Snapshot.
Variable D : Type.
Variable dprint : D -> list ascii.
Variable dparse : list ascii -> option D.
Variable dneg dexp : D -> D.
Variable dzero : D.
Variable is_inf : D -> bool.
Variable qnormalize : D * D * D * D -> D * D * D * D.
Variable ps : nat.
Notation save := (save dprint dneg dexp dzero ps).
Notation saves := (saves dprint dneg dexp dzero ps).
Notation load := (load dparse dneg is_inf qnormalize ps).
Notation num k := (p_num (k_pre k)).

(** C22: saving keyframes into a directory without keyframes and loading it gives them back. *)
Theorem C22_round_trip (ks : list (skf D)) cols f :
  codec_ok dprint dparse -> (forall x, dneg (dneg x) = x) ->
  clean f -> Forall (kf_ok ps qnormalize) ks -> NoDup (map (fun k => num k) ks) -> tracked_consistent ks ->
  exists f', save cols ks f = Ok f' /\
    forall order, Permutation order (fs_dirs f') -> exists m, load f' order = Ok m /\ holds m ks.
Proof.
  exact (fun C N => round_trip D dprint dparse dneg dexp dzero is_inf qnormalize C N ps f cols ks).
Qed.

(** C23: after any sequence of saves into one directory, loading gives for every number the
    keyframe saved last under it, with its tracked frames as last saved under their numbers. *)
Theorem C23_reuse (l : list (list ascii * list (skf D))) f :
  codec_ok dprint dparse -> (forall x, dneg (dneg x) = x) ->
  clean f -> Forall (fun e => Forall (kf_ok ps qnormalize) (snd e)) l ->
  exists f', saves l f = Ok f' /\
    forall order, Permutation order (fs_dirs f') ->
    exists m ks, load f' order = Ok m /\ merged (flat_map snd l) ks /\ holds m ks.
Proof.
  exact (fun C N => reuse D dprint dparse dneg dexp dzero is_inf qnormalize C N ps f l).
Qed.

(** C23: the result is the last saved set exactly when all earlier numbers are overwritten. *)
Theorem C23_exact_iff_no_stale (l : list (list ascii * list (skf D))) cols ks f :
  codec_ok dprint dparse -> (forall x, dneg (dneg x) = x) ->
  clean f -> Forall (fun e => Forall (kf_ok ps qnormalize) (snd e)) (l ++ [(cols, ks)]) ->
  NoDup (map (fun k => num k) ks) -> tracked_consistent ks ->
  exists f', saves (l ++ [(cols, ks)]) f = Ok f' /\
    forall order, Permutation order (fs_dirs f') ->
    exists m, load f' order = Ok m /\
      (holds m ks <-> forall k, In k (flat_map snd l) -> exists k', In k' ks /\ num k' = num k).
Proof.
  exact (fun C N => reuse_exact D dprint dparse dneg dexp dzero is_inf qnormalize C N ps f l cols ks).
Qed.

(** C24: whatever the files hold, the enumeration order does not matter. *)
Theorem C24_order_free f order order' m : Permutation order order' -> load f order = Ok m -> load f order' = Ok m.
Proof. exact (load_order_free D dparse dneg is_inf qnormalize ps f order order' m). Qed.

(** C25: keyframes that differ only in point states, trace counts and the like are saved as the
    same files. *)
Theorem C25_same_files cols ks ks' f : Forall2 kf_same ks ks' -> save cols ks f = save cols ks' f.
Proof. exact (save_ignores_rest D dprint dneg dexp dzero ps cols ks ks' f). Qed.

(** C25: in every loaded keyframe the states of optimised points are indeterminate, and an
    immature point counts as traced once exactly if its maximal depth is finite. *)
Theorem C25_forgotten f order m n k : load f order = Ok m -> In (n, k) m ->
  Forall (fun p => o_state p = None) (k_opt k) /\
  Forall (fun p => i_numTraced p = (if is_inf (i_max p) then 0 else 1) /\
                   i_lastTraced p = negb (is_inf (i_max p))) (k_imm k).
Proof. exact (load_forgets D dparse dneg is_inf qnormalize ps f order m n k). Qed.
End Snapshot.
Print Assumptions C22_round_trip.
Print Assumptions C23_reuse.
Print Assumptions C23_exact_iff_no_stale.
Print Assumptions C24_order_free.
Print Assumptions C25_same_files.
Print Assumptions C25_forgotten.

Example C22_example : codec_ok dec parse_z /\ tracked_consistent [demo_kf 30; demo_kf (-20)] /\
  (forall n, -1000 <= n <= 1000 -> kf_ok 2 (fun q => q) (demo_kf n)) /\
  bind (dsave 2 [] [demo_kf 30; demo_kf (-20)] fs_empty) (fun f => bind (dload 2 f (fs_dirs f)) (fun m => Ok (summary m))) =
  Ok [(-20, ((1, 0, 0, 0), (-20, -20, -20)), [0; 1], [None; None; None], [-19; -18]);
      (30, ((1, 0, 0, 0), (30, 30, 30)), [0; 1], [None; None; None], [31; 32])].
Proof. exact (conj demo_codec (conj demo_consistent (conj demo_ok demo_round_trip))). Qed.
(** The stale keyframe 20 of the first save comes back after the second. *)
Example C23_example :
  fs_dirs demo_files = [kf_dir 30; kf_dir 20; kf_dir 40] /\
  bind (dload 2 demo_files [kf_dir 40; lit "other"; kf_dir 20; kf_dir 30]) (fun m => Ok (map fst m)) = Ok [20; 30; 40].
Proof. exact demo_stale. Qed.
Example C24_example : dload 2 demo_dup (fs_dirs demo_dup) = Abort.
Proof. exact demo_dup_aborts. Qed.
Example C25_example : kf_same (demo_kf 20)
  {| k_pre := k_pre (demo_kf 20); k_pose := k_pose (demo_kf 20); k_light := (4, 5); k_imm := k_imm (demo_kf 20);
     k_opt := [demo_opt 0; demo_opt 1; demo_opt 1]; k_tracked := k_tracked (demo_kf 20) |}.
Proof. repeat (first [reflexivity | constructor]). Qed.
