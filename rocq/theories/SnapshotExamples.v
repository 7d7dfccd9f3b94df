(** A concrete snapshot: doubles stand for integers, printed in decimal. *)
From Coq Require Import Ascii String ZArith List Bool Lia.
From Verif Require Import Outcome Dbl PlyModel PlySpec PlyProofs SnapshotModel SnapshotSpec SnapshotProofs.
Import ListNotations.
Open Scope Z_scope.

Definition parse_z (w : list ascii) : option Z :=
  match w with
  | [] => None
  | c :: w' => if Ascii.eqb c "-" then option_map Z.opp (undec 0 w') else undec 0 w
  end.
Lemma demo_codec : codec_ok dec parse_z.
Proof.
  intros z. split; [|apply dec_word]. unfold parse_z. destruct (Z_lt_le_dec z 0) as [N|N].
  - rewrite dec_neg by auto. change (Ascii.eqb "-" "-") with true. cbn iota. rewrite undec_dec by lia. cbn. f_equal. lia.
  - destruct (dec z) as [|c w] eqn:E; [exfalso; exact (dec_nonempty z N E)|].
    rewrite (dec_head_not_minus z N c w E), <- E. apply undec_dec; auto.
Qed.

Definition demo_inf (z : Z) : bool := z =? 1000.
Definition dsave := save dec Z.opp (fun x => x) 0.
Definition dload := load parse_z Z.opp demo_inf (fun q => q).

Definition demo_imm (mx traced : Z) : ipt Z :=
  {| i_p := (3, 4); i_dirs := [(1, 0, 2); (2, 2, 2)]; i_int := [7; 8]; i_grad := [(1, 1); (0, -5)];
     i_gradn := [(9, 9); (8, 8)]; i_min := 2; i_max := mx; i_depth := 3; i_quality := -1; i_energy := 55;
     i_stddev := 12; i_state := 1; i_lastTraced := true; i_numTraced := traced; i_before := 4; i_level := 3;
     i_pyrChanged := Some true |}.
Definition demo_opt (st : Z) : opt Z := {| o_p := (5, 6); o_logInv := -7; o_stddev := 2; o_state := Some st |}.
Definition demo_pkf (n : Z) : pkf Z := {| p_num := n; p_pose := ((0, 0, 0, n), (1, 2, n)); p_light := (n, -n) |}.
Definition demo_kf (n : Z) : skf Z :=
  {| k_pre := demo_pkf n; k_pose := ((1, 0, 0, 0), (n, n, n)); k_light := (4, 5);
     k_imm := [demo_imm 1000 5; demo_imm 17 4]; k_opt := [demo_opt 2; demo_opt 0; demo_opt 1];
     k_tracked := [demo_pkf (n + 1); demo_pkf (n + 2)] |}.

Lemma demo_ok n : -1000 <= n <= 1000 -> kf_ok 2 (fun q => q) (demo_kf n).
Proof.
  intros H. unfold kf_ok, pkf_ok. cbn. unfold INT_MIN, INT_MAX.
  split; [split; [reflexivity|lia]|]. split; [reflexivity|]. split; [|split; [|lia]].
  - repeat constructor; cbn; unfold INT_MIN, INT_MAX; try reflexivity; lia.
  - repeat constructor; cbn; unfold INT_MIN, INT_MAX; lia.
Qed.
Lemma demo_consistent : tracked_consistent [demo_kf 30; demo_kf (-20)].
Proof.
  intros a b Ha Hb. cbn in Ha, Hb. repeat destruct Ha as [Ha|Ha]; repeat destruct Hb as [Hb|Hb]; subst; cbn; try reflexivity; try discriminate; contradiction.
Qed.

Definition summary (m : list (Z * skf Z)) :=
  map (fun e => (fst e, k_pose (snd e), map i_numTraced (k_imm (snd e)), map o_state (k_opt (snd e)),
                 map (@p_num Z) (k_tracked (snd e)))) m.

Definition demo_files : fs :=
  match dsave 2 [] [demo_kf 30; demo_kf 20] fs_empty with
  | Ok f => match dsave 2 [] [demo_kf 40; demo_kf 30] f with Ok f' => f' | _ => fs_empty end
  | _ => fs_empty
  end.

Lemma demo_round_trip :
  bind (dsave 2 [] [demo_kf 30; demo_kf (-20)] fs_empty) (fun f => bind (dload 2 f (fs_dirs f)) (fun m => Ok (summary m))) =
  Ok [(-20, ((1, 0, 0, 0), (-20, -20, -20)), [0; 1], [None; None; None], [-19; -18]);
      (30, ((1, 0, 0, 0), (30, 30, 30)), [0; 1], [None; None; None], [31; 32])].
Proof. vm_compute. reflexivity. Qed.

Lemma demo_stale :
  fs_dirs demo_files = [kf_dir 30; kf_dir 20; kf_dir 40] /\
  bind (dload 2 demo_files [kf_dir 40; lit "other"; kf_dir 20; kf_dir 30]) (fun m => Ok (map fst m)) = Ok [20; 30; 40].
Proof. split; vm_compute; reflexivity. Qed.

(** Two keyframes with the same number cannot be loaded: a directory name the loader accepts but
    the saver never writes. *)
Definition demo_dup : fs :=
  {| fs_dirs := fs_dirs demo_files ++ [lit "kf_copy"];
     fs_in := fun d n => if beq d (lit "kf_copy") then fs_in demo_files (kf_dir 30) n else fs_in demo_files d n;
     fs_root := fs_root demo_files |}.
Lemma demo_dup_aborts : dload 2 demo_dup (fs_dirs demo_dup) = Abort.
Proof. vm_compute. reflexivity. Qed.
