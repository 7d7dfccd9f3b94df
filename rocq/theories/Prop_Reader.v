(** The dataset reader: C58, C70. *)
From Coq Require Import ZArith QArith Bool Ascii String List Lia.
From Verif Require Import Outcome Dbl ReaderModel ReaderSpec ReaderProofs.
Import ListNotations.
Open Scope Z_scope.

(** C58: without a newline at the end, frame k of n is line k and frame 0 the identity. *)
Theorem C58_no_newline : forall split fuel ws ls,
  file_lines ws ls -> ls <> [] -> (List.length ls <= fuel)%nat ->
  read_trajectory split fuel {| f_words := ws; f_blank_end := false |}
  = Ok (Identity :: map entry_of ls).
Proof. exact trajectory_no_newline. Qed.
Print Assumptions C58_no_newline.

Theorem C58_frame : forall poses ls k l,
  poses = Identity :: map entry_of ls -> nth_error ls k = Some l ->
  get_pose poses (Z.of_nat k + 1) = Ok (entry_of l).
Proof. exact get_pose_line. Qed.
Print Assumptions C58_frame.

(** C58: a newline at the end adds an entry of variables that were never written. *)
Theorem C58_newline_refuted : forall split fuel ws ls,
  file_lines ws ls -> (List.length ls < fuel)%nat ->
  read_trajectory split fuel {| f_words := ws; f_blank_end := true |}
  = Ok (Identity :: map entry_of ls ++ [undetermined]).
Proof. exact trajectory_newline. Qed.
Print Assumptions C58_newline_refuted.

(** C58: an empty file too. *)
Theorem C58_empty_refuted : forall split fuel b,
  (0 < fuel)%nat ->
  read_trajectory split fuel {| f_words := []; f_blank_end := b |} = Ok [Identity; undetermined].
Proof. exact trajectory_empty. Qed.
Print Assumptions C58_empty_refuted.

(** C58: an incomplete last line gives an entry with its missing parts never written. *)
Theorem C58_short_line_refuted : forall split fuel ws ls z part vs b,
  file_lines ws ls -> INT_MIN <= z <= INT_MAX ->
  Forall2 writes part vs -> (List.length part < 7)%nat ->
  (List.length ls < fuel)%nat ->
  read_trajectory split fuel {| f_words := ws ++ WInt z :: part; f_blank_end := b |}
  = Ok (Identity :: map entry_of ls
        ++ [entry_cells (map Det vs ++ repeat Indet (7 - List.length part))]).
Proof. exact trajectory_short. Qed.
Print Assumptions C58_short_line_refuted.

(** C58: after a word that is no number the loop never ends. *)
Theorem C58_endless_refuted : forall split fuel ws ls pre rest b,
  file_lines ws ls ->
  (pre = [] \/ exists z nums vs, pre = WInt z :: nums /\ INT_MIN <= z <= INT_MAX /\
                 Forall2 writes nums vs /\ (List.length nums < 7)%nat) ->
  read_trajectory split fuel {| f_words := ws ++ pre ++ WBad false :: rest; f_blank_end := b |}
  = NoFuel.
Proof. exact trajectory_bad. Qed.
Print Assumptions C58_endless_refuted.

(** Two lines, with the frame numbers 10 and 20. *)
Definition demo_words : list word :=
  [WInt 10; WReal (1 # 2); WInt 0; WInt 3; WInt 0; WInt 0; WInt 0; WInt 1;
   WInt 20; WReal (3 # 2); WInt 0; WInt 3; WInt 0; WInt 0; WInt 0; WInt 1].
Definition demo_line f x :=
  {| l_frame := f; l_tx := x; l_ty := 0; l_tz := 3; l_qx := 0; l_qy := 0; l_qz := 0; l_qw := 1 |}.
Example C58_hypotheses : file_lines demo_words [demo_line 10 (1 # 2); demo_line 20 (3 # 2)].
Proof.
  change demo_words with
    ([WInt 10; WReal (1 # 2); WInt 0; WInt 3; WInt 0; WInt 0; WInt 0; WInt 1] ++
     [WInt 20; WReal (3 # 2); WInt 0; WInt 3; WInt 0; WInt 0; WInt 0; WInt 1] ++ []).
  constructor; [|constructor; [|constructor]];
    do 7 eexists; (split; [reflexivity|]); split; try (cbn; unfold INT_MIN, INT_MAX; lia);
    cbn; repeat split.
Qed.
Example C58_witness :
  read_trajectory (fun _ => (None, [])) 10 {| f_words := demo_words; f_blank_end := false |}
  = Ok [Identity;
        Inverse [Det (1 # 2); Det 0; Det 3] [Det 0; Det 0; Det 0; Det 1];
        Inverse [Det (3 # 2); Det 0; Det 3] [Det 0; Det 0; Det 0; Det 1]].
Proof. vm_compute. reflexivity. Qed.

(** C70: the directory may be given with or without a final slash; the empty name is undefined. *)
Theorem C70_directory : forall d c,
  reader_dir (d ++ String c "")
  = Ok (if Ascii.eqb c "/" then d else (d ++ String c "")%string).
Proof. exact reader_dir_snoc. Qed.
Print Assumptions C70_directory.

Theorem C70_no_directory_refuted : reader_dir "" = UB.
Proof. exact reader_dir_empty. Qed.
Print Assumptions C70_no_directory_refuted.

(** C70: the files of the directory are read, ... *)
Theorem C70_files : forall split fuel fs_line fs_words dir d line words cam f poses,
  reader_dir dir = Ok d -> (String.length d <= 234)%nat ->
  fs_line (d ++ "/info/intrinsics.txt")%string = Some (Some (line, words)) ->
  read_camera split line words = Ok cam ->
  fs_words (d ++ "/info/groundtruth.txt")%string = Some f ->
  read_trajectory split fuel f = Ok poses ->
  reader_new split fuel fs_line fs_words dir = Ok (cam, poses).
Proof. exact reader_new_ok. Qed.
Print Assumptions C70_files.

(** ... but a long name overflows the buffer. *)
Theorem C70_long_name_refuted : forall split fuel fs_line fs_words dir d,
  reader_dir dir = Ok d -> (236 <= String.length d)%nat ->
  reader_new split fuel fs_line fs_words dir = UB.
Proof. exact reader_long_dir. Qed.
Print Assumptions C70_long_name_refuted.

(** C70: the polynomial of the camera is the negated one of the file without its linear term. *)
Theorem C70_camera : forall split line w h c0 c1 c2 c3 c4 x y v0 v1 v2 v3 v4 vx vy more b,
  (3 <= String.length line)%nat -> substring 0 3 line <> "K ="%string ->
  INT_MIN <= w <= INT_MAX -> INT_MIN <= h <= INT_MAX ->
  Forall2 writes [c0; c1; c2; c3; c4; x; y] [v0; v1; v2; v3; v4; vx; vy] ->
  read_camera split line
    {| f_words := WInt w :: WInt h :: [c0; c1; c2; c3; c4; x; y] ++ more; f_blank_end := b |}
  = Ok (Poly (Some w) (Some h) [Det vx; Det vy]
         [Det (- v0); Det (- v2); Det (- v3); Det (- v4)]).
Proof. exact camera_poly. Qed.
Print Assumptions C70_camera.

(** C70: depth maps are read row by row; with too few numbers the remaining cells are never
    written. *)
Theorem C70_depths : forall w h ws vs b,
  Forall2 writes ws vs -> List.length ws = (Z.to_nat w * Z.to_nat h)%nat ->
  forall more, read_depths w h {| f_words := ws ++ more; f_blank_end := b |} = map Det vs.
Proof. exact depths_full. Qed.
Print Assumptions C70_depths.

Theorem C70_short_depths_refuted : forall w h ws vs b,
  Forall2 writes ws vs -> (List.length ws < Z.to_nat w * Z.to_nat h)%nat ->
  read_depths w h {| f_words := ws; f_blank_end := b |}
  = map Det vs ++ repeat Indet (Z.to_nat w * Z.to_nat h - List.length ws).
Proof. exact depths_short. Qed.
Print Assumptions C70_short_depths_refuted.

Example C70_witness :
  reader_new (fun _ => (None, [])) 5
    (fun n => if String.eqb n "mfov/info/intrinsics.txt"
              then Some (Some ("640 480 -180.5 0 0.1 0.2 0.3 320 240"%string,
                 {| f_words := [WInt 640; WInt 480; WReal (-361 # 2); WInt 0; WReal (1 # 10);
                                WReal (1 # 5); WReal (3 # 10); WInt 320; WInt 240];
                    f_blank_end := false |}))
              else None)
    (fun n => if String.eqb n "mfov/info/groundtruth.txt"
              then Some {| f_words := demo_words; f_blank_end := false |} else None) "mfov/"
  = Ok (Poly (Some 640) (Some 480) [Det 320; Det 240]
          [Det (361 # 2); Det (- 1 # 10); Det (- 1 # 5); Det (- 3 # 10)],
        Identity :: map entry_of [demo_line 10 (1 # 2); demo_line 20 (3 # 2)]).
Proof. vm_compute. reflexivity. Qed.
Example C70_depths_witness :
  read_depths 2 2 {| f_words := [WInt 1; WReal (3 # 2); WInt 4]; f_blank_end := true |}
  = [Det 1; Det (3 # 2); Det 4; Indet].
Proof. vm_compute. reflexivity. Qed.
