(** Proofs for ReaderModel. *)
From Coq Require Import ZArith QArith Bool Ascii String List Lia ZifyBool.
From Verif Require Import Outcome Dbl ReaderModel ReaderSpec.
Import ListNotations.
Open Scope Z_scope.

Notation mk w b e f := {| s_words := w; s_blank := b; s_eof := e; s_fail := f |}.

Lemma get_double_num w q rest b :
  writes w q -> get_double Indet (mk (w :: rest) b false false)
  = (Det q, mk rest b (match rest with [] => negb b | _ => false end) false).
Proof.
  intros W. unfold get_double. cbn [s_eof s_fail orb s_words].
  destruct w as [z|r|u]; cbn [writes] in W; try contradiction; subst; reflexivity.
Qed.

Lemma get_doubles_fail k w b e :
  get_doubles k (mk w b e true) = (repeat Indet k, mk w b e true).
Proof.
  induction k as [|k IH]; cbn [get_doubles repeat]; [reflexivity|].
  unfold get_double. cbn [s_eof s_fail s_words s_blank]. rewrite orb_true_r, IH. reflexivity.
Qed.

Lemma get_doubles_end k b e :
  e = false -> get_doubles (S k) (mk [] b e false) = (repeat Indet (S k), mk [] b true true).
Proof.
  intros ->. cbn [get_doubles]. unfold get_double. cbn [s_eof s_fail s_words s_blank orb].
  rewrite get_doubles_fail. reflexivity.
Qed.

Lemma get_doubles_eof k w b :
  get_doubles (S k) (mk w b true false) = (repeat Indet (S k), mk w b true true).
Proof.
  cbn [get_doubles]. unfold get_double. cbn [s_eof s_fail s_words s_blank orb].
  rewrite get_doubles_fail. reflexivity.
Qed.

Lemma get_doubles_num ws vs rest b :
  Forall2 writes ws vs ->
  get_doubles (length ws) (mk (ws ++ rest) b false false)
  = (map Det vs, mk rest b (match ws, rest with _ :: _, [] => negb b | _, _ => false end) false)
  .
Proof.
  intros H. revert rest. induction H as [|w q ws vs W H IH]; intros rest; cbn [length get_doubles app map].
  - reflexivity.
  - rewrite (get_double_num _ q _ _ W). destruct ws as [|w' ws'].
    + inversion H; subst. cbn [app length get_doubles map]. destruct rest; reflexivity.
    + cbn [app]. change (w' :: ws' ++ rest) with ((w' :: ws') ++ rest). rewrite (IH rest).
      reflexivity.
Qed.

Lemma get_doubles_app j k s :
  get_doubles (j + k) s =
  (let (a, s1) := get_doubles j s in let (c, s2) := get_doubles k s1 in (a ++ c, s2)).
Proof.
  revert s; induction j as [|j IH]; intros s; cbn [Nat.add get_doubles].
  - destruct (get_doubles k s). reflexivity.
  - destruct (get_double Indet s) as [c s1]. rewrite IH.
    destruct (get_doubles j s1) as [a s2]. destruct (get_doubles k s2). reflexivity.
Qed.

Lemma get_int_num split z rest b :
  INT_MIN <= z <= INT_MAX ->
  get_int split (mk (WInt z :: rest) b false false)
  = (Some z, mk rest b (match rest with [] => negb b | _ => false end) false).
Proof.
  intros H. unfold get_int. cbn [s_eof s_fail orb s_words].
  assert (in_int z = true) as -> by (unfold in_int; lia). reflexivity.
Qed.

(** One line followed by [rest]. *)
Lemma read_line split f ws l rest b acc :
  line_words ws l ->
  read_poses split (S f) (mk (ws ++ rest) b false false) acc
  = read_poses split f (mk rest b (match rest with [] => negb b | _ => false end) false)
      (acc ++ [entry_of l]).
Proof.
  intros (tx & ty & tz & qx & qy & qz & qw & -> & HF & A1 & A2 & A3 & B1 & B2 & B3 & B4).
  cbn [read_poses s_eof app]. rewrite get_int_num by exact HF.
  assert (E1 : get_doubles 3 (mk (tx :: ty :: tz :: qx :: qy :: qz :: qw :: rest) b false false)
    = ([Det (l_tx l); Det (l_ty l); Det (l_tz l)], mk (qx :: qy :: qz :: qw :: rest) b false false)).
  { apply (get_doubles_num [tx; ty; tz] [l_tx l; l_ty l; l_tz l] (qx :: qy :: qz :: qw :: rest) b).
    repeat constructor; assumption. }
  rewrite E1.
  assert (E2 : get_doubles 4 (mk (qx :: qy :: qz :: qw :: rest) b false false)
    = ([Det (l_qx l); Det (l_qy l); Det (l_qz l); Det (l_qw l)],
       mk rest b (match rest with [] => negb b | _ => false end) false)).
  { apply (get_doubles_num [qx; qy; qz; qw] [l_qx l; l_qy l; l_qz l; l_qw l] rest b).
    repeat constructor; assumption. }
  rewrite E2. reflexivity.
Qed.

Lemma line_words_nonnil ws l : line_words ws l -> ws <> [].
Proof. intros (? & ? & ? & ? & ? & ? & ? & -> & _). discriminate. Qed.

(** Lines followed by a non-empty rest. *)
Lemma read_lines split ws ls rest b :
  file_lines ws ls -> rest <> [] ->
  forall f acc,
  read_poses split (length ls + f) (mk (ws ++ rest) b false false) acc
  = read_poses split f (mk rest b false false) (acc ++ map entry_of ls).
Proof.
  intros H NE. induction H as [|ws l rs ls W H IH]; intros f acc; cbn [length Nat.add map app].
  - rewrite app_nil_r. reflexivity.
  - rewrite <- app_assoc. rewrite (read_line _ _ _ _ _ _ _ W).
    assert (E : match rs ++ rest with [] => negb b | _ => false end = false).
    { destruct (rs ++ rest) eqn:X; [|reflexivity]. apply app_eq_nil in X as [_ X]. contradiction. }
    rewrite E, IH, <- app_assoc. reflexivity.
Qed.

(** Lines to the end of the file. *)
Lemma read_all_lines split ws ls b :
  file_lines ws ls -> ls <> [] ->
  forall f acc,
  read_poses split (length ls + f) (mk ws b false false) acc
  = read_poses split f (mk [] b (negb b) false) (acc ++ map entry_of ls).
Proof.
  intros H. induction H as [|ws l rs ls W H IH]; intros NE f acc; [congruence|].
  cbn [length Nat.add map]. rewrite (read_line _ _ _ _ _ _ _ W).
  destruct H as [|ws' l' rs' ls' W' H'].
  - cbn [length Nat.add map]. reflexivity.
  - assert (E : match ws' ++ rs' with [] => negb b | _ => false end = false).
    { destruct (ws' ++ rs') eqn:X; [|reflexivity]. apply app_eq_nil in X as [X _].
      apply line_words_nonnil in W'. contradiction. }
    rewrite E, IH by discriminate. rewrite <- app_assoc. reflexivity.
Qed.

Lemma read_poses_eof split f w b x acc : read_poses split f (mk w b true x) acc = Ok acc.
Proof. destruct f; reflexivity. Qed.

(** The rest of the file holds no words, only blanks or nothing: one more entry. *)
Lemma read_poses_blank split f b acc :
  read_poses split (S f) (mk [] b false false) acc = Ok (acc ++ [undetermined]).
Proof.
  cbn [read_poses s_eof]. unfold get_int. cbn [s_eof s_fail orb s_words s_blank].
  rewrite !get_doubles_fail. rewrite read_poses_eof. reflexivity.
Qed.

Lemma trajectory_no_newline split fuel ws ls :
  file_lines ws ls -> ls <> [] -> (length ls <= fuel)%nat ->
  read_trajectory split fuel {| f_words := ws; f_blank_end := false |}
  = Ok (Identity :: map entry_of ls).
Proof.
  intros H NE F. unfold read_trajectory, open_stream. cbn [f_words f_blank_end].
  replace fuel with (length ls + (fuel - length ls))%nat by lia.
  rewrite (read_all_lines _ _ _ _ H NE). cbn [negb]. rewrite read_poses_eof. reflexivity.
Qed.

Lemma trajectory_newline split fuel ws ls :
  file_lines ws ls -> (length ls < fuel)%nat ->
  read_trajectory split fuel {| f_words := ws; f_blank_end := true |}
  = Ok (Identity :: map entry_of ls ++ [undetermined]).
Proof.
  intros H F. unfold read_trajectory, open_stream. cbn [f_words f_blank_end].
  destruct ls as [|l ls].
  - inversion H; subst. destruct fuel as [|fuel]; [cbn in F; lia|].
    rewrite read_poses_blank. reflexivity.
  - replace fuel with (length (l :: ls) + S (fuel - length (l :: ls) - 1))%nat
      by (cbn [length] in *; lia).
    rewrite (read_all_lines _ _ _ _ H) by discriminate. cbn [negb].
    rewrite read_poses_blank. reflexivity.
Qed.

Lemma trajectory_empty split fuel b :
  (0 < fuel)%nat ->
  read_trajectory split fuel {| f_words := []; f_blank_end := b |} = Ok [Identity; undetermined].
Proof.
  intros F. destruct fuel as [|fuel]; [lia|]. unfold read_trajectory, open_stream.
  cbn [f_words f_blank_end]. rewrite read_poses_blank. reflexivity.
Qed.

(** A short last line. *)
Lemma get_doubles_short ws vs b k :
  Forall2 writes ws vs -> (length ws < k)%nat -> ws <> [] ->
  get_doubles k (mk ws b false false)
  = (map Det vs ++ repeat Indet (k - length ws), mk [] b true true).
Proof.
  intros H L NE. assert (exists j, k = length ws + S j)%nat as [j ->]
    by (exists (k - length ws - 1)%nat; lia).
  rewrite get_doubles_app. pose proof (get_doubles_num ws vs [] b H) as E.
  rewrite app_nil_r in E. rewrite E.
  replace (length ws + S j - length ws)%nat with (S j) by lia.
  destruct ws as [|w ws]; [congruence|].
  destruct b; cbn [negb]; [rewrite get_doubles_end by reflexivity|rewrite get_doubles_eof]; reflexivity.
Qed.

Lemma get_doubles_length k s : length (fst (get_doubles k s)) = k.
Proof.
  revert s; induction k as [|k IH]; intros s; cbn [get_doubles]; [reflexivity|].
  destruct (get_double Indet s) as [c s1]. specialize (IH s1).
  destruct (get_doubles k s1). cbn in *. lia.
Qed.

Lemma read_poses_step split f s acc :
  s_eof s = false ->
  read_poses split (S f) s acc =
  (let (_, s1) := get_int split s in
   let (c, s3) := get_doubles 7 s1 in
   read_poses split f s3 (acc ++ [entry_cells c])).
Proof.
  intros E. cbn [read_poses]. rewrite E. destruct (get_int split s) as [z s1].
  change 7%nat with (3 + 4)%nat. rewrite get_doubles_app.
  pose proof (get_doubles_length 3 s1) as L.
  destruct (get_doubles 3 s1) as [a s2]. destruct (get_doubles 4 s2) as [c s3].
  cbn [fst] in L. destruct a as [|a0 [|a1 [|a2 [|a3 a]]]]; try discriminate L. reflexivity.
Qed.

Lemma trajectory_short split fuel ws ls z part vs b :
  file_lines ws ls -> INT_MIN <= z <= INT_MAX ->
  Forall2 writes part vs -> (length part < 7)%nat ->
  (length ls < fuel)%nat ->
  read_trajectory split fuel {| f_words := ws ++ WInt z :: part; f_blank_end := b |}
  = Ok (Identity :: map entry_of ls
        ++ [entry_cells (map Det vs ++ repeat Indet (7 - length part))]).
Proof.
  intros H Z P L F. unfold read_trajectory, open_stream. cbn [f_words f_blank_end].
  replace fuel with (length ls + S (fuel - length ls - 1))%nat by lia.
  rewrite (read_lines _ _ _ _ _ H) by discriminate.
  rewrite read_poses_step by reflexivity. rewrite get_int_num by exact Z.
  destruct part as [|w part].
  - inversion P; subst.
    assert (E : get_doubles 7 (mk [] b (negb b) false) = (repeat Indet 7, mk [] b true true)).
    { destruct b; cbn [negb]; [rewrite get_doubles_end by reflexivity|rewrite get_doubles_eof]; reflexivity. }
    rewrite E, read_poses_eof. reflexivity.
  - rewrite (get_doubles_short _ _ _ _ P L) by discriminate.
    rewrite read_poses_eof. reflexivity.
Qed.

(** Non-numbers. *)
Lemma read_poses_stuck split f w b acc : read_poses split f (mk w b false true) acc = NoFuel.
Proof.
  revert acc; induction f as [|f IH]; intros acc; [reflexivity|].
  rewrite read_poses_step by reflexivity. unfold get_int. cbn [s_eof s_fail orb s_words s_blank].
  rewrite get_doubles_fail. apply IH.
Qed.

Lemma get_doubles_bad k pre vs rest b :
  Forall2 writes pre vs -> (length pre < k)%nat ->
  snd (get_doubles k (mk (pre ++ WBad false :: rest) b false false))
  = mk (WBad false :: rest) b false true.
Proof.
  intros H L. replace k with (length pre + S (k - length pre - 1))%nat by lia.
  rewrite get_doubles_app. rewrite (get_doubles_num _ _ _ _ H).
  assert (E : match pre with [] => false | _ :: _ => false end = false) by (destruct pre; reflexivity).
  destruct pre; cbn [get_doubles get_double s_eof s_fail orb s_words s_blank];
    rewrite get_doubles_fail; reflexivity.
Qed.

Lemma trajectory_bad split fuel ws ls pre rest b :
  file_lines ws ls ->
  (pre = [] \/ exists z nums vs, pre = WInt z :: nums /\ INT_MIN <= z <= INT_MAX /\
                 Forall2 writes nums vs /\ (length nums < 7)%nat) ->
  read_trajectory split fuel {| f_words := ws ++ pre ++ WBad false :: rest; f_blank_end := b |}
  = NoFuel.
Proof.
  intros H P. unfold read_trajectory, open_stream. cbn [f_words f_blank_end].
  assert (NE : pre ++ WBad false :: rest <> []) by (destruct pre; discriminate).
  destruct (Nat.le_gt_cases fuel (length ls)) as [Le|Gt].
  - (* not even the lines before fit in the bound *)
    clear P. revert fuel Le. generalize [Identity].
    induction H as [|ws0 l rs ls W H IH]; intros acc fuel Le.
    + cbn [length] in Le. assert (fuel = 0)%nat as -> by lia. reflexivity.
    + destruct fuel as [|fuel]; [reflexivity|]. rewrite <- app_assoc.
      rewrite (read_line _ _ _ _ _ _ _ W).
      assert (E : match rs ++ pre ++ WBad false :: rest with [] => negb b | _ => false end = false).
      { destruct (rs ++ pre ++ WBad false :: rest) eqn:X; [|reflexivity].
        apply app_eq_nil in X as [_ X]. contradiction. }
      rewrite E. apply IH. cbn [length] in Le. lia.
  - replace fuel with (length ls + S (fuel - length ls - 1))%nat by lia.
    rewrite (read_lines _ _ _ _ _ H NE).
    rewrite read_poses_step by reflexivity.
    destruct P as [-> | (z & nums & vs & -> & Z & W & L)].
    + unfold get_int. cbn [app s_eof s_fail orb s_words s_blank].
      rewrite get_doubles_fail. apply read_poses_stuck.
    + cbn [app]. rewrite get_int_num by exact Z.
      assert (E : match nums ++ WBad false :: rest with [] => negb b | _ => false end = false)
        by (destruct nums; reflexivity).
      rewrite E. pose proof (get_doubles_bad 7 nums vs rest b W L) as X.
      destruct (get_doubles 7 _) as [c s3]. cbn [snd] in X. subst s3. apply read_poses_stuck.
Qed.

(** * Depth maps *)
Lemma depths_full w h ws vs b :
  Forall2 writes ws vs -> length ws = (Z.to_nat w * Z.to_nat h)%nat ->
  forall more, read_depths w h {| f_words := ws ++ more; f_blank_end := b |} = map Det vs.
Proof.
  intros H L more. unfold read_depths, open_stream. cbn [f_words f_blank_end]. rewrite <- L.
  rewrite (get_doubles_num _ _ _ _ H). reflexivity.
Qed.

Lemma depths_short w h ws vs b :
  Forall2 writes ws vs -> (length ws < Z.to_nat w * Z.to_nat h)%nat ->
  read_depths w h {| f_words := ws; f_blank_end := b |}
  = map Det vs ++ repeat Indet (Z.to_nat w * Z.to_nat h - length ws).
Proof.
  intros H L. unfold read_depths, open_stream. cbn [f_words f_blank_end].
  destruct ws as [|x ws].
  - inversion H; subst. cbn [length] in *. set (k := (Z.to_nat w * Z.to_nat h)%nat) in *.
    destruct k as [|k]; [lia|]. rewrite get_doubles_end by reflexivity. reflexivity.
  - rewrite (get_doubles_short _ _ _ _ H L) by discriminate. reflexivity.
Qed.

(** * Directory and intrinsics *)
Lemma reader_dir_empty : reader_dir "" = UB.
Proof. reflexivity. Qed.

Lemma get_last d c : get (String.length d) (d ++ String c "") = Some c.
Proof. induction d as [|a d IH]; [reflexivity|exact IH]. Qed.
Lemma substring_all d s : substring 0 (String.length d) (d ++ s) = d.
Proof. induction d as [|a d IH]; [destruct s; reflexivity|]. cbn. rewrite IH. reflexivity. Qed.
Lemma length_snoc d c : String.length (d ++ String c "") = S (String.length d).
Proof. induction d as [|a d IH]; [reflexivity|]. cbn. rewrite IH. reflexivity. Qed.

Lemma reader_dir_snoc d c :
  reader_dir (d ++ String c "") = Ok (if Ascii.eqb c "/" then d else (d ++ String c "")%string).
Proof.
  unfold reader_dir. rewrite length_snoc, get_last.
  destruct (Ascii.eqb c "/"); [|reflexivity]. rewrite substring_all. reflexivity.
Qed.

Lemma camera_poly split line w h c0 c1 c2 c3 c4 x y v0 v1 v2 v3 v4 vx vy more b :
  (3 <= String.length line)%nat -> substring 0 3 line <> "K ="%string ->
  INT_MIN <= w <= INT_MAX -> INT_MIN <= h <= INT_MAX ->
  Forall2 writes [c0; c1; c2; c3; c4; x; y] [v0; v1; v2; v3; v4; vx; vy] ->
  read_camera split line
    {| f_words := WInt w :: WInt h :: [c0; c1; c2; c3; c4; x; y] ++ more; f_blank_end := b |}
  = Ok (Poly (Some w) (Some h) [Det vx; Det vy]
         [Det (- v0); Det (- v2); Det (- v3); Det (- v4)]).
Proof.
  intros L K W H F. unfold read_camera.
  destruct (String.length line <? 3)%nat eqn:X; [lia|].
  destruct (String.eqb (substring 0 3 line) "K =") eqn:Y; [apply String.eqb_eq in Y; contradiction|].
  unfold open_stream. cbn [f_words f_blank_end]. rewrite get_int_num by exact W.
  cbn [app]. rewrite get_int_num by exact H.
  assert (F5 : Forall2 writes [c0; c1; c2; c3; c4] [v0; v1; v2; v3; v4]).
  { repeat match goal with H : Forall2 _ (_ :: _) _ |- _ => inversion H; clear H; subst end.
    repeat constructor; assumption. }
  assert (F2 : Forall2 writes [x; y] [vx; vy]).
  { clear F5.
    repeat match goal with H : Forall2 _ (_ :: _) _ |- _ => inversion H; clear H; subst end.
    repeat constructor; assumption. }
  pose proof (get_doubles_num _ _ (x :: y :: more) b F5) as E5. cbn [app length] in E5.
  rewrite E5. pose proof (get_doubles_num _ _ more b F2) as E2. cbn [app length] in E2.
  rewrite E2. reflexivity.
Qed.

(** * The constructor *)
Lemma reader_long_dir split fuel fs_line fs_words dir d :
  reader_dir dir = Ok d -> (236 <= String.length d)%nat ->
  reader_new split fuel fs_line fs_words dir = UB.
Proof.
  intros D L. unfold reader_new. rewrite D. cbn [bind]. unfold sprintf_path.
  destruct (String.length d + String.length "/info/intrinsics.txt" <? 256)%nat eqn:X; [|reflexivity].
  cbn in X. lia.
Qed.

Lemma length_app a b : String.length (a ++ b) = (String.length a + String.length b)%nat.
Proof. induction a as [|c a IH]; [reflexivity|]. cbn. rewrite IH. reflexivity. Qed.

Lemma reader_new_ok split fuel fs_line fs_words dir d line words cam f poses :
  reader_dir dir = Ok d -> (String.length d <= 234)%nat ->
  fs_line (d ++ "/info/intrinsics.txt")%string = Some (Some (line, words)) ->
  read_camera split line words = Ok cam ->
  fs_words (d ++ "/info/groundtruth.txt")%string = Some f ->
  read_trajectory split fuel f = Ok poses ->
  reader_new split fuel fs_line fs_words dir = Ok (cam, poses).
Proof.
  intros D L FL C FW T. unfold reader_new. rewrite D. cbn [bind]. unfold sprintf_path.
  destruct (String.length d + String.length "/info/intrinsics.txt" <? 256)%nat eqn:X;
    [|cbn in X; lia].
  cbn [bind]. rewrite FL, C. cbn [bind].
  destruct (String.length d + String.length "/info/groundtruth.txt" <? 256)%nat eqn:Y;
    [|cbn in Y; lia].
  cbn [bind]. rewrite FW, T. reflexivity.
Qed.

Lemma get_pose_line poses ls k l :
  poses = Identity :: map entry_of ls -> nth_error ls k = Some l ->
  get_pose poses (Z.of_nat k + 1) = Ok (entry_of l).
Proof.
  intros -> N. unfold get_pose. destruct (Z.of_nat k + 1 <? 0) eqn:B; [lia|].
  replace (Z.to_nat (Z.of_nat k + 1)) with (S k) by lia. cbn [nth_error].
  rewrite (map_nth_error entry_of _ _ N). reflexivity.
Qed.
