(** Proofs about the PLY writers (C17, C18). *)
From Coq Require Import List ZArith Bool Ascii String Lia.
From Verif Require Import Outcome Dbl PlyModel PlySpec.
Import ListNotations.
Open Scope Z_scope.

Lemma strip_app p l : strip p (p ++ l) = Some l.
Proof. induction p as [|a p IH]; [reflexivity|]. simpl. rewrite Ascii.eqb_refl. exact IH. Qed.

Lemma digit_value_digit d : 0 <= d <= 9 -> digit_value (digit d) = Some d.
Proof.
  intros H. assert (d = 0 \/ d = 1 \/ d = 2 \/ d = 3 \/ d = 4 \/ d = 5 \/ d = 6 \/ d = 7 \/ d = 8 \/ d = 9) by lia.
  repeat (destruct H0 as [->|H0]; [reflexivity|]). subst. reflexivity.
Qed.

Lemma digits_read fuel : forall z any acc rest, 0 <= z < 10 ^ Z.of_nat fuel -> (0 < fuel)%nat ->
  exists k, (0 < k)%nat /\ List.length (digits fuel z) = k /\
  read_digits any acc (digits fuel z ++ rest) = read_digits true (acc * 10 ^ Z.of_nat k + z) rest.
Proof.
  induction fuel as [|f IH]; intros z any acc rest Hz Hf; [lia|]. cbn [digits].
  destruct (Z.ltb_spec z 10) as [L|L].
  - exists 1%nat. split; [lia|]. split; [reflexivity|]. cbn [app read_digits]. rewrite digit_value_digit by lia. f_equal. lia.
  - rewrite Nat2Z.inj_succ, Z.pow_succ_r in Hz by lia.
    assert (0 < f)%nat. { destruct f; [change (10 ^ Z.of_nat 0) with 1 in Hz; lia|lia]. }
    destruct (IH (z / 10) any acc (digit (z mod 10) :: rest)) as (k & K0 & K1 & K2).
    { split; [apply Z.div_pos; lia|]. apply Z.div_lt_upper_bound; lia. } { auto. }
    exists (S k). split; [lia|]. rewrite app_length, K1. cbn [List.length]. split; [lia|].
    rewrite <- app_assoc. cbn [app]. rewrite K2. cbn [read_digits].
    pose proof (Z.mod_pos_bound z 10 ltac:(lia)). rewrite digit_value_digit by lia.
    f_equal. rewrite Nat2Z.inj_succ, Z.pow_succ_r by lia. pose proof (Z.div_mod z 10 ltac:(lia)).
    set (x := acc * 10 ^ Z.of_nat k) in *. replace (acc * (10 * 10 ^ Z.of_nat k)) with (10 * x) by (unfold x; ring). lia.
Qed.

Lemma dec_fuel z : 0 <= z -> z < 10 ^ Z.of_nat (S (Z.to_nat (Z.log2 z))).
Proof.
  intros H. pose proof (Z.log2_nonneg z). rewrite Nat2Z.inj_succ, Z2Nat.id by lia.
  destruct (Z.eq_dec z 0) as [->|N]; [reflexivity|].
  pose proof (Z.log2_spec z ltac:(lia)) as [_ L]. eapply Z.lt_le_trans; [exact L|].
  apply Z.pow_le_mono_l. lia.
Qed.

Lemma dec_read z any acc rest : 0 <= z -> exists k, (0 < k)%nat /\ List.length (dec z) = k /\
  read_digits any acc (dec z ++ rest) = read_digits true (acc * 10 ^ Z.of_nat k + z) rest.
Proof.
  intros H. unfold dec. destruct (Z.ltb_spec z 0); [lia|]. apply digits_read; [|lia].
  split; [lia|apply dec_fuel; auto].
Qed.

Lemma dec_denotes z : 0 <= z -> denotes (dec z) z.
Proof.
  intros H. destruct (dec_read z false 0 [] H) as (k & K0 & K1 & K2). rewrite app_nil_r in K2.
  unfold denotes. rewrite K2. simpl. f_equal; f_equal; lia.
Qed.

Lemma digits_length fuel : forall z n, 0 <= z < 10 ^ Z.of_nat n -> (0 < n)%nat -> (List.length (digits fuel z) <= n)%nat.
Proof.
  induction fuel as [|f IH]; intros z n H Hn; [simpl; lia|]. cbn [digits]. destruct (Z.ltb_spec z 10); [simpl; lia|].
  rewrite app_length. cbn [List.length]. destruct n as [|n]; [lia|]. rewrite Nat2Z.inj_succ, Z.pow_succ_r in H by lia.
  assert (0 < n)%nat. { destruct n; [change (10 ^ Z.of_nat 0) with 1 in H; lia|lia]. }
  specialize (IH (z / 10) n). assert (List.length (digits f (z / 10)) <= n)%nat; [|lia].
  apply IH; [|auto]. split; [apply Z.div_pos; lia|]. apply Z.div_lt_upper_bound; lia.
Qed.

Lemma dec_length z : 0 <= z <= INT_MAX -> (List.length (dec z) <= 10)%nat.
Proof.
  intros H. unfold dec. destruct (Z.ltb_spec z 0); [lia|]. apply digits_length; [|lia].
  unfold INT_MAX in H. change (10 ^ Z.of_nat 10) with 10000000000. lia.
Qed.

Definition plain (c : ascii) : Prop := c <> " "%char /\ c <> "010"%char.

Lemma digit_plain d : 0 <= d <= 9 -> plain (digit d).
Proof.
  intros H. assert (d = 0 \/ d = 1 \/ d = 2 \/ d = 3 \/ d = 4 \/ d = 5 \/ d = 6 \/ d = 7 \/ d = 8 \/ d = 9) by lia.
  repeat (destruct H0 as [->|H0]; [split; discriminate|]). subst. split; discriminate.
Qed.

Lemma digits_plain fuel : forall z, 0 <= z -> Forall plain (digits fuel z).
Proof.
  induction fuel as [|f IH]; intros z H; [constructor|]. cbn [digits]. destruct (Z.ltb_spec z 10).
  - constructor; [apply digit_plain; lia|constructor].
  - apply Forall_app. split; [apply IH, Z.div_pos; lia|]. constructor; [|constructor].
    apply digit_plain. pose proof (Z.mod_pos_bound z 10 ltac:(lia)). lia.
Qed.

Lemma dec_plain z : Forall plain (dec z).
Proof.
  unfold dec. destruct (Z.ltb_spec z 0).
  - constructor; [split; discriminate|]. apply digits_plain; lia.
  - apply digits_plain; lia.
Qed.

Lemma drop_spaces_repeat k l : drop_spaces (repeat sp k ++ l) = drop_spaces l.
Proof. induction k as [|k IH]; [reflexivity|]. simpl. exact IH. Qed.

Lemma lines_line w rest : Forall (fun c => c <> "010"%char) w ->
  forall cur, lines cur (w ++ nl :: rest) = option_map (cons (rev cur ++ w)) (lines [] rest).
Proof.
  induction w as [|c w IH]; intros H cur.
  - cbn [app lines]. change (Ascii.eqb nl "010") with true. cbv iota. rewrite app_nil_r. reflexivity.
  - inversion H; subst. cbn [app lines]. destruct (Ascii.eqb_spec c "010"); [contradiction|].
    rewrite IH by auto. cbn [rev]. rewrite <- app_assoc. reflexivity.
Qed.

Lemma words_word w rest : Forall (fun c => c <> " "%char) w ->
  forall cur, words cur (w ++ sp :: rest) = (rev cur ++ w) :: words [] rest.
Proof.
  induction w as [|c w IH]; intros H cur.
  - cbn [app words]. change (Ascii.eqb sp " ") with true. cbv iota. rewrite app_nil_r. reflexivity.
  - inversion H; subst. cbn [app words]. destruct (Ascii.eqb_spec c " "); [contradiction|].
    rewrite IH by auto. cbn [rev]. rewrite <- app_assoc. reflexivity.
Qed.

Lemma words_last w : Forall (fun c => c <> " "%char) w -> forall cur, words cur w = [rev cur ++ w].
Proof.
  induction w as [|c w IH]; intros H cur; [simpl; rewrite app_nil_r; reflexivity|].
  inversion H; subst. cbn [words]. destruct (Ascii.eqb_spec c " "); [contradiction|].
  rewrite IH by auto. cbn [rev]. rewrite <- app_assoc. reflexivity.
Qed.

Section Ply.
Variable fmt : Z -> dbl -> bytes.
Hypothesis FOK : fmt_ok fmt.

Definition line_body (prec : Z) (pc : point * color) : bytes :=
  let '((x, y, z), (b, g, r)) := pc in
  fmt prec x ++ sp :: fmt prec y ++ sp :: fmt prec z ++ sp :: dec r ++ sp :: dec g ++ sp :: dec b.

Lemma vertex_line_body prec pc : vertex_line fmt prec (fst pc) (snd pc) = line_body prec pc ++ [nl].
Proof.
  destruct pc as [[[x y] z] [[b g] r]]. unfold vertex_line, line_body. cbn [fst snd].
  rewrite <- ?app_assoc. cbn [app]. rewrite <- ?app_assoc. cbn [app]. rewrite <- ?app_assoc. cbn [app].
  repeat (rewrite <- ?app_assoc; cbn [app]). reflexivity.
Qed.

Lemma fmt_nosp prec x : Forall (fun c => c <> " "%char) (fmt prec x).
Proof. destruct (FOK prec x) as [_ H]. eapply Forall_impl; [|exact H]. intros c [A _]; exact A. Qed.
Lemma fmt_nonl prec x : Forall (fun c => c <> "010"%char) (fmt prec x).
Proof. destruct (FOK prec x) as [_ H]. eapply Forall_impl; [|exact H]. intros c [_ A]; exact A. Qed.
Lemma dec_nosp z : Forall (fun c => c <> " "%char) (dec z).
Proof. eapply Forall_impl; [|apply dec_plain]. intros c [A _]; exact A. Qed.
Lemma dec_nonl z : Forall (fun c => c <> "010"%char) (dec z).
Proof. eapply Forall_impl; [|apply dec_plain]. intros c [_ A]; exact A. Qed.

Lemma body_nonl prec pc : Forall (fun c => c <> "010"%char) (line_body prec pc).
Proof.
  destruct pc as [[[x y] z] [[b g] r]]. unfold line_body.
  repeat first [apply fmt_nonl | apply dec_nonl | apply Forall_app; split | constructor; [discriminate|]].
Qed.

Lemma body_words prec pc : color_ok (snd pc) -> vertex_words fmt prec pc (words [] (line_body prec pc)).
Proof.
  destruct pc as [[[x y] z] [[b g] r]]. unfold line_body, color_ok. cbn [snd]. intros (Hb & Hg & Hr).
  exists (dec r), (dec g), (dec b).
  do 3 (rewrite words_word by apply fmt_nosp). do 2 (rewrite words_word by apply dec_nosp). rewrite words_last by apply dec_nosp.
  split; [reflexivity|]. repeat split; apply dec_denotes; lia.
Qed.

Lemma lines_body prec pcs :
  lines [] (flat_map (fun pc => vertex_line fmt prec (fst pc) (snd pc)) pcs) = Some (map (line_body prec) pcs).
Proof.
  induction pcs as [|pc pcs IH]; [reflexivity|]. cbn [flat_map map]. rewrite vertex_line_body, <- app_assoc. cbn [app].
  rewrite lines_line by apply body_nonl. rewrite IH. reflexivity.
Qed.

(** The text of a file with a padded count. *)
Definition text (n : Z) (pad : nat) (prec : Z) (pcs : list (point * color)) : bytes :=
  head1 ++ (dec n ++ repeat sp pad) ++ head2 ++ flat_map (fun pc => vertex_line fmt prec (fst pc) (snd pc)) pcs.

Lemma parse_text n pad prec pcs : 0 <= n ->
  parse_ply (text n pad prec pcs) = Some (n, map (fun pc => words [] (line_body prec pc)) pcs).
Proof.
  intros Hn. unfold parse_ply, text.
  change (ply_text ["ply"; "format ascii 1.0"]%string ++ list_ascii_of_string "element vertex ") with head1.
  rewrite strip_app, <- app_assoc. destruct (dec_read n false 0 (repeat sp pad ++ head2 ++
    flat_map (fun pc => vertex_line fmt prec (fst pc) (snd pc)) pcs) Hn) as (k & K0 & K1 & K2).
  rewrite K2. change (0 * 10 ^ Z.of_nat k + n) with n. 
  set (body := flat_map _ pcs). 
  assert (R : read_digits true n (repeat sp pad ++ head2 ++ body) = Some (n, repeat sp pad ++ head2 ++ body)).
  { destruct pad; reflexivity. }
  rewrite R, drop_spaces_repeat.
  change (drop_spaces (head2 ++ body)) with (head2 ++ body).
  change (ply_text ["" ; "property float x"; "property float y"; "property float z"; "property uchar red";
    "property uchar green"; "property uchar blue"; "end_header"]%string) with head2.
  rewrite strip_app. unfold body. rewrite lines_body. simpl. rewrite map_map. reflexivity.
Qed.

Lemma words_forall prec pcs : Forall (fun pc => color_ok (snd pc)) pcs ->
  Forall2 (vertex_words fmt prec) pcs (map (fun pc => words [] (line_body prec pc)) pcs).
Proof. induction 1; constructor; auto. apply body_words; auto. Qed.

(** ** C17 *)
Lemma run_text ops : forall h n pcs, 0 <= n <= INT_MAX ->
  h_file h = text n (19 - List.length (dec n)) 6 pcs -> h_count h = Z.of_nat (List.length pcs) ->
  Z.of_nat (List.length pcs + List.length (given ops)) <= INT_MAX ->
  exists h', ply_run fmt ops h = Ok h' /\ 0 <= declared n (h_count h) ops <= INT_MAX /\
    h_file h' = text (declared n (h_count h) ops) (19 - List.length (dec (declared n (h_count h) ops))) 6 (pcs ++ given ops) /\
    h_count h' = Z.of_nat (List.length (pcs ++ given ops)).
Proof.
  induction ops as [|o ops IH]; intros h n pcs Hn Hf Hc Hm.
  - exists h. cbn. rewrite app_nil_r. auto.
  - unfold given in Hm. cbn [flat_map] in Hm. rewrite app_length in Hm. fold (given ops) in Hm.
    unfold ply_run. cbn [ofold]. destruct o as [ps cs|]; cbn [ply_step].
    + unfold put_points. cbn [put_of] in Hm. destruct (Z.ltb_spec INT_MAX (h_count h + Z.of_nat (List.length (combine ps cs)))); [lia|].
      cbn [bind]. set (h1 := {| h_file := _; h_count := _ |}).
      destruct (IH h1 n (pcs ++ combine ps cs)) as (h' & A & B & C & D); auto.
      * simpl. rewrite Hf. unfold text. rewrite flat_map_app, !app_assoc. reflexivity.
      * simpl. rewrite app_length. lia.
      * rewrite app_length. lia.
      * exists h'. split; [exact A|]. cbn [declared]. split; [exact B|]. unfold given in *. cbn [flat_map put_of].
        rewrite app_assoc. split; [exact C|exact D].
    + unfold update_count. assert (Hc0 : 0 <= h_count h <= INT_MAX) by lia.
      pose proof (dec_length _ Hc0). pose proof (dec_length _ Hn). unfold countSpace.
      destruct (Nat.ltb_spec 19 (List.length (dec (h_count h)))); [lia|]. cbn [bind].
      set (h1 := {| h_file := _; h_count := _ |}).
      destruct (IH h1 (h_count h) pcs) as (h' & A & B & C & D); auto.
      2:{ exists h'. cbn [declared]. unfold given in *. cbn [flat_map put_of app]. auto. }
      unfold h1. cbn [h_file]. rewrite Hf. unfold overwrite, text.
      set (body := head2 ++ _).
      assert (L1 : List.length head1 = 36%nat) by reflexivity.
      assert (L2 : List.length (dec n ++ repeat sp (19 - List.length (dec n))) = 19%nat) by (rewrite app_length, repeat_length; lia).
      rewrite firstn_app, L1, firstn_all2 by lia. rewrite Nat.sub_diag. cbn [firstn]. rewrite app_nil_r. f_equal. f_equal.
      rewrite app_length, repeat_length. rewrite skipn_app, L1, (skipn_all2 head1) by lia. cbn [app].
      replace (36 + (List.length (dec (h_count h)) + (19 - List.length (dec (h_count h)))) - 36)%nat with 19%nat by lia.
      set (field := dec n ++ _) in *. rewrite skipn_app, L2. rewrite (skipn_all2 field) by (rewrite L2; apply le_n). reflexivity.
Qed.

Lemma open_text : h_file ply_open = text 0 (19 - List.length (dec 0)) 6 [].
Proof. vm_compute. reflexivity. Qed.

Theorem ply_declared ops : Z.of_nat (List.length (given ops)) <= INT_MAX ->
  Forall (fun pc => color_ok (snd pc)) (given ops) ->
  exists h vs, ply_run fmt ops ply_open = Ok h /\ parse_ply (h_file h) = Some (declared 0 0 ops, vs) /\
    Forall2 (vertex_words fmt 6) (given ops) vs.
Proof.
  intros Hm Hc. destruct (run_text ops ply_open 0 []) as (h & A & B & C & D); [unfold INT_MAX; lia|apply open_text|reflexivity|exact Hm|].
  exists h, (map (fun pc => words [] (line_body 6 pc)) (given ops)). split; [exact A|]. split.
  - rewrite C. apply parse_text. apply B.
  - apply words_forall; auto.
Qed.

Lemma declared_end ops : forall n0 c, declared n0 c (ops ++ [UpdateCount]) = c + Z.of_nat (List.length (given ops)).
Proof.
  induction ops as [|o ops IH]; intros n0 c; [simpl; lia|]. unfold given. cbn [app flat_map]. rewrite app_length. fold (given ops).
  destruct o; cbn [declared put_of]; rewrite IH; [lia|simpl; lia].
Qed.

Lemma total_app a b : given (a ++ b) = given a ++ given b.
Proof. apply flat_map_app. Qed.

Theorem ply_well_formed ops : Z.of_nat (List.length (given ops)) <= INT_MAX ->
  Forall (fun pc => color_ok (snd pc)) (given ops) ->
  exists h vs, ply_run fmt (ops ++ [UpdateCount]) ply_open = Ok h /\
    parse_ply (h_file h) = Some (Z.of_nat (List.length vs), vs) /\
    Forall2 (vertex_words fmt 6) (given ops) vs.
Proof.
  intros Hm Hc. destruct (ply_declared (ops ++ [UpdateCount])) as (h & vs & A & B & C).
  - rewrite total_app, app_nil_r. exact Hm.
  - rewrite total_app, app_nil_r. exact Hc.
  - rewrite total_app, app_nil_r in C. rewrite declared_end in B.
    assert (L : List.length (given ops) = List.length vs) by (clear - C; induction C; simpl; auto).
    exists h, vs. split; [exact A|]. split; [|exact C]. rewrite B, L. reflexivity.
Qed.

(** Updating the count leaves every byte outside the field alone. *)
Theorem ply_update_local ops h h' : Z.of_nat (List.length (given ops)) <= INT_MAX ->
  ply_run fmt ops ply_open = Ok h -> update_count h = Ok h' ->
  List.length (h_file h') = List.length (h_file h) /\
  forall i, (i < 36 \/ 55 <= i)%nat -> nth_error (h_file h') i = nth_error (h_file h) i.
Proof.
  intros Hm H U. destruct (run_text ops ply_open 0 []) as (h2 & A & B & C & D); [unfold INT_MAX; lia|apply open_text|reflexivity|exact Hm|].
  rewrite A in H. injection H as <-. simpl in D.
  assert (L : (55 <= List.length (h_file h2))%nat).
  { rewrite C. unfold text. rewrite !app_length, repeat_length. change (List.length head1) with 36%nat.
    pose proof (dec_length _ B). lia. }
  unfold update_count in U. assert (Hd : (List.length (dec (h_count h2)) <= 10)%nat) by (apply dec_length; lia).
  unfold countSpace in U. destruct (Nat.ltb_spec 19 (List.length (dec (h_count h2)))); [lia|].
  set (v := dec (h_count h2) ++ _) in U. assert (E : h_file h' = overwrite 36 v (h_file h2)) by (apply (f_equal (fun o => match o with Ok x => h_file x | _ => [] end)) in U; symmetry; exact U).
  rewrite E. unfold overwrite.
  assert (Lv : List.length v = 19%nat) by (unfold v; rewrite app_length, repeat_length; lia). rewrite Lv.
  change (36 + 19)%nat with 55%nat. split.
  - rewrite !app_length, firstn_length, skipn_length, Lv. lia.
  - intros i Hi. destruct Hi.
    + rewrite nth_error_app1 by (rewrite firstn_length; lia). rewrite <- (firstn_skipn 36 (h_file h2)) at 2.
      rewrite nth_error_app1 by (rewrite firstn_length; lia). reflexivity.
    + rewrite nth_error_app2 by (rewrite firstn_length; lia). rewrite firstn_length, Nat.min_l by lia.
      rewrite nth_error_app2 by lia. rewrite Lv. rewrite <- (firstn_skipn 55 (h_file h2)) at 2.
      rewrite (nth_error_app2 (firstn 55 _)) by (rewrite firstn_length; lia). rewrite firstn_length, Nat.min_l by lia.
      f_equal. clear - H0. lia.
Qed.

Theorem ply_overflow ops h ps cs : ply_run fmt ops ply_open = Ok h ->
  INT_MAX < Z.of_nat (List.length (given ops) + List.length (combine ps cs)) -> put_points fmt h ps cs = UB.
Proof.
  intros H G. assert (Hc : h_count h = Z.of_nat (List.length (given ops))).
  { clear G. revert h H. induction ops as [|o ops IH] using rev_ind; intros h H; [injection H as <-; reflexivity|].
    assert (E : exists h1, ply_run fmt ops ply_open = Ok h1 /\ ply_step fmt h1 o = Ok h).
    { clear IH. revert H. unfold ply_run. generalize ply_open. induction ops as [|p ops IH]; intros h0; cbn [app ofold].
      - destruct (ply_step fmt h0 o) eqn:E; cbn; try discriminate. intros H; injection H as <-. eauto.
      - destruct (ply_step fmt h0 p) eqn:E; cbn [bind]; try discriminate. apply IH. }
    destruct E as (h1 & E1 & E2). rewrite total_app, app_length. unfold given at 2. cbn [flat_map]. rewrite app_nil_r.
    destruct o as [ps' cs'|]; cbn [ply_step put_of] in *.
    - unfold put_points in E2. destruct (_ <? _); [discriminate|]. injection E2 as <-. simpl. rewrite (IH _ E1). lia.
    - unfold update_count in E2. destruct (_ <? _)%nat; [discriminate|]. injection E2 as <-. simpl. rewrite (IH _ E1). lia. }
  unfold put_points. rewrite Hc. destruct (Z.ltb_spec INT_MAX (Z.of_nat (List.length (given ops)) + Z.of_nat (List.length (combine ps cs)))); [reflexivity|lia].
Qed.

(** ** C18 *)
Lemma finite_points_spec ps : forall cs, (List.length ps <= List.length cs)%nat ->
  finite_points ps cs = Ok (filter finite_point (combine ps cs)).
Proof.
  induction ps as [|p ps IH]; intros cs H; [reflexivity|]. destruct cs as [|c cs]; [simpl in H; lia|].
  cbn [finite_points combine filter]. rewrite IH by (simpl in H; lia). cbn [bind].
  destruct p as [[[x| | |] [y| | |]] [z| | |]]; reflexivity.
Qed.

Theorem print_well_formed ps cs : (List.length ps <= List.length cs)%nat -> Forall color_ok cs ->
  exists f vs, print_in_ply fmt ps cs = Ok f /\ parse_ply f = Some (Z.of_nat (List.length vs), vs) /\
    Forall2 (vertex_words fmt 15) (filter finite_point (combine ps cs)) vs.
Proof.
  intros H Hc. unfold print_in_ply. rewrite finite_points_spec by auto. cbn [bind].
  set (pcs := filter finite_point (combine ps cs)).
  exists (text (Z.of_nat (List.length pcs)) 0 15 pcs), (map (fun pc => words [] (line_body 15 pc)) pcs).
  split; [|split].
  - unfold text. cbn [repeat]. rewrite app_nil_r. reflexivity.
  - rewrite parse_text by lia. rewrite map_length. reflexivity.
  - apply words_forall. unfold pcs. apply Forall_forall. intros pc Hpc. apply filter_In in Hpc as [Hpc _].
    destruct pc as [p c]. apply in_combine_r in Hpc. rewrite Forall_forall in Hc. exact (Hc _ Hpc).
Qed.

Theorem print_short_colors ps cs : (List.length cs < List.length ps)%nat -> print_in_ply fmt ps cs = UB.
Proof.
  intros H. unfold print_in_ply. assert (E : finite_points ps cs = UB).
  { revert cs H. induction ps as [|p ps IH]; intros cs H; [simpl in H; lia|]. destruct cs as [|c cs]; [reflexivity|].
    cbn [finite_points]. rewrite IH by (simpl in H; lia). reflexivity. }
  rewrite E. reflexivity.
Qed.
End Ply.
