(** Proofs about CloudWriter (C21). *)
From Coq Require Import Ascii String ZArith Bool Lia List.
From Verif Require Import Outcome Dbl DsoModel DsoSpec DsoHistory DsoProofs PlyModel PlySpec PlyProofs OutputModel OutputSpec.
Import ListNotations.
Open Scope Z_scope.

Section Cloud.
Variables P IP OP : Type.
Variable fmt : Z -> dbl -> bytes.
Hypothesis FOK : fmt_ok fmt.
Variable opt_point : P -> OP -> point * color.
Variable imm_point : P -> IP -> point * color.
Variable imm_traced : IP -> bool.
Notation kf := (kf P IP OP).
Notation event := (event P IP OP).
Notation exported := (exported opt_point imm_point imm_traced).
Notation kf_file := (kf_file fmt exported).
Notation cw_kf := (cw_kf P IP OP fmt opt_point imm_point imm_traced).
Notation cw_marg := (cw_marg P IP OP fmt opt_point imm_point imm_traced).
Notation cw_event := (cw_event P IP OP fmt opt_point imm_point imm_traced).

Definition CI (w : cw) (ks : list kf) (n : Z) : Prop :=
  0 <= n <= INT_MAX /\ cw_dir w = [] /\
  h_file (cw_holder w) = text fmt n (19 - length (dec n)) 6 (flat_map exported ks) /\
  h_count (cw_holder w) = Z.of_nat (length (flat_map exported ks)) /\
  Forall2 kf_file ks (cw_files w).

Definition good (k : kf) : Prop := Forall (fun pc => color_ok (snd pc)) (exported k) /\ 0 <= kf_num k.

Lemma combine_split (l : list (point * color)) : combine (map fst l) (map snd l) = l.
Proof. induction l as [|[a b] l IH]; simpl; [reflexivity|]. rewrite IH. reflexivity. Qed.

Lemma cw_kf_ok w ks n k : CI w ks n -> Z.of_nat (length (flat_map exported (ks ++ [k]))) <= INT_MAX ->
  good k ->
  exists w', cw_kf w k = Ok w' /\ CI w' (ks ++ [k]) n.
Proof.
  intros (C0 & C1 & C2 & C3 & C4) Hm [Hc Hk]. unfold OutputModel.cw_kf.
  destruct (print_well_formed fmt FOK (map fst (exported k)) (map snd (exported k))) as (f & vs & A1 & A2 & A3).
  { rewrite !map_length. lia. }
  { apply Forall_forall. intros c Hin. apply in_map_iff in Hin as (pc & <- & Hin). rewrite Forall_forall in Hc. auto. }
  rewrite A1. cbn [bind]. rewrite flat_map_app in Hm. cbn [flat_map] in Hm. rewrite app_nil_r, app_length in Hm.
  destruct (run_text fmt [PutPoints (map fst (exported k)) (map snd (exported k))] (cw_holder w) n (flat_map exported ks)) as (h & B1 & B2 & B3 & B4); auto.
  { cbn [given flat_map put_of]. rewrite combine_split, app_nil_r. lia. }
  unfold ply_run in B1. cbn [ofold ply_step] in B1. apply bind_ok_inv in B1 as (h' & B1 & E). injection E as ->.
  rewrite B1. cbn [bind]. eexists. split; [reflexivity|]. cbn [given flat_map put_of declared] in B3, B4. rewrite combine_split, app_nil_r in B3, B4.
  unfold CI. cbn [cw_dir cw_holder cw_files]. rewrite flat_map_app. cbn [flat_map]. rewrite app_nil_r.
  split; [auto|]. split; [auto|]. split; [exact B3|]. split; [exact B4|].
  apply Forall2_app; [auto|]. constructor; [|constructor]. rewrite C1. split; [exists (dec (kf_num k)); split; [reflexivity|apply dec_denotes; auto]|].
  exists vs. rewrite combine_split in A3. auto.
Qed.

Lemma cw_marg_ok w ks n l : CI w ks n -> Z.of_nat (length (flat_map exported (ks ++ l))) <= INT_MAX ->
  Forall good l ->
  exists w', cw_marg w l = Ok w' /\ CI w' (ks ++ l) (Z.of_nat (length (flat_map exported (ks ++ l)))).
Proof.
  intros HI Hm Hc.
  assert (G : exists w', ofold cw_kf l w = Ok w' /\ CI w' (ks ++ l) n).
  { revert w ks HI Hm. induction Hc as [|k l Hk Hc IH]; intros w ks HI Hm.
    - exists w. rewrite app_nil_r. split; [reflexivity|exact HI].
    - replace (ks ++ k :: l) with ((ks ++ [k]) ++ l) in * by (rewrite <- app_assoc; reflexivity).
      destruct (cw_kf_ok w ks n k HI) as (w1 & E1 & I1); auto.
      { rewrite flat_map_app, app_length in Hm. lia. }
      cbn [ofold]. rewrite E1. cbn [bind]. apply IH; auto. }
  destruct G as (w1 & E1 & (C0 & C1 & C2 & C3 & C4)). unfold OutputModel.cw_marg. rewrite E1. cbn [bind].
  destruct (run_text fmt [UpdateCount] (cw_holder w1) n (flat_map exported (ks ++ l))) as (h & B1 & B2 & B3 & B4); auto.
  { cbn. lia. }
  unfold ply_run in B1. cbn [ofold ply_step] in B1. apply bind_ok_inv in B1 as (h' & B1 & E). injection E as ->.
  rewrite B1. cbn [bind]. eexists. split; [reflexivity|]. cbn [given flat_map put_of declared] in B2, B3, B4. cbn [app] in B3, B4. rewrite app_nil_r in B3, B4.
  rewrite C3 in B2, B3. unfold CI. cbn [cw_dir cw_holder cw_files]. auto.
Qed.

Lemma cw_run_ok log : forall w ks n, CI w ks n -> Z.of_nat (length (flat_map exported (ks ++ reported log))) <= INT_MAX ->
  Forall good (reported log) ->
  exists w' n', ofold cw_event log w = Ok w' /\ CI w' (ks ++ reported log) n'.
Proof.
  induction log as [|e log IH]; intros w ks n HI Hm Hc.
  - exists w, n. cbn. rewrite app_nil_r. auto.
  - assert (Gm : forall l, reported (e :: log) = l ++ reported log ->
       exists w1 n1, cw_marg w l = Ok w1 /\ CI w1 (ks ++ l) n1).
    { intros l El. rewrite El in Hm, Hc. apply Forall_app in Hc as [Hc _].
      destruct (cw_marg_ok w ks n l HI) as (w1 & E1 & I1); auto; [|eauto].
      rewrite app_assoc, flat_map_app, app_length in Hm. lia. }
    destruct e; try (cbn [ofold OutputModel.cw_event bind]; apply (IH w ks n); assumption).
    all: destruct (Gm l eq_refl) as (w1 & n1 & E1 & I1); cbn [ofold OutputModel.cw_event]; rewrite E1; cbn [bind];
      destruct (IH w1 (ks ++ l) n1 I1) as (w2 & n2 & E2 & I2);
      [ rewrite <- app_assoc; exact Hm | apply Forall_app in Hc as [_ Hc]; exact Hc |
        exists w2, n2; rewrite <- app_assoc in I2; auto ].
Qed.

Theorem cloud_exact log l : let ks := reported (log ++ [EvDestructed l]) in
  Z.of_nat (length (flat_map exported ks)) <= INT_MAX ->
  (forall k pc, In k ks -> In pc (exported k) -> color_ok (snd pc)) -> (forall k, In k ks -> 0 <= kf_num k) ->
  exists w vs, cw_run fmt opt_point imm_point imm_traced (log ++ [EvDestructed l]) = Ok w /\
    parse_ply (h_file (cw_holder w)) = Some (Z.of_nat (length vs), vs) /\
    Forall2 (vertex_words fmt 6) (flat_map exported ks) vs /\
    Forall2 kf_file ks (cw_files w).
Proof.
  intros ks Hm Hc Hn.
  assert (Hr : ks = reported log ++ l). { unfold ks, reported. rewrite flat_map_app. cbn [flat_map]. rewrite app_nil_r. reflexivity. }
  assert (Hc' : Forall good ks).
  { apply Forall_forall. intros k Hk. split; [|auto]. apply Forall_forall. intros pc Hpc. eauto. }
  assert (I0 : CI cw_new [] 0).
  { split; [unfold INT_MAX; lia|]. split; [reflexivity|]. split; [apply (open_text fmt)|]. split; [reflexivity|constructor]. }
  rewrite Hr in Hm, Hc'. apply Forall_app in Hc' as [Hc1 Hc2].
  destruct (cw_run_ok log cw_new [] 0 I0) as (w1 & n1 & E1 & I1); auto.
  { cbn [app]. rewrite flat_map_app, app_length in Hm. lia. }
  cbn [app] in I1. destruct (cw_marg_ok w1 (reported log) n1 l I1) as (w & E2 & I2); auto.
  exists w, (map (fun pc => words [] (line_body fmt 6 pc)) (flat_map exported ks)).
  destruct I2 as (C0 & C1 & C2 & C3 & C4). rewrite <- Hr in *. split; [|split; [|split]].
  - unfold cw_run.
    assert (A : forall l1 l2 w, ofold cw_event (l1 ++ l2) w = bind (ofold cw_event l1 w) (ofold cw_event l2)).
    { induction l1 as [|e l1 IH]; intros l2 w0; [reflexivity|]. cbn [app ofold]. destruct (cw_event w0 e); cbn [bind]; auto. }
    rewrite A, E1. cbn [bind ofold OutputModel.cw_event]. rewrite E2. reflexivity.
  - rewrite C2, map_length. apply parse_text; [exact FOK|lia].
  - apply words_forall; [exact FOK|]. apply Forall_forall. intros pc Hpc. apply in_flat_map in Hpc as (k & Hk & Hpc). eauto.
  - exact C4.
Qed.
End Cloud.

Section Run.
Variables P : Type.
Variable pid : P.
Variable pmul : P -> P -> P.
Variable pinv : P -> P.
Variables IP OP : Type.
Variable promote : IP -> OP.
Variable ready : IP -> bool.
Variable s : dso_settings.
Variables obsA obsB : list nat.
Variable fmt : Z -> dbl -> bytes.
Variable opt_point : P -> OP -> point * color.
Variable imm_point : P -> IP -> point * color.
Variable imm_traced : IP -> bool.
Notation points := (cloud_points opt_point imm_point imm_traced).

Lemma exported_points (k : kf P IP OP) : exported opt_point imm_point imm_traced k = points k.
Proof.
  unfold exported, cloud_points. f_equal. induction (kf_imm k) as [|p l IH]; [reflexivity|].
  cbn [filter flat_map]. destruct (imm_traced p); cbn [map app]; rewrite IH; reflexivity.
Qed.

Theorem cloud_run cs st : fmt_ok fmt -> run pid pmul pinv promote ready s cs (init s obsA obsB) = Ok st ->
  let ks := reported (destroy st) in
  Z.of_nat (length (flat_map points ks)) <= INT_MAX ->
  (forall k pc, In k ks -> In pc (points k) -> color_ok (snd pc)) ->
  exists w vs, cw_run fmt opt_point imm_point imm_traced (destroy st) = Ok w /\
    parse_ply (h_file (cw_holder w)) = Some (Z.of_nat (length vs), vs) /\
    Forall2 (vertex_words fmt 6) (flat_map points ks) vs /\
    Forall2 (kf_file fmt points) ks (cw_files w).
Proof.
  intros FOK H ks Hm Hc.
  assert (Ef : flat_map points ks = flat_map (exported opt_point imm_point imm_traced) ks)
    by (apply flat_map_ext; intros k; symmetry; apply exported_points).
  rewrite Ef in *.
  assert (Hc2 : forall k pc, In k ks -> In pc (exported opt_point imm_point imm_traced k) -> color_ok (snd pc))
    by (intros k pc Hk; rewrite exported_points; eauto).
  assert (Hp : forall k, In k ks -> 0 <= kf_num k).
  2:{ destruct (cloud_exact P IP OP fmt FOK opt_point imm_point imm_traced (st_log st) (st_kfs st) Hm Hc2 Hp)
        as (w & vs & A & B & C & D). exists w, vs. split; [exact A|]. split; [exact B|]. split; [exact C|].
      change (Forall2 (kf_file fmt (exported opt_point imm_point imm_traced)) ks (cw_files w)) in D. clear - D. clearbody ks. induction D as [|k f l r [K1 K2] D IH]; constructor; auto. split; [exact K1|]. rewrite exported_points in K2. exact K2. }
  intros k Hk.
  pose proof (all_reported_nums _ _ _ _ _ _ _ _ _ _ _ _ _ H) as A.
  assert (Hin : In (kf_num k) (map kf_num (reported (destroy st)))) by (apply in_map; exact Hk).
  rewrite A in Hin. destruct (accepted_sorted _ _ _ _ _ _ _ _ _ _ _ _ _ H) as [_ So]. rewrite Forall_forall in So.
  assert (Hn : In (kf_num k) (numbers cs)); [|specialize (So _ Hn); lia].
  destruct (history_hall (firstFramesSkip s) (shiftBetweenKeyFrames s) true (continueChoosing s) (numbers cs)) as [_ G].
  { eapply accepted_sorted; eauto. }
  apply G. rewrite <- (history_kfs _ _ true) in Hin. rewrite map_rev, <- in_rev in Hin. apply in_map_iff in Hin as (e & <- & He).
  unfold hall. apply in_flat_map. exists e. split; [exact He|left; reflexivity].
Qed.
End Run.
