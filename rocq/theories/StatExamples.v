From Coq Require Import Reals ZArith QArith List Bool Lia Lra ZifyBool.
From Verif Require Import Outcome Dbl Pose GeomModel CalModel GtModel PixelSelectorModel PixelSelectorSpec PixelSelectorProofs StatModel StatSpec StatProofs StatTop.
Import ListNotations.
Open Scope Z_scope.
Open Scope outcome_scope.

(** Three kinds of frames: a dark one, one of 70 x 70 with nine bright pixels and one of 30 x 30 with
    three.  The poses are the identity or, without [still],
    the camera moves aside and back; every point is traced to the depth 1. *)
Inductive shot := Dark | Wide | Small.
Definition demo_grad (s : shot) : image :=
  match s with
  | Dark => {| im_rows := 30; im_cols := 30; im_at := fun _ _ => 0%Q |}
  | Wide => {| im_rows := 70; im_cols := 70; im_at := fun x y => if (x mod 23 =? 5) && (y mod 23 =? 5) then 100#1 else 0%Q |}
  | Small => {| im_rows := 30; im_cols := 30; im_at := fun x y => if (x =? y) && (x mod 8 =? 4) then 100#1 else 0%Q |}
  end.
Definition demo_trace (_ _ : shot) (_ : se3) (p : Z * Z) : tpoint :=
  {| t_p := p; t_active := true; t_finite := true; t_depth := 1; t_before := 2; t_var := 4; t_eb := 0; t_ea := 0 |}.
Definition aside : se3 := SE qone (V3 1 0 0).
Definition demo_poses (still : bool) : list se3 := if still then [sid; sid; sid; sid] else [sid; sid; aside; sid].
Definition demo_reader (still : bool) (a b : shot) : reader shot :=
  {| rd_poses := demo_poses still;
     rd_frame := fun i => if i =? 1 then Ok a else if i =? 2 then Ok b else if i =? 3 then Ok Dark else Throw;
     rd_depths := fun _ => Ok {| rows := 100; cols := 100; pix := fun _ _ => 1%R |};
     rd_map := fun v => if Req_EM_T (vz v) 0 then P2 0 0 else P2 (vx v / vz v) (vy v / vz v); rd_unmap := fun p => V3 (px p) (py p) 1 |}.
Definition demo_flags (still : bool) : flags :=
  {| f_start := 1; f_end := 2; f_shift := 1; f_trans := 1; f_rot := 1; f_precise := still; f_points := 1000 |}.
Definition demo_gauss (a b : R) (_ : unit) : (vec * vec) * unit := ((vscale a (V3 1 0 0), vscale b (V3 0 1 0)), tt).
Notation demo_frame still a b := (frame_errors shot unit first_max no_shuffle demo_grad demo_trace demo_gauss 100 (demo_flags still) (demo_reader still a b)).
Notation demo_collect fuel still a b := (collect shot unit first_max no_shuffle demo_grad demo_trace tt demo_gauss fuel (demo_flags still) (demo_reader still a b)).
Notation demo_select st s := (select first_max no_shuffle 100 ps_default st (demo_grad s) 1000).

Definition on_sheet (p : Z * Z) : bool := (0 <=? fst p) && (fst p <? 100) && (0 <=? snd p) && (snd p <? 100).

Lemma omap_total {A B} (h : A -> outcome B) l : (forall a, In a l -> exists b, h a = Ok b) -> exists l', omap h l = Ok l'.
Proof.
  induction l as [|a l IH]; intros H; [exists []; reflexivity|]. destruct (H a (or_introl eq_refl)) as [b Hb].
  destruct IH as [l' Hl]; [intros x X; apply H; now right|]. exists (b :: l'). cbn. now rewrite Hb, Hl.
Qed.

Lemma aside_there : vnorm (tr (smul aside (sinv sid))) = 1%R.
Proof.
  unfold vnorm. rewrite <- sqrt_1. f_equal.
  cbv [smul sinv rot aside sid qconj qone qv qw vneg vadd vscale cross dot tr so3 vx vy vz vzero]. ring.
Qed.
Lemma aside_back : vnorm (tr (smul sid (sinv aside))) = 1%R.
Proof.
  unfold vnorm. rewrite <- sqrt_1. f_equal.
  cbv [smul sinv rot aside sid qconj qone qv qw vneg vadd vscale cross dot tr so3 vx vy vz vzero]. ring.
Qed.
Lemma demo_motion still n p1 p2 : (n = 1 \/ n = 2) -> pose_at (demo_poses still) n = Ok p1 -> pose_at (demo_poses still) (n + 1) = Ok p2 ->
  exists m, assumed unit demo_gauss (demo_flags still) (smul p2 (sinv p1)) tt = Ok (m, tt).
Proof.
  intros Hn H1 H2. destruct still; [unfold assumed; cbn [f_precise demo_flags]; eauto|].
  assert (T : vnorm (tr (smul p2 (sinv p1))) = 1%R).
  { destruct Hn as [-> | ->].
    - change (Ok sid = Ok p1) in H1. change (Ok aside = Ok p2) in H2. inversion H1; inversion H2; subst. apply aside_there.
    - change (Ok aside = Ok p1) in H1. change (Ok sid = Ok p2) in H2. inversion H1; inversion H2; subst. apply aside_back. }
  assert (S3 : (0 < sqrt 3)%R) by (apply sqrt_lt_R0; lra).
  assert (P : (0 < 1 / sqrt 3)%R) by (apply Rmult_lt_0_compat; [lra|now apply Rinv_0_lt_compat]).
  unfold assumed. cbn [f_precise demo_flags f_rot f_trans]. rewrite T.
  destruct (Rle_dec (PI / 180 * 1 * (1 / sqrt 3)) 0) as [B|_].
  { exfalso. pose proof PI_RGT_0. assert (0 < PI / 180 * 1 * (1 / sqrt 3))%R; [|lra]. apply Rmult_lt_0_compat; lra. }
  destruct (Rle_dec (1 * (1 / sqrt 3)) 0) as [B|_]; [exfalso; lra|]. cbn. eauto.
Qed.

Lemma demo_run still a b w n s px st : (n = 1 /\ s = a) \/ (n = 2 /\ s = b) -> demo_select (w_sel w) s = Ok (px, st) -> forallb on_sheet px = true ->
  exists rs, demo_frame still a b w n = Ok (rs, {| w_sel := st; w_gen := tt |}) /\ length rs = length px.
Proof.
  intros Hn Hs Hp.
  assert (Q : forall s2 gt m, exists rs, omap (errors_of shot (demo_reader still a b) gt m {| rows := 100; cols := 100; pix := fun _ _ => 1%R |})
    (filter counted (map (demo_trace s s2 m) px)) = Ok rs /\ length rs = length px).
  { intros s2 gt m.
    assert (Ef : filter counted (map (demo_trace s s2 m) px) = map (demo_trace s s2 m) px).
    { clear. induction px as [|p l IH]; cbn; auto. now rewrite IH. }
    rewrite Ef. match goal with |- exists _, omap ?h _ = _ /\ _ => destruct (omap_total h (map (demo_trace s s2 m) px)) as [rs R] end.
    - intros t T. apply in_map_iff in T. destruct T as [p [<- Ip]]. rewrite forallb_forall in Hp. specialize (Hp p Ip).
      unfold on_sheet in Hp. unfold errors_of, at_pix. cbn [t_p demo_trace CalModel.rows CalModel.cols pix].
      match goal with |- context [if ?c then _ else _] => replace c with true by lia end. cbn [bind]. eauto.
    - exists rs. split; [exact R|]. apply omap_in, Forall2_len' in R. now rewrite <- R, map_length. }
  assert (P : exists p1 p2 s2, pose_at (demo_poses still) n = Ok p1 /\ pose_at (demo_poses still) (n + 1) = Ok p2 /\
    in_int (n + 1) = true /\ rd_frame (demo_reader still a b) n = Ok s /\ rd_frame (demo_reader still a b) (n + 1) = Ok s2).
  { destruct Hn as [[-> ->]|[-> ->]]; destruct still; do 3 eexists; repeat split; reflexivity. }
  destruct P as [p1 [p2 [s2 [P1 [P2 [P3 [P4 P5]]]]]]].
  destruct (demo_motion still n p1 p2) as [m M]; auto; [destruct Hn as [[-> _]|[-> _]]; auto|].
  destruct (Q s2 (smul p2 (sinv p1)) m) as [rs [R L]]. exists rs. split; [|exact L].
  unfold frame_errors. cbn [f_shift demo_flags f_points]. rewrite P3. cbn [negb]. change (rd_poses (demo_reader still a b)) with (demo_poses still).
  rewrite P2. cbn [bind]. rewrite P1. cbn [bind]. destruct w as [sl []]. cbn [w_gen w_sel] in *. rewrite M. cbn [bind].
  rewrite P4. cbn [bind]. rewrite P5. cbn [bind]. rewrite Hs. cbn [bind].
  change (rd_depths (demo_reader still a b) n) with (Ok {| rows := 100; cols := 100; pix := fun _ _ => 1%R |}). cbn [bind].
  rewrite R. reflexivity.
Qed.

Definition found (st : ps_state) (s : shot) : option (nat * bool * ps_state) :=
  match demo_select st s with Ok (px, st') => Some (length px, forallb on_sheet px, st') | _ => None end.
Lemma found_ok st s k st' : found st s = Some (k, true, st') -> exists px, demo_select st s = Ok (px, st') /\ forallb on_sheet px = true /\ length px = k.
Proof.
  unfold found. destruct (demo_select st s) as [[px st1]| | | |]; try discriminate. intros H. inversion H; subst. eauto.
Qed.
Lemma wide_first : found (ps_init ps_default) Wide = Some (10%nat, true, {| lastBlock := 23; lastFound := 10 |}).
Proof. vm_compute. reflexivity. Qed.
Lemma small_after : found {| lastBlock := 23; lastFound := 10 |} Small = Some (9%nat, true, {| lastBlock := 2; lastFound := 9 |}).
Proof. vm_compute. reflexivity. Qed.
Lemma small_first : found (ps_init ps_default) Small = Some (1%nat, true, {| lastBlock := 23; lastFound := 1 |}).
Proof. vm_compute. reflexivity. Qed.
Lemma dark_first : found (ps_init ps_default) Dark = Some (0%nat, true, {| lastBlock := 23; lastFound := 0 |}).
Proof. vm_compute. reflexivity. Qed.

Notation apart := [(0, 1); (1, 2)].
Notation together := [(0, 2)].
Lemma demo_count still : test_count (demo_flags still) = Ok 2.
Proof. reflexivity. Qed.
Lemma apart_tiles : tiles 0 apart 2.
Proof. cbn. lia. Qed.
Lemma together_tiles : tiles 0 together 2.
Proof. cbn. lia. Qed.

Notation W0 := (worker0 unit tt).

(** One frame after the other, each in a range of its own *)
Lemma run_apart still a b k1 k2 st1 st2 :
  found (ps_init ps_default) a = Some (k1, true, st1) -> found (ps_init ps_default) b = Some (k2, true, st2) ->
  exists sched rs, demo_collect 100 still a b apart sched = Ok rs /\ length rs = (k1 + k2)%nat.
Proof.
  intros Fa Fb. apply found_ok in Fa, Fb. destruct Fa as [p1 [S1 [O1 L1]]]. destruct Fb as [p2 [S2 [O2 L2]]].
  destruct (demo_run still a b W0 1 a p1 st1) as [r1 [E1 M1]]; auto.
  destruct (demo_run still a b W0 2 b p2 st2) as [r2 [E2 M2]]; auto.
  exists (repeat 0%nat (1 + length r1) ++ repeat 1%nat (1 + length r2)), (concat [r1; r2]).
  split; [|cbn; rewrite !app_length; cbn; lia].
  refine (proj2 (collect_live _ _ _ _ _ _ _ _ _ _ _ apart _ 2 [r1; r2] (demo_count still) apart_tiles _) _).
  - constructor; [|constructor; [|constructor]].
    + change (frames (f_start (demo_flags still)) (0, 1)) with [1]. cbn [in_turn]. rewrite E1. cbn. now rewrite app_nil_r.
    + change (frames (f_start (demo_flags still)) (1, 2)) with [2]. cbn [in_turn]. rewrite E2. cbn. now rewrite app_nil_r.
  - intros k r rs K Kr. unfold turns. rewrite count_occ_app. destruct k as [|[|k]]; cbn in K, Kr; [| |destruct k; discriminate].
    + inversion K; inversion Kr; subst. rewrite count_occ_repeat_eq by reflexivity. cbn [fst snd]. lia.
    + inversion K; inversion Kr; subst. rewrite count_occ_repeat_neq by discriminate. rewrite count_occ_repeat_eq by reflexivity. cbn [fst snd]. lia.
Qed.

(** Both in one range *)
Lemma run_together still a b k1 k2 st1 st2 :
  found (ps_init ps_default) a = Some (k1, true, st1) -> found st1 b = Some (k2, true, st2) ->
  exists sched rs, demo_collect 100 still a b together sched = Ok rs /\ length rs = (k1 + k2)%nat.
Proof.
  intros Fa Fb. apply found_ok in Fa, Fb. destruct Fa as [p1 [S1 [O1 L1]]]. destruct Fb as [p2 [S2 [O2 L2]]].
  destruct (demo_run still a b W0 1 a p1 st1) as [r1 [E1 M1]]; auto.
  destruct (demo_run still a b {| w_sel := st1; w_gen := tt |} 2 b p2 st2) as [r2 [E2 M2]]; auto.
  exists (repeat 0%nat (2 + length (r1 ++ r2))), (concat [r1 ++ r2]).
  split; [|cbn; rewrite !app_length; cbn; lia].
  refine (proj2 (collect_live _ _ _ _ _ _ _ _ _ _ _ together _ 2 [r1 ++ r2] (demo_count still) together_tiles _) _).
  - constructor; [|constructor].
    change (frames (f_start (demo_flags still)) (0, 2)) with [1; 2]. cbn [in_turn]. rewrite E1. cbn [bind]. rewrite E2. cbn. now rewrite app_nil_r.
  - intros k r rs K Kr. unfold turns. destruct k as [|k]; cbn in K, Kr; [|destruct k; discriminate].
    inversion K; inversion Kr; subst. rewrite count_occ_repeat_eq by reflexivity. cbn [fst snd]. lia.
Qed.

(** The same data, divided differently: eight rows fewer or more. *)
Lemma differ : exists s1 s2 r1 r2, demo_collect 100 true Wide Small together s1 = Ok r1 /\ demo_collect 100 true Wide Small apart s2 = Ok r2 /\
  length r1 = 19%nat /\ length r2 = 11%nat.
Proof.
  destruct (run_together true _ _ _ _ _ _ wide_first small_after) as [s1 [r1 [E1 L1]]].
  destruct (run_apart true _ _ _ _ _ _ wide_first small_first) as [s2 [r2 [E2 L2]]].
  exists s1, s2, r1, r2. auto.
Qed.

Lemma division_matters :
  ~ (forall Img G maxloc shuffle gradient trace gen0 gauss fuel f rd, maxloc_ok maxloc -> shuffle_ok shuffle ->
       forall parts parts' sched sched' n rows rows', test_count f = Ok n -> tiles 0 parts n -> tiles 0 parts' n ->
       collect Img G maxloc shuffle gradient trace gen0 gauss fuel f rd parts sched = Ok rows ->
       collect Img G maxloc shuffle gradient trace gen0 gauss fuel f rd parts' sched' = Ok rows' ->
       length rows = length rows').
Proof.
  intros H. destruct differ as [s1 [s2 [r1 [r2 [E1 [E2 [L1 L2]]]]]]].
  specialize (H _ _ _ _ _ _ _ _ _ _ _ first_max_ok no_shuffle_ok _ _ _ _ _ _ _ (demo_count true) together_tiles apart_tiles E1 E2). lia.
Qed.

(** A dark frame: no end in one range, an end in two. *)
Lemma dark_ends : exists s r, demo_collect 100 true Dark Small apart s = Ok r /\ length r = 1%nat.
Proof. exact (run_apart true _ _ _ _ _ _ dark_first small_first). Qed.
Lemma dark_never : forall fuel sched rows, (30 <= fuel)%nat -> demo_collect fuel true Dark Small together sched <> Ok rows.
Proof.
  intros fuel sched rows L.
  refine (stuck shot unit first_max no_shuffle demo_grad demo_trace tt demo_gauss fuel (demo_flags true) (demo_reader true Dark Small) Dark Small 0%Q 23
    first_max_ok no_shuffle_ok _ _ _ _ _ _ _ _ _ _ [] 2 sched 2 rows (demo_count true) together_tiles _); try (cbn; lia).
  - reflexivity.
  - reflexivity.
  - intros x y. reflexivity.
  - vm_compute. reflexivity.
Qed.

Lemma demo_scales : scales demo_gauss (fun _ => (V3 1 0 0, V3 0 1 0)).
Proof. intros a b []. reflexivity. Qed.

(** The moving camera, without --precise_placement *)
Lemma moving : exists s r, demo_collect 100 false Small Small (singles 2) s = Ok r /\ length r = 2%nat.
Proof. exact (run_apart false _ _ _ _ _ _ small_first small_first). Qed.

Lemma demo_homogeneous still a b : forall k v, (0 < k)%R -> rd_map (demo_reader still a b) (vscale k v) = rd_map (demo_reader still a b) v.
Proof.
  intros k [x y z] K. cbn. destruct (Req_EM_T (k * z) 0) as [E|E], (Req_EM_T z 0) as [E2|E2]; auto.
  - exfalso. apply Rmult_integral in E. destruct E; [lra|contradiction].
  - exfalso. apply E. rewrite E2. ring.
  - f_equal; field; split; auto; lra.
Qed.
Lemma demo_still : forall i p1 p2, 0 <= i < 2 ->
  nth_error (rd_poses (demo_reader true Wide Small)) (Z.to_nat (f_start (demo_flags true) + i)) = Some p1 ->
  nth_error (rd_poses (demo_reader true Wide Small)) (Z.to_nat (f_start (demo_flags true) + i + f_shift (demo_flags true))) = Some p2 ->
  tr (smul p2 (sinv p1)) = vzero.
Proof.
  intros i p1 p2 Hi H1 H2. assert (H : p1 = sid /\ p2 = sid).
  { assert (i = 0 \/ i = 1) as [-> | ->] by lia; change (Some sid = Some p1) in H1; change (Some sid = Some p2) in H2; now inversion H1; inversion H2. }
  destruct H as [-> ->]. cbv [smul sinv rot sid qconj qone qv qw vneg vadd vscale cross dot tr so3 vx vy vz vzero]. f_equal; ring.
Qed.
