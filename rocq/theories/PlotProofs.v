From Coq Require Import List ZArith QArith Qround Bool Lia Lqa.
From Verif Require Import Outcome Dbl DblArith UtilModel UtilSpec UtilProofs TraceModel TraceSpec TraceProofs EpiModel EpiSpec EpiProofs PlotModel PlotSpec.
Import ListNotations.
Open Scope Z_scope.

Lemma mapO_forall2 {A B} (f : A -> outcome B) (P : A -> B -> Prop) l :
  (forall a, In a l -> exists b, f a = Ok b /\ P a b) -> exists bs, mapO f l = Ok bs /\ Forall2 P l bs.
Proof.
  induction l as [|a l IH]; intros H; [exists []; split; [reflexivity|constructor]|].
  destruct (H a) as (b & E & Q); [left; reflexivity|].
  destruct IH as (bs & E2 & Q2); [intros x X; apply H; right; exact X|].
  exists (b :: bs). cbn [mapO]. rewrite E. cbn [bind]. rewrite E2. split; [reflexivity|constructor; assumption].
Qed.

Lemma mapO_inv {A B} (f : A -> outcome B) l : forall bs, mapO f l = Ok bs -> Forall2 (fun a b => f a = Ok b) l bs.
Proof.
  induction l as [|a l IH]; intros bs H; cbn [mapO] in H; [injection H as <-; constructor|].
  apply bind_ok_inv in H. destruct H as (b & E & H). apply bind_ok_inv in H. destruct H as (bs' & E2 & H).
  injection H as <-. constructor; auto.
Qed.

Lemma Forall2_at {A B} (P : A -> B -> Prop) l l' : Forall2 P l l' ->
  forall i a, nth_error l i = Some a -> exists b, nth_error l' i = Some b /\ P a b.
Proof.
  induction 1 as [|a b l l' H _ IH]; intros [|i] x E; cbn in E; try discriminate.
  - injection E as <-. exists b. auto.
  - destruct (IH _ _ E) as (y & Y). exists y. exact Y.
Qed.
Lemma Forall2_len {A B} (P : A -> B -> Prop) l l' : Forall2 P l l' -> length l = length l'.
Proof. induction 1; cbn; congruence. Qed.

Lemma near_point p : near p -> to_cv_point p = Ok (pixel p).
Proof.
  intros [A B]. unfold to_cv_point, pixel. rewrite !to_int_near by lra. reflexivity.
Qed.

Lemma nth_combine {A B} (l : list A) : forall (l' : list B) i a b,
  nth_error l i = Some a -> nth_error l' i = Some b -> nth_error (combine l l') i = Some (a, b).
Proof.
  induction l as [|x l IH]; intros [|y l'] [|i] a b H K; cbn in *; try discriminate; [congruence|auto].
Qed.

(** ** insertDepths *)
Lemma insert_shows pts depths lo hi solid : length pts = length depths -> Forall near pts ->
  exists fs, insert_depths pts depths lo hi solid = Ok fs /\ length fs = length pts /\
    forall i p d, nth_error pts i = Some p -> nth_error depths i = Some d ->
      nth_error fs i = Some {| g_shape := Circle; g_at := pixel p; g_size := if solid then 6 else 5;
        g_col := depth_col d lo hi; g_thick := if solid then FILLED else 2 |}.
Proof.
  intros L N. unfold insert_depths. rewrite (proj2 (Nat.eqb_eq _ _) L). cbn [negb].
  destruct (mapO_forall2 (insert_depth solid lo hi) (fun pd f => f = {| g_shape := Circle; g_at := pixel (fst pd);
     g_size := if solid then 6 else 5; g_col := depth_col (snd pd) lo hi; g_thick := if solid then FILLED else 2 |}) (combine pts depths)) as (fs & E & F).
  - intros (p & d) I. apply in_combine_l in I. rewrite Forall_forall in N. eexists. split; [|reflexivity].
    unfold insert_depth. cbn [fst snd]. rewrite near_point by (apply N, I). reflexivity.
  - exists fs. split; [exact E|]. split.
    + rewrite <- (Forall2_len _ _ _ F), combine_length. lia.
    + intros i p d P D. destruct (Forall2_at _ _ _ F i (p, d) (nth_combine _ _ _ _ _ P D)) as (b & NB & ->). exact NB.
Qed.
Lemma insert_sizes pts depths lo hi solid : length pts <> length depths -> insert_depths pts depths lo hi solid = Throw.
Proof. intros H. unfold insert_depths. rewrite (proj2 (Nat.eqb_neq _ _) H). reflexivity. Qed.

(** ** colours as bytes *)
Lemma uchar_inv c z : to_uchar c = Ok z -> exists q, c = Fin q /\ z = qtrunc q /\ 0 <= z <= 255.
Proof.
  destruct c as [q| | |]; cbn [to_uchar]; try discriminate. intros H.
  destruct ((0 <=? qtrunc q) && (qtrunc q <=? 255)) eqn:E; [|discriminate]. injection H as <-.
  apply andb_prop in E. rewrite !Z.leb_le in E. exists q. auto.
Qed.
Lemma vec3b_inv s v : to_vec3b s = Ok v -> cut s (let '(b, g, r) := v in (of_int b, of_int g, of_int r)).
Proof.
  unfold to_vec3b. destruct s as [[b g] r]. intros H.
  apply bind_ok_inv in H. destruct H as (b' & B & H). apply bind_ok_inv in H. destruct H as (g' & G & H).
  apply bind_ok_inv in H. destruct H as (r' & R & H). injection H as <-.
  apply uchar_inv in B, G, R. destruct B as (qb & -> & B), G as (qg & -> & G), R as (qr & -> & R).
  exists qb, qg, qr, b', g', r'. split; [reflexivity|]. split; [reflexivity|]. tauto.
Qed.
Lemma byte_col_ok d lo hi : ~ (lo == hi)%Q -> d <> NaN ->
  exists k, byte_col d (Fin lo) (Fin hi) = Ok k /\ cut (depth_col d (Fin lo) (Fin hi)) k.
Proof.
  intros B N. assert (ND : dnan d = false) by (destruct d; cbn; congruence).
  pose proof (to_vec3b_ok _ (depth_col_channels d lo hi B ND)) as O. unfold byte_col.
  destruct O as [v E]. rewrite E. cbn [bind].
  destruct v as [[b g] r]. apply vec3b_inv in E. eexists. split; [reflexivity|exact E].
Qed.
Lemma byte_col_nan lo hi : byte_col NaN lo hi = UB.
Proof.
  unfold byte_col, depth_col. destruct (dlt NaN lo) eqn:E; [destruct lo; discriminate|].
  destruct (dlt hi NaN) eqn:F; [destruct hi; discriminate|].
  destruct lo, hi; reflexivity.
Qed.

(** ** KeyFrame::drawDepthedFrame *)
Lemma shown_visible p : shown p = visible p.
Proof. unfold shown, visible. destruct (i_state p), (i_max p); reflexivity. Qed.

Lemma frame_shows lo hi imm opt : ~ (lo == hi)%Q ->
  (forall p ip, In (p, ip) imm -> visible ip = true -> near p /\ exists d, i_depth ip = Some d /\ d <> NaN) ->
  (forall p d, In (p, d) opt -> near p /\ d <> NaN) ->
  exists sq ci, draw_frame (Fin lo) (Fin hi) imm opt = Ok (sq ++ ci) /\
    Forall2 (fun x f => g_shape f = Square /\ g_at f = pixel (fst x) /\ g_size f = 5 /\ g_thick f = 2 /\
       exists d, i_depth (snd x) = Some d /\ cut (depth_col d (Fin lo) (Fin hi)) (g_col f))
      (filter (fun x => visible (snd x)) imm) sq /\
    Forall2 (fun x f => g_shape f = Circle /\ g_at f = pixel (fst x) /\ g_size f = 5 /\ g_thick f = 2 /\
       cut (depth_col (snd x) (Fin lo) (Fin hi)) (g_col f)) opt ci.
Proof.
  intros B HI HO. unfold draw_frame.
  rewrite (filter_ext (fun x => shown (snd x)) (fun x : pos * ipoint => visible (snd x))) by (intros x; apply shown_visible).
  destruct (mapO_forall2 (frame_square (Fin lo) (Fin hi)) (fun x f => g_shape f = Square /\ g_at f = pixel (fst x) /\ g_size f = 5 /\ g_thick f = 2 /\
       exists d, i_depth (snd x) = Some d /\ cut (depth_col d (Fin lo) (Fin hi)) (g_col f))
      (filter (fun x => visible (snd x)) imm)) as (sq & E1 & F1).
  { intros (p & ip) I. apply filter_In in I. destruct I as [I V]. cbn [snd] in V.
    destruct (HI _ _ I V) as (N & d & D & ND). destruct (byte_col_ok d lo hi B ND) as (k & K & C).
    unfold frame_square. cbn [fst snd]. rewrite D, near_point by exact N. cbn [bind]. rewrite K. cbn [bind].
    eexists. split; [reflexivity|]. cbn. repeat split; auto. exists d. auto. }
  destruct (mapO_forall2 (frame_circle (Fin lo) (Fin hi)) (fun x f => g_shape f = Circle /\ g_at f = pixel (fst x) /\ g_size f = 5 /\ g_thick f = 2 /\
       cut (depth_col (snd x) (Fin lo) (Fin hi)) (g_col f)) opt) as (ci & E2 & F2).
  { intros (p & d) I. destruct (HO _ _ I) as (N & ND). destruct (byte_col_ok d lo hi B ND) as (k & K & C).
    unfold frame_circle. cbn [fst snd]. rewrite near_point by exact N. cbn [bind]. rewrite K. cbn [bind].
    eexists. split; [reflexivity|]. cbn. auto. }
  exists sq, ci. rewrite E1. cbn [bind]. rewrite E2. cbn [bind]. auto.
Qed.

(** a point whose far bound is finite has a depth *)
Lemma has_depth fuel s es : forall p sts q, trace_all fuel s es p = Ok (sts, q) ->
  (i_max p <> PInf -> i_depth p <> None) -> i_max q <> PInf -> i_depth q <> None.
Proof.
  induction es as [|e es IH]; intros p sts q H I M; cbn [trace_all] in H; [injection H as _ <-; auto|].
  apply bind_ok_inv in H. destruct H as ((st & p1) & T & H). apply bind_ok_inv in H. destruct H as ((sts' & q') & T2 & H).
  injection H as _ <-. cbn [snd] in *. apply (IH _ _ _ T2); [|exact M].
  pose proof (traceOn_inv _ _ _ _ _ _ T) as [(_ & _ & ->)|[(_ & _ & ->)|[(_ & _ & r & ->)|(_ & S)]]]; try exact I.
  destruct (su_data _ _ _ _ _ S) as (pts & r & b & sec & de & mm & _ & _ & _ & _ & _ & _ & _ & _ & _ & _ & _ & _ & _ & ->).
  intros _. cbn. discriminate.
Qed.
Lemma life_drawn fuel s es on sts q : trace_all fuel s es (new_ipoint on) = Ok (sts, q) -> visible q = true ->
  exists d, i_depth q = Some d.
Proof.
  intros H V. assert (M : i_max q <> PInf) by (intros X; unfold visible in V; rewrite X in V; destruct (i_state q); discriminate).
  destruct (i_depth q) as [d|] eqn:E; [eauto|]. exfalso. revert E. eapply has_depth; eauto.
Qed.

Lemma frame_nan lo hi p d ops : near p -> d = NaN \/ lo = hi /\ d = Fin lo ->
  draw_frame (Fin lo) (Fin hi) [] ((p, d) :: ops) = UB.
Proof.
  intros N H. unfold draw_frame. cbn [filter mapO bind]. unfold frame_circle at 1. cbn [fst snd].
  rewrite near_point by exact N. cbn [bind].
  replace (byte_col d (Fin lo) (Fin hi)) with (@UB scalar); [reflexivity|]. symmetry.
  destruct H as [->|[-> ->]]; [apply byte_col_nan|]. unfold byte_col. rewrite depth_col_equal_bounds. reflexivity.
Qed.

(** ** drawDensePlainDepths *)
Section Dense.
Variables (terrain : pos -> outcome (option dbl)) (lo hi : dbl).
Definition painted (x y : Z) (p p' : px) : Prop :=
  (terrain (inject_Z x, inject_Z y) = Ok None /\ p' = p) \/
  (exists d, terrain (inject_Z x, inject_Z y) = Ok (Some d) /\ to_vec3b (depth_col d lo hi) = Ok p').

Lemma dense_row_inv row : forall y x row', dense_row terrain lo hi y x row = Ok row' ->
  length row' = length row /\
  forall i p, nth_error row i = Some p -> exists p', nth_error row' i = Some p' /\ painted (x + Z.of_nat i) y p p'.
Proof.
  induction row as [|p row IH]; intros y x row' H; cbn [dense_row] in H.
  - injection H as <-. split; [reflexivity|]. intros [|i] q E; discriminate.
  - apply bind_ok_inv in H. destruct H as (d & T & H). apply bind_ok_inv in H. destruct H as (p' & D & H).
    apply bind_ok_inv in H. destruct H as (rest & R & H). injection H as <-.
    destruct (IH _ _ _ R) as (L & A). split; [cbn; congruence|].
    intros [|i] q E; cbn in E.
    + injection E as <-. exists p'. split; [reflexivity|]. rewrite Z.add_0_r. unfold painted.
      destruct d as [d|]; [right; exists d; auto|left; split; congruence].
    + destruct (A _ _ E) as (p2 & N2 & P2). exists p2. split; [exact N2|].
      replace (x + Z.of_nat (S i)) with (x + 1 + Z.of_nat i) by lia. exact P2.
Qed.
Lemma dense_rows_inv img : forall y img', dense_rows terrain lo hi y img = Ok img' ->
  length img' = length img /\
  forall j r, nth_error img j = Some r -> exists r', nth_error img' j = Some r' /\
    length r' = length r /\
    forall i p, nth_error r i = Some p -> exists p', nth_error r' i = Some p' /\ painted (Z.of_nat i) (y + Z.of_nat j) p p'.
Proof.
  induction img as [|r img IH]; intros y img' H; cbn [dense_rows] in H.
  - injection H as <-. split; [reflexivity|]. intros [|i] q E; discriminate.
  - apply bind_ok_inv in H. destruct H as (r' & T & H). apply bind_ok_inv in H. destruct H as (rest & R & H). injection H as <-.
    destruct (IH _ _ R) as (L & A). destruct (dense_row_inv _ _ _ _ T) as (L1 & A1). split; [cbn; congruence|].
    intros [|j] q E; cbn in E.
    + injection E as <-. exists r'. split; [reflexivity|]. split; [exact L1|]. rewrite Z.add_0_r. exact A1.
    + destruct (A _ _ E) as (r2 & N2 & P2). exists r2. split; [exact N2|].
      replace (y + Z.of_nat (S j)) with (y + 1 + Z.of_nat j) by lia. exact P2.
Qed.

Lemma dense_row_ok row : forall y x,
  (forall i p, nth_error row i = Some p -> exists p', painted (x + Z.of_nat i) y p p') ->
  exists row', dense_row terrain lo hi y x row = Ok row'.
Proof.
  induction row as [|p row IH]; intros y x H; [eexists; reflexivity|].
  destruct (IH y (x + 1)) as [r' E].
  { intros i q Q. destruct (H (S i) q Q) as (p' & P). exists p'. replace (x + 1 + Z.of_nat i) with (x + Z.of_nat (S i)) by lia. exact P. }
  destruct (H 0%nat p eq_refl) as (p' & P). rewrite Z.add_0_r in P. cbn [dense_row].
  destruct P as [[T _]|(d & T & D)]; rewrite T; cbn [bind]; [|rewrite D; cbn [bind]]; rewrite E; eexists; reflexivity.
Qed.
Lemma dense_rows_ok img : forall y,
  (forall j r i p, nth_error img j = Some r -> nth_error r i = Some p -> exists p', painted (Z.of_nat i) (y + Z.of_nat j) p p') ->
  exists img', dense_rows terrain lo hi y img = Ok img'.
Proof.
  induction img as [|r img IH]; intros y H; [eexists; reflexivity|].
  destruct (dense_row_ok r y 0) as [r' E].
  { intros i p P. destruct (H 0%nat r i p eq_refl P) as (p' & Q). exists p'. rewrite Z.add_0_r in Q. exact Q. }
  destruct (IH (y + 1)) as [rest E2].
  { intros j q i p J P. destruct (H (S j) q i p J P) as (p' & Q). exists p'. replace (y + 1 + Z.of_nat j) with (y + Z.of_nat (S j)) by lia. exact Q. }
  cbn [dense_rows]. rewrite E. cbn [bind]. rewrite E2. eexists. reflexivity.
Qed.
End Dense.

Lemma dense_shows terrain lo hi img : ~ (lo == hi)%Q ->
  (forall x y p, at_px img x y = Some p -> exists d, terrain (inject_Z (Z.of_nat x), inject_Z (Z.of_nat y)) = Ok d /\ d <> Some NaN) ->
  exists img', draw_dense true terrain (Fin lo) (Fin hi) img = Ok img' /\
    (forall x y, at_px img x y = None -> at_px img' x y = None) /\
    forall x y p, at_px img x y = Some p -> exists p', at_px img' x y = Some p' /\
      ((terrain (inject_Z (Z.of_nat x), inject_Z (Z.of_nat y)) = Ok None /\ p' = p) \/
       exists d, terrain (inject_Z (Z.of_nat x), inject_Z (Z.of_nat y)) = Ok (Some d) /\
         cut (depth_col d (Fin lo) (Fin hi)) (let '(b, g, r) := p' in (of_int b, of_int g, of_int r))).
Proof.
  intros B T. unfold draw_dense. cbn [negb].
  destruct (dense_rows_ok terrain (Fin lo) (Fin hi) img 0) as [img' E].
  { intros j r i p J P. cbn [Z.add]. assert (A : at_px img i j = Some p) by (unfold at_px; rewrite J; exact P).
    destruct (T _ _ _ A) as ([d|] & TD & ND).
    - assert (N : dnan d = false) by (destruct d; cbn; congruence).
      pose proof (to_vec3b_ok _ (depth_col_channels d lo hi B N)) as O.
      destruct O as [v V].
      exists v. right. exists d. auto.
    - exists p. left. auto. }
  exists img'. split; [exact E|]. apply dense_rows_inv in E. destruct E as (L & A). split.
  - intros x y H. unfold at_px in *. destruct (nth_error img y) as [r|] eqn:Y.
    + destruct (A _ _ Y) as (r' & Y' & L' & _). rewrite Y'. apply nth_error_None. rewrite L'. apply nth_error_None. exact H.
    + apply nth_error_None in Y. assert (Y' : nth_error img' y = None) by (apply nth_error_None; lia). rewrite Y'. reflexivity.
  - intros x y p H. unfold at_px in *. destruct (nth_error img y) as [r|] eqn:Y; [|discriminate].
    destruct (A _ _ Y) as (r' & Y' & _ & P). destruct (P _ _ H) as (p' & N & Q). cbn [Z.add] in Q.
    exists p'. rewrite Y'. split; [exact N|]. destruct Q as [Q|(d & Q & V)]; [left; exact Q|right].
    exists d. split; [exact Q|]. apply vec3b_inv. exact V.
Qed.
Lemma dense_equal terrain lo img x y p : at_px img x y = Some p ->
  terrain (inject_Z (Z.of_nat x), inject_Z (Z.of_nat y)) = Ok (Some (Fin lo)) ->
  forall img', draw_dense true terrain (Fin lo) (Fin lo) img <> Ok img'.
Proof.
  intros H T img' E. unfold draw_dense in E. cbn [negb] in E. apply dense_rows_inv in E. destruct E as (_ & A).
  unfold at_px in H. destruct (nth_error img y) as [r|] eqn:Y; [|discriminate].
  destruct (A _ _ Y) as (r' & _ & _ & P). destruct (P _ _ H) as (p' & _ & [Q|(d & Q & V)]); cbn [Z.add] in Q.
  - destruct Q as [Q _]. congruence.
  - rewrite T in Q. injection Q as <-. rewrite depth_col_equal_bounds in V. discriminate.
Qed.

(** ** InterpolationDrawer *)
Lemma depths_read (imm : list (pos * option dbl)) (ds : list dbl) : map snd imm = map Some ds ->
  mapO (fun x : pos * option dbl => match snd x with Some d => Ok d | None => UB end) imm = Ok ds.
Proof.
  revert ds. induction imm as [|[p o] imm IH]; intros [|d ds] H; cbn in H; try discriminate; [reflexivity|].
  injection H as -> H. cbn [mapO snd bind]. rewrite (IH _ H). reflexivity.
Qed.
Lemma depths_missing (imm : list (pos * option dbl)) : (exists p, In (p, None) imm) ->
  mapO (fun x : pos * option dbl => match snd x with Some d => Ok d | None => UB end) imm = UB.
Proof.
  intros (p & I). induction imm as [|[q [d|]] imm IH]; [destruct I| |reflexivity].
  destruct I as [I|I]; [discriminate|]. cbn [mapO snd bind]. rewrite (IH I). reflexivity.
Qed.
Lemma drawer_missing mul red blue cur imm kps kds : (exists p, In (p, None) imm) ->
  initialized mul red blue cur imm kps kds = UB.
Proof. intros H. unfold initialized. rewrite (depths_missing _ H). reflexivity. Qed.
Lemma drawer_shows mul red blue cur imm ds kps kds lo hi :
  map snd imm = map Some ds -> set_depth_col_bounds mul red blue cur ds = Ok (lo, hi) ->
  length kps = length kds -> Forall near kps -> Forall near (map fst imm) ->
  exists under over, initialized mul red blue cur imm kps kds = Ok (lo, hi, under, over) /\
    length under = length kps /\ length over = length imm /\
    (forall i p d, nth_error kps i = Some p -> nth_error kds i = Some d -> nth_error under i =
       Some {| g_shape := Circle; g_at := pixel p; g_size := 6; g_col := depth_col d lo hi; g_thick := FILLED |}) /\
    (forall i p d, nth_error imm i = Some (p, Some d) -> nth_error over i =
       Some {| g_shape := Circle; g_at := pixel p; g_size := 5; g_col := depth_col d lo hi; g_thick := 2 |}).
Proof.
  intros M B L N1 N2. unfold initialized. rewrite (depths_read _ _ M). cbn [bind]. rewrite B. cbn [bind fst snd].
  destruct (insert_shows kps kds lo hi true L N1) as (u & E1 & L1 & S1). rewrite E1. cbn [bind].
  assert (L2 : length (map fst imm) = length ds).
  { rewrite map_length. apply (f_equal (@length _)) in M. rewrite !map_length in M. exact M. }
  destruct (insert_shows (map fst imm) ds lo hi false L2 N2) as (o & E2 & L3 & S2). rewrite E2. cbn [bind].
  exists u, o. split; [reflexivity|]. split; [exact L1|]. split; [rewrite L3, map_length; reflexivity|]. split; [exact S1|].
  intros i p d I. apply S2.
  - rewrite nth_error_map, I. reflexivity.
  - assert (J : nth_error (map snd imm) i = Some (Some d)) by (rewrite nth_error_map, I; reflexivity).
    rewrite M, nth_error_map in J. destruct (nth_error ds i); cbn in J; congruence.
Qed.
