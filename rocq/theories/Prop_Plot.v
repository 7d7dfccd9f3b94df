(** C106: the drawings of depths. *)
From Coq Require Import List ZArith QArith Bool.
From Verif Require Import Outcome Dbl DblArith UtilModel UtilSpec TraceModel TraceSpec TraceExamples EpiModel EpiExamples PlotModel PlotSpec PlotProofs PlotExamples.
Import ListNotations.
Open Scope Z_scope.

(** C106: insertDepths draws one circle for each point, in order; lists of different lengths throw. *)
Theorem C106_insert : forall pts depths lo hi solid, length pts = length depths -> Forall near pts ->
  exists fs, insert_depths pts depths lo hi solid = Ok fs /\ length fs = length pts /\
    forall i p d, nth_error pts i = Some p -> nth_error depths i = Some d ->
      nth_error fs i = Some {| g_shape := Circle; g_at := pixel p; g_size := if solid then 6 else 5;
        g_col := depth_col d lo hi; g_thick := if solid then FILLED else 2 |}.
Proof. exact insert_shows. Qed.
Print Assumptions C106_insert.

Theorem C106_insert_sizes : forall pts depths lo hi solid, length pts <> length depths ->
  insert_depths pts depths lo hi solid = Throw.
Proof. exact insert_sizes. Qed.
Print Assumptions C106_insert_sizes.

Example C106_insert_case : length kpts = length [Fin 1; Fin 4] /\ Forall near kpts /\
  insert_depths kpts [Fin 1; Fin 4] (Fin 1) (Fin 4) true =
  Ok [{| g_shape := Circle; g_at := (1, 2); g_size := 6; g_col := depth_col (Fin 1) (Fin 1) (Fin 4); g_thick := -1 |};
      {| g_shape := Circle; g_at := (3, 4); g_size := 6; g_col := depth_col (Fin 4) (Fin 1) (Fin 4); g_thick := -1 |}].
Proof. exact insert_case. Qed.

(** C106: drawDepthedFrame shows the active points with a finite far bound as squares and the
    optimized points as circles. *)
Theorem C106_frame : forall lo hi imm opt, ~ (lo == hi)%Q ->
  (forall p ip, In (p, ip) imm -> visible ip = true -> near p /\ exists d, i_depth ip = Some d /\ d <> NaN) ->
  (forall p d, In (p, d) opt -> near p /\ d <> NaN) ->
  exists sq ci, draw_frame (Fin lo) (Fin hi) imm opt = Ok (sq ++ ci) /\
    Forall2 (fun x f => g_shape f = Square /\ g_at f = pixel (fst x) /\ g_size f = 5 /\ g_thick f = 2 /\
       exists d, i_depth (snd x) = Some d /\ cut (depth_col d (Fin lo) (Fin hi)) (g_col f))
      (filter (fun x => visible (snd x)) imm) sq /\
    Forall2 (fun x f => g_shape f = Circle /\ g_at f = pixel (fst x) /\ g_size f = 5 /\ g_thick f = 2 /\
       cut (depth_col (snd x) (Fin lo) (Fin hi)) (g_col f)) opt ci.
Proof. exact frame_shows. Qed.
Print Assumptions C106_frame.

(** C106: a depth that is drawn was written before, whatever tracings the point went through. *)
Theorem C106_frame_life : forall fuel s es on sts q, trace_all fuel s es (new_ipoint on) = Ok (sts, q) ->
  visible q = true -> exists d, i_depth q = Some d.
Proof. exact life_drawn. Qed.
Print Assumptions C106_frame_life.

(** C106: a depth that is not a number, or equal to both bounds, makes the drawing undefined. *)
Theorem C106_frame_refuted : forall lo hi p d ops, near p -> d = NaN \/ lo = hi /\ d = Fin lo ->
  draw_frame (Fin lo) (Fin hi) [] ((p, d) :: ops) = UB.
Proof. exact frame_nan. Qed.
Print Assumptions C106_frame_refuted.

Example C106_frame_case : ~ (50 == 90)%Q /\
  (forall p ip, In (p, ip) some_imm -> visible ip = true -> near p /\ exists d, i_depth ip = Some d /\ d <> NaN) /\
  (forall p d, In (p, d) some_opt -> near p /\ d <> NaN).
Proof. exact frame_case. Qed.
Example C106_frame_case_drawn : draw_frame (Fin 50) (Fin 90) some_imm some_opt =
  Ok [{| g_shape := Square; g_at := (7, 8); g_size := 5; g_col := (of_int 255, of_int 0, of_int 0); g_thick := 2 |};
      {| g_shape := Circle; g_at := (5, 6); g_size := 5; g_col := (of_int 0, of_int 127, of_int 127); g_thick := 2 |}].
Proof. exact frame_case_drawn. Qed.
Example C106_life_case : exists q, trace_all 60 dflt [line 10 1 0 2; line 10 1 0 1] (new_ipoint true) = Ok ([OK; OK], q) /\
  visible q = true.
Proof. exact life_case. Qed.

(** C106: drawDensePlainDepths changes exactly the pixels for which the terrain has a depth. *)
Theorem C106_dense : forall terrain lo hi img, ~ (lo == hi)%Q ->
  (forall x y p, at_px img x y = Some p -> exists d, terrain (inject_Z (Z.of_nat x), inject_Z (Z.of_nat y)) = Ok d /\ d <> Some NaN) ->
  exists img', draw_dense true terrain (Fin lo) (Fin hi) img = Ok img' /\
    (forall x y, at_px img x y = None -> at_px img' x y = None) /\
    forall x y p, at_px img x y = Some p -> exists p', at_px img' x y = Some p' /\
      ((terrain (inject_Z (Z.of_nat x), inject_Z (Z.of_nat y)) = Ok None /\ p' = p) \/
       exists d, terrain (inject_Z (Z.of_nat x), inject_Z (Z.of_nat y)) = Ok (Some d) /\
         cut (depth_col d (Fin lo) (Fin hi)) (let '(b, g, r) := p' in (of_int b, of_int g, of_int r))).
Proof. exact dense_shows. Qed.
Print Assumptions C106_dense.

Theorem C106_dense_type : forall terrain lo hi img, draw_dense false terrain lo hi img = Throw.
Proof. exact (fun _ _ _ _ => eq_refl). Qed.
Print Assumptions C106_dense_type.

(** C106: with equal bounds a pixel with just this depth makes it undefined. *)
Theorem C106_dense_refuted : forall terrain lo img x y p, at_px img x y = Some p ->
  terrain (inject_Z (Z.of_nat x), inject_Z (Z.of_nat y)) = Ok (Some (Fin lo)) ->
  forall img', draw_dense true terrain (Fin lo) (Fin lo) img <> Ok img'.
Proof. exact dense_equal. Qed.
Print Assumptions C106_dense_refuted.

Example C106_dense_case : (forall x y p, at_px grey x y = Some p ->
    exists d, half_terrain (inject_Z (Z.of_nat x), inject_Z (Z.of_nat y)) = Ok d /\ d <> Some NaN) /\
  draw_dense true half_terrain (Fin 1) (Fin 2) grey =
    Ok [[(0, 0, 255); (255, 0, 0); (9, 9, 9)]; [(0, 0, 255); (255, 0, 0); (8, 8, 8)]].
Proof. exact dense_case. Qed.

(** C106: the interpolation drawer. *)
Theorem C106_drawer : forall mul red blue cur imm ds kps kds lo hi,
  map snd imm = map Some ds -> set_depth_col_bounds mul red blue cur ds = Ok (lo, hi) ->
  length kps = length kds -> Forall near kps -> Forall near (map fst imm) ->
  exists under over, initialized mul red blue cur imm kps kds = Ok (lo, hi, under, over) /\
    length under = length kps /\ length over = length imm /\
    (forall i p d, nth_error kps i = Some p -> nth_error kds i = Some d -> nth_error under i =
       Some {| g_shape := Circle; g_at := pixel p; g_size := 6; g_col := depth_col d lo hi; g_thick := FILLED |}) /\
    (forall i p d, nth_error imm i = Some (p, Some d) -> nth_error over i =
       Some {| g_shape := Circle; g_at := pixel p; g_size := 5; g_col := depth_col d lo hi; g_thick := 2 |}).
Proof. exact drawer_shows. Qed.
Print Assumptions C106_drawer.

Theorem C106_drawer_missing : forall mul red blue cur imm kps kds, (exists p, In (p, None) imm) ->
  initialized mul red blue cur imm kps kds = UB.
Proof. exact drawer_missing. Qed.
Print Assumptions C106_drawer_missing.

Example C106_drawer_case : exists mul under over,
  initialized mul 0 (7 # 10) (Fin 0, Fin 1) [((7, 8)%Q, Some (Fin 2)); ((1, 1)%Q, Some (Fin 6))] kpts [Fin 1; Fin 4]
    = Ok (Fin 2, Fin 6, under, over) /\ length under = 2%nat /\ length over = 2%nat.
Proof. exact drawer_case. Qed.
