(** Concrete drawings of depths. *)
From Coq Require Import List ZArith QArith Bool Lia Lqa.
From Verif Require Import Outcome Dbl DblArith UtilModel UtilSpec TraceModel TraceSpec TraceExamples EpiModel EpiExamples PlotModel PlotSpec PlotProofs.
Import ListNotations.
Open Scope Z_scope.

Definition kpts : list pos := [(1, 2); (35 # 10, 49 # 10)]%Q.
Example insert_case : length kpts = length [Fin 1; Fin 4] /\ Forall near kpts /\
  insert_depths kpts [Fin 1; Fin 4] (Fin 1) (Fin 4) true =
  Ok [{| g_shape := Circle; g_at := (1, 2); g_size := 6; g_col := depth_col (Fin 1) (Fin 1) (Fin 4); g_thick := -1 |};
      {| g_shape := Circle; g_at := (3, 4); g_size := 6; g_col := depth_col (Fin 4) (Fin 1) (Fin 4); g_thick := -1 |}].
Proof.
  split; [reflexivity|]. split; [|vm_compute; reflexivity].
  repeat constructor; cbn; lra.
Qed.

(** a traced point, one only given a depth, and an optimized one *)
Definition untraced : ipoint :=
  {| i_state := ACTIVE; i_min := Fin 0; i_max := PInf; i_depth := Some (Fin 3); i_quality := Fin (-1);
     i_energy := PInf; i_dev := Fin 1; i_traced := false; i_num := 0; i_level := 0; i_changed := None;
     i_before := None; i_after := None |}.
Definition some_imm : list (pos * ipoint) := [((7, 8), again); ((9, 9), untraced)]%Q.
Definition some_opt : list (pos * dbl) := [((5, 6)%Q, Fin 60)].
Example frame_case : ~ (50 == 90)%Q /\
  (forall p ip, In (p, ip) some_imm -> visible ip = true -> near p /\ exists d, i_depth ip = Some d /\ d <> NaN) /\
  (forall p d, In (p, d) some_opt -> near p /\ d <> NaN).
Proof.
  split; [lra|]. split.
  - intros p ip [H|[H|[]]] V; injection H as <- <-; [|discriminate].
    split; [split; cbn; lra|]. exists (Fin 90). split; [reflexivity|discriminate].
  - intros p d [H|[]]. injection H as <- <-. split; [split; cbn; lra|discriminate].
Qed.
Example frame_case_drawn : draw_frame (Fin 50) (Fin 90) some_imm some_opt =
  Ok [{| g_shape := Square; g_at := (7, 8); g_size := 5; g_col := (of_int 255, of_int 0, of_int 0); g_thick := 2 |};
      {| g_shape := Circle; g_at := (5, 6); g_size := 5; g_col := (of_int 0, of_int 127, of_int 127); g_thick := 2 |}].
Proof. vm_compute. reflexivity. Qed.

Example life_case : exists q, trace_all 60 dflt [line 10 1 0 2; line 10 1 0 1] (new_ipoint true) = Ok ([OK; OK], q) /\
  visible q = true.
Proof. eexists. split; vm_compute; reflexivity. Qed.

(** a terrain over the left half of a picture *)
Definition half_terrain (p : pos) : outcome (option dbl) :=
  Ok (if Qle_bool (fst p) 1 then Some (Fin (1 + fst p)) else None).
Definition grey : list (list px) := [[(9, 9, 9); (9, 9, 9); (9, 9, 9)]; [(8, 8, 8); (8, 8, 8); (8, 8, 8)]].
Example dense_case : (forall x y p, at_px grey x y = Some p ->
    exists d, half_terrain (inject_Z (Z.of_nat x), inject_Z (Z.of_nat y)) = Ok d /\ d <> Some NaN) /\
  draw_dense true half_terrain (Fin 1) (Fin 2) grey =
    Ok [[(0, 0, 255); (255, 0, 0); (9, 9, 9)]; [(0, 0, 255); (255, 0, 0); (8, 8, 8)]].
Proof.
  split; [|vm_compute; reflexivity].
  intros x y p _. unfold half_terrain. eexists. split; [reflexivity|]. destruct (Qle_bool _ _); discriminate.
Qed.

Example drawer_case : exists mul under over,
  initialized mul 0 (7 # 10) (Fin 0, Fin 1) [((7, 8)%Q, Some (Fin 2)); ((1, 1)%Q, Some (Fin 6))] kpts [Fin 1; Fin 4]
    = Ok (Fin 2, Fin 6, under, over) /\ length under = 2%nat /\ length over = 2%nat.
Proof. exists (fun p n => Fin (p * inject_Z n)). eexists. eexists. split; [vm_compute; reflexivity|]. split; reflexivity. Qed.
