(** Concrete drawings. *)
From Coq Require Import List ZArith QArith Bool Lia Lqa.
From Verif Require Import Outcome Dbl DblArith UtilModel TraceModel TraceSpec TraceExamples EpiModel EpiSpec EpiProofs EpiTop.
Import ListNotations.
Open Scope Z_scope.

(** exact for vectors along an axis, otherwise zero; enough for curves along a row *)
Definition axis_unit (v : pos) : pos :=
  (if Qeq_bool (fst v) 0 then
    (if Qeq_bool (snd v) 0 then (0, 0) else (0, if Qle_bool 0 (snd v) then 1 else -1))
  else if Qeq_bool (snd v) 0 then (if Qle_bool 0 (fst v) then 1 else -1, 0) else (0, 0))%Q.

Lemma axis_bounded : bounded axis_unit.
Proof.
  intros v. unfold axis_unit.
  destruct (Qeq_bool (fst v) 0), (Qeq_bool (snd v) 0), (Qle_bool 0 (snd v)), (Qle_bool 0 (fst v)); cbn; lra.
Qed.

Definition three : list (pos * dbl) := [((10, 20), Fin 7); ((11, 20), Fin 1); ((12, 20), Fin 3)]%Q.

(** three samples along a row: short strokes, the lowest one black, thick and twice as long *)
Example three_drawn : draw_tracing axis_unit 5 three =
  Ok [{| m_beg := (10, 17); m_end := (10, 22); m_col := depth_col (Fin 7) (Fin 1) (Fin 7); m_thick := 1 |};
      {| m_beg := (11, 15); m_end := (11, 25); m_col := CV_BLACK; m_thick := 3 |};
      {| m_beg := (12, 17); m_end := (12, 22); m_col := depth_col (Fin 3) (Fin 1) (Fin 7); m_thick := 1 |}].
Proof. vm_compute. reflexivity. Qed.

Example three_fits : (2 <= length three)%nat /\ within three /\ real three /\
  normalises axis_unit (0, -1)%Q /\ lowest three 1 (Fin 1) /\ highest three (Fin 7).
Proof.
  split; [cbn; lia|]. split.
  { repeat constructor; cbn; lra. }
  split.
  { intros [|[|[|j]]] p x H; cbn in H; try (injection H as <- <-; discriminate). destruct j; discriminate. }
  split; [split; reflexivity|]. split.
  - split; [exists (11, 20)%Q; reflexivity|]. split.
    + intros [|[|[|j]]] p x H; cbn in H; try (injection H as <- <-; reflexivity). destruct j; discriminate.
    + intros [|[|j]] p x J H; try lia. cbn in H. injection H as <- <-. reflexivity.
  - split; [exists 0%nat, (10, 20)%Q; reflexivity|].
    intros [|[|[|j]]] p x H; cbn in H; try (injection H as <- <-; reflexivity). destruct j; discriminate.
Qed.

(** a point traced before, traced again on a straight segment *)
Definition again : ipoint :=
  {| i_state := ACTIVE; i_min := Fin 80; i_max := Fin 100; i_depth := Some (Fin 90); i_quality := Fin 4;
     i_energy := Fin 0; i_dev := Fin 2; i_traced := true; i_num := 1; i_level := 0; i_changed := Some false;
     i_before := None; i_after := None |}.

(** the segment, cut where it leaves a sheet of 1000 pixels *)
Definition short_line : env :=
  {| e_dev := Fin 1; e_opposite := false; e_meets := true; e_wh := 2000;
     e_point := fun a => match a with Fin a => if Qle_bool 0 a && Qle_bool a 2 then line_point (Fin a) else (0, 0)%Q | _ => (0, 0)%Q end;
     e_delta := fun _ => Fin (1 # 20); e_on := fun _ => true;
     e_depth := fun a => line_triang (Some (line_point a));
     e_level := fun _ _ => of_int 0;
     e_energy := fun _ a l => fst (fst (line_eval 10 1 l (line_point a)));
     e_dir := fun _ _ => (1, 0)%Q;
     e_eval := line_eval 10 1; e_triang := line_triang |}.

Lemma short_sheet : on_sheet short_line.
Proof.
  intros [a| | |]; cbn [e_point short_line]; try (cbn; lra).
  destruct (Qle_bool 0 a) eqn:A, (Qle_bool a 2) eqn:B; cbn [andb]; try (cbn; lra).
  apply Qle_bool_iff in A. apply Qle_bool_iff in B. unfold line_point. cbn [fst snd].
  rewrite Qred_correct. lra.
Qed.
Lemma short_real far a l : e_energy short_line far a l <> NaN.
Proof. cbn [e_energy short_line]. unfold line_eval. cbn [fst]. discriminate. Qed.

Example again_ok : exists q, traceOn 60 dflt short_line again = Ok (OK, q) /\ i_energy q = Fin 0.
Proof. eexists. split; vm_compute; reflexivity. Qed.

Example again_fits : i_state again = ACTIVE /\ bounded axis_unit /\ on_sheet short_line /\
  (forall far a l, e_energy short_line far a l <> NaN) /\ t_full dflt = false /\ i_max again <> PInf.
Proof.
  split; [reflexivity|]. split; [exact axis_bounded|]. split; [exact short_sheet|]. split; [exact short_real|].
  split; [reflexivity|discriminate].
Qed.

(** the tenth sample is marked black, and again thin and red twenty-one marks later *)
Example again_drawn : exists q ms, trace_drawn axis_unit 60 dflt short_line again = Ok (OK, q, Some ms) /\
  length ms = 42%nat /\
  (exists m, nth_error ms 10 = Some m /\ m_beg m = (10, -5) /\ m_end m = (10, 5) /\ m_thick m = 3) /\
  (exists m, nth_error ms 31 = Some m /\ m_beg m = (10, -2) /\ m_end m = (10, 2) /\ m_thick m = 1 /\
     m_col m = depth_col (Fin 0) (Fin 0) (Fin 10000)).
Proof.
  eexists. eexists. split; [vm_compute; reflexivity|]. split; [reflexivity|].
  split; eexists; (split; [reflexivity|]); vm_compute; auto.
Qed.

(** when one energy is not a number the black mark can miss the best sample of traceOn *)
Lemma nan_hides : exists l, (2 <= length l)%nat /\ min_element l = 0 /\ nth_error l 0 = Some ((0, 0)%Q, NaN) /\
  nth_error l 1 = Some ((1, 0)%Q, Fin 5).
Proof. exists [((0, 0)%Q, NaN); ((1, 0)%Q, Fin 5)]. cbn. auto. Qed.
