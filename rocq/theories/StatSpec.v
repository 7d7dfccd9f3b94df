(** Words of the statements about the program collecting tracing errors (C107). *)
From Coq Require Import Reals ZArith List.
From Verif Require Import Outcome Pose GeomModel CalModel StatModel.
Import ListNotations.
Open Scope Z_scope.
Open Scope outcome_scope.

(** Non-empty ranges one after another from [a] to [b]: what parallel_for may make of its range. *)
Fixpoint tiles (a : Z) (parts : list (Z * Z)) (b : Z) : Prop :=
  match parts with
  | [] => a = b
  | r :: rest => fst r = a /\ fst r < snd r /\ tiles (snd r) rest b
  end.

(** The frames of a range, by their numbers. *)
Definition frames (start : Z) (r : Z * Z) : list Z :=
  map (fun i => start + fst r + Z.of_nat i) (seq 0 (Z.to_nat (snd r - fst r))).

(** Frames handled one after another, each leaving a state to the next. *)
Fixpoint in_turn {W} (F : W -> Z -> outcome (list row * W)) (w : W) (ns : list Z) : outcome (list row) :=
  match ns with
  | [] => Ok []
  | n :: rest => let* (a, w') := F w n in let* b := in_turn F w' rest in Ok (a ++ b)
  end.

(** Every range by itself a range of one frame. *)
Definition singles (n : Z) : list (Z * Z) := map (fun i => (Z.of_nat i, Z.of_nat i + 1)) (seq 0 (Z.to_nat n)).

(** Draws are multiples of the deviations, with factors that depend on the generator alone. *)
Definition scales {G} (gauss : R -> R -> G -> (vec * vec) * G) (z : G -> vec * vec) : Prop :=
  forall a b g, fst (gauss a b g) = (vscale a (fst (z g)), vscale b (snd (z g))).

(** How often the task [i] is named. *)
Definition turns (sched : list nat) (i : nat) : nat := count_occ Nat.eq_dec sched i.

(** The numbers of a row in the order of the file. *)
Definition fields (r : row) : list R :=
  [r_disp r; r_exp r; r_bef r; r_err r; r_gt r; r_depth r; r_before r; r_eb r; r_ea r].

(** What a row tells of the point [p]: the errors are distances in the second image between where the point of true depth
    goes by the true motion and where the point of estimated depth goes by the motion assumed; the true depth is the one
    stored in row y and column x. *)
Definition distance (a b : pt) : R := sqrt ((px a - px b) * (px a - px b) + (py a - py b) * (py a - py b)).
Definition measured (project : vec -> pt) (lift : pt -> vec) (gt motion : se3) (dep : picture R) (p : tpoint) (r : row) : Prop :=
  let x := fst (t_p p) in
  let y := snd (t_p p) in
  let dir := lift (P2 (IZR x) (IZR y)) in
  let at_depth := fun d => vscale (d / vnorm dir) dir in
  let truth := project (act gt (at_depth (pix dep y x))) in
  let found := project (act motion (at_depth (t_depth p))) in
  0 <= x < cols dep /\ 0 <= y < rows dep /\ r_gt r = pix dep y x /\
  r_depth r = t_depth p /\ r_before r = t_before p /\ r_exp r = sqrt (t_var p) /\ r_eb r = t_eb p /\ r_ea r = t_ea p /\
  (dir <> vzero ->
    r_err r = distance truth found /\
    r_bef r = distance truth (project (act motion (at_depth (t_before p)))) /\
    r_disp r = distance found (project (rot (so3 motion) (at_depth 1%R)))).
