(** Concrete tracings: a straight epipolar segment of 21 samples one pixel apart. *)
From Coq Require Import List ZArith QArith Bool Lia Lqa.
From Verif Require Import Outcome Dbl DblArith TraceModel TraceSpec TraceProofs TraceMore.
Import ListNotations.
Open Scope Z_scope.

(** the defaults of settings.h *)
Definition dflt : tsettings :=
  {| t_full := false; t_gn := 3; t_levels := 6; t_impr := 1; t_opt_dev := 12 # 5; t_search_rel := 27 # 1000;
     t_tests := 100; t_second_dist := 3; t_second_factor := 4 # 1000; t_energy_factor := 444 # 1000;
     t_quality := 3; t_th := 12; t_ps := 9 |}.

Definition line_point (a : dbl) : pos := match a with Fin a => (Qred (20 * a), 0) | _ => (0, 0) end%Q.

(** residual 10 * (x - c) for the full-size position x; [sg] is the direction of the last step *)
Definition line_eval (c sg : Q) (l : Z) (p : pos) : dbl * dbl * dbl :=
  let r := (10 * (pow2 l * fst p - c))%Q in
  let dr := (10 * pow2 l * sg)%Q in
  (Fin (Qred (r * r)), Fin (Qred (dr * dr)), Fin (Qred (r * dr))).

Definition line_triang (p : option pos) : dbl :=
  match p with Some p => Fin (Qred (100 - fst p)) | None => NaN end.

Definition line (c sg : Q) (lvl : Z) (dev : Q) : env :=
  {| e_dev := Fin dev; e_opposite := false; e_meets := true; e_wh := 2000;
     e_point := line_point; e_delta := fun _ => Fin (1 # 20); e_on := fun _ => true;
     e_depth := fun a => line_triang (Some (line_point a));
     e_level := fun _ _ => of_int lvl;
     e_energy := fun _ a l => fst (fst (line_eval c sg l (pos_scale (/ pow2 l) (line_point a))));
     e_dir := fun _ _ => (sg, 0)%Q;
     e_eval := line_eval c sg; e_triang := line_triang |}.

Lemma line_scene c sg lvl dev : one_scene (line c sg lvl dev).
Proof. split; reflexivity. Qed.

Lemma line_nonneg c sg lvl dev far a l : nonneg (e_energy (line c sg lvl dev) far a l).
Proof.
  unfold line, line_eval; cbn [e_energy fst snd nonneg].
  match goal with |- (0 <= Qred (?x * ?x))%Q => generalize x end. intros x.
  assert (H : (0 <= x * x)%Q) by nra. rewrite Qred_correct. exact H.
Qed.

Definition result (o : outcome (tstatus * ipoint)) : option (tstatus * ipoint) :=
  match o with Ok r => Some r | _ => None end.

Definition first_trace : outcome (tstatus * ipoint) := traceOn 60 dflt (line 10 1 0 1) (new_ipoint true).

Example first_trace_ok : exists q, first_trace = Ok (OK, q) /\
  i_depth q = Some (Fin 90) /\ i_min q = Fin 88 /\ i_max q = Fin 92 /\ i_num q = 1 /\ isReady dflt q = true.
Proof. eexists. split; [vm_compute; reflexivity|]. vm_compute. repeat split. Qed.

(** a point traced twice, then refused because no improvement is expected, then off the curve *)
Example a_life : exists q,
  trace_all 60 dflt [line 10 1 0 2; line 10 1 0 1; line 10 1 0 3] (new_ipoint true) =
    Ok ([OK; OK; BIG_PREDICTED_ERROR], q) /\ i_num q = 2 /\ i_dev q = Fin 1.
Proof. eexists. split; [vm_compute; reflexivity|]. vm_compute. auto. Qed.

Lemma flag_stale : exists fuel s es q,
  trace_all fuel s es (new_ipoint true) = Ok ([OK; BIG_PREDICTED_ERROR], q) /\ i_traced q = true.
Proof.
  exists 60%nat, dflt, [line 10 1 0 1; line 10 1 0 3]. eexists.
  split; [vm_compute; reflexivity|]. reflexivity.
Qed.

Example a_search : last_search [OK; OK; BIG_PREDICTED_ERROR] OK.
Proof.
  exists [OK], [BIG_PREDICTED_ERROR]. split; [reflexivity|]. split.
  - intros [H|[H|H]]; discriminate.
  - constructor; [right; now left|constructor].
Qed.

Example ambiguous : exists q,
  traceOn 60 {| t_full := false; t_gn := 3; t_levels := 6; t_impr := 1; t_opt_dev := 12 # 5; t_search_rel := 27 # 1000;
     t_tests := 100; t_second_dist := 3; t_second_factor := 4; t_energy_factor := 444 # 1000;
     t_quality := 3; t_th := 12; t_ps := 9 |} (line 10 1 0 1) (new_ipoint true) = Ok (SMALL_ABS_SECOND_BEST, q).
Proof. eexists. vm_compute. reflexivity. Qed.

Lemma optimum_lost : exists fuel s e p q eb ea,
  one_scene e /\ (forall far a l, nonneg (e_energy e far a l)) /\ i_state p = ACTIVE /\
  traceOn fuel s e p = Ok (OK, q) /\ i_level q = 0 /\
  i_before q = Some (Fin eb) /\ i_after q = Some (Fin ea) /\ (eb < ea)%Q.
Proof.
  exists 60%nat, dflt, (line 20 (-1) 0 1), (new_ipoint true).
  eexists. exists 0%Q. eexists.
  split; [apply line_scene|]. split; [apply line_nonneg|]. split; [reflexivity|].
  split; [vm_compute; reflexivity|]. split; [reflexivity|]. split; [reflexivity|]. split; [reflexivity|].
  vm_compute. reflexivity.
Qed.

Lemma far_from_optimum : exists fuel s e p q pts i pt a d0 d,
  one_scene e /\ i_state p = ACTIVE /\
  traceOn fuel s e p = Ok (OK, q) /\ points_to_trace fuel s e = Ok (Some pts) /\
  nth_error pts i = Some (pt, a) /\ measured s e (i_max p) pts i (i_energy q) /\ i_level q = 0 /\
  (forall j x, measured s e (i_max p) pts j x -> at_least (i_energy q) x) /\
  e_depth e a = Fin d0 /\ i_depth q = Some (Fin d) /\ (d0 + 9 < d)%Q.
Proof.
  exists 60%nat, dflt, (line 20 (-1) 0 1), (new_ipoint true). eexists. eexists. exists 20%nat. do 2 eexists. exists 80%Q. eexists.
  split; [apply line_scene|]. split; [reflexivity|].
  split; [vm_compute; reflexivity|]. split; [vm_compute; reflexivity|]. split; [reflexivity|].
  split. { do 2 eexists. exists 0. split; [reflexivity|]. split; vm_compute; reflexivity. }
  split; [reflexivity|]. split.
  { intros j x (p1 & a1 & z1 & _ & W). cbv zeta in W. destruct W as [_ X]. unfold i_energy.
    pose proof (line_nonneg 20 (-1) 0 1 (match i_max (new_ipoint true), j with PInf, O => true | _, _ => false end)
      a1 (Z.min (t_levels dflt - 1) (Z.max 0 z1))) as NN.
    rewrite <- X in NN. destruct x; try contradiction; [right|right; reflexivity|left; reflexivity].
    now apply dle_fin. }
  split; [vm_compute; reflexivity|]. split; [reflexivity|]. vm_compute. reflexivity.
Qed.

Lemma level_lost : exists fuel s e p q pts i pt a d0 d,
  one_scene e /\ i_state p = ACTIVE /\
  traceOn fuel s e p = Ok (OK, q) /\ points_to_trace fuel s e = Ok (Some pts) /\
  nth_error pts i = Some (pt, a) /\ measured s e (i_max p) pts i (i_energy q) /\ i_level q = 1 /\
  (exists u v, nth_error (map fst pts) (i - 1) = Some u /\ nth_error (map fst pts) (i + 1) = Some v /\
     displaced u v (0, 0)%Q 0 pt /\ (dist2 u pt == 1)%Q /\ (dist2 v pt == 1)%Q) /\
  e_depth e a = Fin d0 /\ i_depth q = Some (Fin d) /\ (d + 7 < d0)%Q.
Proof.
  exists 60%nat, dflt, (line 10 1 1 1), (new_ipoint true). eexists. eexists. exists 10%nat. do 2 eexists. exists 90%Q. eexists.
  split; [apply line_scene|]. split; [reflexivity|].
  split; [vm_compute; reflexivity|]. split; [vm_compute; reflexivity|]. split; [reflexivity|].
  split. { do 2 eexists. exists 1. split; [reflexivity|]. split; vm_compute; reflexivity. }
  split; [reflexivity|]. split.
  { do 2 eexists. split; [reflexivity|]. split; [reflexivity|]. split; [split; vm_compute; reflexivity|]. split; vm_compute; reflexivity. }
  split; [vm_compute; reflexivity|]. split; [reflexivity|]. vm_compute. reflexivity.
Qed.

Lemma interval_empty : exists fuel s e p q lo hi,
  one_scene e /\ i_state p = ACTIVE /\ traceOn fuel s e p = Ok (OK, q) /\
  i_min q = Fin lo /\ i_max q = Fin hi /\ (hi < lo)%Q.
Proof.
  exists 60%nat, dflt, (line 20 (-1) 0 1), (new_ipoint true). do 3 eexists.
  split; [apply line_scene|]. split; [reflexivity|]. split; [vm_compute; reflexivity|].
  split; [reflexivity|]. split; [reflexivity|]. vm_compute. reflexivity.
Qed.

Lemma restored_grows : exists fuel s e1 e2 p q,
  t_full s = false /\ (1 <= t_impr s)%Q /\ deviation (e_dev e1) /\ deviation (e_dev e2) /\
  traceOn fuel s e1 (new_ipoint true) = Ok (OK, p) /\ isReady s p = true /\
  traceOn fuel s e2 p = Ok (BIG_PREDICTED_ERROR, p) /\
  traceOn fuel s e2 (restored p) = Ok (OK, q) /\ isReady s q = false /\ dlt (i_dev p) (i_dev q) = true.
Proof.
  exists 60%nat, dflt, (line 2 1 0 1), (line 2 1 0 5). do 2 eexists.
  split; [reflexivity|]. split; [cbn; lra|]. split; [cbn; lra|]. split; [cbn; lra|].
  split; [vm_compute; reflexivity|]. split; [reflexivity|]. split; [vm_compute; reflexivity|].
  split; [vm_compute; reflexivity|]. split; reflexivity.
Qed.

(** the hypotheses of the refinement theorems are met by the scene above *)
Example refine_meets : forall p, let '(_, h, b) := e_eval (line 10 1 0 1) 0 p in ddiv (dopp b) h <> NaN.
Proof. intros p. cbn. discriminate. Qed.

(** an image without texture *)
Example flat_meets : tracePrecise 3 (fun _ => (Fin 7, Fin 0, Fin 0)) (fun _ _ => (1, 0)%Q) (0, 0)%Q (2, 0)%Q = UB.
Proof. reflexivity. Qed.
