(** The program collecting tracing errors: samples/mfov/stat/stat_epipolar/main.cpp, in real
    arithmetic, with the state that a worker carries from frame to frame and with the chunks into
    which tbb::parallel_for divides the work.  Windows and messages are left out (lines 128-137,
    178, 203). *)
From Coq Require Import Reals ZArith List Bool Ascii.
From Verif Require Import Outcome Dbl Pose GeomModel CalModel GtModel PixelSelectorModel PlyModel.
Import ListNotations.
Open Scope Z_scope.
Open Scope outcome_scope.

(** The flags of main.cpp 40-50 and the number of points of Settings::KeyFrame *)
Record flags := { f_start : Z; f_end : Z; f_shift : Z; f_trans : R; f_rot : R; f_precise : bool; f_points : Z }.

(** What main.cpp 140-165 reads of an immature point after the tracing: position, state == ACTIVE,
    maxDepth != INF, depth, depthBeforeSubpixel, lastFullVar, eBeforeSubpixel, eAfterSubpixel *)
Record tpoint := { t_p : Z * Z; t_active : bool; t_finite : bool; t_depth : R; t_before : R; t_var : R; t_eb : R; t_ea : R }.

(** EpiErr, main.cpp 60-68, in the order of the fields *)
Record row := { r_disp : R; r_exp : R; r_bef : R; r_err : R; r_gt : R; r_depth : R; r_before : R; r_eb : R; r_ea : R }.

(** MultiFovReader: ground truth, frames and depths; ReaderModel has the files *)
Record reader (Img : Type) := { rd_poses : list se3; rd_frame : Z -> outcome Img; rd_depths : Z -> outcome (picture R);
                                rd_map : vec -> pt; rd_unmap : pt -> vec }.
Arguments rd_poses {Img}. Arguments rd_frame {Img}. Arguments rd_depths {Img}. Arguments rd_map {Img}. Arguments rd_unmap {Img}.

(** operator[] of a vector with an int *)
Definition pose_at (l : list se3) (i : Z) : outcome se3 :=
  if i <? 0 then UB else match nth_error l (Z.to_nat i) with Some x => Ok x | None => UB end.

(** normalized() of Eigen *)
Definition unit_vec (v : vec) : vec := if Rlt_dec 0 (dot v v) then vscale (/ vnorm v) v else v.
Definition pdist (a b : pt) : R := sqrt (pdot (psub a b) (psub a b)).

Section Stat.
Variable Img G : Type.
Variable maxloc : image -> Z -> Z -> Z -> Z * Z.           (* PixelSelectorModel *)
Variable shuffle : nat -> list (Z * Z) -> list (Z * Z).
Variable gradient : Img -> image.                          (* PreKeyFrame::gradNorm *)
Variable trace : Img -> Img -> se3 -> Z * Z -> tpoint.     (* ImmaturePoint and traceOn, TraceModel *)
Variable gen0 : G.                                         (* std::mt19937 mt; *)
Variable gauss : R -> R -> G -> (vec * vec) * G.           (* the six draws of lines 112-119 for two deviations *)
Variable fuel : nat.                                       (* for the loops of the selector *)

(** main.cpp 95-96: what a call of operator() keeps between frames *)
Record worker := { w_sel : ps_state; w_gen : G }.
Definition worker0 : worker := {| w_sel := ps_init ps_default; w_gen := gen0 |}.

(** main.cpp 103-121: the motion used for the tracing.  The standard demands a positive deviation of
    std::normal_distribution. *)
Definition assumed (f : flags) (gt : se3) (g : G) : outcome (se3 * G) :=
  if f_precise f then Ok (gt, g)
  else
    let n := (vnorm (tr gt) / sqrt 3)%R in
    let dispDev := (f_trans f * n)%R in
    let rotDev := (PI / 180 * f_rot f * n)%R in
    if Rle_dec rotDev 0 then UB
    else if Rle_dec dispDev 0 then UB
    else
      let '((w, t), g') := gauss rotDev dispDev g in
      Ok (SE (qmul (so3_exp w) (so3 gt)) (vadd (tr gt) t), g').

(** main.cpp 143-165: the errors of one point.  The root of a negative variance, not a number in the
    program, is not distinguished. *)
Definition errors_of (rd : reader Img) (gt motion : se3) (depths : picture R) (p : tpoint) : outcome row :=
  let* depthGT := at_pix depths (snd (t_p p)) (fst (t_p p)) in
  let ray := unit_vec (rd_unmap rd (P2 (IZR (fst (t_p p))) (IZR (snd (t_p p))))) in
  let reprojGT := rd_map rd (act gt (vscale depthGT ray)) in
  let reproj := rd_map rd (act motion (vscale (t_depth p) ray)) in
  let reprojBef := rd_map rd (act motion (vscale (t_before p) ray)) in
  let reprojInfD := rd_map rd (rot (so3 motion) ray) in
  Ok {| r_disp := pdist reproj reprojInfD; r_exp := sqrt (t_var p); r_bef := pdist reprojGT reprojBef;
        r_err := pdist reprojGT reproj; r_gt := depthGT; r_depth := t_depth p; r_before := t_before p;
        r_eb := t_eb p; r_ea := t_ea p |}.

(** main.cpp 141 *)
Definition counted (p : tpoint) : bool := t_active p && t_finite p.

(** main.cpp 99-167 with kfFromEpipolar (23-38) and KeyFrame.cpp 9-24, 56-61: one frame *)
Definition frame_errors (f : flags) (rd : reader Img) (w : worker) (first : Z) : outcome (list row * worker) :=
  if negb (in_int (first + f_shift f)) then UB
  else
    let second := first + f_shift f in
    let* p2 := pose_at (rd_poses rd) second in
    let* p1 := pose_at (rd_poses rd) first in
    let gt := smul p2 (sinv p1) in
    let* (motion, g) := assumed f gt (w_gen w) in
    let* im1 := rd_frame rd first in
    let* im2 := rd_frame rd second in
    let* (pixels, sel) := select maxloc shuffle fuel ps_default (w_sel w) (gradient im1) (f_points f) in
    let pts := map (trace im1 im2 motion) pixels in
    let* depths := rd_depths rd first in
    let* rows := omap (errors_of rd gt motion depths) (filter counted pts) in
    Ok (rows, {| w_sel := sel; w_gen := g |}).

(** One call of operator() on its way: indices not yet begun, errors not yet appended, its state *)
Record task := { k_todo : list Z; k_pending : list (Z * row); k_worker : worker }.
Definition task_of (r : Z * Z) : task :=
  {| k_todo := map (fun i => fst r + Z.of_nat i) (seq 0 (Z.to_nat (snd r - fst r))); k_pending := []; k_worker := worker0 |}.
Definition finished (t : task) : bool := match k_todo t, k_pending t with [], [] => true | _, _ => false end.

(** The shared array errors: one vector for each index *)
Definition shared : Type := Z -> list row.
Definition push (e : shared) (i : Z) (r : row) : shared := fun j => if j =? i then e j ++ [r] else e j.

(** The next step of a task: appending one error (166) or computing those of the next frame *)
Definition step (f : flags) (rd : reader Img) (t : task) (e : shared) : outcome (task * shared) :=
  match k_pending t with
  | (i, r) :: rest => Ok ({| k_todo := k_todo t; k_pending := rest; k_worker := k_worker t |}, push e i r)
  | [] =>
      match k_todo t with
      | [] => Ok (t, e)
      | i :: rest =>
          let* (rows, w) := frame_errors f rd (k_worker t) (f_start f + i) in
          Ok ({| k_todo := rest; k_pending := map (fun r => (i, r)) rows; k_worker := w |}, e)
      end
  end.

Fixpoint set_task (l : list task) (n : nat) (t : task) : list task :=
  match l, n with
  | [], _ => []
  | _ :: l', O => t :: l'
  | x :: l', S n' => x :: set_task l' n' t
  end.

(** An execution: [sched] names the task that makes each step.  The parts of a step are on memory of
    the task alone, except for the append, which is on the vector of its own index. *)
Fixpoint exec (f : flags) (rd : reader Img) (sched : list nat) (ts : list task) (e : shared) : outcome (list task * shared) :=
  match sched with
  | [] => Ok (ts, e)
  | n :: sched' =>
      match nth_error ts n with
      | None => exec f rd sched' ts e
      | Some t => let* (t', e') := step f rd t e in exec f rd sched' (set_task ts n t') e'
      end
  end.

(** main.cpp 58: totalFrames *)
Definition totalFrames : Z := 2500.

(** main.cpp 179-183: the number of frames; arrays of no or a negative length are undefined *)
Definition test_count (f : flags) : outcome Z :=
  if negb (in_int (totalFrames - f_shift f)) then UB
  else
    let n := Z.min (f_end f) (totalFrames - f_shift f) - f_start f in
    if negb (in_int n && in_int (n + 1)) then UB else if n + 1 <=? 0 then UB else Ok (n + 1).

(** main.cpp 172-201: the errors put out.  [parts] are the ranges on which parallel_for calls operator();
    without --run_parallel there is one.  NoFuel: the schedule ends before the work. *)
Definition collect (f : flags) (rd : reader Img) (parts : list (Z * Z)) (sched : list nat) : outcome (list row) :=
  let* n := test_count f in
  let* (ts, e) := exec f rd sched (map task_of parts) (fun _ => []) in
  if forallb finished ts then Ok (flat_map (fun i => e (Z.of_nat i)) (seq 0 (Z.to_nat n))) else NoFuel.
End Stat.
Arguments w_sel {G}. Arguments w_gen {G}. Arguments k_todo {G}. Arguments k_pending {G}. Arguments k_worker {G}.

(** main.cpp 70-76: one error as text; util.h 33-45: the file *)
Definition row_text (dprint : R -> bytes) (r : row) : bytes :=
  dprint (r_disp r) ++ sp :: dprint (r_exp r) ++ sp :: dprint (r_bef r) ++ sp :: dprint (r_err r) ++ sp ::
  dprint (r_gt r) ++ sp :: dprint (r_depth r) ++ sp :: dprint (r_before r) ++ sp :: dprint (r_eb r) ++ sp :: dprint (r_ea r).
Definition errors_file (dprint : R -> bytes) (l : list row) : bytes :=
  flat_map (fun r => row_text dprint r ++ [sp]) l ++ [nl].
