(** Models of source/output/TrajectoryWriterGT.cpp and source/output/CloudWriterGT.cpp as observers
    of the event log of DsoModel, with poses in real arithmetic.  Simplified: the written list of
    poses stands for the text of the two trajectory files, and [dbl_of] gives the doubles a vector
    of reals is stored as. *)
From Coq Require Import List ZArith Bool Reals.
From Verif Require Import Outcome Dbl Pose MotionModel DsoModel PlyModel.
Import ListNotations.
Open Scope Z_scope.
Open Scope outcome_scope.

(** std::vector::operator[] with a frame number (TrajectoryWriterGT.cpp 23-24, 41-42, 46, 51, 55;
    CloudWriterGT.cpp 26-27, 43-46, 50-54): out of range is undefined behaviour. *)
Definition at_frame {A} (l : list A) (n : Z) : outcome A :=
  if n <? 0 then UB
  else match nth_error l (Z.to_nat n) with Some x => Ok x | None => UB end.

(** A loop over the elements of a vector. *)
Fixpoint omap {A B} (f : A -> outcome B) (l : list A) : outcome (list B) :=
  match l with
  | [] => Ok []
  | a :: l' => let* b := f a in let* r := omap f l' in Ok (b :: r)
  end.

Section Gt.
Variables IP OP : Type.
Notation kf := (kf se3 IP OP).
Notation event := (event se3 IP OP).

(** TrajectoryWriterGT.cpp 15-32, CloudWriterGT.cpp 18-35: the aligner and the aligned poses. *)
Definition gt_initialized (gt : list se3) (l : list kf) : outcome (aligner * list se3) :=
  match l, rev l with
  | first :: _ :: _, back :: _ =>
      let* firstGT := at_frame gt (kf_num first) in
      let* lastGT := at_frame gt (kf_num back) in
      let al := aligner_new (sinv (kf_pose first)) (sinv (kf_pose back)) firstGT lastGT in
      let* gt' := omap (align_world_to_frame al) gt in
      Ok (al, gt')
  | _, _ => Abort
  end.

(** TrajectoryWriterGT.h 22-26 with the lines of the two files. *)
Record tg := { tg_gt : list se3; tg_unaligned : list se3; tg_aligner : option aligner;
               tg_poses : list (Z * se3); tg_matrices : list se3 }.

(** TrajectoryWriterGT.cpp 5-13 *)
Definition tg_new (gt : list se3) : tg :=
  {| tg_gt := gt; tg_unaligned := gt; tg_aligner := None; tg_poses := []; tg_matrices := [] |}.

(** TrajectoryWriterGT.cpp 40-47, 49-56: the two lines of one frame. *)
Definition tg_frame (w : tg) (n : Z) : outcome tg :=
  let* raw := at_frame (tg_unaligned w) n in
  let* pose := at_frame (tg_gt w) n in
  Ok {| tg_gt := tg_gt w; tg_unaligned := tg_unaligned w; tg_aligner := tg_aligner w;
        tg_poses := tg_poses w ++ [(n, pose)]; tg_matrices := tg_matrices w ++ [sinv raw] |}.

(** TrajectoryWriterGT.cpp 39-58 *)
Definition tg_kf (w : tg) (k : kf) : outcome tg :=
  let* w1 := tg_frame w (kf_num k) in
  ofold tg_frame (map fst (kf_tracked k)) w1.

Definition tg_event (w : tg) (e : event) : outcome tg :=
  match e with
  | EvInitialized l =>                     (* 15-32 *)
      let* r := gt_initialized (tg_gt w) l in
      Ok {| tg_gt := snd r; tg_unaligned := tg_unaligned w; tg_aligner := Some (fst r);
            tg_poses := tg_poses w; tg_matrices := tg_matrices w |}
  | EvMarg l => ofold tg_kf l w            (* 34-59 *)
  | EvDestructed l => ofold tg_kf l w      (* 61-64 *)
  | _ => Ok w
  end.
Definition tg_run (gt : list se3) (log : list event) : outcome tg := ofold tg_event log (tg_new gt).

Variable fmt : Z -> dbl -> bytes.
Variable dbl_of : vec -> point.

(** CloudWriterGT.h 23-27 *)
Record cg := { cg_gt : list se3; cg_points : list (list vec); cg_colors : list (list color);
               cg_aligner : option aligner; cg_holder : holder }.

(** CloudWriterGT.cpp 5-14 *)
Definition cg_new (gt : list se3) (points : list (list vec)) (colors : list (list color)) : cg :=
  {| cg_gt := gt; cg_points := points; cg_colors := colors; cg_aligner := None; cg_holder := ply_open |}.

Definition cg_set_holder (w : cg) (h : holder) : cg :=
  {| cg_gt := cg_gt w; cg_points := cg_points w; cg_colors := cg_colors w;
     cg_aligner := cg_aligner w; cg_holder := h |}.

(** CloudWriterGT.cpp 42-46, 49-54: the points of one frame. *)
Definition cg_frame (al : aligner) (w : cg) (f : Z * se3) : outcome cg :=
  let* ps := at_frame (cg_points w) (fst f) in
  let* qs := omap (fun p => let* q := align_scale al p in Ok (act (snd f) q)) ps in
  let* cs := at_frame (cg_colors w) (fst f) in
  let* h := put_points fmt (cg_holder w) (map dbl_of qs) cs in
  Ok (cg_set_holder w h).

(** CloudWriterGT.cpp 41-56 *)
Definition cg_kf (al : aligner) (w : cg) (k : kf) : outcome cg :=
  let* w1 := cg_frame al w (kf_num k, kf_pose k) in
  ofold (fun w (e : Z * se3) => cg_frame al w (fst e, smul (kf_pose k) (sinv (snd e)))) (kf_tracked k) w1.

(** CloudWriterGT.cpp 37-58 *)
Definition cg_marg (w : cg) (l : list kf) : outcome cg :=
  match cg_aligner w with
  | None => Abort
  | Some al =>
      let* w1 := ofold (cg_kf al) l w in
      let* h := update_count (cg_holder w1) in
      Ok (cg_set_holder w1 h)
  end.

Definition cg_event (w : cg) (e : event) : outcome cg :=
  match e with
  | EvInitialized l =>                     (* 16-35 *)
      let* r := gt_initialized (cg_gt w) l in
      Ok {| cg_gt := snd r; cg_points := cg_points w; cg_colors := cg_colors w;
            cg_aligner := Some (fst r); cg_holder := cg_holder w |}
  | EvMarg l => cg_marg w l
  | EvDestructed l => cg_marg w l          (* 60-63 *)
  | _ => Ok w
  end.
Definition cg_run (gt : list se3) (points : list (list vec)) (colors : list (list color))
           (log : list event) : outcome cg := ofold cg_event log (cg_new gt points colors).
End Gt.

Arguments tg_run {IP OP} gt log.
Arguments cg_run {IP OP} fmt dbl_of gt points colors log.
Arguments tg_event {IP OP} w e.
Arguments cg_event {IP OP} fmt dbl_of w e.
Arguments tg_kf {IP OP} w k.
Arguments cg_kf {IP OP} fmt dbl_of al w k.
Arguments cg_marg {IP OP} fmt dbl_of w l.
Arguments gt_initialized {IP OP} gt l.
