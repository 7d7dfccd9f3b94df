(** Model of the sample program samples/mfov/genply/main.cpp: which images, windows and point cloud
    files it produces over a run, and the state of the drawers it asks for them
    (source/output/{InterpolationDrawer,DepthPyramidDrawer,TrackingDebugImageDrawer,
    DebugImageDrawer}.cpp).  The run of the system itself is DsoModel.

    Not modelled: the pixels of the images, the contents of the text files (C17-C22, C79-C81), the
    clock, the parsing of the command line (one data directory is given), failing disks. *)
From Coq Require Import List ZArith Bool.
From Verif Require Import Outcome Dbl DsoModel DsoSpec UtilModel.
Import ListNotations.
Open Scope Z_scope.
Open Scope outcome_scope.

(** main.cpp:17-62: the flags. *)
Record main_flags := {
  fl_write : bool;        (* write_files *)
  fl_gt : bool;           (* gen_gt *)
  fl_gt_only : bool;      (* gen_gt_only *)
  fl_pyr : bool;          (* draw_depth_pyramid *)
  fl_debug : bool;        (* show_debug_image *)
  fl_track : bool;        (* show_track_res *)
  fl_interp : bool;       (* show_interpolation *)
  fl_start : Z;
  fl_count : Z
}.

(** The image of one level of a TrackingDebugImageDrawer: an empty Mat, zeros, or the frame with
    the residuals of tracking it. *)
Inductive cell := CEmpty | CBlack | CRes (n : Z) (level : nat).

(** The image of DebugImageDrawer::draw: zeros, or base keyframe, last frame and residuals. *)
Inductive pic := PBlack | PFull (base last : Z) (res : cell).

(** What the program writes (W) and shows (S). *)
Inductive output :=
| WArgs                               (* 123-125 *)
| WCloud                              (* points.ply, 160 *)
| WCloudGT                            (* pointsGT.ply in the output directory, 163-170 *)
| WCloudHere                          (* pointsGT.ply in the working directory, 143-144 *)
| WInterp                             (* interpolation.jpg, 199 *)
| WDebug (n : Z) (p : pic)            (* debug/frame#n.jpg, 207-209 *)
| WTrack (n : Z) (l : list cell)      (* track/frame#n.jpg, 210-212 *)
| WPyr (n base : Z)                   (* pyr/frame#n.jpg, 214-216 *)
| WSnapshot (l : list Z)              (* 227 *)
| SInterp                             (* 201-202: window, then wait for a key *)
| SDebug (p : pic)                    (* 220 *)
| STrack (l : list cell)              (* 222 *)
| SWait.                              (* 224 *)

(** Statements that produce output before they possibly fail. *)
Definition prog (A : Type) : Type := list output * outcome A.
Definition ret {A} (a : A) : prog A := ([], Ok a).
Definition lift {A} (o : outcome A) : prog A := ([], o).
Definition tell (l : list output) : prog unit := (l, Ok tt).
Definition fail {A B} (o : outcome A) : outcome B :=
  match o with Ok _ => UB | UB => UB | Abort => Abort | Throw => Throw | NoFuel => NoFuel end.
Definition pbind {A B} (x : prog A) (f : A -> prog B) : prog B :=
  match snd x with
  | Ok a => let y := f a in (fst x ++ fst y, snd y)
  | o => (fst x, fail o)
  end.
Definition when {A} (b : bool) (p : prog A) (d : A) : prog A := if b then p else ret d.

Declare Scope prog_scope.
Notation "'do' x <- e ; f" := (pbind e (fun x => f))
  (at level 200, x pattern, e at level 100, f at level 200, right associativity) : prog_scope.
Open Scope prog_scope.

(** The drawers, and whether CloudWriterGT has been told of the initialisation.
    - [dr_interp]: InterpolationDrawer::mDidInitialize;
    - [dr_changed], [dr_pyr]: DepthPyramidDrawer::mPyrChanged and the base frame of lastPyr;
    - [dr_track]: residualsImg of the program's TrackingDebugImageDrawer;
    - [dr_res]: the same of the one inside DebugImageDrawer;
    - [dr_base], [dr_last]: the two pointers of DebugImageDrawer. *)
Record drawers := {
  dr_interp : bool;
  dr_changed : bool;
  dr_pyr : option Z;
  dr_track : list cell;
  dr_res : list cell;
  dr_base : option Z;
  dr_last : option Z;
  dr_aligned : bool
}.

(** DepthPyramidDrawer.h:18-19, InterpolationDrawer.cpp:6-8, TrackingDebugImageDrawer.cpp:12-20,
    DebugImageDrawer.cpp:12-14. *)
Definition new_drawers (levels : nat) : drawers :=
  {| dr_interp := false; dr_changed := false; dr_pyr := None; dr_track := repeat CBlack levels;
     dr_res := repeat CBlack levels; dr_base := None; dr_last := None; dr_aligned := false |}.

(** main.cpp:176-187: frame tracker observers.  0: DepthPyramidDrawer, 1: TrackingDebugImageDrawer. *)
Definition main_observers (fl : main_flags) : list nat :=
  (if fl_write fl && fl_pyr fl then [0%nat] else []) ++
  (if fl_write fl || fl_track fl then [1%nat] else []).
(** main.cpp:177-178 with DebugImageDrawer.cpp:16-25: DebugImageDrawer registers its own
    TrackingDebugImageDrawer (2) when it is told of the system. *)
Definition debug_registered (fl : main_flags) : bool := fl_write fl || fl_debug fl.
Definition created_observers (fl : main_flags) : list nat :=
  if debug_registered fl then [2%nat] else [].

(** TrackingDebugImageDrawer.cpp:22-26: startTracking. *)
Definition start_tracking (levels : nat) : list cell := repeat CEmpty levels.
(** TrackingDebugImageDrawer.cpp:28-42: levelTracked. *)
Definition level_tracked (n : Z) (l : list cell) (i : nat) : outcome (list cell) :=
  if (i <? length l)%nat then Ok (firstn i l ++ CRes n i :: skipn (S i) l) else UB.
(** FrameTracker.cpp:76-95 with the notification at the end of trackPyrLevel: one frame as seen by
    an observer, levels from the coarsest to the finest. *)
Definition track_seen (levels : nat) (n : Z) : outcome (list cell) :=
  ofold (level_tracked n) (rev (seq 0 levels)) (start_tracking levels).

Section Main.
Variable P : Type.
Variable pid : P.
Variable pmul : P -> P -> P.
Variable pinv : P -> P.
Variables IP OP : Type.
Variable promote : IP -> OP.
Variable ready : IP -> bool.
Notation state := (state P IP OP).
Notation event := (event P IP OP).
Notation frame_in := (frame_in P IP OP).

(** The settings; [plain]: initializer.usePlainTriangulation; [levels]: pyramid.levelNum;
    [width]: the width flags of the two pyramid images. *)
Variable s : dso_settings.
Variable plain : bool.
Variable levels : nat.
Variable width : Z.

(** DepthPyramidDrawer.cpp:11-30: newBaseFrame; util.cpp:96-121 arranges the levels. *)
Definition new_base_frame (d : drawers) (base : Z) : outcome drawers :=
  let* _ := draw_leveled (Z.of_nat levels) width in
  Ok {| dr_interp := dr_interp d; dr_changed := true; dr_pyr := Some base; dr_track := dr_track d;
        dr_res := dr_res d; dr_base := dr_base d; dr_last := dr_last d; dr_aligned := dr_aligned d |}.

(** What the drawers do with one notification.  A newKeyFrame notification comes with a new
    FrameTracker, made with the observers [obs] (DsoSystem.cpp:430-438, 524-525, 563-566;
    FrameTracker.cpp:67-68).  The initializer tells its observers only when it uses the spherical
    terrain (DelaunayDsoInitializer.cpp:129-130). *)
Definition notify (fl : main_flags) (obs : list nat) (d : drawers) (e : event) : outcome drawers :=
  match e with
  | EvInitialized _ =>
      Ok {| dr_interp := dr_interp d || negb plain; dr_changed := dr_changed d; dr_pyr := dr_pyr d;
            dr_track := dr_track d; dr_res := dr_res d; dr_base := dr_base d; dr_last := dr_last d;
            dr_aligned := true |}
  | EvNewKf k =>
      let d1 := {| dr_interp := dr_interp d; dr_changed := dr_changed d; dr_pyr := dr_pyr d;
                   dr_track := dr_track d; dr_res := dr_res d;
                   dr_base := if debug_registered fl then Some (kf_num k) else dr_base d;
                   dr_last := dr_last d; dr_aligned := dr_aligned d |} in
      if existsb (Nat.eqb 0) obs then new_base_frame d1 (kf_num k) else Ok d1
  | EvNewFrame n =>
      Ok {| dr_interp := dr_interp d; dr_changed := dr_changed d; dr_pyr := dr_pyr d;
            dr_track := dr_track d; dr_res := dr_res d; dr_base := dr_base d;
            dr_last := if debug_registered fl then Some n else dr_last d;
            dr_aligned := dr_aligned d |}
  | EvTracked n told =>
      let* t := if existsb (Nat.eqb 1) told then track_seen levels n else Ok (dr_track d) in
      let* r := if existsb (Nat.eqb 2) told then track_seen levels n else Ok (dr_res d) in
      Ok {| dr_interp := dr_interp d; dr_changed := dr_changed d; dr_pyr := dr_pyr d;
            dr_track := t; dr_res := r; dr_base := dr_base d; dr_last := dr_last d;
            dr_aligned := dr_aligned d |}
  | _ => Ok d
  end.

(** The observers of the current tracker. *)
Definition tracker_observers (st : state) : list nat :=
  match st_tracker st with Some l => l | None => [] end.

(** DebugImageDrawer.cpp:35-106.  The camera pointer is set when the drawer is told of the system.
    Both kept pointers are dereferenced: a keyframe outside the window or a frame of no keyframe of
    the window is gone (C94).  An empty residual image cannot be concatenated. *)
Definition draw_debug (fl : main_flags) (d : drawers) (st : state) : outcome pic :=
  if debug_registered fl then
    match dr_base d, dr_last d with
    | Some b, Some n =>
        if existsb (Z.eqb b) (map kf_num (st_kfs st)) && existsb (Z.eqb n) (frames_of (st_kfs st)) then
          match dr_res d with
          | [] => UB
          | CEmpty :: _ => Throw
          | c :: _ => Ok (PFull b n c)
          end
        else UB
    | _, _ => Ok PBlack
    end
  else UB.

(** TrackingDebugImageDrawer.cpp:44-48 with util.cpp:96-121: an empty image cannot be resized. *)
Definition draw_all_levels (l : list cell) : outcome (list cell) :=
  let* _ := draw_leveled (Z.of_nat levels) width in
  if existsb (fun c => match c with CEmpty => true | _ => false end) l then Throw else Ok l.

(** DepthPyramidDrawer.cpp:34-37: getLastPyr; writing an empty image fails. *)
Definition last_pyr (d : drawers) : outcome (Z * drawers) :=
  match dr_pyr d with
  | None => Throw
  | Some b =>
      Ok (b, {| dr_interp := dr_interp d; dr_changed := false; dr_pyr := dr_pyr d;
                dr_track := dr_track d; dr_res := dr_res d; dr_base := dr_base d;
                dr_last := dr_last d; dr_aligned := dr_aligned d |})
  end.

(** The frame read from the data set gets the number of the loop counter (main.cpp:194). *)
Definition numbered (it : Z) (fi : frame_in) : frame_in :=
  {| fi_num := it; fi_init := fi_init fi; fi_track := fi_track fi; fi_trace := fi_trace fi;
     fi_select := fi_select fi; fi_choose := fi_choose fi; fi_sort := fi_sort fi;
     fi_ba_pose := fi_ba_pose fi; fi_ba_opt := fi_ba_opt fi |}.

(** main.cpp:194: addFrame and what the drawers hear of it. *)
Definition feed (fl : main_flags) (image : Z -> outcome frame_in) (m : state * drawers) (it : Z)
  : outcome (state * drawers) :=
  let* fi := image it in
  let* r := add_frame pid pmul pinv promote ready s (fst m) (numbered it fi) in
  let st := fst r in
  let* d := ofold (notify fl (tracker_observers st)) (skipn (length (st_log (fst m))) (st_log st)) (snd m) in
  Ok (st, d).

(** main.cpp:196-204. *)
Definition put_interp (fl : main_flags) (d : drawers) : prog unit :=
  when (dr_interp d)
    (tell ((if fl_write fl then [WInterp] else []) ++ (if fl_interp fl then [SInterp] else []))) tt.

(** main.cpp:206-218. *)
Definition put_images (fl : main_flags) (st : state) (d : drawers) (it : Z) : prog drawers :=
  when (fl_write fl)
    (do p <- lift (draw_debug fl d st);
     do _ <- tell [WDebug it p];
     do t <- lift (draw_all_levels (dr_track d));
     do _ <- tell [WTrack it t];
     when (fl_pyr fl && dr_changed d)
       (do r <- lift (last_pyr d);
        do _ <- tell [WPyr it (fst r)];
        ret (snd r)) d) d.

(** main.cpp:219-224. *)
Definition put_windows (fl : main_flags) (st : state) (d : drawers) : prog unit :=
  do _ <- when (fl_debug fl) (do p <- lift (draw_debug fl d st); tell [SDebug p]) tt;
  do _ <- when (fl_track fl) (do t <- lift (draw_all_levels (dr_track d)); tell [STrack t]) tt;
  when (fl_debug fl || fl_track fl) (tell [SWait]) tt.

(** main.cpp:192-225: one iteration. *)
Definition iteration (fl : main_flags) (image : Z -> outcome frame_in) (m : state * drawers) (it : Z)
  : prog (state * drawers) :=
  do r <- lift (feed fl image m it);
  do _ <- put_interp fl (snd r);
  do d <- put_images fl (fst r) (snd r) it;
  do _ <- put_windows fl (fst r) d;
  ret (fst r, d).

Fixpoint iterations (fl : main_flags) (image : Z -> outcome frame_in) (its : list Z) (m : state * drawers)
  : prog (state * drawers) :=
  match its with
  | [] => ret m
  | it :: r => do m' <- iteration fl image m it; iterations fl image r m'
  end.

(** The values of the loop counter (main.cpp:192). *)
Definition frame_range (fl : main_flags) : list Z :=
  map (fun i => fl_start fl + Z.of_nat i) (seq 0 (Z.to_nat (fl_count fl))).

(** PlyHolder.cpp:9-16: the constructor throws if the file cannot be created. *)
Definition new_cloud (dir : bool) (o : output) : prog unit := if dir then tell [o] else lift Throw.

(** main.cpp:91-230.  [exists_dir]: the output directory exists before the run; [reader]: the
    constructor of the reader; [gt]: readPointsInFrameGT; [image]: MultiFovReader::getFrame.
    A text file in a directory that does not exist is silently not written.  At the end the
    destructor of the system notifies the observers (DsoSystem.cpp:112-119), where CloudWriterGT
    insists on an alignment (CloudWriterGT.cpp:38). *)
Definition main (fl : main_flags) (exists_dir : bool) (reader gt : outcome unit)
  (image : Z -> outcome frame_in) : prog unit :=
  let dir := fl_write fl || exists_dir in
  do _ <- when dir (tell [WArgs]) tt;
  do _ <- lift reader;
  if fl_gt_only fl then
    do _ <- lift gt;
    tell [WCloudHere]
  else
    do _ <- new_cloud dir WCloud;
    do _ <- when (fl_gt fl) (do _ <- lift gt; new_cloud dir WCloudGT) tt;
    let bound := fl_start fl + fl_count fl in
    do _ <- lift (if (INT_MIN <=? bound) && (bound <=? INT_MAX) then Ok tt else UB);
    do m <- iterations fl image (frame_range fl)
              (init s (main_observers fl) (created_observers fl), new_drawers levels);
    do _ <- tell [WSnapshot (map kf_num (st_kfs (fst m)))];
    lift (if fl_gt fl && negb (dr_aligned (snd m)) then Abort else Ok tt).

End Main.
