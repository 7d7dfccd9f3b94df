(** Models of source/system/FrameTracker.cpp, internal/source/PreKeyFrameInternals.cpp and of the
    pyramid-related parts of source/system/PreKeyFrame.cpp and source/system/DsoSystem.cpp.  The
    solver and the reprojection test are oracles. *)
From Coq Require Import ZArith QArith Reals List Bool.
From Verif Require Import Outcome Pose CamModel PyramidModel.
Import ListNotations.
Open Scope Z_scope.
Open Scope outcome_scope.

(** settings.h 171-172 *)
Definition max_levelNum : Z := 8.
Definition default_levelNum : Z := 6.

(** operator[] of a std::vector *)
Definition at_ {A} (l : list A) (i : Z) : outcome A :=
  if i <? 0 then UB else match nth_error l (Z.to_nat i) with Some x => Ok x | None => UB end.

(** PreKeyFrameInternals.cpp 5-14: the grids made, level by level; a level that does not exist or
    does not fit into the arrays is undefined behaviour *)
Fixpoint make_grids (pyramid : list gray) (lvl : Z) (n : nat) : outcome (list gray) :=
  match n with
  | O => Ok []
  | S m =>
      if lvl <? max_levelNum then
        let* img := at_ pyramid lvl in
        let* rest := make_grids pyramid (lvl + 1) m in
        Ok (img :: rest)
      else UB
  end.

(** PreKeyFrame.cpp 10-23: framePyr and internals (grids and number of levels) *)
Record preframe := { f_pyr : list gray; f_grids : list gray; f_levelNum : Z }.
Definition new_preframe (frame : gray) (levelNum : Z) : outcome preframe :=
  let* pyr := imagePyramid frame levelNum in
  let* grids := make_grids pyr 0 (Z.to_nat levelNum) in
  Ok {| f_pyr := pyr; f_grids := grids; f_levelNum := levelNum |}.

(** PreKeyFrameInternals.cpp 33-37 *)
Definition interpolator (f : preframe) (lvl : Z) : outcome gray :=
  if (0 <=? lvl) && (lvl <? f_levelNum f) then at_ (f_grids f) lvl else Abort.

(** Settings read by the tracker *)
Record tracker_settings := {
  s_levelNum : Z;
  s_minA : R; s_maxA : R; s_minB : R; s_maxB : R;
  s_optimizeLight : bool;
  s_useGrad : bool; s_gradC : R }.

(** FrameTracker: the members used *)
Record tracker := { k_cams : list camera; k_images : list gray; k_depths : list dmat; k_set : tracker_settings }.

(** FrameTracker.cpp 55-70: camPyr[1] is read for the size of the display *)
Definition new_tracker (cams : list camera) (base : list gray * list dmat) (s : tracker_settings) : outcome tracker :=
  let* _ := at_ cams 1 in
  Ok {| k_cams := cams; k_images := fst base; k_depths := snd base; k_set := s |}.

(** A residual: the pixel, its depth, its intensity and the factor of its loss *)
Record tresidual := { r_x : Z; r_y : Z; r_depth : R; r_int : Z; r_weight : R }.

(** util.cpp 164-168: reads the four neighbours; one outside the image is undefined behaviour *)
Definition gradNormAt (img : gray) (x y : Z) : outcome R :=
  if (1 <=? x) && (x + 1 <? gcols img) && (1 <=? y) && (y + 1 <? grows img) then
    let dx := (IZR (gat img (x + 1) y - gat img (x - 1) y) / 2)%R in
    let dy := (IZR (gat img x (y + 1) - gat img x (y - 1)) / 2)%R in
    Ok (sqrt (dx * dx + dy * dy))%R
  else UB.

(** FrameTracker.cpp 164-174: the factor of the Huber loss; std::hypot is exact here *)
Definition lossWeight (s : tracker_settings) (img : gray) (x y : Z) : outcome R :=
  if s_useGrad s then
    let* g := gradNormAt img x y in
    Ok (s_gradC s / sqrt (s_gradC s * s_gradC s + g * g))%R
  else Ok 1%R.

(** The problem of one level: camera, tracked image, residuals, whether the light is held constant,
    bounds of its two parameters *)
Record level_problem := {
  l_cam : camera; l_grid : gray; l_res : list tresidual; l_constLight : bool;
  l_boundsA : R * R; l_boundsB : R * R }.

(** The motion from the base frame to the tracked frame and the light *)
Definition estimate := (se3 * (R * R))%type.

(** FrameTracker.cpp 98-103 with the lifting of 153: camera, pixel, depth, motion *)
Definition trackable_test := camera -> Z -> Z -> R -> se3 -> bool.

(** FrameTracker.cpp 145-187: one pixel *)
Definition pixel_residual (trackable : trackable_test) (s : tracker_settings) (cam : camera) (img : gray) (depths : dmat) (motion : se3)
           (x y : Z) : outcome (list tresidual) :=
  if (x <? dcols depths) && (y <? drows depths) then
    let d := dat depths x y in
    if Rlt_dec 0 d then
      if trackable cam x y d motion then
        let* w := lossWeight s img x y in
        Ok [{| r_x := x; r_y := y; r_depth := d; r_int := gat img x y; r_weight := w |}]
      else Ok []
    else Ok []
  else UB.

(** A loop from 0 to n-1 collecting lists *)
Fixpoint collect {A} (f : Z -> outcome (list A)) (i : Z) (n : nat) : outcome (list A) :=
  match n with
  | O => Ok []
  | S m => let* a := f i in let* b := collect f (i + 1) m in Ok (a ++ b)
  end.

(** FrameTracker.cpp 105-220; returns the problem solved and its result *)
Definition trackPyrLevel (solve : level_problem -> estimate -> estimate) (trackable : trackable_test) (s : tracker_settings)
           (cam : camera) (baseImg : gray) (baseDepths : dmat) (frame : preframe) (coarse : estimate) (lvl : Z)
  : outcome (level_problem * estimate) :=
  let* grid := interpolator frame lvl in
  let* res := collect (fun y => collect (fun x => pixel_residual trackable s cam baseImg baseDepths (fst coarse) x y)
                                        0 (Z.to_nat (gcols baseImg))) 0 (Z.to_nat (grows baseImg)) in
  let pr := {| l_cam := cam; l_grid := grid; l_res := res; l_constLight := negb (s_optimizeLight s);
               l_boundsA := (s_minA s, s_maxA s); l_boundsB := (s_minB s, s_maxB s) |} in
  Ok (pr, solve pr coarse).

(** An observed level: number, problem, estimate before and after *)
Record event := { e_level : Z; e_problem : level_problem; e_before : estimate; e_after : estimate }.

(** FrameTracker.cpp 84-90: levels n-1, ..., 0 *)
Fixpoint track_levels (solve : level_problem -> estimate -> estimate) (trackable : trackable_test) (t : tracker)
         (frame : preframe) (n : nat) (cur : estimate) : outcome (list event * estimate) :=
  match n with
  | O => Ok ([], cur)
  | S m =>
      let i := Z.of_nat m in
      let* cam := at_ (k_cams t) i in
      let* img := at_ (k_images t) i in
      let* dep := at_ (k_depths t) i in
      let* _ := at_ (f_pyr frame) i in
      let* pe := trackPyrLevel solve trackable (k_set t) cam img dep frame cur i in
      let* rest := track_levels solve trackable t frame m (snd pe) in
      Ok ({| e_level := i; e_problem := fst pe; e_before := cur; e_after := snd pe |} :: fst rest, snd rest)
  end.

(** FrameTracker.cpp 76-95 *)
Definition trackFrame (solve : level_problem -> estimate -> estimate) (trackable : trackable_test) (t : tracker)
           (frame : preframe) (coarse : estimate) : outcome (list event * estimate) :=
  track_levels solve trackable t frame (Z.to_nat (s_levelNum (k_set t))) coarse.

(** DsoSystem.cpp 20, 427-433 and 445-461: the camera pyramid, the tracker of the base frame and
    the tracking of a frame, which is built with the default settings (PreKeyFrame.h 23) *)
Definition track_in_system (solve : level_problem -> estimate -> estimate) (trackable : trackable_test)
           (s : tracker_settings) (cam : camera) (base : gray) (points : list (Q * Q)) (depths weights : list R)
           (frame : gray) (coarse : estimate) : outcome (list event * estimate) :=
  if s_levelNum s <? 0 then Throw
  else
    let cams := camPyr cam (Z.to_nat (s_levelNum s)) in
    let* pyr := depthedImagePyramid base (s_levelNum s) points depths weights in
    let* t := new_tracker cams pyr s in
    let* f := new_preframe frame default_levelNum in
    trackFrame solve trackable t f coarse.
