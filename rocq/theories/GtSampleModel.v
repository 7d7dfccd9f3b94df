(** Model of the sampling of the ground-truth cloud in samples/mfov/genply/main.cpp, with real
    arithmetic in place of doubles. *)
From Coq Require Import Reals ZArith List Bool.
From Verif Require Import Outcome Dbl Pose GeomModel CamModel CalModel GtModel.
Import ListNotations.
Open Scope Z_scope.
Open Scope outcome_scope.

(** std::ceil *)
Definition ceil (x : R) : R := (- IZR (Int_part (- x)))%R.

(** main.cpp 69-71: the distance between sampled pixels.  Division by zero gives an infinity or a
    NaN, the root of a negative number a NaN; their conversion to int is undefined. *)
Definition sample_step (count w h gt_points : Z) : outcome Z :=
  if gt_points =? 0 then UB
  else
    let q := (IZR count * IZR w * IZR h / IZR gt_points)%R in
    if Rlt_dec q 0 then UB else to_int (ceil (sqrt q)).

(** main.cpp 77-78: the values of a loop counter from [pos] in steps below [limit]; the increment
    may overflow.  [fuel] bounds the turns. *)
Fixpoint counter (fuel : nat) (pos step limit : Z) : outcome (list Z) :=
  if pos <? limit then
    match fuel with
    | O => NoFuel
    | S f => if INT_MAX <? pos + step then UB
             else let* r := counter f (pos + step) step limit in Ok (pos :: r)
    end
  else Ok [].

(** Eigen's normalize(): the zero vector is left alone. *)
Definition normalized (v : vec) : vec :=
  if Rlt_dec 0 (dot v v) then vscale (/ vnorm v) v else v.

Section Sample.
Variable C : Type.
Variable cam : camera.

(** main.cpp 79-86: one pixel *)
Definition sample_pixel (depths : picture R) (frame : picture C) (acc : list (vec * C)) (xy : Z * Z)
  : outcome (list (vec * C)) :=
  let '(x, y) := xy in
  let p := normalized (unmap cam (P2 (IZR x) (IZR y))) in
  let* d := at_pix depths y x in
  if Rlt_dec 10000000000 d then Ok acc
  else let* c := at_pix frame y x in Ok (acc ++ [(vscale d p, c)]).

(** main.cpp 78-87: one row *)
Definition sample_row (step : Z) (depths : picture R) (frame : picture C) (acc : list (vec * C)) (y : Z)
  : outcome (list (vec * C)) :=
  let* xs := counter (Z.to_nat (width cam)) 0 step (width cam) in
  ofold (sample_pixel depths frame) (map (fun x => (x, y)) xs) acc.

(** main.cpp 74-87: one frame; [getDepths] and [getFrame] are MultiFovReader.cpp 65-89.  The
    reservation (74) divides by the step. *)
Definition sample_frame (getDepths : Z -> outcome (picture R)) (getFrame : Z -> outcome (picture C))
  (frameCount step it : Z) : outcome (list (vec * C)) :=
  if negb ((0 <=? it) && (it <? frameCount)) then UB
  else if step =? 0 then UB
  else if negb (in_int ((height cam / step) * (width cam / step))) then UB
  else
    let* depths := getDepths it in
    let* frame := getFrame it in
    let* ys := counter (Z.to_nat (height cam)) 0 step (height cam) in
    ofold (sample_row step depths frame) ys [].

(** main.cpp 64-89: readPointsInFrameGT.  The result lists the frames visited with their points; all
    other entries of the two vectors stay empty. *)
Definition sample_frames (getDepths : Z -> outcome (picture R)) (getFrame : Z -> outcome (picture C))
  (frameCount start count gt_points : Z) : outcome (list (Z * list (vec * C))) :=
  let* step := sample_step count (width cam) (height cam) gt_points in
  if negb (in_int (start + count)) then UB
  else
    omap (fun it => let* l := sample_frame getDepths getFrame frameCount step it in Ok (it, l))
         (map (fun i => start + Z.of_nat i) (seq 0 (Z.to_nat count))).

(** main.cpp 129-145: the points written with --gen_gt_only, in the order of the frames.  Negative
    [gt_points] would throw in reserve (135-136). *)
Definition gen_gt_only (getDepths : Z -> outcome (picture R)) (getFrame : Z -> outcome (picture C))
  (worldToFrame : list se3) (start count gt_points : Z) : outcome (list (vec * C)) :=
  let* frames := sample_frames getDepths getFrame (Z.of_nat (length worldToFrame)) start count gt_points in
  if gt_points <? 0 then Throw
  else
    let* parts := omap (fun e =>
        let* w := at_frame worldToFrame (fst e) in
        Ok (map (fun pc : vec * C => (act (sinv w) (fst pc), snd pc)) (snd e))) frames in
    Ok (concat parts).
End Sample.

Arguments sample_pixel {C} cam.
Arguments sample_row {C} cam.
Arguments sample_frame {C} cam.
Arguments sample_frames {C} cam.
Arguments gen_gt_only {C} cam.
