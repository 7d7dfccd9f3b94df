(** Properties of the tracking of frames (C59, C76, C77). *)
From Coq Require Import ZArith QArith Reals List.
From Verif Require Import Outcome Pose CamModel CamSpec PyramidModel PyramidSpec TrackerModel TrackerSpec TrackerProofs TrackerMore TrackerExamples.
Import ListNotations.
Open Scope Z_scope.

(** C59: with 2 to 6 levels tracking goes through all levels from the coarsest to the finest, each
    starting from the result of the one before and with the problem of that level. *)
Theorem C59_levels : forall solve trackable s cam base points ds ws frame coarse,
  2 <= s_levelNum s <= 6 -> valid_base base points ds ws -> s_useGrad s = false ->
  exists images depths fimages es fin,
    depthedImagePyramid base (s_levelNum s) points ds ws = Ok (images, depths) /\ imagePyramid frame 6 = Ok fimages /\
    track_in_system solve trackable s cam base points ds ws frame coarse = Ok (es, fin) /\
    map e_level es = map Z.of_nat (rev (seq 0 (Z.to_nat (s_levelNum s)))) /\ chained coarse es fin /\
    forall e, In e es -> well_posed solve trackable s cam images depths fimages e.
Proof. exact system_total. Qed.
Print Assumptions C59_levels.

(** C59: with more than 6 levels the first frame reads a missing level. *)
Theorem C59_more_refuted : forall solve trackable s cam base points ds ws frame coarse,
  6 < s_levelNum s -> valid_base base points ds ws ->
  track_in_system solve trackable s cam base points ds ws frame coarse = UB.
Proof. exact system_ub. Qed.
Print Assumptions C59_more_refuted.

(** C59: with one level the tracker reads a missing camera. *)
Theorem C59_one_refuted : forall solve trackable s cam base points ds ws frame coarse,
  s_levelNum s = 1 -> valid_base base points ds ws ->
  track_in_system solve trackable s cam base points ds ws frame coarse = UB.
Proof. exact system_one. Qed.
Print Assumptions C59_one_refuted.

(** C59: without levels nothing is tracked. *)
Theorem C59_none : forall solve trackable s cam base points ds ws frame coarse,
  s_levelNum s <= 0 -> forall r, track_in_system solve trackable s cam base points ds ws frame coarse <> Ok r.
Proof. exact system_none. Qed.
Print Assumptions C59_none.

(** C59: a frame itself can be built with 1 to 8 levels; more overrun its arrays. *)
Theorem C59_frame : forall img n, 1 <= n <= 8 -> exists f,
  new_preframe img n = Ok f /\ imagePyramid img n = Ok (f_pyr f) /\ f_grids f = f_pyr f /\ f_levelNum f = n /\ length (f_pyr f) = Z.to_nat n.
Proof. exact new_preframe_ok. Qed.
Print Assumptions C59_frame.

Theorem C59_frame_refuted : forall img n, 8 < n -> new_preframe img n = UB.
Proof. exact new_preframe_ub. Qed.
Print Assumptions C59_frame_refuted.

Example C59_case : valid_base ex_img ex_points ex_ds ex_ws /\ level_solver (fun pr e => e) /\ 2 <= s_levelNum (ex_set 6 false true) <= 6.
Proof. split; [exact ex_valid|split; [exact ex_solver|cbn; split; discriminate]]. Qed.

(** C76: with gradient weighting and no depth on the border of any level, tracking works and
    every residual has the factor of its gradient. *)
Theorem C76_weighted : forall solve trackable s cam base points ds ws frame coarse images depths,
  2 <= s_levelNum s <= 6 -> valid_base base points ds ws ->
  depthedImagePyramid base (s_levelNum s) points ds ws = Ok (images, depths) -> borders_free s images depths ->
  exists fimages es fin, imagePyramid frame 6 = Ok fimages /\
    track_in_system solve trackable s cam base points ds ws frame coarse = Ok (es, fin) /\
    map e_level es = map Z.of_nat (rev (seq 0 (Z.to_nat (s_levelNum s)))) /\ chained coarse es fin /\
    forall e, In e es -> well_posed solve trackable s cam images depths fimages e.
Proof. exact system_weighted. Qed.
Print Assumptions C76_weighted.

(** C76: the factor is positive and at most 1, and 1 exactly on flat pixels. *)
Theorem C76_range : forall weighted c img x y w, (0 < c)%R -> weight_of weighted c img x y w -> (0 < w <= 1)%R.
Proof. exact weight_range. Qed.
Print Assumptions C76_range.

Theorem C76_flat : forall c img x y w, (0 < c)%R -> weight_of true c img x y w -> (w = 1%R <-> central img x y = (0, 0)%R).
Proof. exact weight_flat. Qed.
Print Assumptions C76_flat.

(** C76: a point whose cell on the coarsest level is at the border makes tracking read outside
    the image, even if the point itself is far from the border. *)
Theorem C76_border_refuted : forall solve trackable s cam base points ds ws frame coarse p x y,
  2 <= s_levelNum s <= 6 -> valid_base base points ds ws -> s_useGrad s = true ->
  Forall (fun d => 0 < d)%R ds -> Forall (fun w => 1 / 100000000 < w)%R ws ->
  (forall c x y d, trackable c x y d (fst coarse) = true) ->
  let k := 2 ^ (s_levelNum s - 1) in
  In p points -> 0 <= x < gcols base / k -> 0 <= y < grows base / k ->
  (exists bx by_, in_pixel (fst p) bx /\ in_pixel (snd p) by_ /\ in_block (s_levelNum s - 1) x y bx by_) ->
  x = 0 \/ y = 0 \/ x = gcols base / k - 1 \/ y = grows base / k - 1 ->
  track_in_system solve trackable s cam base points ds ws frame coarse = UB.
Proof. exact border_reached. Qed.
Print Assumptions C76_border_refuted.

Example C76_case : (forall solve cam frame coarse,
    track_in_system solve (fun _ _ _ _ _ => true) (ex_set 5 true false) cam ex_img ex_points ex_ds ex_ws frame coarse = UB) /\
  (forall images depths, depthedImagePyramid ex_img 3 [] [] [] = Ok (images, depths) -> borders_free (ex_set 3 true false) images depths).
Proof. split; [exact ex_border|exact (proj2 ex_no_points)]. Qed.

(** C77: the light given back is the one given when it is not optimised. *)
Theorem C77_constant : forall solve trackable s cam base points ds ws frame coarse es fin,
  level_solver solve -> valid_base base points ds ws -> s_useGrad s = false -> s_optimizeLight s = false ->
  track_in_system solve trackable s cam base points ds ws frame coarse = Ok (es, fin) -> snd fin = snd coarse.
Proof. exact system_light_constant. Qed.
Print Assumptions C77_constant.

(** C77: otherwise it is within the configured bounds, unless nothing was changed at all. *)
Theorem C77_bounds : forall solve trackable s cam base points ds ws frame coarse es fin,
  level_solver solve -> valid_base base points ds ws -> s_useGrad s = false ->
  track_in_system solve trackable s cam base points ds ws frame coarse = Ok (es, fin) ->
  fin = coarse \/ ((s_minA s <= fst (snd fin) <= s_maxA s)%R /\ (s_minB s <= snd (snd fin) <= s_maxB s)%R).
Proof. exact system_light_bounds. Qed.
Print Assumptions C77_bounds.

(** C77: a predicted light outside the bounds makes every level fail: the prediction itself is
    returned. *)
Theorem C77_outside_refuted : forall solve trackable s cam base points ds ws frame coarse es fin,
  (forall pr e, ~ ((fst (l_boundsA pr) <= fst (snd e) <= snd (l_boundsA pr))%R /\
                   (fst (l_boundsB pr) <= snd (snd e) <= snd (l_boundsB pr))%R) -> solve pr e = e) ->
  valid_base base points ds ws -> s_useGrad s = false ->
  ~ ((s_minA s <= fst (snd coarse) <= s_maxA s)%R /\ (s_minB s <= snd (snd coarse) <= s_maxB s)%R) ->
  track_in_system solve trackable s cam base points ds ws frame coarse = Ok (es, fin) -> fin = coarse.
Proof. exact light_outside. Qed.
Print Assumptions C77_outside_refuted.

Example C77_case : forall m, valid_base ex_img ex_points ex_ds ex_ws /\ level_solver (ex_solve m) /\
  forall pr e, ~ ((fst (l_boundsA pr) <= fst (snd e) <= snd (l_boundsA pr))%R /\
                  (fst (l_boundsB pr) <= snd (snd e) <= snd (l_boundsB pr))%R) -> ex_solve m pr e = e.
Proof. intros m. split; [exact ex_valid|exact (ex_solve_ok m)]. Qed.
