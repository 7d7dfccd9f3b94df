(** C107: the program collecting tracing errors. *)
From Coq Require Import Reals ZArith QArith List Bool Lia Lra.
From Verif Require Import Outcome Pose GeomModel CalModel PixelSelectorModel PixelSelectorSpec PixelSelectorProofs PlyModel SnapshotModel SnapshotProofs
  StatModel StatSpec StatProofs StatTop StatExamples.
Import ListNotations.
Open Scope Z_scope.

(** C107: however the tasks are interleaved, the errors put out are those of the ranges one after another, each
    range worked off by itself from a new selector and a new generator. *)
Theorem C107_schedule : forall Img G maxloc shuffle gradient trace gen0 gauss fuel f rd parts sched n rows,
  test_count f = Ok n -> tiles 0 parts n ->
  collect Img G maxloc shuffle gradient trace gen0 gauss fuel f rd parts sched = Ok rows ->
  exists rss, Forall2 (fun r rs => in_turn (frame_errors Img G maxloc shuffle gradient trace gauss fuel f rd)
                                     (worker0 G gen0) (frames (f_start f) r) = Ok rs) parts rss /\
              rows = concat rss.
Proof. exact collect_ok. Qed.
Print Assumptions C107_schedule.

(** C107: if every range by itself has an end, no interleaving fails, and one that gives each task as many turns as it has
    frames and errors is complete. *)
Theorem C107_ends : forall Img G maxloc shuffle gradient trace gen0 gauss fuel f rd parts sched n rss,
  test_count f = Ok n -> tiles 0 parts n ->
  Forall2 (fun r rs => in_turn (frame_errors Img G maxloc shuffle gradient trace gauss fuel f rd)
                         (worker0 G gen0) (frames (f_start f) r) = Ok rs) parts rss ->
  let out := collect Img G maxloc shuffle gradient trace gen0 gauss fuel f rd parts sched in
  (out = NoFuel \/ out = Ok (concat rss)) /\
  ((forall k r rs, nth_error parts k = Some r -> nth_error rss k = Some rs ->
      (Z.to_nat (snd r - fst r) + length rs <= turns sched k)%nat) -> out = Ok (concat rss)).
Proof. exact collect_live. Qed.
Print Assumptions C107_ends.

(** C107: the selector carries its state from frame to frame, so that the number of errors depends on the
    division: the claim that it does not is false. *)
Theorem C107_division_refuted :
  ~ (forall Img G maxloc shuffle gradient trace gen0 gauss fuel f rd, maxloc_ok maxloc -> shuffle_ok shuffle ->
       forall parts parts' sched sched' n rows rows', test_count f = Ok n -> tiles 0 parts n -> tiles 0 parts' n ->
       collect Img G maxloc shuffle gradient trace gen0 gauss fuel f rd parts sched = Ok rows ->
       collect Img G maxloc shuffle gradient trace gen0 gauss fuel f rd parts' sched' = Ok rows' ->
       length rows = length rows').
Proof. exact division_matters. Qed.
Print Assumptions C107_division_refuted.

(** C107: every frame from the first to the last named must have its pose and that of its partner; with inexact
    motions the deviations must be positive and the camera must move. *)
Theorem C107_needs : forall Img G maxloc shuffle gradient trace gen0 gauss fuel f rd parts sched n rows,
  test_count f = Ok n -> tiles 0 parts n ->
  collect Img G maxloc shuffle gradient trace gen0 gauss fuel f rd parts sched = Ok rows ->
  forall i, 0 <= i < n ->
    (0 <= f_start f + i < Z.of_nat (length (rd_poses rd))) /\
    (0 <= f_start f + i + f_shift f < Z.of_nat (length (rd_poses rd))) /\
    (f_precise f = false -> (0 < f_trans f)%R /\ (0 < f_rot f)%R /\
       exists p1 p2, nth_error (rd_poses rd) (Z.to_nat (f_start f + i)) = Some p1 /\
                     nth_error (rd_poses rd) (Z.to_nat (f_start f + i + f_shift f)) = Some p2 /\
                     tr (smul p2 (sinv p1)) <> vzero).
Proof. exact collect_needs. Qed.
Print Assumptions C107_needs.

(** C107: as many frames as asked for, the last one and that of 2500 - shift included. *)
Theorem C107_count : forall f n, test_count f = Ok n ->
  1 <= n /\ f_start f + n - 1 = Z.min (f_end f) (2500 - f_shift f).
Proof. exact count_is. Qed.
Print Assumptions C107_count.

(** C107: not more errors than points asked for. *)
Theorem C107_bound : forall Img G maxloc shuffle gradient trace gen0 gauss fuel f rd parts sched n rows,
  test_count f = Ok n -> tiles 0 parts n ->
  collect Img G maxloc shuffle gradient trace gen0 gauss fuel f rd parts sched = Ok rows ->
  Z.of_nat (length rows) <= n * f_points f.
Proof. exact collect_bound. Qed.
Print Assumptions C107_bound.

(** C107: every row is that of a pair of frames and of a point traced between them, with the errors it claims to have. *)
Theorem C107_row : forall Img G maxloc shuffle gradient trace gen0 gauss fuel f rd parts sched n rows r,
  test_count f = Ok n -> tiles 0 parts n ->
  collect Img G maxloc shuffle gradient trace gen0 gauss fuel f rd parts sched = Ok rows -> In r rows ->
  exists i p1 p2 m im1 im2 dep q, 0 <= i < n /\
    nth_error (rd_poses rd) (Z.to_nat (f_start f + i)) = Some p1 /\ nth_error (rd_poses rd) (Z.to_nat (f_start f + i + f_shift f)) = Some p2 /\
    (f_precise f = true -> m = smul p2 (sinv p1)) /\
    rd_frame rd (f_start f + i) = Ok im1 /\ rd_frame rd (f_start f + i + f_shift f) = Ok im2 /\ rd_depths rd (f_start f + i) = Ok dep /\
    t_active (trace im1 im2 m q) = true /\ t_finite (trace im1 im2 m q) = true /\
    measured (rd_map rd) (rd_unmap rd) (smul p2 (sinv p1)) m dep (trace im1 im2 m q) r.
Proof. exact collect_row. Qed.
Print Assumptions C107_row.

(** C107: with exact motions a point traced to its true depth has no error, before and after the refinement. *)
Theorem C107_exact : forall Img G maxloc shuffle gradient trace gen0 gauss fuel f rd parts sched n rows r,
  f_precise f = true -> test_count f = Ok n -> tiles 0 parts n ->
  collect Img G maxloc shuffle gradient trace gen0 gauss fuel f rd parts sched = Ok rows -> In r rows ->
  (r_depth r = r_gt r -> r_err r = 0%R) /\ (r_before r = r_gt r -> r_bef r = 0%R).
Proof. exact collect_exact. Qed.
Print Assumptions C107_exact.

(** C107: of a camera that only turns, errors are only collected with exact motions, and the disparity is zero. *)
Theorem C107_still : forall Img G maxloc shuffle gradient trace gen0 gauss fuel f rd parts sched n rows r,
  (forall k v, (0 < k)%R -> rd_map rd (vscale k v) = rd_map rd v) ->
  (forall i p1 p2, 0 <= i < n -> nth_error (rd_poses rd) (Z.to_nat (f_start f + i)) = Some p1 ->
     nth_error (rd_poses rd) (Z.to_nat (f_start f + i + f_shift f)) = Some p2 -> tr (smul p2 (sinv p1)) = vzero) ->
  test_count f = Ok n -> tiles 0 parts n ->
  collect Img G maxloc shuffle gradient trace gen0 gauss fuel f rd parts sched = Ok rows -> In r rows ->
  f_precise f = true /\ ((0 < r_depth r)%R -> r_disp r = 0%R).
Proof. exact collect_still. Qed.
Print Assumptions C107_still.

(** C107: when each frame is a range of its own, all frames get the same noise, in units of their displacements: the
    generator begins anew for each range. *)
Theorem C107_same_noise : forall Img G maxloc shuffle gradient trace gen0 gauss fuel f rd z sched n rows,
  scales gauss z -> f_precise f = false -> test_count f = Ok n ->
  collect Img G maxloc shuffle gradient trace gen0 gauss fuel f rd (singles n) sched = Ok rows ->
  exists rss, rows = concat rss /\ Z.of_nat (length rss) = n /\
    forall k rs r, nth_error rss k = Some rs -> In r rs ->
      exists p1 p2 im1 im2 dep q,
        let i := f_start f + Z.of_nat k in
        let gt := smul p2 (sinv p1) in
        let d := (vnorm (tr gt) / sqrt 3)%R in
        let m := SE (qmul (so3_exp (vscale (PI / 180 * f_rot f * d) (fst (z gen0)))) (so3 gt))
                    (vadd (tr gt) (vscale (f_trans f * d) (snd (z gen0)))) in
        nth_error (rd_poses rd) (Z.to_nat i) = Some p1 /\ nth_error (rd_poses rd) (Z.to_nat (i + f_shift f)) = Some p2 /\
        rd_frame rd i = Ok im1 /\ rd_frame rd (i + f_shift f) = Ok im2 /\ rd_depths rd i = Ok dep /\
        r_depth r = t_depth (trace im1 im2 m q) /\
        errors_of Img rd gt m dep (trace im1 im2 m q) = Ok r.
Proof. exact collect_noise. Qed.
Print Assumptions C107_same_noise.

(** C107: after a frame of uniform brightness the selector never ends on the next frame of the same range. *)
Theorem C107_uniform_stuck : forall Img G maxloc shuffle (gradient : Img -> image) trace gen0 (gauss : R -> R -> G -> (vec * vec) * G) fuel f rd im1 im2 c block,
  maxloc_ok maxloc -> shuffle_ok shuffle -> 1 <= f_points f ->
  rd_frame rd (f_start f) = Ok im1 -> rd_frame rd (f_start f + 1) = Ok im2 ->
  (forall x y, (im_at (gradient im1) x y == c)%Q) -> 0 < im_rows (gradient im2) -> 0 < im_cols (gradient im2) ->
  adapted_block ps_default (ps_init ps_default) (f_points f) = Ok block -> 1 <= block ->
  (Z.to_nat (im_rows (gradient im1)) <= fuel)%nat -> (Z.to_nat (im_cols (gradient im1)) <= fuel)%nat ->
  forall parts b sched n rows, test_count f = Ok n -> tiles 0 ((0, b) :: parts) n -> 2 <= b ->
    collect Img G maxloc shuffle gradient trace gen0 gauss fuel f rd ((0, b) :: parts) sched <> Ok rows.
Proof. exact stuck. Qed.
Print Assumptions C107_uniform_stuck.

(** C107: the words of the file are the nine numbers of each error, in order. *)
Theorem C107_file : forall dprint l, (forall x, word (dprint x)) ->
  tokens [] (errors_file dprint l) = flat_map (fun r => map dprint (fields r)) l.
Proof. exact file_words. Qed.
Print Assumptions C107_file.

(** Two frames in one range give 19 errors, in two ranges 11; the hypotheses of the statements above hold of them. *)
Example C107_ex : exists s1 s2 r1 r2,
  demo_collect 100 true Wide Small together s1 = Ok r1 /\ demo_collect 100 true Wide Small apart s2 = Ok r2 /\
  length r1 = 19%nat /\ length r2 = 11%nat.
Proof. exact differ. Qed.
Example C107_ex_tiles : test_count (demo_flags true) = Ok 2 /\ tiles 0 apart 2 /\ tiles 0 together 2 /\ f_precise (demo_flags true) = true.
Proof. exact (conj (demo_count true) (conj apart_tiles (conj together_tiles eq_refl))). Qed.
Example C107_ex_still :
  (forall k v, (0 < k)%R -> rd_map (demo_reader true Wide Small) (vscale k v) = rd_map (demo_reader true Wide Small) v) /\
  (forall i p1 p2, 0 <= i < 2 ->
     nth_error (rd_poses (demo_reader true Wide Small)) (Z.to_nat (f_start (demo_flags true) + i)) = Some p1 ->
     nth_error (rd_poses (demo_reader true Wide Small)) (Z.to_nat (f_start (demo_flags true) + i + f_shift (demo_flags true))) = Some p2 ->
     tr (smul p2 (sinv p1)) = vzero).
Proof. exact (conj (demo_homogeneous true Wide Small) demo_still). Qed.
Example C107_ex_moving : exists s r, demo_collect 100 false Small Small (singles 2) s = Ok r /\ length r = 2%nat.
Proof. exact moving. Qed.
Example C107_ex_scales : scales demo_gauss (fun _ => (V3 1 0 0, V3 0 1 0)).
Proof. exact demo_scales. Qed.
(** A dark frame first: an end in two ranges, none in one. *)
Example C107_ex_dark : (exists s r, demo_collect 100 true Dark Small apart s = Ok r /\ length r = 1%nat) /\
  (forall fuel sched rows, (30 <= fuel)%nat -> demo_collect fuel true Dark Small together sched <> Ok rows).
Proof. exact (conj dark_ends dark_never). Qed.
