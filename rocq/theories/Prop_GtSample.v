(** C95: the sampling of the ground-truth cloud. *)
From Coq Require Import Reals ZArith List.
From Verif Require Import Outcome Dbl Pose GeomModel CamModel CalModel GtSampleModel GtSampleSpec GtSampleProofs.
Import ListNotations.
Open Scope Z_scope.

(** The distance of samples is the least one that fits the requested number of points; zero or
    negative requests are undefined behaviour. *)
Theorem C95_step : forall count w h gt s, 0 < count -> 0 < w -> 0 < h -> 0 < gt -> s <= INT_MAX ->
  (sample_step count w h gt = Ok s <-> least_step count w h gt s).
Proof. intros count w h gt s Hc Hw Hh Hg Hs. exact (conj (step_least count w h gt Hc Hw Hh Hg s) (fun L => step_total count w h gt Hc Hw Hh Hg s L Hs)). Qed.
Print Assumptions C95_step.

Theorem C95_bad_request_refuted : forall count w h gt, 0 < count -> 0 < w -> 0 < h -> gt <= 0 -> sample_step count w h gt = UB.
Proof.
  intros count w h gt Hc Hw Hh Hg.
  exact (match Z_le_lt_eq_dec gt 0 Hg with
         | left L => step_negative_gt count w h gt Hc Hw Hh L
         | right E => eq_ind_r (fun g => sample_step count w h g = UB) (step_zero_gt count w h) E
         end).
Qed.
Print Assumptions C95_bad_request_refuted.

(** The frames visited, and the points of each. *)
Theorem C95_points : forall C cam getDepths getFrame frameCount start count gt fs,
  0 < count -> 0 < width cam -> 0 < height cam -> 0 < gt ->
  sample_frames (C := C) cam getDepths getFrame frameCount start count gt = Ok fs ->
  exists step, least_step count (width cam) (height cam) gt step /\
    map fst fs = map (fun i => start + Z.of_nat i) (seq 0 (Z.to_nat count)) /\
    forall it pts, In (it, pts) fs ->
      0 <= it < frameCount /\
      exists depths frame pixels, getDepths it = Ok depths /\ getFrame it = Ok frame /\
        sampled (width cam) (height cam) step (pix depths) pixels /\
        Forall2 (fun xy pc => snd pc = pix frame (snd xy) (fst xy) /\
                              let u := unmap cam (P2 (IZR (fst xy)) (IZR (snd xy))) in
                              (u <> vzero -> on_ray u (pix depths (snd xy) (fst xy)) (fst pc))) pixels pts.
Proof. exact frames_spec. Qed.
Print Assumptions C95_points.

(** Runs exist for frames that can be read. *)
Theorem C95_total : forall C cam getDepths getFrame frameCount start count gt step,
  0 < count -> 0 < width cam -> 0 < height cam -> 0 < gt ->
  least_step count (width cam) (height cam) gt step ->
  width cam + step <= INT_MAX -> height cam + step <= INT_MAX -> width cam * height cam <= INT_MAX ->
  0 <= start -> start + count <= frameCount -> start + count <= INT_MAX ->
  (forall it, start <= it < start + count -> exists depths frame, getDepths it = Ok depths /\ getFrame it = Ok frame /\
     rows depths = height cam /\ cols depths = width cam /\ rows frame = height cam /\ cols frame = width cam) ->
  exists fs, sample_frames (C := C) cam getDepths getFrame frameCount start count gt = Ok fs.
Proof. exact frames_total. Qed.
Print Assumptions C95_total.

(** How many points there are: the request is kept if the step divides both sizes. *)
Theorem C95_count : forall C cam getDepths getFrame frameCount start count gt fs step,
  0 < count -> 0 < width cam -> 0 < height cam -> 0 < gt ->
  sample_frames (C := C) cam getDepths getFrame frameCount start count gt = Ok fs ->
  least_step count (width cam) (height cam) gt step ->
  total fs * (step * step) <= count * ((width cam + step - 1) * (height cam + step - 1)) /\
  ((step | width cam) -> (step | height cam) -> total fs <= gt).
Proof. exact frames_count. Qed.
Print Assumptions C95_count.

Theorem C95_exact : forall C cam getDepths getFrame frameCount start count gt fs step,
  0 < count -> 0 < width cam -> 0 < height cam -> 0 < gt ->
  sample_frames (C := C) cam getDepths getFrame frameCount start count gt = Ok fs ->
  least_step count (width cam) (height cam) gt step ->
  (forall it depths x y, getDepths it = Ok depths -> 0 <= x < width cam -> 0 <= y < height cam -> (pix depths y x <= 10000000000)%R) ->
  total fs = count * (((width cam + step - 1) / step) * ((height cam + step - 1) / step)).
Proof. exact frames_exact. Qed.
Print Assumptions C95_exact.

(** In general there are more points than requested: 16 for a request of 15. *)
Theorem C95_over_refuted : exists fs,
  sample_frames small_cam (fun _ => Ok flat_depths) (fun _ => Ok flat_frame) 2 1 1 15 = Ok fs /\ total fs = 16.
Proof. exact small_run. Qed.
Print Assumptions C95_over_refuted.

(** --gen_gt_only: each written point, seen from the pose of its frame, is the sampled one. *)
Theorem C95_world : forall C cam getDepths getFrame wtf start count gt pts,
  gen_gt_only (C := C) cam getDepths getFrame wtf start count gt = Ok pts ->
  exists fs, sample_frames cam getDepths getFrame (Z.of_nat (length wtf)) start count gt = Ok fs /\
    Forall2 (fun e Xc => snd Xc = snd (snd e) /\
       exists w, nth_error wtf (Z.to_nat (fst e)) = Some w /\ (rigid w -> act w (fst Xc) = fst (snd e)))
      (tagged fs) pts.
Proof. exact gen_spec. Qed.
Print Assumptions C95_world.

Example C95_case : least_step 1 10 10 15 3 /\ least_step 100 1280 720 1000000 10 /\ (10 | 1280) /\ (10 | 720).
Proof.
  split; [exact small_step|]. unfold least_step. split; [split; [reflexivity|]; split; [discriminate|]|split; [exists 128|exists 72]; reflexivity].
  intros t [H1 H2].
  assert (E : In t (map Z.of_nat (seq 0 10))).
  { apply in_map_iff. exists (Z.to_nat t). split; [apply Z2Nat.id; exact H1|]. apply in_seq. split; [apply Nat.le_0_l|].
    apply (Z2Nat.inj_lt t 10); [exact H1|discriminate|exact H2]. }
  simpl in E. repeat (destruct E as [<-|E]; [reflexivity|]). destruct E.
Qed.
