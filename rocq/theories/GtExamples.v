(** A concrete run observed by the ground-truth writers. *)
From Coq Require Import Ascii String ZArith QArith Bool Lia List Reals Lra.
From Verif Require Import Outcome Dbl Pose PoseProofs MotionModel MotionSpec MotionProofs
  DsoModel DsoSpec DsoExamples PlyModel PlySpec GtModel GtSpec GtProofs GtCloud OutputExamples.
Import ListNotations.
Open Scope Z_scope.

Definition forward (z : R) : se3 := SE qone (V3 0 0 z).

Definition gt_frame (n : Z) : frame_in se3 Z Z :=
  {| fi_num := n;
     fi_init := Ok (forward 4, [1], [2]);
     fi_track := Ok (forward 7);
     fi_trace := fun k l => l;
     fi_select := Ok [n];
     fi_choose := fun c need => Ok [];
     fi_sort := sort_desc;
     fi_ba_pose := fun k p => p;
     fi_ba_opt := fun k l => l |}.

Definition gt_settings (last : bool) : dso_settings :=
  {| maxKeyFrames := 3; maxOptimizedPoints := 6; shiftBetweenKeyFrames := 5; trackFromLastKf := last;
     continueChoosing := true; firstFramesSkip := 0; initialMaxFrame := 4; runBA := false |}.

Definition gt_calls : list (call se3 Z Z) := [AddFrame (gt_frame 1); AddFrame (gt_frame 2); AddFrame (gt_frame 3)].
Definition gt_k0 : kf se3 Z Z := {| kf_num := 1; kf_pose := sid; kf_tracked := []; kf_imm := [1]; kf_opt := [] |}.
Definition gt_k1 : kf se3 Z Z := {| kf_num := 2; kf_pose := sinv (forward 4); kf_tracked := []; kf_imm := [2]; kf_opt := [] |}.

Lemma gt_demo_run last : exists st,
  run sid smul sinv (fun x : Z => x) (fun x => 0 <? x) (gt_settings last) gt_calls (init (gt_settings last) [] []) = Ok st /\
  In (EvInitialized [gt_k0; gt_k1]) (st_log st) /\
  frames_of (reported (destroy st)) = (if last then [1; 2; 3] else [1; 3; 2]).
Proof.
  destruct last.
  - eexists. split; [cbv -[smul sinv sid forward]; reflexivity|]. split; [left; reflexivity|reflexivity].
  - eexists. split; [cbv -[smul sinv sid forward]; reflexivity|]. split; [left; reflexivity|reflexivity].
Qed.

Definition gt_poses : list se3 := [sid; forward 1; forward 3; forward 9].

Lemma rigid_forward z : rigid (forward z).
Proof. apply rigid_id. Qed.

Lemma forward_apart a b : (1 / 1000 <= Rabs (b - a))%R -> apart (forward a) (forward b).
Proof.
  intros H cg ch Cg Ch. rewrite (center_rel _ _ _ _ (rigid_forward a) (rigid_forward b) Cg Ch).
  replace (tr (smul (forward b) (sinv (forward a)))) with (vscale (b - a) (V3 0 0 1)).
  2:{ unfold forward, smul, sinv, qconj, qone, rot, vneg, vzero, vadd, vscale, dot, cross. cbn [so3 tr qw qv vx vy vz]. f_equal; ring. }
  rewrite vnorm_scale. replace (vnorm (V3 0 0 1)) with 1%R; [lra|].
  unfold vnorm, dot. cbn [vx vy vz]. replace (0 * 0 + 0 * 0 + 1 * 1)%R with 1%R by ring. symmetry. apply sqrt_1.
Qed.

Lemma forward_close a : close (forward a) (forward a).
Proof.
  intros cg ch Cg Ch. rewrite (center_rel _ _ _ _ (rigid_forward a) (rigid_forward a) Cg Ch).
  rewrite (sinv_r _ (rigid_forward a)). cbn [tr sid]. rewrite vnorm_zero. lra.
Qed.

Lemma gt_demo_inputs : Forall rigid gt_poses /\ rigid (kf_pose gt_k1) /\ gt_covers gt_poses [1; 2; 3] /\
  gt_at gt_poses (kf_num gt_k0) (forward 1) /\ gt_at gt_poses (kf_num gt_k1) (forward 3) /\
  apart (forward 1) (forward 3) /\ apart (sinv (kf_pose gt_k0)) (sinv (kf_pose gt_k1)).
Proof.
  split; [repeat constructor; apply rigid_id|]. split; [apply rigid_inv, rigid_id|].
  split; [intros n Hn; repeat (destruct Hn as [<-|Hn]; [cbn; lia|]); destruct Hn|].
  split; [split; [cbn; lia|reflexivity]|]. split; [split; [cbn; lia|reflexivity]|].
  split; [apply forward_apart; rewrite Rabs_right; lra|].
  cbn [kf_pose gt_k0 gt_k1]. rewrite (sinv_invol _ (rigid_forward 4)).
  replace (sinv sid) with (forward 0).
  - apply forward_apart. rewrite Rabs_right; lra.
  - unfold forward, sinv, sid, qconj, qone, rot, vneg, vzero, vadd, vscale, dot, cross. cbn [so3 tr qw qv vx vy vz].
    f_equal; f_equal; try ring. f_equal; ring.
Qed.

(** A snapshot of two keyframes. *)
Definition gt_snap : list (kf se3 Z Z) :=
  [ {| kf_num := 1; kf_pose := sid; kf_tracked := [(2, forward 1)]; kf_imm := []; kf_opt := [] |};
    {| kf_num := 2; kf_pose := forward 2; kf_tracked := [(3, forward 5)]; kf_imm := []; kf_opt := [] |} ].
Lemma gt_snap_restored : exists st, restore smul sinv (gt_settings true) 1 [] [] gt_snap = Ok st /\
  frames_of (reported (destroy st)) = [1; 2; 2; 3].
Proof. eexists. split; [cbv -[smul sinv sid forward]; reflexivity|]. reflexivity. Qed.
