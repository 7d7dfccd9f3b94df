(** Concrete cases for the estimation of a motion from two views. *)
From Coq Require Import Reals List Bool ZArith Lia Lra Psatz.
From Verif Require Import Outcome Pose PoseProofs GeomModel GeomSpec GeomExamples StereoModel StereoSpec StopModel
  EssModel EssSpec EssProofs EssMore EssTop EssExamples PairModel PairSpec PairProofs PairTop.
Import ListNotations.
Open Scope R_scope.

(** One step ahead; a pinhole camera; five points. *)
Definition step_ahead : se3 := SE qone (V3 0 0 1).
Definition lift (p : pt) : vec := V3 (px p) (py p) 1.
Definition views (x y : R) : pt * pt := (P2 x y, P2 (x / 2) (y / 2)).
Definition five_views : list (pt * pt) := [views 1 0; views 0 1; views 1 1; views 2 1; views 1 2].
(** A sixth correspondence that is wrong. *)
Definition six_views : list (pt * pt) := five_views ++ [(P2 1 0, P2 0 5)].
Definition step_E : mat := toEssential step_ahead.
Definition step_svd (E : mat) : mat * mat :=
  if Rle_dec 0 (vx (mr1 E)) then (Wmat, mI) else (M33 (V3 0 1 0) (V3 (-1) 0 0) (V3 0 0 1), mI).
Definition step_est (_ : list (vec * vec)) : list mat := [step_E].
Definition step_draws (_ : nat) : list Z := [3; 1; 4; 0; 2]%Z.

Lemma step_rigid : rigid step_ahead. Proof. unfold rigid, unit_quat, qnorm2, step_ahead, qone, dot. cbn. ring. Qed.
Lemma step_moves : tr step_ahead <> vzero. Proof. unfold step_ahead, vzero. cbn. intros H. injection H as H. lra. Qed.
Lemma act_step x y z : act step_ahead (V3 x y z) = V3 x y (z + 1).
Proof. unfold act, step_ahead. cbn [so3 tr]. rewrite rot_one. unfold vadd. cbn. f_equal; ring. Qed.

Lemma view_shown x y : (x <> 0 \/ y <> 0) -> shows pinhole lift step_ahead (views x y) (V3 x y 1).
Proof.
  intros N. unfold shows. rewrite act_step. split; [|split; [|split]].
  - exists 1. split; [lra|]. unfold lift, views, vscale. cbn. f_equal; ring.
  - exists (1 / 2). split; [lra|]. unfold lift, views, vscale. cbn. f_equal; field.
  - intros k K. unfold pinhole, views, vscale. cbn. split; f_equal; field; lra.
  - unfold parallel, step_ahead. cbn [tr so3]. rewrite rot_one. unfold cross, vzero. cbn. intros H. injection H as H1 H2. lra.
Qed.
Lemma five_shown : forall img, In img five_views -> exists P, shows pinhole lift step_ahead img P.
Proof. intros img [<-|[<-|[<-|[<-|[<-|[]]]]]]; eexists; apply view_shown; lra. Qed.

Lemma step_E_value : step_E = M33 (V3 0 (-1) 0) (V3 1 0 0) (V3 0 0 0).
Proof. apply mapply_ext. intros q. unfold step_E, toEssential. rewrite mapply_mmul, rotm_apply. cbn [step_ahead so3 tr]. rewrite rot_one, mapply_hat. destruct q as [? ? ?]. munfold. f_equal; ring. Qed.
Lemma step_true : true_matrix step_ahead step_E.
Proof.
  exists 1. split; [lra|]. apply essential_matrix. unfold step_E, toEssential. rewrite mscale_1. reflexivity.
Qed.
Lemma step_svd_ok E : true_matrix step_ahead E -> is_svd step_svd E.
Proof.
  intros (k & K & HE). assert (V : E = M33 (V3 0 (- k) 0) (V3 k 0 0) (V3 0 0 0)).
  { apply mapply_ext. intros q. rewrite HE. cbn [step_ahead tr so3]. rewrite rot_one. destruct q as [? ? ?]. munfold. f_equal; ring. }
  rewrite V. unfold is_svd, step_svd. cbn [mr1 vx]. destruct (Rle_dec 0 k) as [P|P].
  - split; [exact ortho_W|]. split; [unfold orthonormal; mring|]. exists k, k, 0. repeat split; try lra. unfold diag, Wmat, mI. munfold. f_equal; f_equal; ring.
  - split; [unfold orthonormal; unfold mI; munfold; f_equal; f_equal; ring|]. split; [unfold orthonormal; mring|]. exists (- k), (- k), 0. repeat split; try lra. unfold diag, mI. munfold. f_equal; f_equal; ring.
Qed.
Lemma step_decomposes n : decomposes step_svd (fun h => step_est (sample (map (with_ray lift) five_views) h)) n step_ahead step_E.
Proof. intros E [T|[->|(h & _ & [<-|[]])]]; apply step_svd_ok; [exact T|exact step_true|exact step_true]. Qed.
Lemma step_decomposes6 n : decomposes step_svd (fun h => step_est (sample (map (with_ray lift) six_views) h)) n step_ahead step_E.
Proof. intros E [T|[->|(h & _ & [<-|[]])]]; apply step_svd_ok; [exact T|exact step_true|exact step_true]. Qed.
Lemma step_draws_ok n : (5 <= n)%nat -> draws_five n step_draws /\ forall it, NoDup (step_draws it).
Proof.
  intros N. split.
  - intros it. split; [reflexivity|]. intros i Hi. cbn in Hi. lia.
  - intros it. unfold step_draws. repeat (constructor; [cbn; lia|]). constructor.
Qed.
Lemma six_good : NoDup (seq 0 5) /\ (length six_views < 2 * length (seq 0 5))%nat /\
  forall i, In i (seq 0 5) -> exists img P, nth_error six_views i = Some img /\ shows pinhole lift step_ahead img P.
Proof.
  split; [apply seq_NoDup|]. split; [cbn; lia|]. intros i Hi. cbn in Hi.
  destruct Hi as [<-|[<-|[<-|[<-|[<-|[]]]]]]; (eexists; eexists; split; [reflexivity|apply view_shown; lra]).
Qed.

(** The motion of five views is found. *)
Lemma five_views_found : exists r e, call_coarse pinhole step_svd conv cramer step_est 1 (1 / 2) false 10 (map (with_ray lift) five_views) step_E step_draws
    (estimator_new (map (with_ray lift) five_views)) = Ok (r, e) /\ same_motion r (unit_tr step_ahead) /\ g_inl (e_sge e) = seq 0 5.
Proof.
  destruct (step_draws_ok 5) as [D N]; [lia|].
  destruct (run_coarse pinhole lift step_svd conv cramer step_est 1 (1 / 2) false 10 five_views step_ahead step_E step_draws) as (r & e & ds & e' & A & B & C & _).
  - apply step_decomposes.
  - exact conv_ok.
  - exact cramer_basic.
  - lra.
  - lra.
  - lia.
  - exact step_rigid.
  - exact step_moves.
  - exact five_shown.
  - exact D.
  - intros h E _ [<-|[]] _. exact step_true.
  - intros h _. exists step_E. split; [left; reflexivity|exact step_true].
  - exists 0%nat. split; [lia|apply N].
  - exists r, e. auto.
Qed.
Lemma six_views_found : exists r st, coarse pinhole step_svd conv cramer step_est 1 (1 / 2) true 10 (map (with_ray lift) six_views) step_E step_draws (sge_new sid) = Ok (r, st) /\
  same_motion r (unit_tr step_ahead) /\ incl (seq 0 5) (g_inl st).
Proof.
  destruct (step_draws_ok 6) as [D N]; [lia|]. destruct six_good as (G1 & G2 & G3).
  destruct (coarse_outliers pinhole lift step_svd conv cramer step_est 1 (1 / 2) true 10 six_views step_ahead (seq 0 5) step_E step_draws 0) as (r & st & A & B & _ & C).
  - apply step_decomposes6.
  - exact conv_ok.
  - exact cramer_basic.
  - lra.
  - lra.
  - lia.
  - exact step_rigid.
  - exact step_moves.
  - exact G1.
  - exact G3.
  - exact G2.
  - exact D.
  - intros h E _ [<-|[]] _. exact step_true.
  - intros h _ _. exists step_E. split; [left; reflexivity|exact step_true].
  - apply N.
  - intros i Hi. cbn in Hi. destruct Hi as [<-|[<-|[<-|[<-|[<-|[]]]]]]; cbn; auto 10.
  - lia.
  - left. reflexivity.
  - exists r, st. auto.
Qed.
