(** A solver meeting the contract of C60, and concrete figures. *)
From Coq Require Import Reals ZArith List Bool Lra Lia Psatz.
From Verif Require Import Outcome Pose PoseProofs GeomModel GeomSpec GeomProofs.
Import ListNotations.
Open Scope R_scope.

(** The normal equations by Cramer's rule, or one column only if the columns are parallel. *)
Definition cramer (u v b : vec) : R * R :=
  let det := dot u u * dot v v - dot u v * dot u v in
  if Req_EM_T det 0 then
    if Req_EM_T (dot u u) 0 then
      if Req_EM_T (dot v v) 0 then (0, 0) else (0, dot b v / dot v v)
    else (dot b u / dot u u, 0)
  else ((dot b u * dot v v - dot b v * dot u v) / det, (dot b v * dot u u - dot b u * dot u v) / det).

Lemma dot_zero u : dot u u = 0 -> u = vzero.
Proof. intros H. apply vnorm_0. unfold vnorm. rewrite H. apply sqrt_0. Qed.

Lemma dot_vzero u : dot u vzero = 0.
Proof. destruct u. unfold dot, vzero. cbn. ring. Qed.
Lemma parallel_dot u v r : dot u u <> 0 -> dot u u * dot v v - dot u v * dot u v = 0 ->
  dot r u = 0 -> dot r v = 0.
Proof.
  intros N D R.
  assert (Z : vsub (vscale (dot u u) v) (vscale (dot u v) u) = vzero).
  { apply dot_zero.
    assert (E : dot (vsub (vscale (dot u u) v) (vscale (dot u v) u)) (vsub (vscale (dot u u) v) (vscale (dot u v) u))
                = dot u u * (dot u u * dot v v - dot u v * dot u v)).
    { destruct u, v. unfold dot, vsub, vscale. cbn. ring. }
    rewrite E, D. ring. }
  assert (F : dot u u * dot r v = dot u v * dot r u).
  { assert (G : dot r (vsub (vscale (dot u u) v) (vscale (dot u v) u)) = dot u u * dot r v - dot u v * dot r u).
    { generalize (dot u u) (dot u v). intros k m. destruct u, v, r. unfold dot, vsub, vscale. cbn. ring. }
    rewrite Z, dot_vzero in G. lra. }
  rewrite R, Rmult_0_r in F. apply Rmult_integral in F. destruct F; [contradiction|assumption].
Qed.

Lemma cramer_ok : least_squares_solver cramer.
Proof.
  intros u v b. unfold cramer. set (det := dot u u * dot v v - dot u v * dot u v).
  assert (X : forall x y, dot (vsub (vadd (vscale x u) (vscale y v)) b) u
                          = x * dot u u + y * dot u v - dot b u).
  { intros. rewrite dot_sub1, dot_add1, !dot_lin1, (dot_comm v u). reflexivity. }
  assert (Y : forall x y, dot (vsub (vadd (vscale x u) (vscale y v)) b) v
                          = x * dot u v + y * dot v v - dot b v).
  { intros. rewrite dot_sub1, dot_add1, !dot_lin1. reflexivity. }
  destruct (Req_EM_T det 0) as [D|D].
  - destruct (Req_EM_T (dot u u) 0) as [U|U].
    + apply dot_zero in U. subst u. destruct (Req_EM_T (dot v v) 0) as [V|V]; cbv zeta.
      * apply dot_zero in V. subst v. rewrite !dot_vzero. split; reflexivity.
      * rewrite dot_vzero. split; [reflexivity|]. rewrite Y. field. exact V.
    + cbv zeta. assert (E : dot (vsub (vadd (vscale (dot b u / dot u u) u) (vscale 0 v)) b) u = 0)
        by (rewrite X; field; exact U).
      split; [exact E|]. apply (parallel_dot u v); assumption.
  - cbv zeta. rewrite X, Y. unfold det in *. split; field; exact D.
Qed.

(** Segments. *)
Lemma crossing_segments :
  cross_properly (P2 0 1) (P2 2 (-1)) (P2 (1/2) (-1)) (P2 (3/2) 1).
Proof. apply opposite_cross; unfold opposite, turn; cbn [px py]; lra. Qed.
Lemma crossing_missed eps : 0 <= eps ->
  doesABIntersectCD (P2 0 1) (P2 2 (-1)) (P2 (1/2) (-1)) (P2 (3/2) 1) eps = false.
Proof.
  intros E.   unfold doesABIntersectCD. cbn [px py]. unfold Rltb.
  repeat (destruct (Rlt_dec _ _); try lra); reflexivity.
Qed.
Lemma crossing_found : doesABIntersectCD (P2 0 0) (P2 2 2) (P2 (1/2) 1) (P2 (3/2) (1/2)) (1/1000) = true.
Proof.
  apply intersect_complete; cbn [px py]; try lra; unfold opposite, turn; cbn [px py]; lra.
Qed.
Lemma crossing_swapped : doesABIntersectCD (P2 2 2) (P2 0 0) (P2 (1/2) 1) (P2 (3/2) (1/2)) (1/1000) = false.
Proof.
  unfold doesABIntersectCD. cbn [px py]. unfold Rltb.
  repeat (destruct (Rlt_dec _ _); try lra); reflexivity.
Qed.

Lemma crossing_missed_all : exists a b c d,
  cross_properly a b c d /\ forall eps, 0 <= eps -> doesABIntersectCD a b c d eps = false.
Proof. do 4 eexists. split; [exact crossing_segments|exact crossing_missed]. Qed.
Lemma crossing_order : exists a b c d eps, 0 < eps /\
  doesABIntersectCD a b c d eps = true /\ doesABIntersectCD b a c d eps = false.
Proof. do 5 eexists. split; [|split; [exact crossing_found|exact crossing_swapped]]. lra. Qed.
