From Coq Require Import Reals ZArith List Bool Lra Lia Psatz Permutation.
From Verif Require Import Pose PoseProofs GeomModel SectorModel ArcModel ArcSpec.
Import ListNotations.
Open Scope R_scope.

Ltac sring := intros; vdestruct; unfold vadd, vsub, vscale, vneg, cross, dot, vzero in *; cbn [vx vy vz] in *; ring.

Lemma leb_iff x y : Rleb x y = true <-> x <= y.
Proof. unfold Rleb. destruct (Rle_dec x y); split; (auto || discriminate || contradiction). Qed.

(** ** Points on the curve *)
Lemma dot_ge v : 0 <= dot v v. Proof. apply dot_self_nonneg. Qed.
Lemma dot_pos0 v : v <> vzero -> 0 < dot v v.
Proof.
  intro N. pose proof (dot_ge v). destruct (Req_dec (dot v v) 0) as [Z|]; [|lra].
  exfalso. apply N, vnorm_0. unfold vnorm. rewrite Z. apply sqrt_0.
Qed.
Lemma norm_pos v : v <> vzero -> 0 < vnorm v.
Proof. intro N. unfold vnorm. apply sqrt_lt_R0, dot_pos0, N. Qed.

Lemma normalized_along v : v <> vzero -> normalized v = along v.
Proof.
  intro N. unfold normalized, Rltb. destruct (Rlt_dec 0 (dot v v)) as [|C]; [reflexivity|]. destruct C. apply dot_pos0, N.
Qed.
Lemma normalized_zero : normalized vzero = vzero.
Proof.
  unfold normalized, Rltb. destruct (Rlt_dec 0 (dot vzero vzero)) as [L|]; [|reflexivity].
  exfalso. unfold dot, vzero in L. cbn in L. lra.
Qed.
Lemma along_unit v : v <> vzero -> dot (along v) (along v) = 1.
Proof.
  intro N. unfold along. pose proof (norm_pos v N). assert (D : forall k, dot (vscale k v) (vscale k v) = k * k * dot v v) by (intro k; sring).
  rewrite D, <- vnorm_sq. field. lra.
Qed.

Lemma unit_nonzero v : dot v v = 1 -> v <> vzero.
Proof. intros H ->. unfold dot, vzero in H. cbn in H. lra. Qed.
Lemma unit_vnorm v : dot v v = 1 -> vnorm v = 1.
Proof. intro H. unfold vnorm. rewrite H. apply sqrt_1. Qed.

Lemma double_cross n f : cross n (cross n f) = vsub (vscale (dot n f) n) (vscale (dot n n) f).
Proof. vring. Qed.

Lemma rot_axis n f c s : rot (Q4 c (vscale s n)) f =
  vadd (vadd (vscale (c * c - s * s * dot n n) f) (vscale (2 * (s * s) * dot n f) n)) (vscale (2 * s * c) (cross n f)).
Proof. vring. Qed.
Lemma drop_zero x y u v w : vadd (vadd (vscale x u) (vscale (y * 0) v)) w = vadd (vscale x u) w.
Proof. vring. Qed.
Lemma cross_shift k f g : cross (vscale k (cross f g)) f = vscale k (vsub (vscale (dot f f) g) (vscale (dot f g) f)).
Proof. vring. Qed.
Lemma orth k f g : dot (vscale k (cross f g)) f = 0.
Proof. sring. Qed.
Lemma gather x y k c f g : vadd (vscale x f) (vscale y (vscale k (vsub g (vscale c f)))) = vadd (vscale (x - y * k * c) f) (vscale (y * k) g).
Proof. vring. Qed.

(** rotation about a unit axis of a vector orthogonal to it *)
Lemma rot_about n f a : dot n n = 1 -> dot n f = 0 ->
  rot (so3_exp (vscale a n)) f = vadd (vscale (cos a) f) (vscale (sin a) (cross n f)).
Proof.
  intros U O. assert (E : so3_exp (vscale a n) = Q4 (cos (a / 2)) (vscale (sin (a / 2)) n)).
  { pose proof (so3_exp_along n 1 (a / 2) (unit_vnorm n U) Rlt_0_1) as H.
    replace (2 * (a / 2) / 1) with a in H by field. replace (sin (a / 2) / 1) with (sin (a / 2)) in H by field. exact H. }
  rewrite E.
  rewrite rot_axis, O, U, drop_zero. replace (cos a) with (cos (a / 2) * cos (a / 2) - sin (a / 2) * sin (a / 2) * 1); [replace (sin a) with (2 * sin (a / 2) * cos (a / 2)); [reflexivity|]|].
  - rewrite <- sin_2a. f_equal. field.
  - rewrite Rmult_1_r, <- cos_2a. f_equal. field.
Qed.

Lemma lagrange f g : dot (cross f g) (cross f g) = dot f f * dot g g - dot f g * dot f g.
Proof. sring. Qed.

Section Arc.
Variables f g : vec.
Hypothesis F : dot f f = 1.
Hypothesis G : dot g g = 1.

Lemma dot_range : -1 <= dot f g <= 1.
Proof using F G.
  pose proof (dot_ge (cross f g)) as H. rewrite lagrange, F, G in H. split; nra.
Qed.

Let th := acos (dot f g).
Lemma cos_th : cos th = dot f g. Proof using F G. apply cos_acos, dot_range. Qed.
Lemma th_range : 0 <= th <= PI. Proof using. apply acos_bound. Qed.

Lemma cross_norm : vnorm (cross f g) = sin th.
Proof using F G.
  unfold vnorm. rewrite lagrange, F, G. unfold th. rewrite sin_acos by apply dot_range. f_equal. unfold Rsqr. ring.
Qed.

Lemma axis_unit : cross f g <> vzero -> dot (along (cross f g)) (along (cross f g)) = 1.
Proof using. apply along_unit. Qed.

Lemma axis_orth : dot (along (cross f g)) f = 0.
Proof using. apply orth. Qed.

Lemma sin_th_pos : cross f g <> vzero -> 0 < sin th.
Proof using F G. intro N. rewrite <- cross_norm. apply norm_pos, N. Qed.

Lemma th_open : cross f g <> vzero -> 0 < th < PI.
Proof using F G.
  intro N. pose proof (sin_th_pos N) as S. pose proof th_range as [A B]. split.
  - destruct A as [A|A]; [exact A|]. rewrite <- A, sin_0 in S. lra.
  - destruct B as [B|B]; [exact B|]. rewrite B, sin_PI in S. lra.
Qed.

(** the point at angle [a] *)
Lemma at_angle a : cross f g <> vzero ->
  rot (so3_exp (vscale a (along (cross f g)))) f =
  vadd (vscale (sin (th - a) / sin th) f) (vscale (sin a / sin th) g).
Proof using F G.
  intro N. pose proof (sin_th_pos N) as S. rewrite rot_about; [|apply axis_unit, N|apply axis_orth].
  assert (X : cross (along (cross f g)) f = vscale (/ sin th) (vsub g (vscale (cos th) f))).
  { unfold along. rewrite cross_norm, cos_th.
    rewrite cross_shift, F, vscale_1. reflexivity. }
  rewrite X, sin_minus.
  rewrite gather. f_equal; f_equal; field; lra.
Qed.
End Arc.

Lemma cross_zero_unit f g : dot f f = 1 -> dot g g = 1 -> cross f g = vzero -> f = g \/ f = vneg g.
Proof.
  intros F G Z. pose proof (lagrange f g) as L. rewrite Z, F, G in L.
  assert (S : dot f g * dot f g = 1) by (unfold dot at 1, vzero in L; cbn [vx vy vz] in L; lra).
  assert (D1 : dot (vsub f g) (vsub f g) = dot f f + dot g g - 2 * dot f g) by (clear; sring).
  assert (D2 : dot (vadd f g) (vadd f g) = dot f f + dot g g + 2 * dot f g) by (clear; sring).
  assert (Q : dot f g = 1 \/ dot f g = -1) by (destruct (Rle_dec 0 (dot f g)); [left|right]; nra).
  destruct Q as [Q|Q].
  - left. rewrite F, G, Q in D1. assert (V : vsub f g = vzero) by (apply vnorm_0; unfold vnorm; rewrite D1; replace (1 + 1 - 2 * 1) with 0 by ring; apply sqrt_0).
    clear - V. vdestruct. unfold vsub, vzero in V. cbn in V. injection V as A B C. f_equal; lra.
  - right. rewrite F, G, Q in D2. assert (V : vadd f g = vzero) by (apply vnorm_0; unfold vnorm; rewrite D2; replace (1 + 1 + 2 * -1) with 0 by ring; apply sqrt_0).
    clear - V. vdestruct. unfold vadd, vneg, vzero in *. cbn in *. injection V as A B C. f_equal; lra.
Qed.

Lemma cross_self f : cross f f = vzero. Proof. vring. Qed.
Lemma cross_opp f : cross f (vneg f) = vzero. Proof. vring. Qed.

Lemma rayCur_zero from to it : cross (normalized from) (normalized to) = vzero -> rayCur from to it = normalized from.
Proof.
  intro Z. unfold rayCur. cbv zeta. rewrite Z, normalized_zero, vscale_zero, so3_exp_zero, rot_one. reflexivity.
Qed.

Definition portion (th : R) (it : nat) : R := th * INR it / INR curveSectors.

Lemma rayCur_arc from to it : from <> vzero -> to <> vzero -> cross (along from) (along to) <> vzero ->
  let f := along from in let g := along to in let th := acos (dot f g) in let a := portion th it in
  rayCur from to it = vadd (vscale (sin (th - a) / sin th) f) (vscale (sin a / sin th) g).
Proof.
  intros A B N. unfold rayCur. cbv zeta. rewrite !normalized_along by assumption.
  apply at_angle; [apply along_unit, A|apply along_unit, B|exact N].
Qed.

Lemma INR50 : INR curveSectors = 50.
Proof. unfold curveSectors. rewrite INR_IZR_INZ. reflexivity. Qed.

Lemma rayCur_start from to : from <> vzero -> rayCur from to 0 = along from.
Proof.
  intro A. unfold rayCur. cbv zeta. replace (_ * INR 0 / INR curveSectors) with 0 by (cbn [INR]; rewrite INR50; field).
  rewrite vscale_0, so3_exp_zero, rot_one. apply normalized_along, A.
Qed.

Lemma rayCur_unit from to it : from <> vzero -> dot (rayCur from to it) (rayCur from to it) = 1.
Proof.
  intro A. unfold rayCur. cbv zeta. rewrite rot_dot by apply so3_exp_unit. rewrite normalized_along by exact A. apply along_unit, A.
Qed.

Lemma comb_fg x f y g : dot f (vadd (vscale x f) (vscale y g)) = x * dot f f + y * dot f g.
Proof. sring. Qed.
Lemma comb_fg2 x y x' y' f g : dot (vadd (vscale x f) (vscale y g)) (vadd (vscale x' f) (vscale y' g)) =
  x * x' * dot f f + (x * y' + y * x') * dot f g + y * y' * dot g g.
Proof. sring. Qed.

Lemma slerp_dot f g th a b : dot f f = 1 -> dot g g = 1 -> dot f g = cos th -> sin th <> 0 ->
  dot (vadd (vscale (sin (th - a) / sin th) f) (vscale (sin a / sin th) g))
      (vadd (vscale (sin (th - b) / sin th) f) (vscale (sin b / sin th) g)) = cos (a - b).
Proof.
  intros F G D S. rewrite comb_fg2, F, G, D, !sin_minus, cos_minus.
  assert (E : sin th * sin th = 1 - cos th * cos th) by (pose proof (sin2_cos2 th) as H; unfold Rsqr in H; lra).
  apply (Rmult_eq_reg_r (sin th * sin th)); [|nra]. field_simplify; [|exact S].
  assert (E2 : sin th ^ 2 = 1 - cos th ^ 2) by (cbn [pow]; lra). rewrite E2. ring.
Qed.

Lemma arc_all from to : from <> vzero -> to <> vzero -> along from <> vneg (along to) ->
  let f := along from in let g := along to in let th := acos (dot f g) in
  rayCur from to 0 = f /\ rayCur from to curveSectors = g /\
  (forall it jt, (it <= curveSectors)%nat -> (jt <= curveSectors)%nat ->
     dot (rayCur from to it) (rayCur from to jt) = cos (th * (INR it - INR jt) / 50)) /\
  (forall it, (it <= curveSectors)%nat -> exists x y, 0 <= x /\ 0 <= y /\
     rayCur from to it = vadd (vscale x f) (vscale y g)).
Proof.
  intros A B N f g th. pose proof (along_unit from A) as F. pose proof (along_unit to B) as G.
  split; [apply rayCur_start, A|].
  destruct (Req_EM_T (dot (cross f g) (cross f g)) 0) as [Z|Z].
  - assert (Z0 : cross f g = vzero) by (apply vnorm_0; unfold vnorm; rewrite Z; apply sqrt_0).
    destruct (cross_zero_unit f g F G Z0) as [E|E]; [|contradiction].
    assert (K : forall it, rayCur from to it = f) by (intro it; rewrite rayCur_zero; [|rewrite !normalized_along by assumption; exact Z0]; apply normalized_along, A).
    rewrite K. split; [exact E|]. split.
    + intros it jt _ _. rewrite !K. fold f in F. rewrite F. unfold th. rewrite <- E, F, acos_1.
      replace (0 * _ / 50) with 0 by field. symmetry. apply cos_0.
    + intros it _. exists 1, 0. split; [lra|]. split; [lra|]. rewrite K. clear. vring.
  - assert (NZ : cross f g <> vzero) by (intro Q; apply Z; rewrite Q; clear; sring).
    pose proof (fun it => rayCur_arc from to it A B NZ) as K. cbv zeta in K. fold f g th in K.
    pose proof (sin_th_pos f g F G NZ) as S. fold th in S. pose proof (th_open f g F G NZ) as T. fold th in T.
    assert (P50 : portion th curveSectors = th) by (unfold portion; rewrite INR50; field).
    split.
    { rewrite K, P50. replace (th - th) with 0 by ring. rewrite sin_0. replace (sin th / sin th) with 1 by (field; lra).
      replace (0 / sin th) with 0 by (field; lra). clear. vring. }
    split.
    + intros it jt _ _. rewrite !K, slerp_dot; [|exact F|exact G|symmetry; apply cos_th; assumption|lra].
      f_equal. unfold portion. rewrite INR50. field.
    + intros it I. exists (sin (th - portion th it) / sin th), (sin (portion th it) / sin th).
      assert (R : 0 <= portion th it <= th).
      { unfold portion. rewrite INR50. apply le_INR in I. rewrite INR50 in I. pose proof (pos_INR it). split; [|].
        - apply Rmult_le_pos; [apply Rmult_le_pos; lra|lra].
        - apply (Rmult_le_reg_r 50); [lra|]. field_simplify. nra. }
      split; [|split; [|apply K]].
      * apply Rmult_le_pos; [apply sin_ge_0; lra|apply Rlt_le, Rinv_0_lt_compat, S].
      * apply Rmult_le_pos; [apply sin_ge_0; lra|apply Rlt_le, Rinv_0_lt_compat, S].
Qed.

Lemma arc_opposite from to : from <> vzero -> to <> vzero -> along from = vneg (along to) ->
  forall it, rayCur from to it = along from.
Proof.
  intros A B E it. rewrite rayCur_zero; [apply normalized_along, A|]. rewrite !normalized_along by assumption.
  assert (along to = vneg (along from)) as -> by (rewrite E, vneg_invol; reflexivity). apply cross_opp.
Qed.

(** the segments join consecutive points *)
Lemma segments_nth {X} (d : X) : forall l i, (S i < length l)%nat -> nth_error (segments l) i = Some (nth i l d, nth (S i) l d).
Proof.
  induction l as [|a l IH]; intros i H; [cbn in H; lia|]. destruct l as [|b l]; [cbn in H; lia|].
  destruct i as [|i]; [reflexivity|]. cbn [segments nth_error]. rewrite IH by (cbn in *; lia). reflexivity.
Qed.
Lemma segments_length {X} : forall l : list X, length (segments l) = pred (length l).
Proof.
  induction l as [|a l IH]; [reflexivity|]. destruct l as [|b l]; [reflexivity|].
  change (segments (a :: b :: l)) with ((a, b) :: segments (b :: l)). cbn [length]. rewrite IH. reflexivity.
Qed.
Lemma curve_segments {X} (px : vec -> X) from to : length (drawCurvedInternal px from to) = 50%nat /\
  forall i, (i < 50)%nat -> nth_error (drawCurvedInternal px from to) i = Some (px (rayCur from to i), px (rayCur from to (S i))).
Proof.
  unfold drawCurvedInternal. assert (L : length (curve px from to) = 51%nat) by (unfold curve; rewrite map_length, seq_length; reflexivity).
  split; [rewrite segments_length, L; reflexivity|]. intros i I.
  rewrite (segments_nth (px (rayCur from to 0))) by lia.
  assert (N : forall k, (k < 51)%nat -> nth k (curve px from to) (px (rayCur from to 0)) = px (rayCur from to k)).
  { intros k H. unfold curve. rewrite (map_nth (fun it => px (rayCur from to it)) (seq 0 (S curveSectors)) 0%nat k).
    rewrite seq_nth by (unfold curveSectors; lia). reflexivity. }
  rewrite !N by lia. reflexivity.
Qed.
