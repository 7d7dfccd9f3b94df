(** The motions of an essential matrix and the choice among them. *)
From Coq Require Import Reals Lra Lia Psatz List Bool ZArith.
From Verif Require Import Outcome Pose PoseProofs GeomModel GeomSpec GeomProofs StereoModel EssModel EssSpec EssProofs.
Import ListNotations.
Open Scope R_scope.

Lemma Xmat_W e : (e = 1 \/ e = -1) -> Xmat e = mT Wmat \/ Xmat e = Wmat.
Proof. intros [-> | ->]; [left|right]; unfold Xmat; munfold; f_equal; f_equal; ring. Qed.

Lemma Zcol U : orthonormal U -> mdet U = 1 -> hat (mcol2 U) = mmul (mmul U (hat (V3 0 0 1))) (mT U).
Proof.
  intros O D. pose proof (hat_conj (mT U) (V3 0 0 1) (ortho_T U O)) as H. rewrite mdet_T, mT_invol in H. rewrite (H D). f_equal. clear. mring.
Qed.
Lemma hat_X e : mmul (hat (V3 0 0 1)) (Xmat e) = mscale e (diag 1 1 0).
Proof. unfold Xmat. munfold. f_equal; f_equal; ring. Qed.

(** The product of the cross product matrix of the third column with a candidate rotation. *)
Lemma candidate U V e : orthonormal U -> mdet U = 1 ->
  mmul (hat (mcol2 U)) (mmul (mmul U (Xmat e)) (mT V)) = mscale e (mmul (mmul U (diag 1 1 0)) (mT V)).
Proof.
  intros O D. rewrite Zcol by assumption.
  transitivity (mmul (mmul U (mmul (hat (V3 0 0 1)) (mmul (mmul (mT U) U) (Xmat e)))) (mT V)); [rewrite !mmul_assoc; reflexivity|].
  unfold orthonormal in O. rewrite O, mI_l, hat_X. apply mscale_sandwich.
Qed.

Lemma quat_apply toQuat A : converts toQuat -> orthonormal A -> mdet A = 1 -> rotm (toQuat A) = A.
Proof. intros Q O D. apply mapply_ext. intros p. rewrite rotm_apply. apply Q; assumption. Qed.

Lemma cand_ortho U V e : orthonormal U -> mdet U = 1 -> orthonormal V -> mdet V = 1 -> (e = 1 \/ e = -1) ->
  orthonormal (mmul (mmul U (Xmat e)) (mT V)) /\ mdet (mmul (mmul U (Xmat e)) (mT V)) = 1.
Proof.
  intros OU DU OV DV E. assert (X : orthonormal (Xmat e) /\ mdet (Xmat e) = 1).
  { destruct (Xmat_W e E) as [-> | ->]; rewrite ?mdet_T; split; try apply ortho_T; try apply ortho_W; apply det_W. }
  destruct X as [OX DX]. split.
  - apply ortho_mul; [apply ortho_mul; assumption|apply ortho_T, OV].
  - rewrite !mdet_mmul, mdet_T, DU, DX, DV. ring.
Qed.

(** The list with the candidates written with a sign each. *)
Lemma four_list svd toQuat E : is_svd svd E -> exists U V,
  orthonormal U /\ mdet U = 1 /\ orthonormal V /\ mdet V = 1 /\
  (exists s a b c, (s = 1 \/ s = -1) /\ a >= b /\ b >= c /\ c >= 0 /\
     E = mscale s (mmul (mmul U (diag a b c)) (mT V))) /\
  exists sols, four_motions svd toQuat E = Ok sols /\ NoDup (map tr (firstn 2 sols)) /\
    forall h, In h sols <-> exists e f, (e = 1 \/ e = -1) /\ (f = 1 \/ f = -1) /\
      h = SE (toQuat (mmul (mmul U (Xmat e)) (mT V))) (vscale f (mcol2 U)).
Proof.
  intros S. destruct (four_ok svd toQuat E S) as (U & V & OU & DU & OV & DV & D & F). exists U, V.
  do 5 (split; [assumption|]). cbv zeta in F. eexists. split; [exact F|].
  assert (N : vneg (mcol2 U) = vscale (-1) (mcol2 U)) by (clear; mring).
  assert (P1 : vscale 1 (mcol2 U) = mcol2 U) by (clear; mring).
  assert (XP : Xmat 1 = mT Wmat) by (unfold Xmat; munfold; f_equal; f_equal; ring).
  assert (XN : Xmat (-1) = Wmat) by (unfold Xmat; munfold; f_equal; f_equal; ring).
  split.
  - cbn [firstn map tr]. constructor; [|constructor; [intros []|constructor]].
    intros [H|[]]. pose proof (col2_unit U OU) as C. destruct (mcol2 U) as [x y z]. unfold vneg in H. cbn [vx vy vz] in H.
    injection H as H1 H2 H3. unfold dot in C. cbn [vx vy vz] in C. nra.
  - intros h. cbn [In]. split.
    + intros [<-|[<-|[<-|[<-|[]]]]].
      * exists (-1), 1. rewrite XN, P1. auto.
      * exists (-1), (-1). rewrite XN, N. auto.
      * exists 1, 1. rewrite XP, P1. auto.
      * exists 1, (-1). rewrite XP, N. auto.
    + intros (e & f & [-> | ->] & [-> | ->] & ->); rewrite ?XN, ?XP, ?P1, <- ?N; auto.
Qed.

Lemma same_motion_intro g h : (forall p, rot (so3 g) p = rot (so3 h) p) -> tr g = tr h -> same_motion g h.
Proof. intros H T p. unfold act. rewrite H, T. reflexivity. Qed.

Lemma unit_col U w : orthonormal U -> w <> 0 -> exists f, (f = 1 \/ f = -1) /\ w = f * Rabs w /\
  vnorm (vscale w (mcol2 U)) = Rabs w /\ vscale (/ vnorm (vscale w (mcol2 U))) (vscale w (mcol2 U)) = vscale f (mcol2 U).
Proof.
  intros O W. assert (N : vnorm (vscale w (mcol2 U)) = Rabs w) by (rewrite vnorm_scale, (vnorm_one _ (col2_unit U O)); ring).
  assert (A : Rabs w <> 0) by (apply Rabs_no_R0, W).
  destruct (Rcase_abs w) as [L|L].
  - exists (-1). assert (H : Rabs w = - w) by (apply Rabs_left, L). rewrite N, H in *. split; [auto|]. split; [ring|]. split; [reflexivity|].
    rewrite vscale_scale. f_equal. field. lra.
  - exists 1. assert (H : Rabs w = w) by (apply Rabs_right, L). rewrite N, H in *. split; [auto|]. split; [ring|]. split; [reflexivity|].
    rewrite vscale_scale. f_equal. field. lra.
Qed.

(** Every motion explaining the matrix is listed, every listed motion explains it. *)
Lemma four_explain svd toQuat E g k : is_svd svd E -> converts toQuat ->
  rigid g -> tr g <> vzero -> k <> 0 -> essential_of g E k ->
  exists sols, four_motions svd toQuat E = Ok sols /\
    (exists s, In s sols /\ same_motion s (unit_tr g)) /\
    (forall s, In s sols -> exists k', k' <> 0 /\ essential_of s E k').
Proof.
  intros S Q G T K HE. destruct (four_list svd toQuat E S) as (U & V & OU & DU & OV & DV & (s & a & b & c & HS & A & B & C & HD) & sols & F & _ & L).
  destruct (decompose g E k U V s a b c G T K HE OU DU OV DV HS A B C HD) as (w & e & W & HT & EE & HR & C0 & AB & AA).
  exists sols. split; [exact F|]. split.
  - destruct (unit_col U w OU W) as (f & FF & _ & _ & HN).
    exists (SE (toQuat (mmul (mmul U (Xmat e)) (mT V))) (vscale f (mcol2 U))). split.
    + apply L. exists e, f. auto.
    + apply same_motion_intro; cbn [so3 tr unit_tr]; unfold unit_tr; cbn [so3 tr].
      * intros p. destruct (cand_ortho U V e OU DU OV DV EE) as [O D]. rewrite <- !rotm_apply, (quat_apply toQuat _ Q O D), HR. reflexivity.
      * rewrite HT. symmetry. exact HN.
  - intros h Hh. apply L in Hh. destruct Hh as (e' & f & EE' & FF & ->).
    assert (A0 : a <> 0).
    { intros ->. assert (Z : k * k * (w * w) = 0) by (rewrite <- AA; ring). apply Rmult_integral in Z. destruct Z as [Z|Z]; nra. }
    exists (s * a * e' * f). split.
    { destruct HS as [-> | ->], EE' as [-> | ->], FF as [-> | ->]; lra. }
    apply essential_matrix. cbn [so3 tr]. destruct (cand_ortho U V e' OU DU OV DV EE') as [O D].
    rewrite (quat_apply toQuat _ Q O D).
    assert (HF : hat (vscale f (mcol2 U)) = mscale f (hat (mcol2 U))) by (clear; mring).
    rewrite HF, mmul_scale_l, candidate by assumption. rewrite !mscale_scale.
    replace (s * a * e' * f * f * e') with (s * a) by (destruct EE' as [-> | ->], FF as [-> | ->]; ring).
    assert (HDi : diag a b c = mscale a (diag 1 1 0)) by (subst b c; munfold; f_equal; f_equal; ring).
    rewrite HD, HDi, mscale_sandwich, mscale_scale. reflexivity.
Qed.

(** * Points in front *)
Lemma parallel_lin u v k m w : parallel u v -> w = vadd (vscale k v) (vscale m u) -> parallel u w.
Proof.
  unfold parallel. intros H ->. assert (E : cross u (vadd (vscale k v) (vscale m u)) = vscale k (cross u v)) by (clear; destruct u as [? ? ?], v as [? ? ?]; munfold; f_equal; ring).
  rewrite E, H. apply vscale_zero.
Qed.

Lemma not_parallel_depth R t a b d1 d2 : d2 <> 0 -> vadd (vscale d1 R) t = vscale d2 b ->
  ~ parallel t R -> a = R -> ~ parallel a b.
Proof.
  intros D H N -> P. apply N. assert (HT : t = vsub (vscale d2 b) (vscale d1 R)).
  { rewrite <- H. destruct R as [? ? ?], t as [? ? ?]. munfold. f_equal; ring. }
  rewrite HT. clear - P. unfold parallel in *.
  assert (E : cross (vsub (vscale d2 b) (vscale d1 R)) R = vscale (- d2) (cross R b)) by (clear; destruct R as [? ? ?], b as [? ? ?]; munfold; f_equal; ring).
  rewrite E, P. apply vscale_zero.
Qed.

Lemma triang_same solve g h m a b d1 d2 : least_squares_solver solve -> rigid h ->
  (forall p, rot (so3 h) p = rot (so3 g) p) -> tr h = vscale m (tr g) ->
  d2 <> 0 -> act g (vscale d1 a) = vscale d2 b -> ~ parallel (tr g) (rot (so3 g) a) ->
  triangulate solve h a b = (m * d1, m * d2).
Proof.
  intros S RG HR HT D HA NP. apply (triangulate_exact solve S h a b (vscale (m * d1) a)); [exact RG|reflexivity| |].
  - unfold act in *. rewrite HR, HT, !rot_scale in *. clear - HA. rewrite <- (vscale_scale m d2), <- HA.
    destruct (rot (so3 g) a) as [? ? ?], (tr g) as [? ? ?]. munfold. f_equal; ring.
  - rewrite HR. unfold act in HA. rewrite rot_scale in HA. exact (not_parallel_depth _ _ _ _ _ _ D HA NP eq_refl).
Qed.

Lemma classic_parallel u v : parallel u v \/ ~ parallel u v.
Proof.
  unfold parallel. destruct (veqb (cross u v) vzero) eqn:E; [left; apply veqb_iff, E|right]. intros H. apply veqb_iff in H. congruence.
Qed.

Lemma flip_front y u d1 d2 w f b z l : dot u u = 1 -> vadd (vscale d1 y) (vscale w u) = vscale d2 b ->
  z = vsub (vscale (2 * dot u y) u) y -> l * (w + 2 * d1 * dot u y) = f ->
  vadd (vscale (- l * d1) z) (vscale f u) = vscale (l * d2) b.
Proof.
  intros _ H -> <-. rewrite <- (vscale_scale l d2), <- H. destruct y as [? ? ?], u as [? ? ?]. munfold. f_equal; ring.
Qed.
Lemma flip_degenerate y u d1 d2 w b z : vadd (vscale d1 y) (vscale w u) = vscale d2 b ->
  z = vsub (vscale (2 * dot u y) u) y -> w + 2 * d1 * dot u y = 0 -> d2 <> 0 -> parallel z b.
Proof.
  intros H HZ HW D. assert (B : b = vscale (- d1 / d2) z).
  { transitivity (vscale (/ d2) (vscale d2 b)); [rewrite vscale_scale, Rinv_l, vscale_1 by exact D; reflexivity|].
    rewrite <- H, HZ. assert (W' : w = - (2 * d1 * dot u y)) by lra. rewrite W'. clear - D. destruct y as [? ? ?], u as [? ? ?]. munfold. f_equal; field; exact D. }
  rewrite B. unfold parallel. destruct z as [? ? ?]. munfold. f_equal; ring.
Qed.

Lemma triang_flip solve g h u w f a b d1 d2 : basic_solver solve -> rigid h ->
  dot u u = 1 -> tr g = vscale w u -> tr h = vscale f u ->
  rot (so3 h) a = vsub (vscale (2 * dot u (rot (so3 g) a)) u) (rot (so3 g) a) ->
  0 < d1 -> 0 < d2 -> act g (vscale d1 a) = vscale d2 b ->
  let (e1, e2) := triangulate solve h a b in ~ (0 < e1 /\ 0 < e2).
Proof.
  intros [S BS] RH UU TG TH HR D1 D2 HA. unfold act in HA. rewrite rot_scale, TG in HA. set (y := rot (so3 g) a) in *.
  destruct (Req_dec (w + 2 * d1 * dot u y) 0) as [Z|Z].
  - assert (P : parallel (rot (so3 h) a) b) by (eapply flip_degenerate; [exact HA|exact HR|exact Z|lra]).
    unfold triangulate. specialize (BS (rot (so3 h) a) (vneg b) (vneg (tr h))).
    destruct (solve (rot (so3 h) a) (vneg b) (vneg (tr h))) as [e1 e2]. cbn [fst snd] in BS.
    assert (PN : parallel (rot (so3 h) a) (vneg b)).
    { eapply (parallel_lin _ _ (-1) 0); [exact P|]. clear. destruct b as [? ? ?], (rot (so3 h) a) as [? ? ?]. munfold. f_equal; ring. }
    destruct (BS PN); lra.
  - set (l := f / (w + 2 * d1 * dot u y)). assert (HL : l * (w + 2 * d1 * dot u y) = f) by (unfold l; field; exact Z).
    pose proof (flip_front y u d1 d2 w f b _ l UU HA HR HL) as EQ.
    destruct (classic_parallel (rot (so3 h) a) b) as [P|NP].
    + unfold triangulate. specialize (BS (rot (so3 h) a) (vneg b) (vneg (tr h))).
      destruct (solve (rot (so3 h) a) (vneg b) (vneg (tr h))) as [e1 e2]. cbn [fst snd] in BS.
      assert (PN : parallel (rot (so3 h) a) (vneg b)).
      { eapply (parallel_lin _ _ (-1) 0); [exact P|]. clear. destruct b as [? ? ?], (rot (so3 h) a) as [? ? ?]. munfold. f_equal; ring. }
      destruct (BS PN); lra.
    + rewrite (triangulate_exact solve S h a b (vscale (- l * d1) a) (- l * d1) (l * d2) RH eq_refl); [nra| |exact NP].
      unfold act. rewrite rot_scale, TH. exact EQ.
Qed.
