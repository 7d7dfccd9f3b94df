(** Facts about the geometry of two views. *)
From Coq Require Import Reals Lra Lia Psatz List Bool ZArith.
From Verif Require Import Outcome Pose PoseProofs GeomModel GeomSpec GeomProofs StereoModel EssModel EssSpec.
Import ListNotations.
Open Scope R_scope.

Ltac mdestruct :=
  repeat match goal with
         | A : mat |- _ => destruct A as [? ? ?]
         | v : vec |- _ => destruct v as [? ? ?]
         end.
Ltac munfold :=
  unfold mmul, mT, mapply, mscale, mdet, mI, mcol2, hat, Wmat, diag, vadd, vsub, vscale, vneg, cross, dot, vzero;
  cbn [mr0 mr1 mr2 vx vy vz].
Ltac mring := intros; mdestruct; munfold; first [ring | f_equal; first [ring | f_equal; ring]].

Lemma mmul_assoc A B C : mmul A (mmul B C) = mmul (mmul A B) C. Proof. mring. Qed.
Lemma mT_mmul A B : mT (mmul A B) = mmul (mT B) (mT A). Proof. mring. Qed.
Lemma mT_invol A : mT (mT A) = A. Proof. mring. Qed.
Lemma mI_l A : mmul mI A = A. Proof. mring. Qed.
Lemma mI_r A : mmul A mI = A. Proof. mring. Qed.
Lemma mapply_mmul A B p : mapply (mmul A B) p = mapply A (mapply B p). Proof. mring. Qed.
Lemma mapply_I p : mapply mI p = p. Proof. mring. Qed.
Lemma mdet_mmul A B : mdet (mmul A B) = mdet A * mdet B. Proof. mring. Qed.
Lemma mdet_T A : mdet (mT A) = mdet A. Proof. mring. Qed.
Lemma mdet_scale k A : mdet (mscale k A) = k * k * k * mdet A. Proof. mring. Qed.
Lemma mdet_I : mdet mI = 1. Proof. mring. Qed.
Lemma mT_scale k A : mT (mscale k A) = mscale k (mT A). Proof. mring. Qed.
Lemma mmul_scale_l k A B : mmul (mscale k A) B = mscale k (mmul A B). Proof. mring. Qed.
Lemma mmul_scale_r k A B : mmul A (mscale k B) = mscale k (mmul A B). Proof. mring. Qed.
Lemma mscale_scale k h A : mscale k (mscale h A) = mscale (k * h) A. Proof. mring. Qed.
Lemma mscale_1 A : mscale 1 A = A. Proof. mring. Qed.
Lemma mapply_hat t p : mapply (hat t) p = cross t p. Proof. mring. Qed.
Lemma mapply_add A p q : mapply A (vadd p q) = vadd (mapply A p) (mapply A q). Proof. mring. Qed.
Lemma mapply_scale A k p : mapply A (vscale k p) = vscale k (mapply A p). Proof. mring. Qed.
Lemma mscale_apply A k p : mapply (mscale k A) p = vscale k (mapply A p). Proof. mring. Qed.
Lemma mapply_dot A p q : dot (mapply A p) q = dot p (mapply (mT A) q). Proof. mring. Qed.

Definition adj (A : mat) : mat := mT (M33 (cross (mr1 A) (mr2 A)) (cross (mr2 A) (mr0 A)) (cross (mr0 A) (mr1 A))).
Lemma adj_r A : mmul A (adj A) = mscale (mdet A) mI. Proof. unfold adj. mring. Qed.

Lemma mapply_ext A B : (forall p, mapply A p = mapply B p) -> A = B.
Proof.
  intros H. pose proof (H (V3 1 0 0)) as H0. pose proof (H (V3 0 1 0)) as H1. pose proof (H (V3 0 0 1)) as H2. clear H.
  destruct A as [[a0 a1 a2] [a3 a4 a5] [a6 a7 a8]], B as [[b0 b1 b2] [b3 b4 b5] [b6 b7 b8]].
  unfold mapply, dot in *. cbn [mr0 mr1 mr2 vx vy vz] in *. injection H0 as ? ? ?. injection H1 as ? ? ?. injection H2 as ? ? ?.
  f_equal; f_equal; lra.
Qed.

Lemma ortho_det A : orthonormal A -> mdet A * mdet A = 1.
Proof. intros O. unfold orthonormal in O. apply (f_equal mdet) in O. rewrite mdet_mmul, mdet_T, mdet_I in O. exact O. Qed.
Lemma ortho_right A : orthonormal A -> mmul A (mT A) = mI.
Proof.
  intros O. pose proof (ortho_det A O) as D. unfold orthonormal in O. assert (N : mdet A <> 0) by nra.
  assert (E : mT A = mscale (/ mdet A) (adj A)).
  { transitivity (mscale (/ mdet A) (mmul (mT A) (mmul A (adj A)))).
    - rewrite adj_r, mmul_scale_r, mI_r, mscale_scale. replace (/ mdet A * mdet A) with 1 by (field; exact N). symmetry. apply mscale_1.
    - rewrite mmul_assoc, O, mI_l. reflexivity. }
  rewrite E, mmul_scale_r, adj_r, mscale_scale. replace (/ mdet A * mdet A) with 1 by (field; exact N). apply mscale_1.
Qed.
Lemma ortho_T A : orthonormal A -> orthonormal (mT A).
Proof. intros O. unfold orthonormal. rewrite mT_invol. apply ortho_right, O. Qed.
Lemma ortho_mul A B : orthonormal A -> orthonormal B -> orthonormal (mmul A B).
Proof.
  intros O P. unfold orthonormal in *. rewrite mT_mmul, <- mmul_assoc, (mmul_assoc (mT A)), O, mI_l. exact P.
Qed.
Lemma ortho_fix A : orthonormal A -> orthonormal (mscale (mdet A) A) /\ mdet (mscale (mdet A) A) = 1.
Proof.
  intros O. pose proof (ortho_det A O) as D. split.
  - unfold orthonormal in *. rewrite mT_scale, mmul_scale_l, mmul_scale_r, mscale_scale, O, D. apply mscale_1.
  - rewrite mdet_scale. transitivity (mdet A * mdet A * (mdet A * mdet A)); [ring|]. rewrite D. ring.
Qed.
(** A rotation is its own matrix of cofactors. *)
Lemma rotation_cof A : orthonormal A -> mdet A = 1 -> mT A = adj A.
Proof.
  intros O D. transitivity (mmul (mT A) (mmul A (adj A))).
  - rewrite adj_r, D, mscale_1, mI_r. reflexivity.
  - unfold orthonormal in O. rewrite mmul_assoc, O, mI_l. reflexivity.
Qed.
Lemma ortho_W : orthonormal Wmat. Proof. unfold orthonormal. mring. Qed.
Lemma det_W : mdet Wmat = 1. Proof. mring. Qed.

Lemma veqb_iff a b : veqb a b = true <-> a = b.
Proof.
  destruct a as [a0 a1 a2], b as [b0 b1 b2]. unfold veqb. cbn [vx vy vz].
  destruct (Req_EM_T a0 b0), (Req_EM_T a1 b1), (Req_EM_T a2 b2); split; intros H; try discriminate; try (injection H; intros; contradiction); subst; reflexivity.
Qed.
Lemma meqb_iff A B : meqb A B = true <-> A = B.
Proof.
  unfold meqb. rewrite !andb_true_iff, !veqb_iff. destruct A as [a0 a1 a2], B as [b0 b1 b2]. cbn [mr0 mr1 mr2]. split.
  - intros [[-> ->] ->]. reflexivity.
  - intros H. injection H as -> -> ->. auto.
Qed.
Lemma Rltb_iff x y : Rltb x y = true <-> x < y.
Proof. unfold Rltb. destruct (Rlt_dec x y); split; intros; try discriminate; try contradiction; auto. Qed.

Lemma make_ok toQuat A t : orthonormal A -> mdet A = 1 -> make_se3 toQuat A t = Ok (SE (toQuat A) t).
Proof.
  intros O D. unfold make_se3. assert (X : meqb (mmul A (mT A)) mI = true) by (apply meqb_iff, ortho_right, O).
  assert (Y : Rltb 0 (mdet A) = true) by (apply Rltb_iff; rewrite D; lra). rewrite X, Y. reflexivity.
Qed.

(** * The four motions *)
Lemma four_ok svd toQuat E : is_svd svd E -> exists U V,
  orthonormal U /\ mdet U = 1 /\ orthonormal V /\ mdet V = 1 /\
  (exists s a b c, (s = 1 \/ s = -1) /\ a >= b /\ b >= c /\ c >= 0 /\
     E = mscale s (mmul (mmul U (diag a b c)) (mT V))) /\
  four_motions svd toQuat E =
    let R1 := mmul (mmul U Wmat) (mT V) in let R2 := mmul (mmul U (mT Wmat)) (mT V) in
    Ok [SE (toQuat R1) (mcol2 U); SE (toQuat R1) (vneg (mcol2 U)); SE (toQuat R2) (mcol2 U); SE (toQuat R2) (vneg (mcol2 U))].
Proof.
  unfold is_svd, four_motions. destruct (svd E) as [U V]. intros (OU & OV & a & b & c & A & B & C & HE).
  destruct (ortho_fix U OU) as [OU' DU']. destruct (ortho_fix V OV) as [OV' DV'].
  pose proof (ortho_det U OU) as QU. pose proof (ortho_det V OV) as QV.
  exists (mscale (mdet U) U), (mscale (mdet V) V). do 4 (split; [assumption|]). split.
  - exists (mdet U * mdet V), a, b, c. split; [|split; [exact A|split; [exact B|split; [exact C|]]]].
    + assert (S : (mdet U * mdet V - 1) * (mdet U * mdet V + 1) = 0).
      { transitivity (mdet U * mdet U * (mdet V * mdet V) - 1); [ring|]. rewrite QU, QV. ring. }
      apply Rmult_integral in S. destruct S; [left|right]; lra.
    + rewrite mT_scale, mmul_scale_r, mmul_scale_l, mmul_scale_l, !mscale_scale, <- HE.
      replace (mdet U * mdet V * mdet V * mdet U) with 1; [symmetry; apply mscale_1|].
      transitivity (mdet U * mdet U * (mdet V * mdet V)); [rewrite QU, QV; ring|ring].
  - assert (O1 : orthonormal (mmul (mmul (mscale (mdet U) U) Wmat) (mT (mscale (mdet V) V)))).
    { apply ortho_mul; [apply ortho_mul; [exact OU'|apply ortho_W]|apply ortho_T, OV']. }
    assert (O2 : orthonormal (mmul (mmul (mscale (mdet U) U) (mT Wmat)) (mT (mscale (mdet V) V)))).
    { apply ortho_mul; [apply ortho_mul; [exact OU'|apply ortho_T, ortho_W]|apply ortho_T, OV']. }
    assert (D1 : mdet (mmul (mmul (mscale (mdet U) U) Wmat) (mT (mscale (mdet V) V))) = 1).
    { rewrite !mdet_mmul, mdet_T, DU', DV', det_W. ring. }
    assert (D2 : mdet (mmul (mmul (mscale (mdet U) U) (mT Wmat)) (mT (mscale (mdet V) V))) = 1).
    { rewrite !mdet_mmul, !mdet_T, DU', DV', det_W. ring. }
    cbv zeta. rewrite !make_ok by assumption. reflexivity.
Qed.

Lemma col2_unit U : orthonormal U -> dot (mcol2 U) (mcol2 U) = 1.
Proof.
  unfold orthonormal. mdestruct. munfold. intros H. injection H as _ _ _ _ _ _ _ _ H. lra.
Qed.
Lemma vnorm_one v : dot v v = 1 -> vnorm v = 1.
Proof. intros H. unfold vnorm. rewrite H. apply sqrt_1. Qed.
Lemma vnorm_vneg v : vnorm (vneg v) = vnorm v.
Proof. unfold vnorm. f_equal. destruct v. unfold vneg, dot. cbn. ring. Qed.

(** The four motions are rigid with translations of length one. *)
Lemma four_rigid svd toQuat E : is_svd svd E -> converts toQuat ->
  exists sols, four_motions svd toQuat E = Ok sols /\ length sols = 4%nat /\
    forall s, In s sols -> rigid s /\ vnorm (tr s) = 1.
Proof.
  intros S Q. destruct (four_ok svd toQuat E S) as (U & V & OU & DU & OV & DV & _ & F). cbv zeta in F.
  eexists. split; [exact F|]. split; [reflexivity|].
  assert (O1 : orthonormal (mmul (mmul U Wmat) (mT V))).
  { apply ortho_mul; [apply ortho_mul; [exact OU|apply ortho_W]|apply ortho_T, OV]. }
  assert (O2 : orthonormal (mmul (mmul U (mT Wmat)) (mT V))).
  { apply ortho_mul; [apply ortho_mul; [exact OU|apply ortho_T, ortho_W]|apply ortho_T, OV]. }
  assert (D1 : mdet (mmul (mmul U Wmat) (mT V)) = 1) by (rewrite !mdet_mmul, mdet_T, DU, DV, det_W; ring).
  assert (D2 : mdet (mmul (mmul U (mT Wmat)) (mT V)) = 1) by (rewrite !mdet_mmul, !mdet_T, DU, DV, det_W; ring).
  pose proof (vnorm_one _ (col2_unit U OU)) as N.
  intros s [<-|[<-|[<-|[<-|[]]]]]; unfold rigid; cbn [so3 tr]; rewrite ?vnorm_vneg; split; try exact N; apply Q; assumption.
Qed.

(** * Essential matrices *)
Lemma rotm_apply q p : mapply (rotm q) p = rot q p.
Proof.
  destruct q as [w [x y z]], p as [a b c]. unfold rotm, mT, mapply, rot, dot, cross, vadd, vscale.
  cbn [mr0 mr1 mr2 vx vy vz qw qv]. f_equal; ring.
Qed.
Lemma gram_rows a b c : mmul (mT (mT (M33 a b c))) (mT (M33 a b c)) =
  M33 (V3 (dot a a) (dot a b) (dot a c)) (V3 (dot b a) (dot b b) (dot b c)) (V3 (dot c a) (dot c b) (dot c c)).
Proof. mring. Qed.
Lemma rotm_ortho q : unit_quat q -> orthonormal (rotm q).
Proof.
  intros U. unfold orthonormal, rotm. rewrite gram_rows, !rot_dot by exact U.
  unfold dot, mI. cbn [vx vy vz]. f_equal; f_equal; ring.
Qed.
Lemma rotm_det q : unit_quat q -> mdet (rotm q) = 1.
Proof.
  intros U. transitivity (qnorm2 q * qnorm2 q * qnorm2 q); [|rewrite U; ring].
  unfold rotm. rewrite mdet_T. destruct q as [w [x y z]].
  assert (E0 : rot (Q4 w (V3 x y z)) (V3 1 0 0) = V3 (w * w + x * x - y * y - z * z) (2 * (x * y + w * z)) (2 * (x * z - w * y)))
    by (unfold rot, dot, cross, vadd, vscale; cbn [vx vy vz qw qv]; f_equal; ring).
  assert (E1 : rot (Q4 w (V3 x y z)) (V3 0 1 0) = V3 (2 * (x * y - w * z)) (w * w - x * x + y * y - z * z) (2 * (y * z + w * x)))
    by (unfold rot, dot, cross, vadd, vscale; cbn [vx vy vz qw qv]; f_equal; ring).
  assert (E2 : rot (Q4 w (V3 x y z)) (V3 0 0 1) = V3 (2 * (x * z + w * y)) (2 * (y * z - w * x)) (w * w - x * x - y * y + z * z))
    by (unfold rot, dot, cross, vadd, vscale; cbn [vx vy vz qw qv]; f_equal; ring).
  rewrite E0, E1, E2. unfold mdet, qnorm2, dot, cross. cbn [mr0 mr1 mr2 vx vy vz qw qv]. ring.
Qed.

Lemma cross_apply A a b : orthonormal A -> mdet A = 1 -> mapply A (cross a b) = cross (mapply A a) (mapply A b).
Proof.
  intros O D. pose proof (rotation_cof A O D) as C. apply (f_equal mT) in C. rewrite mT_invol in C. rewrite C at 1.
  unfold adj. rewrite mT_invol. mring.
Qed.
Lemma hat_conj A t : orthonormal A -> mdet A = 1 -> mmul (mmul (mT A) (hat t)) A = hat (mapply (mT A) t).
Proof.
  intros O D. apply mapply_ext. intros p. rewrite !mapply_mmul, !mapply_hat.
  rewrite (cross_apply (mT A)); [|apply ortho_T, O|rewrite mdet_T; exact D].
  rewrite <- (mapply_mmul (mT A) A). unfold orthonormal in O. rewrite O, mapply_I. reflexivity.
Qed.
Lemma essential_matrix g E k : essential_of g E k <-> E = mscale k (mmul (hat (tr g)) (rotm (so3 g))).
Proof.
  split.
  - intros H. apply mapply_ext. intros p. rewrite H, mscale_apply, mapply_mmul, rotm_apply, mapply_hat. reflexivity.
  - intros -> p. rewrite mscale_apply, mapply_mmul, rotm_apply, mapply_hat. reflexivity.
Qed.

Lemma mscale_gram k A : mmul (mscale k A) (mT (mscale k A)) = mscale (k * k) (mmul A (mT A)). Proof. mring. Qed.
Lemma mscale_sandwich k A B C : mmul (mmul A (mscale k B)) C = mscale k (mmul (mmul A B) C). Proof. mring. Qed.

Definition Xmat (e : R) : mat := M33 (V3 0 e 0) (V3 (- e) 0 0) (V3 0 0 1).
Lemma diag_from k w a b c :
  mscale (k * k) (mmul (hat w) (mT (hat w))) = diag (a * a) (b * b) (c * c) ->
  a >= b -> b >= c -> c >= 0 -> k <> 0 -> w <> vzero ->
  vx w = 0 /\ vy w = 0 /\ vz w <> 0 /\ c = 0 /\ a = b /\ a * a = k * k * (vz w * vz w).
Proof.
  destruct w as [x y z]. munfold. intros H A B C K W. injection H as H0 H1 H2 H3 H4 H5 H6 H7 H8.
  assert (KK : 0 < k * k) by nra.
  assert (XY : x * y = 0) by nra. assert (XZ : x * z = 0) by nra. assert (YZ : y * z = 0) by nra.
  assert (X : x = 0).
  { destruct (Req_dec x 0) as [->|N]; [reflexivity|]. exfalso.
    assert (y = 0) by (apply Rmult_integral in XY; tauto). assert (z = 0) by (apply Rmult_integral in XZ; tauto). subst y z.
    assert (a * a = 0) by nra. assert (a = 0) by nra. assert (c = 0) by lra. subst c. assert (k * k * (x * x) = 0) by nra.
    assert (x * x = 0) by nra. nra. }
  subst x.
  assert (Y : y = 0).
  { destruct (Req_dec y 0) as [->|N]; [reflexivity|]. exfalso.
    assert (z = 0) by (apply Rmult_integral in YZ; tauto). subst z.
    assert (b * b = 0) by nra. assert (b = 0) by nra. assert (c = 0) by lra. subst c. assert (k * k * (y * y) = 0) by nra.
    assert (y * y = 0) by nra. nra. }
  subst y.
  assert (Z : z <> 0) by (intros ->; apply W; reflexivity).
  assert (c * c = 0) by nra. assert (c = 0) by nra. assert (a * a = b * b) by nra.
  repeat split; try assumption; nra.
Qed.

(** The decomposition of an essential matrix: the third column of the first factor lies along the
    translation and the rotation is one of the two products. *)
Lemma decompose g E k U V s a b c : rigid g -> tr g <> vzero -> k <> 0 -> essential_of g E k ->
  orthonormal U -> mdet U = 1 -> orthonormal V -> mdet V = 1 -> (s = 1 \/ s = -1) -> a >= b -> b >= c -> c >= 0 ->
  E = mscale s (mmul (mmul U (diag a b c)) (mT V)) ->
  exists w e, w <> 0 /\ tr g = vscale w (mcol2 U) /\ (e = 1 \/ e = -1) /\
    rotm (so3 g) = mmul (mmul U (Xmat e)) (mT V) /\ c = 0 /\ a = b /\ a * a = k * k * (w * w).
Proof.
  intros G T K HE OU DU OV DV HS A B C HD. apply essential_matrix in HE.
  set (t := tr g) in *. set (Rm := rotm (so3 g)) in *.
  assert (OR : orthonormal Rm) by (apply rotm_ortho, G). assert (DR : mdet Rm = 1) by (apply rotm_det, G).
  set (w := mapply (mT U) t). assert (S2 : s * s = 1) by (destruct HS; subst s; ring).
  pose proof (ortho_right U OU) as RU. pose proof (ortho_right Rm OR) as RR. pose proof (ortho_right V OV) as RV.
  assert (M : mscale (k * k) (mmul (hat w) (mT (hat w))) = diag (a * a) (b * b) (c * c)).
  { unfold w. rewrite <- hat_conj by assumption.
    transitivity (mmul (mmul (mT U) (mmul E (mT E))) U).
    - rewrite HE, mscale_gram, mscale_sandwich. f_equal.
      rewrite !mT_mmul, mT_invol, !mmul_assoc.
      transitivity (mmul (mmul (mmul (mmul (mT U) (hat t)) (mmul U (mT U))) (mT (hat t))) U); [rewrite !mmul_assoc; reflexivity|].
      transitivity (mmul (mmul (mmul (mmul (mT U) (hat t)) (mmul Rm (mT Rm))) (mT (hat t))) U); [|rewrite !mmul_assoc; reflexivity].
      rewrite RU, RR. reflexivity.
    - rewrite HD, mscale_gram, S2, mscale_1, !mT_mmul, mT_invol.
      transitivity (mmul (mmul (mmul (mT U) U) (diag a b c)) (mmul (mmul (mmul (mT V) V) (mT (diag a b c))) (mmul (mT U) U))); [rewrite !mmul_assoc; reflexivity|].
      unfold orthonormal in OU, OV. rewrite OU, OV, mI_l, mI_l, mI_r. mring. }
  assert (W0 : w <> vzero).
  { intros H. apply T. transitivity (mapply (mmul U (mT U)) t); [rewrite RU, mapply_I; reflexivity|].
    rewrite mapply_mmul. fold w. rewrite H. mring. }
  destruct (diag_from k w a b c M A B C K W0) as (WX & WY & WZ & C0 & AB & AA).
  assert (HW : w = V3 0 0 (vz w)) by (destruct w; cbn in *; subst; reflexivity).
  assert (HT : t = vscale (vz w) (mcol2 U)).
  { transitivity (mapply (mmul U (mT U)) t); [rewrite RU, mapply_I; reflexivity|].
    rewrite mapply_mmul. fold w. rewrite HW at 1. cbn [vz]. clear. mring. }
  set (z := vz w) in *. set (X := mmul (mmul (mT U) Rm) V).
  assert (OX : orthonormal X) by (apply ortho_mul; [apply ortho_mul; [apply ortho_T, OU|exact OR]|exact OV]).
  assert (DX : mdet X = 1) by (unfold X; rewrite !mdet_mmul, mdet_T, DU, DR, DV; ring).
  assert (EX : mscale k (mmul (hat w) X) = mscale s (diag a b c)).
  { unfold w, X. rewrite <- hat_conj by assumption. transitivity (mmul (mmul (mT U) E) V).
    - rewrite HE, mscale_sandwich. f_equal.
      transitivity (mmul (mmul (mmul (mmul (mT U) (hat t)) (mmul U (mT U))) Rm) V); [rewrite !mmul_assoc; reflexivity|].
      rewrite RU, mI_r. rewrite !mmul_assoc. reflexivity.
    - rewrite HD, mscale_sandwich. f_equal.
      transitivity (mmul (mmul (mmul (mT U) U) (diag a b c)) (mmul (mT V) V)); [rewrite !mmul_assoc; reflexivity|].
      unfold orthonormal in OU, OV. rewrite OU, OV, mI_l, mI_r. reflexivity. }
  assert (HR : Rm = mmul (mmul U X) (mT V)).
  { unfold X. transitivity (mmul (mmul (mmul U (mT U)) Rm) (mmul V (mT V))); [rewrite RU, RV, mI_l, mI_r; reflexivity|rewrite !mmul_assoc; reflexivity]. }
  exists z, (s * a / (k * z)). split; [exact WZ|]. split; [exact HT|].
  assert (KZ : k * z <> 0) by (apply Rmult_integral_contrapositive_currified; assumption).
  split.
  { assert (P : (s * a / (k * z) - 1) * (s * a / (k * z) + 1) = 0).
    { transitivity ((s * s * (a * a)) / (k * k * (z * z)) - 1); [field; split; assumption|]. rewrite S2, AA. field. split; assumption. }
    apply Rmult_integral in P. destruct P; [left|right]; lra. }
  split; [|auto].
  rewrite HR. f_equal. f_equal. pose proof (rotation_cof X OX DX) as CX. rewrite HW in EX. fold z in EX.
  clearbody X. clear - EX CX KZ C0 AB WZ K S2 AA. subst b c.
  destruct X as [[x0 x1 x2] [x3 x4 x5] [x6 x7 x8]]. unfold adj, Xmat in *. revert EX CX. munfold. intros EX CX.
  injection EX as E0 E1 E2 E3 E4 E5 E6 E7 E8. injection CX as C0 C1 C2 C3 C4 C5 C6 C7 C8.
  assert (F : forall v, k * z * v = 0 -> v = 0) by (intros v Hv; apply Rmult_integral in Hv; tauto).
  assert (X5 : x5 = 0) by (apply F; lra). assert (X4 : x4 = 0) by (apply F; lra).
  assert (X0 : x0 = 0) by (apply F; lra). assert (X2 : x2 = 0) by (apply F; lra).
  assert (X1 : x1 = s * a / (k * z)) by (apply (Rmult_eq_reg_l (k * z)); [replace (k * z * (s * a / (k * z))) with (s * a) by (field; split; assumption); lra|exact KZ]).
  assert (X3 : x3 = - (s * a / (k * z))) by (apply (Rmult_eq_reg_l (k * z)); [replace (k * z * - (s * a / (k * z))) with (- (s * a)) by (field; split; assumption); lra|exact KZ]).
  assert (X6 : x6 = 0) by (rewrite C2, X5, X2; ring).
  assert (X7 : x7 = 0) by (rewrite C5, X5, X2; ring).
  assert (X8 : x8 = 1).
  { rewrite C8, X0, X1, X3. transitivity ((s * s * (a * a)) / (k * k * (z * z))); [field; split; assumption|]. rewrite S2, AA. field. split; assumption. }
  rewrite X0, X1, X2, X3, X4, X5, X6, X7, X8. reflexivity.
Qed.
