(** Proofs for PairModel. *)
From Coq Require Import Reals List Bool ZArith Lia Lra Psatz Permutation Sorted.
From Verif Require Import Outcome Pose PoseProofs GeomModel GeomSpec GeomProofs StereoModel StereoSpec StereoProofs StopModel StopProofs
  EssModel EssSpec EssProofs EssMore EssTop PairModel PairSpec.
Import ListNotations.
Open Scope R_scope.

(** Lists. *)
Lemma sorted_nodup_increasing l : StronglySorted Z.le l -> NoDup l -> increasing_Z l.
Proof.
  induction l as [|a l IH]; intros S N; [exact I|]. inversion S as [|? ? S' F]; subst. inversion N as [|? ? NI N']; subst.
  destruct l as [|b l]; [exact I|]. split; [|apply IH; assumption].
  inversion F as [|? ? Hab _]; subst. assert (a <> b) by (intros ->; apply NI; left; reflexivity). lia.
Qed.

Lemma pigeon n (a b : list nat) : NoDup a -> NoDup b -> (forall i, In i a -> (i < n)%nat) -> (forall i, In i b -> (i < n)%nat) ->
  (n < length a + length b)%nat -> exists i, In i a /\ In i b.
Proof.
  intros NA NB BA BB L. destruct (existsb (fun i => existsb (Nat.eqb i) b) a) eqn:X.
  - apply existsb_exists in X. destruct X as (i & IA & IB). apply existsb_exists in IB. destruct IB as (j & JB & E). apply Nat.eqb_eq in E. subst j. exists i. auto.
  - exfalso. assert (N : NoDup (a ++ b)).
    { clear - NA NB X. revert X. induction a as [|x a IH]; intros X; [exact NB|]. inversion NA; subst. cbn in X. apply orb_false_iff in X. destruct X as [X1 X2].
      cbn. constructor; [|apply IH; assumption]. rewrite in_app_iff. intros [H|H]; [contradiction|].
      assert (existsb (Nat.eqb x) b = true) by (apply existsb_exists; exists x; split; [exact H|apply Nat.eqb_refl]). congruence. }
    assert (length (a ++ b) <= length (seq 0 n))%nat.
    { apply NoDup_incl_length; [exact N|]. intros i Hi. apply in_app_iff in Hi. apply in_seq. destruct Hi as [H|H]; [apply BA in H|apply BB in H]; lia. }
    rewrite app_length, seq_length in H. lia.
Qed.

Lemma first_best_exists {E} (inl : E -> nat -> bool) n found : (exists e, In e found /\ (0 < support inl n e)%nat) -> exists e, first_best inl n found e.
Proof.
  induction found as [|x found IH]; intros (e & HI & HP); [destruct HI|].
  destruct (existsb (fun y => support inl n x <? support inl n y)%nat found) eqn:X.
  - apply existsb_exists in X. destruct X as (y & HY & L). apply Nat.ltb_lt in L.
    destruct IH as (w & a & b & Ef & P & A & B); [exists y; split; [exact HY|lia]|].
    exists w, (x :: a), b. split; [rewrite Ef; reflexivity|]. split; [exact P|]. split; [|exact B].
    intros z [<-|Hz]; [|apply A, Hz]. rewrite Ef in HY. apply in_app_iff in HY. destruct HY as [HY|[->|HY]].
    + specialize (A y HY). lia.
    + exact L.
    + specialize (B y HY). lia.
  - assert (ALL : forall y, In y found -> (support inl n y <= support inl n x)%nat).
    { intros y HY. destruct (le_lt_dec (support inl n y) (support inl n x)) as [H|H]; [exact H|]. exfalso.
      assert (existsb (fun y => support inl n x <? support inl n y)%nat found = true); [|congruence].
      apply existsb_exists. exists y. split; [exact HY|apply Nat.ltb_lt; exact H]. }
    exists x, [], found. split; [reflexivity|]. split; [|split; [intros ? []|exact ALL]].
    destruct HI as [->|HI]; [exact HP|]. specialize (ALL e HI). lia.
Qed.
Lemma first_best_max {E} (inl : E -> nat -> bool) n found e x : first_best inl n found e -> In x found -> (support inl n x <= support inl n e)%nat.
Proof.
  intros (a & b & -> & _ & A & B) HX. apply in_app_iff in HX. destruct HX as [H|[->|H]]; [specialize (A x H); lia|lia|exact (B x H)].
Qed.
Lemma first_best_in {E} (inl : E -> nat -> bool) n found e : first_best inl n found e -> In e found.
Proof. intros (a & b & -> & _). apply in_elt. Qed.

Lemma consensus_in {E M} (inl : E -> nat -> bool) (front : M -> nat -> bool) n e m i :
  In i (consensus inl front n e m) <-> (i < n)%nat /\ inl e i = true /\ front m i = true.
Proof. unfold consensus. rewrite filter_In, in_seq, andb_true_iff. intuition lia. Qed.
Lemma consensus_nodup {E M} (inl : E -> nat -> bool) (front : M -> nat -> bool) n e m : NoDup (consensus inl front n e m).
Proof. apply NoDup_filter, seq_NoDup. Qed.
Lemma consensus_support {E M} (inl : E -> nat -> bool) (front : M -> nat -> bool) n e m : (length (consensus inl front n e m) <= support inl n e)%nat.
Proof.
  apply NoDup_incl_length; [apply consensus_nodup|]. intros i Hi. apply consensus_in in Hi. apply filter_In. rewrite in_seq. intuition lia.
Qed.

(** Rays. *)
Lemma unit_ray_of k v w : 0 < k -> v = vscale k w -> 0 < vnorm w -> unit_ray v = vscale (/ vnorm w) w.
Proof.
  intros K -> W. unfold unit_ray. rewrite vnorm_scale, (Rabs_right k) by lra.
  destruct (Rlt_dec 0 (k * vnorm w)) as [L|L]; [|exfalso; apply L; apply Rmult_lt_0_compat; assumption].
  rewrite vscale_scale. f_equal. field. split; lra.
Qed.
Lemma vnorm_pos_of v : v <> vzero -> 0 < vnorm v.
Proof.
  intros H. destruct (Rle_lt_or_eq_dec 0 (vnorm v) (vnorm_nonneg v)) as [L|L]; [exact L|]. exfalso. apply H.
  pose proof (vnorm_sq v) as Q. rewrite <- L in Q. destruct v as [x y z]. unfold dot in Q. cbn in Q.
  assert (x = 0) by nra. assert (y = 0) by nra. assert (z = 0) by nra. subst. reflexivity.
Qed.
Lemma parallel_zero_r u : parallel u vzero.
Proof. unfold parallel. destruct u as [? ? ?]. munfold. unfold vzero. cbn. f_equal; ring. Qed.
Lemma rot_vzero q : rot q vzero = vzero.
Proof.
  assert (E : vzero = vscale 0 vzero) by (unfold vzero, vscale; cbn; f_equal; ring).
  rewrite E at 1. rewrite rot_scale. destruct (rot q vzero) as [? ? ?]. unfold vscale, vzero. cbn. f_equal; ring.
Qed.
Lemma shows_pos mp un g img P : shows mp un g img P -> 0 < vnorm P /\ 0 < vnorm (act g P).
Proof.
  intros (_ & _ & _ & NP). split; apply vnorm_pos_of; intros Z; apply NP.
  - rewrite Z, rot_vzero. apply parallel_zero_r.
  - unfold act in Z. revert Z. generalize (rot (so3 g) P) as y. generalize (tr g) as t. intros [t1 t2 t3] [y1 y2 y3]. unfold parallel. munfold. unfold vzero. intros Z. injection Z as Z1 Z2 Z3.
    assert (t1 = - y1) by lra. assert (t2 = - y2) by lra. assert (t3 = - y3) by lra. subst. apply f_equal3; ring.
Qed.
Lemma shows_ray mp un g img P : shows mp un g img P ->
  with_ray un img = (img, (vscale (/ vnorm P) P, vscale (/ vnorm (act g P)) (act g P))).
Proof.
  intros S. pose proof (shows_pos _ _ _ _ _ S) as [P1 P2]. destruct S as ((a & A & EA) & (b & B & EB) & _).
  unfold with_ray. rewrite (unit_ray_of a _ P A EA P1), (unit_ray_of b _ (act g P) B EB P2). reflexivity.
Qed.
Lemma unit_back P : 0 < vnorm P -> vscale (vnorm P) (vscale (/ vnorm P) P) = P.
Proof. intros H. rewrite vscale_scale. replace (vnorm P * / vnorm P) with 1 by (field; lra). destruct P as [? ? ?]. unfold vscale. cbn. f_equal; ring. Qed.
Lemma parallel_scaled t q P k : k <> 0 -> parallel t (rot q (vscale k P)) -> parallel t (rot q P).
Proof.
  intros K. rewrite rot_scale. generalize (rot q P) as y. intros y. unfold parallel. destruct t as [t1 t2 t3], y as [y1 y2 y3]. munfold. unfold vzero. intros H. injection H as H1 H2 H3.
  apply f_equal3; apply (Rmult_eq_reg_l k); try exact K; lra.
Qed.
Lemma shows_seen mp un g img P : shows mp un g img P -> seen_in_front g (snd (with_ray un img)).
Proof.
  intros S. rewrite (shows_ray _ _ _ _ _ S). pose proof (shows_pos _ _ _ _ _ S) as [P1 P2]. destruct S as (_ & _ & _ & NP).
  exists (vnorm P), (vnorm (act g P)). cbn [fst snd]. rewrite !unit_back by assumption. repeat split; try assumption.
  intros H. apply NP. apply parallel_scaled in H; [exact H|]. apply Rinv_neq_0_compat. lra.
Qed.
Lemma shows_map mp un g img P : shows mp un g img P -> mp (fst (snd (with_ray un img))) = fst img /\ mp (snd (snd (with_ray un img))) = snd img.
Proof.
  intros S. rewrite (shows_ray _ _ _ _ _ S). pose proof (shows_pos _ _ _ _ _ S) as [P1 P2]. destruct S as (_ & _ & M & _). cbn [fst snd].
  split; [apply (M (/ vnorm P)); apply Rinv_0_lt_compat, P1|apply (M (/ vnorm (act g P))); apply Rinv_0_lt_compat, P2].
Qed.

(** Motions that move alike have the same parts. *)
Lemma same_parts g h : same_motion g h -> tr g = tr h /\ forall p, rot (so3 g) p = rot (so3 h) p.
Proof.
  intros S. assert (T : tr g = tr h).
  { pose proof (S vzero) as Z. unfold act in Z. rewrite !rot_vzero in Z. destruct (tr g) as [? ? ?], (tr h) as [? ? ?]. munfold. unfold vzero in Z. cbn in Z. injection Z as Z1 Z2 Z3. apply f_equal3; lra. }
  split; [exact T|]. intros p. specialize (S p). unfold act in S. rewrite T in S. exact (vadd_cancel _ _ _ S).
Qed.
Lemma essential_same g m : tr g <> vzero -> same_motion m (unit_tr g) -> true_matrix g (toEssential m).
Proof.
  intros T S. apply same_parts in S. destruct S as [ST SR]. exists (/ vnorm (tr g)). split; [apply Rinv_neq_0_compat; pose proof (vnorm_pos_of _ T); lra|].
  intros q. unfold toEssential. rewrite mapply_mmul, mapply_hat, rotm_apply, ST, SR. cbn [unit_tr tr so3].
  generalize (rot (so3 g) q) as y. intros y. generalize (/ vnorm (tr g)) as k. intros k. destruct (tr g) as [? ? ?], y as [? ? ?]. munfold. f_equal; ring.
Qed.

Lemma draw_five_all n draws (D : draws_five n draws) it h : Permutation (draws it) h -> increasing_Z h -> five n h.
Proof.
  intros PM IN. destruct (D it) as [L B]. split; [rewrite <- (Permutation_length PM); exact L|]. split; [exact IN|]. intros i Hi. apply B. apply (Permutation_in _ (Permutation_sym PM)), Hi.
Qed.

Section Exact.
Variables (mp : vec -> pt) (un : pt -> vec) (svd : mat -> mat * mat) (toQuat : mat -> quat) (solve : vec -> vec -> vec -> R * R).
Variables (est : list (vec * vec) -> list mat) (thr p : R) (runMax : bool) (maxIter : Z) (imgs : list (pt * pt)) (g : se3).
Hypothesis SVD : forall E, true_matrix g E -> is_svd svd E.
Hypothesis CONV : converts toQuat.
Hypothesis SOLVE : basic_solver solve.
Hypothesis THR : 0 < thr.
Hypothesis PROB : 0 < p < 1.
Hypothesis ITER : (1 <= maxIter < 2 ^ 31)%Z.
Hypothesis RIG : rigid g.
Hypothesis MOVE : tr g <> vzero.
Let cs := map (with_ray un) imgs.
Let n := length imgs.
Variable good : list nat.
Hypothesis NDG : NoDup good.
Hypothesis GOOD : forall i, In i good -> exists img P, nth_error imgs i = Some img /\ shows mp un g img P.
Hypothesis MOST : (n < 2 * length good)%nat.

Lemma len_cs : length cs = n. Proof using All. unfold cs, n. apply map_length. Qed.
Lemma good_lt i : In i good -> (i < n)%nat.
Proof using All. intros H. destruct (GOOD i H) as (img & P & N & _). apply nth_error_Some. unfold n. congruence. Qed.
Lemma good_seen i : In i good -> exists img, nth_error cs i = Some (with_ray un img) /\ seen_in_front g (snd (with_ray un img)) /\ mp (fst (snd (with_ray un img))) = fst img /\ mp (snd (snd (with_ray un img))) = snd img.
Proof using All.
  intros H. destruct (GOOD i H) as (img & P & N & S). exists img. split; [unfold cs; apply map_nth_error, N|]. split; [apply (shows_seen mp un g img P S)|apply (shows_map mp un g img P S)].
Qed.
Lemma good_agree E i : true_matrix g E -> In i good -> agree mp thr cs E i = true.
Proof using All.
  intros (k & K & HE) H. destruct (good_seen i H) as (img & N & S & M1 & _). unfold agree. rewrite N. unfold with_ray in *. cbn [fst snd] in *. apply Rltb_iff.
  rewrite (reproj_exact mp E img _ (seen_epipolar g _ E k S HE) (or_introl M1)). exact THR.
Qed.
Lemma true_sols E : true_matrix g E ->
  (exists s, In s (sols svd toQuat E) /\ same_motion s (unit_tr g)) /\
  forall s, In s (sols svd toQuat E) -> rigid s /\ ((same_motion s (unit_tr g) /\ forall i, In i good -> front_rays solve (rays cs) s i = true) \/
     (~ same_motion s (unit_tr g) /\ forall i, In i good -> front_rays solve (rays cs) s i = false)).
Proof using All.
  intros TM. pose proof (SVD E TM) as SE. destruct TM as (k & K & HE). destruct (four_sides svd toQuat solve E g k SE CONV SOLVE RIG MOVE K HE) as (l & F & EX & SIDES).
  destruct (four_rigid svd toQuat E SE CONV) as (l' & F' & _ & RG). rewrite F in F'. injection F' as <-.
  unfold sols. rewrite F. split; [exact EX|]. intros s Hs. split; [apply RG, Hs|].
  assert (FR : forall i, In i good -> exists c, seen_in_front g c /\ front_rays solve (rays cs) s i = let (d0, d1) := triangulate solve s (fst c) (snd c) in Rltb 0 d0 && Rltb 0 d1).
  { intros i Hi. destruct (good_seen i Hi) as (img & N & S & _). exists (snd (with_ray un img)). split; [exact S|]. unfold front_rays, rays. rewrite (map_nth_error _ _ _ N).
    destruct (snd (with_ray un img)) as [a b]. reflexivity. }
  destruct (SIDES s Hs) as [[S1 S2]|[S1 S2]]; [left|right]; (split; [exact S1|]); intros i Hi; destruct (FR i Hi) as (c & Sc & ->).
  - apply both_front, S2, Sc.
  - apply not_true_iff_false. intros H. apply both_front in H. pose proof (S2 c Sc) as A. destruct (triangulate solve s (fst c) (snd c)). exact (A H).
Qed.

Lemma support_true E : true_matrix g E -> (length good <= support (agree mp thr cs) n E)%nat.
Proof using All.
  intros T. apply NoDup_incl_length; [exact NDG|]. intros i Hi. apply filter_In. split; [apply in_seq; pose proof (good_lt i Hi); lia|apply good_agree; assumption].
Qed.

Variables (junk : mat) (draws : nat -> list Z).
Hypothesis DRAWS : draws_five n draws.
Hypothesis UNIQ : forall h E, five n h -> In E (est (sample cs h)) -> (length good <= support (agree mp thr cs) n E)%nat -> true_matrix g E.

Let ev := evaluates (agree mp thr cs) n draws (fun h => est (sample cs h)).

Lemma draw_five it h : Permutation (draws it) h -> increasing_Z h -> five n h.
Proof using All. exact (draw_five_all n draws DRAWS it h). Qed.
Lemma ev_true it e : ev it e -> (length good <= support (agree mp thr cs) n e)%nat -> true_matrix g e.
Proof using All. intros (h & PM & IN & FB) L. exact (UNIQ h e (draw_five it h PM IN) (first_best_in _ _ _ _ FB) L). Qed.

(** A sample of exact correspondences is evaluated to the true matrix. *)
Lemma sample_ev it : NoDup (draws it) -> (exists h E, Permutation (draws it) h /\ increasing_Z h /\ In E (est (sample cs h)) /\ true_matrix g E) -> exists e, ev it e /\ true_matrix g e.
Proof using All.
  intros ND (h & E & PM & IN & HE & T). pose proof (support_true E T) as SE.
  destruct (first_best_exists (agree mp thr cs) n (est (sample cs h))) as (e & FB); [exists E; split; [exact HE|lia]|].
  exists e. assert (EV : ev it e) by (exists h; auto). split; [exact EV|]. apply (ev_true it e EV). pose proof (first_best_max _ _ _ _ _ FB HE). lia.
Qed.

Lemma core r st : coarse mp svd toQuat solve est thr p runMax maxIter cs junk draws (sge_new sid) = Ok (r, st) ->
  exists (done : nat) (kept : list nat),
    (maxIter <= Z.of_nat done \/ (runMax = false /\ exists k z, (0 <= k <= Z.of_nat (length kept))%Z /\ stop_iter p (stop_ratio n k) = Ok z /\ (z <= Z.of_nat done)%Z))%Z /\
    ((kept = [] /\ g_motion st = sid) \/ (exists it e, (it < done)%nat /\ ev it e /\ (length kept <= support (agree mp thr cs) n e)%nat /\ kept <> [])) /\
    ((exists it e, (it < done)%nat /\ ev it e /\ true_matrix g e) ->
       rigid r /\ rigid (g_motion st) /\ same_motion r (unit_tr g) /\ same_motion (g_motion st) (unit_tr g) /\ incl good (g_inl st) /\
       (forall i, In i (g_inl st) -> (i < n)%nat) /\ NoDup (g_inl st) /\ g_coarse st = true /\ g_precise st = false).
Proof using All.
  intros H. assert (FL : g_coarse st = true /\ g_precise st = false).
  { unfold coarse, find_coarse in H. cbn [g_coarse g_precise sge_new orb] in H. destruct (length cs =? 0)%nat; [discriminate|].
    destruct (ransac_loop _ _ _ _ _ _ _ _ _ _ _ _ _ _) as [[? ?]| | | |]; try discriminate. cbn [bind] in H.
    destruct (extract_motion _ _ _ _ _) as [[? ?] ?]. injection H as _ <-. split; reflexivity. }
  unfold coarse in H. rewrite len_cs in H. apply coarse_consensus in H. destruct H as (done & kept & _ & STOP & BEST & MAX & FIN & FMAX).
  exists done, kept. split; [exact STOP|]. split.
  { destruct BEST as [B|(it & e & L & EV & IS & -> & NE)]; [left; exact B|right]. exists it, e. split; [exact L|]. split; [exact EV|]. split; [apply consensus_support|exact NE]. }
  intros (it0 & e0 & L0 & EV0 & T0).
  assert (LK : (length good <= length kept)%nat).
  { destruct (true_sols e0 T0) as ((s & IS & SM) & SIDES). destruct (SIDES s IS) as [_ [[_ FR]|[NS _]]]; [|contradiction].
    apply Nat.le_trans with (length (consensus (agree mp thr cs) (front_rays solve (rays cs)) n e0 s)); [|exact (MAX it0 e0 s L0 EV0 IS)].
    apply NoDup_incl_length; [exact NDG|]. intros i Hi. apply consensus_in. split; [apply good_lt, Hi|]. split; [apply good_agree; assumption|apply FR, Hi]. }
  assert (LG : (0 < length good)%nat) by lia.
  destruct BEST as [[B _]|(it & e & L & EV & IS & K & NE)]; [rewrite B in LK; cbn in LK; lia|].
  set (m := g_motion st) in *.
  assert (T : true_matrix g e).
  { apply (ev_true it e EV). apply Nat.le_trans with (length kept); [exact LK|]. rewrite K. apply consensus_support. }
  assert (BK : forall i, In i kept -> (i < n)%nat) by (intros i Hi; rewrite K in Hi; apply consensus_in in Hi; tauto).
  assert (NK : NoDup kept) by (rewrite K; apply consensus_nodup).
  destruct (true_sols e T) as (_ & SIDES). destruct (SIDES m IS) as [RM SM].
  assert (SM1 : same_motion m (unit_tr g) /\ forall i, In i good -> front_rays solve (rays cs) m i = true).
  { destruct SM as [SM|[_ FF]]; [exact SM|]. exfalso. destruct (pigeon n kept good NK NDG BK (fun i H => good_lt i H)) as (i & IK & IG); [lia|].
    rewrite K in IK. apply consensus_in in IK. destruct IK as (_ & _ & FT). rewrite (FF i IG) in FT. discriminate. }
  destruct SM1 as [SAME FR].
  assert (IK : incl good kept) by (intros i Hi; rewrite K; apply consensus_in; split; [apply good_lt, Hi|]; split; [apply good_agree; assumption|apply FR, Hi]).
  destruct (true_sols (toEssential m) (essential_same g m MOVE SAME)) as ((s & IS2 & SM2) & SIDES2).
  destruct (SIDES2 s IS2) as [_ [[_ FR2]|[NS _]]]; [|contradiction].
  assert (LF : (length good <= length (g_inl st))%nat).
  { apply Nat.le_trans with (length (filter (front_rays solve (rays cs) s) kept)); [|exact (FMAX s IS2)].
    apply NoDup_incl_length; [exact NDG|]. intros i Hi. apply filter_In. split; [apply IK, Hi|apply FR2, Hi]. }
  destruct FIN as [[_ F]|(IR & F & _)]; [rewrite F in LF; cbn in LF; lia|].
  destruct (SIDES2 r IR) as [RR SR].
  assert (BF : forall i, In i (g_inl st) -> (i < n)%nat) by (intros i Hi; rewrite F in Hi; apply filter_In in Hi; apply BK; tauto).
  assert (NF : NoDup (g_inl st)) by (rewrite F; apply NoDup_filter, NK).
  assert (SR1 : same_motion r (unit_tr g) /\ forall i, In i good -> front_rays solve (rays cs) r i = true).
  { destruct SR as [SR|[_ FF]]; [exact SR|]. exfalso. destruct (pigeon n (g_inl st) good NF NDG BF (fun i H => good_lt i H)) as (i & IKK & IG); [lia|].
    rewrite F in IKK. apply filter_In in IKK. destruct IKK as [_ FT]. rewrite (FF i IG) in FT. discriminate. }
  destruct SR1 as [SR1 FR3]. split; [exact RR|]. split; [exact RM|]. split; [exact SR1|]. split; [exact SAME|]. split; [|split; [exact BF|split; [exact NF|exact FL]]].
  intros i Hi. rewrite F. apply filter_In. split; [apply IK, Hi|apply FR3, Hi].
Qed.

Lemma coarse_runs : exists r st, coarse mp svd toQuat solve est thr p runMax maxIter cs junk draws (sge_new sid) = Ok (r, st).
Proof using All.
  assert (N0 : (0 < n)%nat).
  { destruct (Nat.eq_dec n 0) as [Z|Z]; [|lia]. exfalso. assert (length good <= 0)%nat; [|lia].
    rewrite <- Z. rewrite <- (seq_length n 0). apply NoDup_incl_length; [exact NDG|]. intros i Hi. apply in_seq. pose proof (good_lt i Hi). lia. }
  unfold coarse. rewrite len_cs. destruct (coarse_total mat se3 sid (agree mp thr cs) (front_rays solve (rays cs)) (sols svd toQuat) toEssential R (stop_q0 p maxIter) (stop_ratio n) stop_gtb (stop_iter p) runMax n draws (fun h => est (sample cs h)) maxIter junk N0 (real_stop_ok p maxIter n PROB ITER N0)) as [[[r st] H] _].
  exists r, st. exact H.
Qed.
End Exact.
