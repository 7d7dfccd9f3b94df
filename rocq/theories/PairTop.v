(** The estimator on exact correspondences and on correspondences with outliers. *)
From Coq Require Import Reals List Bool ZArith Lia Lra Psatz Permutation Sorted.
From Verif Require Import Outcome Pose PoseProofs GeomModel GeomSpec GeomProofs StereoModel StereoSpec StereoProofs StopModel StopProofs
  EssModel EssSpec EssProofs EssMore EssTop PairModel PairSpec PairProofs.
Import ListNotations.
Open Scope R_scope.

Lemma increasing_above a l : increasing_Z (a :: l) -> forall x, In x l -> (a < x)%Z.
Proof.
  revert a. induction l as [|b l IH]; intros a IN x Hx; [destruct Hx|]. destruct IN as [L IN]. destruct Hx as [<-|Hx]; [exact L|]. specialize (IH b IN x Hx). lia.
Qed.
Lemma increasing_nodup l : increasing_Z l -> NoDup l.
Proof.
  induction l as [|a l IH]; intros IN; [constructor|]. constructor.
  - intros Ha. pose proof (increasing_above a l IN a Ha). lia.
  - apply IH. destruct l; [exact I|exact (proj2 IN)].
Qed.

Lemma sort_draw n draws it : draws_five n draws -> NoDup (draws it) -> exists h, Permutation (draws it) h /\ increasing_Z h /\ five n h.
Proof.
  intros D N. exists (zsort (draws it)). assert (IN : increasing_Z (zsort (draws it))).
  { apply sorted_nodup_increasing; [apply zsort_sorted|]. exact (Permutation_NoDup (zsort_perm (draws it)) N). }
  split; [apply zsort_perm|]. split; [exact IN|]. exact (@draw_five_all n draws D it _ (zsort_perm _) IN).
Qed.

Lemma coarse_outliers map unmap svd toQuat solve est thr p runMax maxIter imgs g good junk draws it :
  decomposes svd (fun h => est (sample (List.map (with_ray unmap) imgs) h)) (length imgs) g junk -> converts toQuat -> basic_solver solve -> 0 < thr -> 0 < p < 1 -> (1 <= maxIter < 2 ^ 31)%Z ->
  rigid g -> tr g <> vzero ->
  NoDup good -> (forall i, In i good -> exists img P, nth_error imgs i = Some img /\ shows map unmap g img P) ->
  (length imgs < 2 * length good)%nat ->
  let cs := List.map (with_ray unmap) imgs in let n := length imgs in
  draws_five n draws ->
  (forall h E, five n h -> In E (est (sample cs h)) -> (length good <= support (agree map thr cs) n E)%nat -> true_matrix g E) ->
  (forall h, five n h -> (forall i, In i h -> In (Z.to_nat i) good) -> exists E, In E (est (sample cs h)) /\ true_matrix g E) ->
  NoDup (draws it) -> (forall i, In i (draws it) -> In (Z.to_nat i) good) -> (Z.of_nat it < maxIter)%Z ->
  runMax = true \/ (forall k z, (0 <= k < Z.of_nat (length good))%Z -> stop_iter p (stop_ratio n k) = Ok z -> (Z.of_nat it < z)%Z) ->
  exists r st, coarse map svd toQuat solve est thr p runMax maxIter cs junk draws (sge_new sid) = Ok (r, st) /\
    same_motion r (unit_tr g) /\ same_motion (g_motion st) (unit_tr g) /\ incl good (g_inl st).
Proof.
  intros DEC CONV SOLVE THR PROB ITER RIG MOVE NDG GOOD MOST cs n DRAWS UNIQ REC ND INS LIT LATE.
  assert (SVD : forall E, true_matrix g E -> is_svd svd E) by (intros E T; apply DEC; left; exact T).
  destruct (coarse_runs map unmap svd toQuat solve est thr p runMax maxIter imgs g SVD CONV SOLVE THR PROB ITER RIG MOVE good NDG GOOD MOST junk draws DRAWS UNIQ) as (r & st & H).
  exists r, st. split; [exact H|].
  destruct (core map unmap svd toQuat solve est thr p runMax maxIter imgs g SVD CONV SOLVE THR PROB ITER RIG MOVE good NDG GOOD MOST junk draws DRAWS UNIQ r st H) as (done & kept & STOP & BEST & C).
  destruct (sort_draw n draws it DRAWS ND) as (h & PM & IN & FV).
  destruct (REC h FV) as (E & HE & TE); [intros i Hi; apply INS, (Permutation_in _ (Permutation_sym PM)), Hi|].
  destruct (sample_ev map unmap svd toQuat solve est thr p runMax maxIter imgs g SVD CONV SOLVE THR PROB ITER RIG MOVE good NDG GOOD MOST junk draws DRAWS UNIQ it ND) as (e0 & EV0 & T0); [exists h, E; auto|].
  assert (EX : exists it e, (it < done)%nat /\ evaluates (agree map thr cs) n draws (fun h => est (sample cs h)) it e /\ true_matrix g e).
  { destruct (lt_dec it done) as [L|L]; [exists it, e0; auto|].
    destruct STOP as [S|(RM & k & z & K & SI & Z)]; [lia|]. destruct LATE as [LATE|LATE]; [congruence|].
    destruct (Z_lt_dec k (Z.of_nat (length good))) as [KL|KL]; [specialize (LATE k z (conj (proj1 K) KL) SI); lia|].
    destruct BEST as [[B _]|(it' & e & L' & EV & SUP & NE)].
    - exfalso. rewrite B in K. cbn in K. unfold n in *. lia.
    - exists it', e. split; [exact L'|]. split; [exact EV|].
      apply (ev_true map unmap svd toQuat solve est thr p runMax maxIter imgs g SVD CONV SOLVE THR PROB ITER RIG MOVE good NDG GOOD MOST junk draws DRAWS UNIQ it' e EV). refine (Nat.le_trans _ _ _ _ SUP). lia. }
  destruct (C EX) as (_ & _ & A & B & D & _). auto.
Qed.

Lemma filter_full {A} (f : A -> bool) l : length (filter f l) = length l -> forall x, In x l -> f x = true.
Proof.
  induction l as [|y l IH]; intros L x [].
  - subst y. cbn in L. destruct (f x); [reflexivity|]. pose proof (filter_len_le f l). cbn in L. lia.
  - cbn in L. destruct (f y); [|pose proof (filter_len_le f l); cbn in L; lia]. apply IH; [cbn in L; lia|assumption].
Qed.

Lemma sorted_all n l : StronglySorted lt l -> (forall i, In i l <-> (i < n)%nat) -> l = seq 0 n.
Proof.
  intros S H. assert (G : forall m a l, StronglySorted lt l -> (forall i, In i l <-> (a <= i < a + m)%nat) -> l = seq a m).
  { clear. induction m as [|m IH]; intros a l S H.
    - destruct l as [|x l]; [reflexivity|]. exfalso. specialize (proj1 (H x) (or_introl eq_refl)). lia.
    - destruct l as [|x l]; [exfalso; apply (proj2 (H a)); lia|]. inversion S as [|? ? S' F]; subst. rewrite Forall_forall in F.
      assert (x = a). { pose proof (proj1 (H x) (or_introl eq_refl)). destruct (proj2 (H a)) as [E|E]; [lia|exact E|]. specialize (F a E). lia. }
      subst x. cbn. f_equal. apply IH; [exact S'|]. intros i. split.
      + intros Hi. pose proof (proj1 (H i) (or_intror Hi)). specialize (F i Hi). lia.
      + intros Hi. destruct (proj2 (H i)) as [E|E]; [lia|lia|exact E]. }
  apply G; [exact S|]. intros i. rewrite H. lia.
Qed.

Lemma put_at_ok {A} (l : list A) i x : (i < length l)%nat -> exists l', put_at l i x = Ok l' /\ length l' = length l /\
  nth_error l' i = Some x /\ forall j, j <> i -> nth_error l' j = nth_error l j.
Proof.
  revert i. induction l as [|y l IH]; intros i L; [cbn in L; lia|]. destruct i as [|i].
  - exists (x :: l). cbn. split; [reflexivity|]. split; [reflexivity|]. split; [reflexivity|]. intros [|j] J; [lia|reflexivity].
  - destruct (IH i) as (l' & E & LL & NI & NJ); [cbn in L; lia|]. exists (y :: l'). cbn. rewrite E. cbn. split; [reflexivity|]. split; [lia|]. split; [exact NI|].
    intros [|j] J; [reflexivity|]. cbn. apply NJ. lia.
Qed.

Section Exact.
Variables (map : vec -> pt) (unmap : pt -> vec) (svd : mat -> mat * mat) (toQuat : mat -> quat) (solve : vec -> vec -> vec -> R * R).
Variables (est : list (vec * vec) -> list mat) (thr p : R) (runMax : bool) (maxIter : Z) (imgs : list (pt * pt)) (g : se3) (junk : mat) (draws : nat -> list Z).
Hypothesis DEC : decomposes svd (fun h => est (sample (List.map (with_ray unmap) imgs) h)) (length imgs) g junk.
Let SVD : forall E, true_matrix g E -> is_svd svd E := fun E T => DEC E (or_introl T).
Hypothesis CONV : converts toQuat.
Hypothesis SOLVE : basic_solver solve.
Hypothesis THR : 0 < thr.
Hypothesis PROB : 0 < p < 1.
Hypothesis ITER : (1 <= maxIter < 2 ^ 31)%Z.
Hypothesis RIG : rigid g.
Hypothesis MOVE : tr g <> vzero.
Hypothesis ALL : forall img, In img imgs -> exists P, shows map unmap g img P.
Let cs := List.map (with_ray unmap) imgs.
Let n := length imgs.
Hypothesis DRAWS : draws_five n draws.
Hypothesis UNIQ : forall h E, five n h -> In E (est (sample cs h)) -> (forall i, (i < n)%nat -> agree map thr cs E i = true) -> true_matrix g E.
Hypothesis REC : forall h, five n h -> exists E, In E (est (sample cs h)) /\ true_matrix g E.
Hypothesis ONCE : exists it, (Z.of_nat it < maxIter)%Z /\ NoDup (draws it).

Lemma all_good : forall i, In i (seq 0 n) -> exists img P, nth_error imgs i = Some img /\ shows map unmap g img P.
Proof using ALL.
  intros i Hi. apply in_seq in Hi. destruct (nth_error imgs i) as [img|] eqn:N; [|apply nth_error_None in N; unfold n in Hi; lia].
  destruct (ALL img (nth_error_In _ _ N)) as (P & S). exists img, P. auto.
Qed.
Lemma some_img : (0 < n)%nat.
Proof using ONCE DRAWS.
  destruct ONCE as (it & _ & _). destruct (DRAWS it) as [L B]. destruct (draws it) as [|i l]; [discriminate|]. specialize (B i (or_introl eq_refl)). lia.
Qed.

Lemma exact_core : exists r st, coarse map svd toQuat solve est thr p runMax maxIter cs junk draws (sge_new sid) = Ok (r, st) /\
  rigid r /\ rigid (g_motion st) /\ same_motion r (unit_tr g) /\ same_motion (g_motion st) (unit_tr g) /\ g_inl st = seq 0 n /\
  g_coarse st = true /\ g_precise st = false.
Proof using All.
  pose proof some_img as N0.
  assert (NDG : NoDup (seq 0 n)) by apply seq_NoDup.
  assert (MOST : (length imgs < 2 * length (seq 0 n))%nat) by (rewrite seq_length; fold n; lia).
  assert (UN : forall h E, five n h -> In E (est (sample cs h)) -> (length (seq 0 n) <= support (agree map thr cs) n E)%nat -> true_matrix g E).
  { intros h E F HE L. apply (UNIQ h E F HE). intros i Hi. unfold support in L. pose proof (filter_len_le (agree map thr cs E) (seq 0 n)).
    apply (filter_full (agree map thr cs E) (seq 0 n)); [lia|apply in_seq; lia]. }
  destruct (coarse_runs map unmap svd toQuat solve est thr p runMax maxIter imgs g SVD CONV SOLVE THR PROB ITER RIG MOVE (seq 0 n) NDG all_good MOST junk draws DRAWS UN) as (r & st & H).
  exists r, st. split; [exact H|].
  destruct (core map unmap svd toQuat solve est thr p runMax maxIter imgs g SVD CONV SOLVE THR PROB ITER RIG MOVE (seq 0 n) NDG all_good MOST junk draws DRAWS UN r st H) as (done & kept & STOP & BEST & C).
  assert (SEV : forall it, NoDup (draws it) -> exists e, evaluates (agree map thr cs) n draws (fun h => est (sample cs h)) it e /\ true_matrix g e).
  { intros it ND. destruct (sort_draw n draws it DRAWS ND) as (h & PM & IN & FV). destruct (REC h FV) as (E & HE & TE).
    apply (sample_ev map unmap svd toQuat solve est thr p runMax maxIter imgs g SVD CONV SOLVE THR PROB ITER RIG MOVE (seq 0 n) NDG all_good MOST junk draws DRAWS UN it ND). exists h, E. auto. }
  assert (EX : exists it e, (it < done)%nat /\ evaluates (agree map thr cs) n draws (fun h => est (sample cs h)) it e /\ true_matrix g e).
  { destruct BEST as [[B _]|(it' & e & L' & (h & PM & IN & FB) & SUP & NE)].
    - destruct ONCE as (it & LIT & ND). destruct STOP as [S|(_ & k & z & K & SI & Z)].
      + destruct (SEV it ND) as (e & EV & T). exists it, e. split; [lia|auto].
      + exfalso. rewrite B in K. cbn in K. assert (k = 0%Z) by lia. subst k. unfold stop_iter, stop_ratio in SI.
        replace (0 / INR (length imgs)) with 0 in SI by (unfold Rdiv; ring).
        destruct (Req_EM_T 0 1); [lra|]. destruct (Rlt_dec 1 0); [lra|]. destruct (Rle_dec 0 0); [discriminate|lra].
    - assert (ND : NoDup (draws it')).
      { apply (Permutation_NoDup (Permutation_sym PM)). exact (increasing_nodup h IN). }
      destruct (SEV it' ND) as (e0 & EV & T). exists it', e0. auto. }
  destruct (C EX) as (A1 & A2 & A3 & A4 & A5 & A6 & A7 & A8 & A9). repeat (split; [assumption|]). split; [|auto].
  apply sorted_all.
  - unfold coarse in H. rewrite map_length in H. apply coarse_inliers in H. exact (proj1 (proj1 H)).
  - intros i. split; [apply A6|intros Hi; apply A5, in_seq; lia].
Qed.

Lemma exact_depth m i img P : rigid m -> same_motion m (unit_tr g) -> nth_error imgs i = Some img -> shows map unmap g img P ->
  exists a b, nth_error (rays cs) i = Some (a, b) /\ triangulate solve m a b = (vnorm P / vnorm (tr g), vnorm (act g P) / vnorm (tr g)).
Proof using All.
  intros RM SM N S. pose proof (shows_pos _ _ _ _ _ S) as [P1 P2]. pose proof (same_parts _ _ SM) as [ST SR]. cbn [unit_tr tr so3] in ST, SR.
  exists (vscale (/ vnorm P) P), (vscale (/ vnorm (act g P)) (act g P)). split.
  - unfold rays, cs. rewrite map_map. rewrite (map_nth_error _ _ _ N). rewrite (shows_ray _ _ _ _ _ S). reflexivity.
  - rewrite (triang_same solve g m (/ vnorm (tr g)) _ _ (vnorm P) (vnorm (act g P)) (proj1 SOLVE) RM SR ST).
    + f_equal; unfold Rdiv; ring.
    + lra.
    + rewrite !unit_back by assumption. reflexivity.
    + destruct S as (_ & _ & _ & NP). intros Q. apply NP. apply parallel_scaled in Q; [exact Q|]. apply Rinv_neq_0_compat. lra.
Qed.

Lemma fill_ok m inls : forall ds, length ds = length (rays cs) -> (forall i, In i inls -> (i < length (rays cs))%nat) ->
  exists ds', fill solve cs m inls ds = Ok ds' /\ length ds' = length ds /\
    (forall i a b, In i inls -> nth_error (rays cs) i = Some (a, b) -> nth_error ds' i = Some (triangulate solve m a b)) /\
    (forall i, ~ In i inls -> nth_error ds' i = nth_error ds i).
Proof using All.
  induction inls as [|i inls IH]; intros ds L B.
  - exists ds. split; [reflexivity|]. split; [reflexivity|]. split; [intros ? ? ? []|reflexivity].
  - cbn [fill]. destruct (nth_error (rays cs) i) as [[a b]|] eqn:N; [|apply nth_error_None in N; specialize (B i (or_introl eq_refl)); lia].
    destruct (put_at_ok ds i (triangulate solve m a b)) as (ds1 & E1 & L1 & N1 & O1); [rewrite L; apply B; left; reflexivity|]. rewrite E1. cbn [bind].
    destruct (IH ds1) as (ds2 & E2 & L2 & N2 & O2); [lia|intros j Hj; apply B; right; exact Hj|]. exists ds2. split; [exact E2|]. split; [lia|]. split.
    + intros j a' b' Hj Nj. destruct (in_dec Nat.eq_dec j inls) as [IJ|IJ]; [exact (N2 j a' b' IJ Nj)|]. rewrite (O2 j IJ).
      destruct Hj as [<-|Hj]; [|contradiction]. rewrite N in Nj. injection Nj as <- <-. exact N1.
    + intros j Hj. rewrite (O2 j); [apply O1; intros ->; apply Hj; left; reflexivity|intros X; apply Hj; right; exact X].
Qed.

Lemma exact_depths e m : rigid m -> same_motion m (unit_tr g) -> g_motion (e_sge e) = m -> g_inl (e_sge e) = seq 0 n ->
  e_evaluated e = false -> length (e_depths e) = n ->
  exists ds e', call_depths solve cs e = Ok (ds, e') /\ e_sge e' = e_sge e /\ length ds = n /\
    forall i img P, nth_error imgs i = Some img -> shows map unmap g img P ->
      nth_error ds i = Some (vnorm P / vnorm (tr g), vnorm (act g P) / vnorm (tr g)).
Proof using All.
  intros RM SM GM GI EV LD. unfold call_depths. rewrite EV, GM, GI.
  assert (LR : length (rays cs) = n) by (unfold rays, cs; rewrite !map_length; reflexivity).
  destruct (fill_ok m (seq 0 n) (e_depths e)) as (ds & F & L & V & _); [congruence|intros i Hi; apply in_seq in Hi; lia|].
  rewrite F. cbn [bind]. eexists ds, _. split; [reflexivity|]. split; [reflexivity|]. split; [congruence|].
  intros i img P N S. destruct (exact_depth m i img P RM SM N S) as (a & b & NR & T). rewrite <- T. apply V; [|exact NR].
  apply in_seq. assert (i < length imgs)%nat by (apply nth_error_Some; congruence). unfold n. lia.
Qed.

Lemma run_coarse : exists r e ds e', call_coarse map svd toQuat solve est thr p runMax maxIter cs junk draws (estimator_new cs) = Ok (r, e) /\
  same_motion r (unit_tr g) /\ g_inl (e_sge e) = seq 0 n /\ call_depths solve cs e = Ok (ds, e') /\ length ds = n /\
  forall i img P, nth_error imgs i = Some img -> shows map unmap g img P ->
    nth_error ds i = Some (vnorm P / vnorm (tr g), vnorm (act g P) / vnorm (tr g)).
Proof using All.
  destruct exact_core as (r & st & H & RR & RM & SR & SM & IN & _). unfold call_coarse, estimator_new. cbn [e_sge]. rewrite H. cbn [bind].
  set (e := {| e_sge := st; e_depths := _; e_evaluated := _ |}).
  destruct (exact_depths e (g_motion st) RM SM eq_refl IN eq_refl) as (ds & e' & D & _ & L & V); [unfold e; cbn; rewrite repeat_length; unfold cs; apply map_length|].
  exists r, e, ds, e'. auto 10.
Qed.

Lemma run_precise refine :
  (forall m inls, (forall i img ray, In i inls -> nth_error cs i = Some (img, ray) -> reproj_residual map img ray m = (0, 0, 0, 0)) -> refine m inls = m) ->
  exists r e ds e', call_precise map svd toQuat solve est thr p runMax maxIter cs junk draws refine (estimator_new cs) = Ok (r, e) /\
  same_motion r (unit_tr g) /\ g_motion (e_sge e) = r /\ g_inl (e_sge e) = seq 0 n /\ call_depths solve cs e = Ok (ds, e') /\ length ds = n /\
  forall i img P, nth_error imgs i = Some img -> shows map unmap g img P ->
    nth_error ds i = Some (vnorm P / vnorm (tr g), vnorm (act g P) / vnorm (tr g)).
Proof using All.
  intros REF. destruct exact_core as (r0 & st & H & RR & RM & SR & SM & IN & CO & PR).
  assert (LC : length cs = n) by apply map_length.
  assert (FIX : refine (g_motion st) (g_inl st) = g_motion st).
  { apply REF. intros i img ray _ N. unfold cs in N. rewrite nth_error_map in N. destruct (nth_error imgs i) as [im|] eqn:NI; [|discriminate]. cbn in N. injection N as <- <-.
    destruct (ALL im (nth_error_In _ _ NI)) as (P & S). pose proof (shows_seen _ _ _ _ _ S) as SE. pose proof (shows_map _ _ _ _ _ S) as [M1 M2]. unfold with_ray in SE, M1, M2. cbn [snd fst] in SE, M1, M2.
    set (ray := (unit_ray (unmap (fst im)), unit_ray (unmap (snd im)))) in *.
    pose proof (same_parts _ _ SM) as [ST SRO]. cbn [unit_tr tr so3] in ST, SRO.
    assert (K : 0 < / vnorm (tr g)) by (apply Rinv_0_lt_compat, vnorm_pos_of, MOVE). set (k := / vnorm (tr g)) in *. clearbody k.
    apply residual_exact; [|exact M1|exact M2].
    destruct SE as (d1 & d2 & D1 & D2 & HA & NP). exists (k * d1), (k * d2). split; [apply Rmult_lt_0_compat; assumption|]. split; [apply Rmult_lt_0_compat; assumption|]. split.
    - unfold act in *. rewrite ST, !SRO, !rot_scale in *. rewrite <- (vscale_scale k d2), <- HA. destruct (rot (so3 g) (fst ray)) as [? ? ?], (tr g) as [? ? ?]. munfold. f_equal; ring.
    - rewrite ST, SRO. intros Q. apply NP. revert Q. generalize (rot (so3 g) (fst ray)) as y. generalize (tr g) as t. intros [t1 t2 t3] [y1 y2 y3]. unfold parallel. munfold. unfold vzero. intros Q. injection Q as Q1 Q2 Q3.
      apply f_equal3; apply (Rmult_eq_reg_l k); lra. }
  destruct (essential_same g (g_motion st) MOVE SM) as (k & K & HE).
  assert (INL : find_inliers_motion (front_rays solve (rays cs)) (g_motion st) (find_inliers_essential (agree map thr cs) (length cs) (toEssential (g_motion st))) = seq 0 n).
  { unfold find_inliers_motion, find_inliers_essential. rewrite LC. rewrite (filter_all (agree map thr cs (toEssential (g_motion st)))).
    - apply filter_all. intros i Hi. apply in_seq in Hi. destruct (nth_error imgs i) as [img|] eqn:N; [|apply nth_error_None in N; unfold n in Hi; lia].
      destruct (ALL img (nth_error_In _ _ N)) as (P & S). destruct (exact_depth _ i img P RM SM N S) as (a & b & NR & T). unfold front_rays. rewrite NR, T.
      pose proof (shows_pos _ _ _ _ _ S) as [P1 P2]. pose proof (vnorm_pos_of _ MOVE). apply andb_true_iff. rewrite !Rltb_iff. split; apply Rdiv_lt_0_compat; assumption.
    - intros i Hi. apply in_seq in Hi. destruct (nth_error imgs i) as [img|] eqn:N; [|apply nth_error_None in N; unfold n in Hi; lia].
      destruct (ALL img (nth_error_In _ _ N)) as (P & S). unfold agree, cs. rewrite (map_nth_error _ _ _ N). pose proof (shows_seen _ _ _ _ _ S) as SE. pose proof (shows_map _ _ _ _ _ S) as [M1 M2].
      unfold with_ray in *. cbn [fst snd] in *. apply Rltb_iff. rewrite (reproj_exact map _ img _ (seen_epipolar g _ _ k SE HE) (or_introl M1)). exact THR. }
  unfold call_precise, precise, find_precise, estimator_new. cbn [e_sge g_precise g_coarse sge_new]. unfold coarse in H. rewrite H. cbn [bind]. rewrite FIX, INL.
  set (e := {| e_sge := _; e_depths := _; e_evaluated := _ |}).
  destruct (exact_depths e (g_motion st) RM SM eq_refl eq_refl eq_refl) as (ds & e' & D & _ & L & V); [unfold e; cbn; rewrite repeat_length; exact LC|].
  exists (g_motion st), e, ds, e'. repeat (split; [first [reflexivity|assumption]|]). exact V.
Qed.
End Exact.

(** Depths asked for too early. *)
Lemma depths_frozen solve cs e ds e1 : call_depths solve cs e = Ok (ds, e1) ->
  forall g, call_depths solve cs {| e_sge := g; e_depths := e_depths e1; e_evaluated := e_evaluated e1 |} =
    Ok (ds, {| e_sge := g; e_depths := e_depths e1; e_evaluated := e_evaluated e1 |}).
Proof.
  unfold call_depths. destruct (e_evaluated e) eqn:E; intros H g.
  - injection H as <- <-. cbn. rewrite E. reflexivity.
  - destruct (fill solve cs _ _ _) as [x| | | |]; try discriminate. cbn in H. injection H as <- <-. reflexivity.
Qed.
Lemma depths_early solve cs : exists e1, call_depths solve cs (estimator_new cs) = Ok (repeat (0, 0) (length cs), e1) /\
  forall g, call_depths solve cs {| e_sge := g; e_depths := e_depths e1; e_evaluated := e_evaluated e1 |} =
    Ok (repeat (0, 0) (length cs), {| e_sge := g; e_depths := e_depths e1; e_evaluated := e_evaluated e1 |}).
Proof. eexists. split; [reflexivity|]. intros g. reflexivity. Qed.
