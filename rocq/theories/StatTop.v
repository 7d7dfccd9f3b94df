From Coq Require Import Reals ZArith QArith List Bool Lia Lra Ascii ZifyBool.
From Verif Require Import Outcome Dbl Pose GeomModel CalModel GtModel PixelSelectorModel PixelSelectorSpec PixelSelectorProofs PlyModel SnapshotModel SnapshotProofs StatModel StatSpec StatProofs. From Verif Require SectorProofs.
Import ListNotations.
Open Scope Z_scope.
Open Scope outcome_scope.

(** ** Lists of outcomes *)
Lemma omap_in {A B} (h : A -> outcome B) : forall l l', omap h l = Ok l' -> Forall2 (fun a b => h a = Ok b) l l'.
Proof.
  induction l as [|a l IH]; cbn; intros l' H; [inversion H; constructor|].
  apply bind_ok_inv in H. destruct H as [b [Hb H]]. apply bind_ok_inv in H. destruct H as [bs [Hs H]]. inversion H; subst.
  constructor; auto.
Qed.
Lemma Forall2_len' {A B} (P : A -> B -> Prop) l l' : Forall2 P l l' -> length l = length l'.
Proof. induction 1; cbn; auto. Qed.
Lemma Forall2_in_r {A B} (P : A -> B -> Prop) l l' b : Forall2 P l l' -> In b l' -> exists a, In a l /\ P a b.
Proof.
  induction 1 as [|x y l l' H F IH]; intros I; [destruct I|]. destruct I as [->|I]; [exists x; cbn; auto|].
  destruct (IH I) as [a [Ia Pa]]. exists a. cbn. auto.
Qed.

Lemma in_turn_each {W} (F : W -> Z -> outcome (list row * W)) : forall ns w rs, in_turn F w ns = Ok rs ->
  forall n, In n ns -> exists w0 a w1, F w0 n = Ok (a, w1) /\ incl a rs.
Proof.
  induction ns as [|m ns IH]; cbn; intros w rs H n I; [destruct I|].
  apply bind_ok_inv in H. destruct H as [[a w'] [Ha H]]. apply bind_ok_inv in H. destruct H as [b [Hb H]]. inversion H; subst.
  destruct I as [->|I].
  - exists w, a, w'. split; auto. apply incl_appl, incl_refl.
  - destruct (IH _ _ Hb n I) as [w0 [x [w1 [E L]]]]. exists w0, x, w1. split; auto. now apply incl_appr.
Qed.
Lemma in_turn_from {W} (F : W -> Z -> outcome (list row * W)) : forall ns w rs, in_turn F w ns = Ok rs ->
  forall r, In r rs -> exists n w0 a w1, In n ns /\ F w0 n = Ok (a, w1) /\ In r a.
Proof.
  induction ns as [|m ns IH]; cbn; intros w rs H r I; [inversion H; subst; destruct I|].
  apply bind_ok_inv in H. destruct H as [[a w'] [Ha H]]. apply bind_ok_inv in H. destruct H as [b [Hb H]]. inversion H; subst.
  apply in_app_or in I. destruct I as [I|I].
  - exists m, w, a, w'. auto.
  - destruct (IH _ _ Hb r I) as [n [w0 [x [w1 [J [E L]]]]]]. exists n, w0, x, w1. auto.
Qed.
Lemma in_turn_len {W} (F : W -> Z -> outcome (list row * W)) k : (forall w n a w', F w n = Ok (a, w') -> (length a <= k)%nat) ->
  forall ns w rs, in_turn F w ns = Ok rs -> (length rs <= length ns * k)%nat.
Proof.
  intros B. induction ns as [|m ns IH]; cbn; intros w rs H; [inversion H; cbn; lia|].
  apply bind_ok_inv in H. destruct H as [[a w'] [Ha H]]. apply bind_ok_inv in H. destruct H as [b [Hb H]]. inversion H; subst.
  rewrite app_length. apply B in Ha. apply IH in Hb. lia.
Qed.

(** ** Frames of the ranges *)
Lemma singles_tiles n : 0 <= n -> tiles 0 (singles n) n.
Proof.
  intros H. unfold singles.
  assert (Q : forall k c, tiles (Z.of_nat c) (map (fun i => (Z.of_nat i, Z.of_nat i + 1)) (seq c k)) (Z.of_nat c + Z.of_nat k)).
  { induction k as [|k IH]; intros c; cbn [seq map tiles fst snd]; [lia|]. split; [lia|]. split; [lia|].
    replace (Z.of_nat c + 1) with (Z.of_nat (S c)) by lia. replace (Z.of_nat c + Z.of_nat (S k)) with (Z.of_nat (S c) + Z.of_nat k) by lia. apply IH. }
  specialize (Q (Z.to_nat n) 0%nat). cbn in Q. now rewrite Z2Nat.id in Q by lia.
Qed.

Lemma tiles_cover : forall parts a b i, tiles a parts b -> a <= i < b -> exists r, In r parts /\ fst r <= i < snd r.
Proof.
  induction parts as [|x p IH]; cbn; intros a b i H Hi; [lia|]. destruct H as [E [L H]].
  destruct (Z_lt_le_dec i (snd x)) as [C|C]; [exists x; split; auto; lia|].
  destruct (IH _ _ i H) as [r [I R]]; [lia|]. exists r. auto.
Qed.
Lemma in_frames s r n : In n (frames s r) <-> s + fst r <= n < s + snd r.
Proof.
  unfold frames. rewrite in_map_iff. split.
  - intros [i [E I]]. apply in_seq in I. lia.
  - intros H. exists (Z.to_nat (n - s - fst r)). split; [lia|]. apply in_seq. lia.
Qed.
Lemma frames_len s r : length (frames s r) = Z.to_nat (snd r - fst r).
Proof. unfold frames. now rewrite map_length, seq_length. Qed.
Lemma tiles_len s : forall parts a b, tiles a parts b -> length (flat_map (frames s) parts) = Z.to_nat (b - a).
Proof.
  induction parts as [|x p IH]; cbn; intros a b H; [subst; cbn; lia|]. destruct H as [E [L H]].
  rewrite app_length, frames_len, (IH _ _ H). pose proof (tiles_le _ _ _ H). lia.
Qed.
Lemma tiles_frames s : forall parts a b, tiles a parts b -> flat_map (frames s) parts = frames s (a, b).
Proof.
  induction parts as [|x p IH]; cbn; intros a b H.
  - subst. unfold frames. cbn. now rewrite Z.sub_diag.
  - destruct H as [<- [L H]]. rewrite (IH _ _ H). unfold frames. cbn [fst snd].
    pose proof (tiles_le _ _ _ H) as L2.
    replace (Z.to_nat (b - fst x)) with (Z.to_nat (snd x - fst x) + Z.to_nat (b - snd x))%nat by lia.
    rewrite seq_app, map_app. f_equal. rewrite Nat.add_0_l.
    assert (Q : forall k c, map (fun i => s + snd x + Z.of_nat i) (seq c k) = map (fun i => s + fst x + Z.of_nat i) (seq (Z.to_nat (snd x - fst x) + c) k)).
    { induction k as [|k IHk]; intros c; cbn [seq map]; auto. f_equal; [lia|]. rewrite IHk. f_equal. f_equal. lia. }
    rewrite Q. now rewrite Nat.add_0_r.
Qed.

(** ** The number of pixels *)
Lemma resize_len n l : length (resize n l) = n.
Proof. apply resize_length. Qed.
Lemma select_len maxloc shuffle fuel s st g needed px st' : select maxloc shuffle fuel s st g needed = Ok (px, st') ->
  0 <= needed /\ Z.of_nat (length px) <= needed.
Proof.
  unfold select. intros H. apply bind_ok_inv in H. destruct H as [b [_ H]]. apply bind_ok_inv in H. destruct H as [r [H E]].
  inversion E; subst; clear E. unfold select_internal in H. destruct (thresholds s); [discriminate|].
  destruct (needed <? 0) eqn:N; [discriminate|]. apply bind_ok_inv in H. destruct H as [ls [_ H]].
  apply bind_ok_inv in H. destruct H as [ls' [C H]]. inversion H; subst; clear H. cbn [fst].
  split; [lia|]. rewrite <- total_concat. unfold cut in C. destruct ls as [|l0 rest]; [discriminate|].
  destruct (needed <? total (l0 :: rest)) eqn:T; [|inversion C; subst; lia].
  set (rest' := map _ rest) in C.
  destruct (needed - total rest' <? 0) eqn:K; [discriminate|]. inversion C; subst.
  match goal with |- total (?x :: ?y) <= _ => change (total (x :: y)) with (Z.of_nat (length x) + total y) end.
  rewrite resize_len. lia.
Qed.

Lemma count_is f n : test_count f = Ok n -> 1 <= n /\ f_start f + n - 1 = Z.min (f_end f) (2500 - f_shift f).
Proof.
  unfold test_count, totalFrames. set (k := Z.min _ _ - _). destruct (negb (in_int _)); [discriminate|].
  destruct (negb (in_int k && in_int (k + 1))); [discriminate|].
  destruct (k + 1 <=? 0) eqn:E; [discriminate|]. intros H. inversion H. unfold k in *. lia.
Qed.

Section Top.
Variable Img G : Type.
Variable maxloc : image -> Z -> Z -> Z -> Z * Z.
Variable shuffle : nat -> list (Z * Z) -> list (Z * Z).
Variable gradient : Img -> image.
Variable trace : Img -> Img -> se3 -> Z * Z -> tpoint.
Variable gen0 : G.
Variable gauss : R -> R -> G -> (vec * vec) * G.
Variable fuel : nat.
Variable f : flags.
Variable rd : reader Img.
Notation F := (frame_errors Img G maxloc shuffle gradient trace gauss fuel f rd).
Notation collect := (collect Img G maxloc shuffle gradient trace gen0 gauss fuel f rd).
Notation W0 := (worker0 G gen0).

(** What a frame consists of *)
Lemma frame_inv w n a w' : F w n = Ok (a, w') ->
  exists p1 p2 m im1 im2 px dep,
    pose_at (rd_poses rd) n = Ok p1 /\ pose_at (rd_poses rd) (n + f_shift f) = Ok p2 /\
    assumed G gauss f (smul p2 (sinv p1)) (w_gen w) = Ok (m, w_gen w') /\
    rd_frame rd n = Ok im1 /\ rd_frame rd (n + f_shift f) = Ok im2 /\
    select maxloc shuffle fuel ps_default (w_sel w) (gradient im1) (f_points f) = Ok (px, w_sel w') /\
    rd_depths rd n = Ok dep /\
    omap (errors_of Img rd (smul p2 (sinv p1)) m dep) (filter counted (map (trace im1 im2 m) px)) = Ok a.
Proof.
  unfold frame_errors. destruct (negb (in_int (n + f_shift f))); [discriminate|].
  intros H. apply bind_ok_inv in H. destruct H as [p2 [H2 H]].
  apply bind_ok_inv in H. destruct H as [p1 [H1 H]].
  apply bind_ok_inv in H. destruct H as [[m g] [Hm H]].
  apply bind_ok_inv in H. destruct H as [im1 [Hi1 H]].
  apply bind_ok_inv in H. destruct H as [im2 [Hi2 H]].
  apply bind_ok_inv in H. destruct H as [[px st] [Hs H]].
  apply bind_ok_inv in H. destruct H as [dep [Hd H]].
  apply bind_ok_inv in H. destruct H as [rows [Hr H]]. inversion H; subst.
  exists p1, p2, m, im1, im2, px, dep. cbn. auto 10.
Qed.

Lemma frame_row w n a w' r : F w n = Ok (a, w') -> In r a ->
  exists p1 p2 m im1 im2 dep p,
    pose_at (rd_poses rd) n = Ok p1 /\ pose_at (rd_poses rd) (n + f_shift f) = Ok p2 /\
    assumed G gauss f (smul p2 (sinv p1)) (w_gen w) = Ok (m, w_gen w') /\
    rd_frame rd n = Ok im1 /\ rd_frame rd (n + f_shift f) = Ok im2 /\ rd_depths rd n = Ok dep /\
    (exists q, p = trace im1 im2 m q) /\ t_active p = true /\ t_finite p = true /\
    errors_of Img rd (smul p2 (sinv p1)) m dep p = Ok r.
Proof.
  intros H I. apply frame_inv in H. destruct H as [p1 [p2 [m [im1 [im2 [px [dep [A [B [C [D [E [_ [Q O]]]]]]]]]]]]]].
  apply omap_in in O. destruct (Forall2_in_r _ _ _ _ O I) as [p [Ip Ep]].
  apply filter_In in Ip. destruct Ip as [Ip Cp]. apply in_map_iff in Ip. destruct Ip as [q [<- _]].
  unfold counted in Cp. apply andb_true_iff in Cp.
  exists p1, p2, m, im1, im2, dep, (trace im1 im2 m q). intuition eauto.
Qed.

(** Everything that is read must be there *)
Theorem collect_needs parts sched n rows : test_count f = Ok n -> tiles 0 parts n -> collect parts sched = Ok rows ->
  forall i, 0 <= i < n ->
    (0 <= f_start f + i < Z.of_nat (length (rd_poses rd))) /\
    (0 <= f_start f + i + f_shift f < Z.of_nat (length (rd_poses rd))) /\
    (f_precise f = false -> (0 < f_trans f)%R /\ (0 < f_rot f)%R /\
       exists p1 p2, nth_error (rd_poses rd) (Z.to_nat (f_start f + i)) = Some p1 /\
                     nth_error (rd_poses rd) (Z.to_nat (f_start f + i + f_shift f)) = Some p2 /\
                     tr (smul p2 (sinv p1)) <> vzero).
Proof.
  intros Hn Ht H i Hi. destruct (collect_ok _ _ _ _ _ _ _ _ _ _ _ _ _ _ _ Hn Ht H) as [rss [Q _]].
  destruct (tiles_cover _ _ _ i Ht Hi) as [r [Ir Hr]].
  assert (E : exists rs, in_turn F W0 (frames (f_start f) r) = Ok rs).
  { clear - Q Ir. induction Q as [|x y p l A Q IH]; [destruct Ir|]. destruct Ir as [->|Ir]; eauto. }
  destruct E as [rs E]. destruct (in_turn_each _ _ _ _ E (f_start f + i)) as [w0 [a [w1 [Fr _]]]]; [apply in_frames; lia|].
  apply frame_inv in Fr. destruct Fr as [p1 [p2 [m [im1 [im2 [px [dep [A [B [C _]]]]]]]]]].
  unfold pose_at in A, B.
  destruct (f_start f + i <? 0) eqn:S1; [discriminate|]. destruct (f_start f + i + f_shift f <? 0) eqn:S2; [discriminate|].
  destruct (nth_error (rd_poses rd) (Z.to_nat (f_start f + i))) as [q1|] eqn:N1; [|discriminate].
  destruct (nth_error (rd_poses rd) (Z.to_nat (f_start f + i + f_shift f))) as [q2|] eqn:N2; [|discriminate].
  assert (L1 : (Z.to_nat (f_start f + i) < length (rd_poses rd))%nat) by (apply nth_error_Some; congruence).
  assert (L2 : (Z.to_nat (f_start f + i + f_shift f) < length (rd_poses rd))%nat) by (apply nth_error_Some; congruence).
  split; [lia|]. split; [lia|]. intros P. inversion A; inversion B; subst q1 q2. unfold assumed in C. rewrite P in C.
  destruct (Rle_dec _ 0) as [|R1] in C; [discriminate|]. destruct (Rle_dec _ 0) as [|R2] in C; [discriminate|].
  apply Rnot_le_lt in R1, R2. set (nn := (vnorm (tr (smul p2 (sinv p1))) / sqrt 3)%R) in *.
  assert (S3 : (0 < sqrt 3)%R) by (apply sqrt_lt_R0; lra).
  assert (N0 : (0 <= nn)%R). { unfold nn. apply Rmult_le_pos; [apply sqrt_pos|]. left. now apply Rinv_0_lt_compat. }
  assert (Np : (0 < nn)%R). { destruct N0 as [|N0]; auto. exfalso. rewrite <- N0 in R2. rewrite Rmult_0_r in R2. lra. }
  split; [|split].
  - apply (Rmult_lt_reg_r nn); auto. now rewrite Rmult_0_l.
  - apply (Rmult_lt_reg_r nn); auto. rewrite Rmult_0_l.
    apply (Rmult_lt_reg_l (PI / 180)%R); [pose proof PI_RGT_0; lra|]. rewrite Rmult_0_r. rewrite <- Rmult_assoc. exact R1.
  - exists p1, p2. repeat split; auto. intros Z0. unfold nn in Np. rewrite Z0 in Np. unfold vnorm, vzero, dot in Np. cbn in Np.
    replace (0 * 0 + 0 * 0 + 0 * 0)%R with 0%R in Np by ring. rewrite sqrt_0 in Np. unfold Rdiv in Np. rewrite Rmult_0_l in Np. lra.
Qed.

Theorem collect_bound parts sched n rows : test_count f = Ok n -> tiles 0 parts n -> collect parts sched = Ok rows ->
  Z.of_nat (length rows) <= n * f_points f.
Proof.
  intros Hn Ht H. destruct (collect_ok _ _ _ _ _ _ _ _ _ _ _ _ _ _ _ Hn Ht H) as [rss [Q ->]].
  assert (B : forall w m a w', F w m = Ok (a, w') -> (length a <= Z.to_nat (f_points f))%nat).
  { intros w m a w' E. apply frame_inv in E. destruct E as [p1 [p2 [mo [im1 [im2 [px [dep [_ [_ [_ [_ [_ [S [_ O]]]]]]]]]]]]]].
    apply omap_in, Forall2_len' in O. rewrite <- O. apply select_len in S.
    assert (forall l : list tpoint, (length (filter counted l) <= length l)%nat) as L.
    { induction l as [|x l IH]; cbn; [lia|]. destruct (counted x); cbn; lia. }
    specialize (L (map (trace im1 im2 mo) px)). rewrite map_length in L. lia. }
  assert (P0 : 0 <= n -> n = 0 \/ 0 <= f_points f).
  { intros Hn0. destruct Q as [|x y p l A Q]; [left; cbn in Ht; lia|]. right. cbn in Ht. destruct Ht as [E [L _]].
    destruct (in_turn_each _ _ _ _ A (f_start f + fst x)) as [w0 [a [w1 [Fr _]]]]; [apply in_frames; lia|].
    apply frame_inv in Fr. destruct Fr as [p1 [p2 [mo [im1 [im2 [px [dep [_ [_ [_ [_ [_ [S _]]]]]]]]]]]]]. now apply select_len in S. }
  pose proof (tiles_le _ _ _ Ht) as Nn. specialize (P0 Nn).
  assert (Len : forall a, tiles a parts n -> (length (concat rss) <= Z.to_nat (n - a) * Z.to_nat (f_points f))%nat).
  { clear P0 Hn H Ht. induction Q as [|x y p l A Q IH]; intros a Ht; cbn [concat]; [apply Nat.le_0_l|]. cbn in Ht. destruct Ht as [E [L Ht]].
    specialize (IH _ Ht). pose proof (tiles_le _ _ _ Ht) as L2. apply (in_turn_len _ _ B) in A. rewrite frames_len in A.
    rewrite app_length. replace (Z.to_nat (n - a)) with (Z.to_nat (snd x - fst x) + Z.to_nat (n - snd x))%nat by lia. rewrite Nat.mul_add_distr_r. lia. }
  specialize (Len 0 Ht). rewrite Z.sub_0_r in Len. destruct P0 as [->|P0]; [cbn in Len; lia|]. nia.
Qed.

Lemma count_pos n : test_count f = Ok n -> 1 <= n.
Proof.
  unfold test_count. set (k := Z.min _ _ - _). destruct (negb (in_int _)); [discriminate|].
  destruct (negb (in_int k && in_int (k + 1))); [discriminate|].
  destruct (k + 1 <=? 0) eqn:E; [discriminate|]. intros H. inversion H. lia.
Qed.

Lemma pdist_same p : pdist p p = 0%R.
Proof.
  unfold pdist, pdot, psub. cbn. replace ((px p - px p) * (px p - px p) + (py p - py p) * (py p - py p))%R with 0%R by ring. apply sqrt_0.
Qed.

Lemma rows_from parts sched n rows r : test_count f = Ok n -> tiles 0 parts n -> collect parts sched = Ok rows -> In r rows ->
  exists i w a w', 0 <= i < n /\ F w (f_start f + i) = Ok (a, w') /\ In r a.
Proof.
  intros Hn Ht H I. destruct (collect_ok _ _ _ _ _ _ _ _ _ _ _ _ _ _ _ Hn Ht H) as [rss [Q ->]].
  apply in_concat in I. destruct I as [rs [Irs I]]. destruct (Forall2_in_r _ _ _ _ Q Irs) as [x [Ix E]].
  destruct (in_turn_from _ _ _ _ E r I) as [m [w0 [a [w1 [J [Fr L]]]]]]. apply in_frames in J.
  apply In_nth_error in Ix. destruct Ix as [k K]. destruct (tiles_in _ _ _ _ _ Ht K) as [T1 [T2 T3]].
  exists (m - f_start f), w0, a, w1. replace (f_start f + (m - f_start f)) with m by lia. repeat split; auto; lia.
Qed.

(** A row with the true depth has no error when the true motion is used. *)
Theorem collect_exact parts sched n rows r : f_precise f = true -> test_count f = Ok n -> tiles 0 parts n ->
  collect parts sched = Ok rows -> In r rows ->
  (r_depth r = r_gt r -> r_err r = 0%R) /\ (r_before r = r_gt r -> r_bef r = 0%R).
Proof.
  intros Pr Hn Ht H I. destruct (rows_from _ _ _ _ _ Hn Ht H I) as [i [w [a [w' [Hi [Fr Ia]]]]]].
  destruct (frame_row _ _ _ _ _ Fr Ia) as [p1 [p2 [m [im1 [im2 [dep [p [_ [_ [C [_ [_ [_ [_ [_ [_ E]]]]]]]]]]]]]]]].
  unfold assumed in C. rewrite Pr in C. inversion C; subst. unfold errors_of in E.
  apply bind_ok_inv in E. destruct E as [d [_ E]]. inversion E; subst; clear E. cbn. split; intros ->; apply pdist_same.
Qed.

Lemma rot_scale q k v : rot q (vscale k v) = vscale k (rot q v).
Proof. destruct q as [w [a b c]], v as [x y z]. unfold rot, vscale, vadd, dot, cross. cbn. f_equal; ring. Qed.

(** Without displacement there is no disparity. *)
Theorem collect_still parts sched n rows r :
  (forall k v, (0 < k)%R -> rd_map rd (vscale k v) = rd_map rd v) ->
  (forall i p1 p2, 0 <= i < n -> nth_error (rd_poses rd) (Z.to_nat (f_start f + i)) = Some p1 ->
     nth_error (rd_poses rd) (Z.to_nat (f_start f + i + f_shift f)) = Some p2 -> tr (smul p2 (sinv p1)) = vzero) ->
  test_count f = Ok n -> tiles 0 parts n -> collect parts sched = Ok rows -> In r rows ->
  f_precise f = true /\ ((0 < r_depth r)%R -> r_disp r = 0%R).
Proof.
  intros Hom Still Hn Ht H I. destruct (rows_from _ _ _ _ _ Hn Ht H I) as [i [w [a [w' [Hi [Fr Ia]]]]]].
  destruct (frame_row _ _ _ _ _ Fr Ia) as [p1 [p2 [m [im1 [im2 [dep [p [A [B [C [_ [_ [_ [_ [_ [_ E]]]]]]]]]]]]]]]].
  unfold pose_at in A, B.
  destruct (f_start f + i <? 0) eqn:S1; [discriminate|]. destruct (f_start f + i + f_shift f <? 0) eqn:S2; [discriminate|].
  destruct (nth_error (rd_poses rd) (Z.to_nat (f_start f + i))) as [q1|] eqn:N1; [|discriminate].
  destruct (nth_error (rd_poses rd) (Z.to_nat (f_start f + i + f_shift f))) as [q2|] eqn:N2; [|discriminate].
  inversion A; inversion B; subst q1 q2. pose proof (Still i p1 p2 Hi N1 N2) as T0.
  assert (P : f_precise f = true).
  { destruct (f_precise f) eqn:P; auto. exfalso.
    destruct (collect_needs _ _ _ _ Hn Ht H i Hi) as [_ [_ K]]. destruct (K P) as [_ [_ [a1 [a2 [X [Y Z0]]]]]].
    rewrite N1 in X. rewrite N2 in Y. inversion X; inversion Y; subst. contradiction. }
  split; auto. unfold assumed in C. rewrite P in C. inversion C; subst m; clear C. unfold errors_of in E.
  apply bind_ok_inv in E. destruct E as [d [_ E]]. inversion E; subst; clear E. cbn [r_depth r_disp]. intros D.
  set (ray := unit_vec _). set (gt := smul p2 (sinv p1)) in *.
  assert (Ac : act gt (vscale (t_depth p) ray) = vscale (t_depth p) (rot (so3 gt) ray)).
  { unfold act. rewrite rot_scale, T0. destruct (vscale (t_depth p) (rot (so3 gt) ray)) as [x y z]. unfold vadd, vzero. cbn. f_equal; ring. }
  rewrite Ac, Hom by exact D. apply pdist_same.
Qed.

(** Frames that are first in their range all get the same factors. *)
Theorem collect_noise z sched n rows : scales gauss z -> f_precise f = false -> test_count f = Ok n ->
  collect (singles n) sched = Ok rows ->
  exists rss, rows = concat rss /\ Z.of_nat (length rss) = n /\
    forall k rs r, nth_error rss k = Some rs -> In r rs ->
      exists p1 p2 im1 im2 dep q,
        let i := f_start f + Z.of_nat k in
        let gt := smul p2 (sinv p1) in
        let d := (vnorm (tr gt) / sqrt 3)%R in
        let m := SE (qmul (so3_exp (vscale (PI / 180 * f_rot f * d) (fst (z gen0)))) (so3 gt))
                    (vadd (tr gt) (vscale (f_trans f * d) (snd (z gen0)))) in
        nth_error (rd_poses rd) (Z.to_nat i) = Some p1 /\ nth_error (rd_poses rd) (Z.to_nat (i + f_shift f)) = Some p2 /\
        rd_frame rd i = Ok im1 /\ rd_frame rd (i + f_shift f) = Ok im2 /\ rd_depths rd i = Ok dep /\
        r_depth r = t_depth (trace im1 im2 m q) /\
        errors_of Img rd gt m dep (trace im1 im2 m q) = Ok r.
Proof.
  intros Sc Pr Hn H.
  assert (N0 : 0 <= n) by (pose proof (count_pos n Hn); lia).
  destruct (collect_ok _ _ _ _ _ _ _ _ _ _ _ _ _ _ _ Hn (singles_tiles n N0) H) as [rss [Q ->]].
  exists rss. split; [reflexivity|]. split.
  { rewrite <- (Forall2_len' _ _ _ Q). unfold singles. rewrite map_length, seq_length. lia. }
  intros k rs r K I.
  assert (E : exists x, nth_error (singles n) k = Some x /\ in_turn F W0 (frames (f_start f) x) = Ok rs).
  { clear - Q K. revert k K. induction Q as [|x y p l A Q IH]; intros [|k] K; cbn in K; try discriminate.
    - inversion K; subst. exists x. auto.
    - destruct (IH k K) as [x' X]. exists x'. auto. }
  destruct E as [x [Kx E]]. unfold singles in Kx. rewrite nth_error_map in Kx.
  destruct (nth_error (seq 0 (Z.to_nat n)) k) as [j|] eqn:Ej; [|discriminate]. cbn in Kx. inversion Kx; subst x; clear Kx.
  assert (j = k). { apply nth_error_nth with (d := 0%nat) in Ej as Ej'. rewrite seq_nth in Ej'; [lia|].
    rewrite <- (seq_length (Z.to_nat n) 0). apply nth_error_Some. congruence. } subst j.
  unfold frames in E. cbn [fst snd] in E. replace (Z.to_nat (Z.of_nat k + 1 - Z.of_nat k)) with 1%nat in E by lia.
  cbn [seq map in_turn] in E. rewrite Z.add_0_r in E. apply bind_ok_inv in E. destruct E as [[a w'] [Fr E]]. cbn in E. rewrite app_nil_r in E.
  inversion E; subst a; clear E.
  destruct (frame_row _ _ _ _ _ Fr I) as [p1 [p2 [m [im1 [im2 [dep [p [A [B [C [D1 [D2 [D3 [[q ->] [_ [_ E]]]]]]]]]]]]]]]].
  unfold pose_at in A, B.
  destruct (f_start f + Z.of_nat k <? 0) eqn:S1; [discriminate|]. destruct (f_start f + Z.of_nat k + f_shift f <? 0) eqn:S2; [discriminate|].
  destruct (nth_error (rd_poses rd) (Z.to_nat (f_start f + Z.of_nat k))) as [q1|] eqn:N1; [|discriminate].
  destruct (nth_error (rd_poses rd) (Z.to_nat (f_start f + Z.of_nat k + f_shift f))) as [q2|] eqn:N2; [|discriminate].
  inversion A; inversion B; subst q1 q2. exists p1, p2, im1, im2, dep, q. cbv zeta.
  unfold assumed in C. rewrite Pr in C. destruct (Rle_dec _ 0) as [|_] in C; [discriminate|]. destruct (Rle_dec _ 0) as [|_] in C; [discriminate|].
  cbn [w_gen worker0] in C.
  match type of C with context [gauss ?u ?v gen0] => pose proof (Sc u v gen0) as Z0; destruct (gauss u v gen0) as [[wv tv] g'] end.
  cbn in Z0. inversion Z0; subst wv tv. inversion C; subst m. repeat split; auto.
  unfold errors_of in E. apply bind_ok_inv in E. destruct E as [dd [_ E]]. inversion E. reflexivity.
Qed.
Lemma errors_measured gt m dep p r : errors_of Img rd gt m dep p = Ok r -> measured (rd_map rd) (rd_unmap rd) gt m dep p r.
Proof.
  unfold errors_of. intros E. apply bind_ok_inv in E. destruct E as [d [D E]]. inversion E; subst; clear E.
  unfold at_pix in D. destruct (_ && _) eqn:B in D; [|discriminate]. inversion D; subst; clear D.
  unfold measured. cbv zeta. cbn [r_gt r_depth r_before r_exp r_eb r_ea r_err r_bef r_disp].
  split; [lia|]. split; [lia|]. repeat (split; [reflexivity|]). intros Z.
  assert (U : forall k, vscale k (unit_vec (rd_unmap rd (P2 (IZR (fst (t_p p))) (IZR (snd (t_p p)))))) =
    vscale (k / vnorm (rd_unmap rd (P2 (IZR (fst (t_p p))) (IZR (snd (t_p p)))))) (rd_unmap rd (P2 (IZR (fst (t_p p))) (IZR (snd (t_p p)))))).
  { intros k. set (v := rd_unmap rd _) in *. unfold unit_vec. destruct (Rlt_dec 0 (dot v v)) as [L|L].
    - destruct v as [a b c]. unfold vscale. cbn. f_equal; unfold Rdiv; ring.
    - exfalso. apply L. apply SectorProofs.dot_pos, Z. }
  assert (V : forall v, vscale 1 v = v) by (intros [a b c]; unfold vscale; cbn; f_equal; ring).
  rewrite !U. rewrite <- (V (unit_vec _)), U. repeat split; reflexivity.
Qed.
Theorem collect_row parts sched n rows r : test_count f = Ok n -> tiles 0 parts n -> collect parts sched = Ok rows -> In r rows ->
  exists i p1 p2 m im1 im2 dep q, 0 <= i < n /\
    nth_error (rd_poses rd) (Z.to_nat (f_start f + i)) = Some p1 /\ nth_error (rd_poses rd) (Z.to_nat (f_start f + i + f_shift f)) = Some p2 /\
    (f_precise f = true -> m = smul p2 (sinv p1)) /\
    rd_frame rd (f_start f + i) = Ok im1 /\ rd_frame rd (f_start f + i + f_shift f) = Ok im2 /\ rd_depths rd (f_start f + i) = Ok dep /\
    t_active (trace im1 im2 m q) = true /\ t_finite (trace im1 im2 m q) = true /\
    measured (rd_map rd) (rd_unmap rd) (smul p2 (sinv p1)) m dep (trace im1 im2 m q) r.
Proof.
  intros Hn Ht H I. destruct (rows_from _ _ _ _ _ Hn Ht H I) as [i [w [a [w' [Hi [Fr Ia]]]]]].
  destruct (frame_row _ _ _ _ _ Fr Ia) as [p1 [p2 [m [im1 [im2 [dep [p [A [B [C [D [E [K [[q ->] [T1 [T2 X]]]]]]]]]]]]]]]].
  assert (P : forall j x, pose_at (rd_poses rd) j = Ok x -> nth_error (rd_poses rd) (Z.to_nat j) = Some x).
  { intros j x. unfold pose_at. destruct (j <? 0); [discriminate|]. destruct (nth_error _ _); [|discriminate]. intros Q. inversion Q. reflexivity. }
  exists i, p1, p2, m, im1, im2, dep, q. split; [exact Hi|]. split; [apply P, A|]. split; [apply P, B|].
  split; [intros Pr; unfold assumed in C; rewrite Pr in C; inversion C; reflexivity|]. repeat (split; [assumption|]). apply errors_measured, X.
Qed.
End Top.

(** A uniform frame and its successor in one range: the program does not come to an end. *)
Theorem stuck Img G maxloc shuffle (gradient : Img -> image) trace gen0 (gauss : R -> R -> G -> (vec * vec) * G) fuel f rd im1 im2 c block :
  maxloc_ok maxloc -> shuffle_ok shuffle -> 1 <= f_points f ->
  rd_frame rd (f_start f) = Ok im1 -> rd_frame rd (f_start f + 1) = Ok im2 ->
  (forall x y, (im_at (gradient im1) x y == c)%Q) -> 0 < im_rows (gradient im2) -> 0 < im_cols (gradient im2) ->
  adapted_block ps_default (ps_init ps_default) (f_points f) = Ok block -> 1 <= block ->
  (Z.to_nat (im_rows (gradient im1)) <= fuel)%nat -> (Z.to_nat (im_cols (gradient im1)) <= fuel)%nat ->
  forall parts b sched n rows, test_count f = Ok n -> tiles 0 ((0, b) :: parts) n -> 2 <= b ->
    collect Img G maxloc shuffle gradient trace gen0 gauss fuel f rd ((0, b) :: parts) sched <> Ok rows.
Proof.
  intros Mo So Np F1 F2 U R2 C2 Ab Hb L1 L2 parts b sched n rows Hn Ht B H.
  destruct (collect_ok _ _ _ _ _ _ _ _ _ _ _ _ _ _ _ Hn Ht H) as [rss [Q _]]. inversion Q as [|x y p l A Q' E1 E2]; subst. clear Q Q'.
  unfold frames in A. cbn [fst snd] in A. replace (Z.to_nat (b - 0)) with (S (S (Z.to_nat (b - 2)))) in A by lia.
  cbn [seq map in_turn] in A. apply bind_ok_inv in A. destruct A as [[a w1] [Fa A]]. apply bind_ok_inv in A. destruct A as [rs [A _]].
  apply bind_ok_inv in A. destruct A as [[a2 w2] [Fb _]].
  replace (f_start f + 0 + Z.of_nat 0) with (f_start f) in Fa by lia.
  replace (f_start f + 0 + Z.of_nat 1) with (f_start f + 1) in Fb by lia.
  apply frame_inv in Fa. destruct Fa as [p1 [p2 [m [i1 [i2 [px [dep [_ [_ [_ [G1 [_ [S1 _]]]]]]]]]]]]].
  apply frame_inv in Fb. destruct Fb as [q1 [q2 [m' [j1 [j2 [px' [dep' [_ [_ [_ [G2 [_ [S2 _]]]]]]]]]]]]].
  rewrite F1 in G1. inversion G1; subst i1. rewrite F2 in G2. inversion G2; subst j1.
  cbn [w_sel worker0] in S1.
  assert (T1 : thresholds ps_default <> []) by discriminate.
  assert (T2 : Forall (fun t => 0 <= t)%Q (thresholds ps_default)) by (repeat constructor; discriminate).
  destruct (uniform_then_stuck maxloc shuffle Mo So ps_default (ps_init ps_default) (f_points f) (f_points f) (gradient im1) (gradient im2) c block fuel
    T1 T2 eq_refl Ab Hb ltac:(lia) Np U L1 L2 R2 C2) as [st' [E1 E2]].
  rewrite E1 in S1. inversion S1 as [[X Y]]. rewrite <- Y, E2 in S2. discriminate.
Qed.

(** ** The file *)
Lemma row_words dprint r rest : (forall x, word (dprint x)) ->
  tokens [] (row_text dprint r ++ sp :: rest) = map dprint (fields r) ++ tokens [] rest.
Proof.
  intros Wd. unfold row_text. repeat (rewrite <- app_assoc; cbn [app]).
  repeat rewrite tokens_word by (auto || reflexivity). reflexivity.
Qed.
Lemma file_words dprint l : (forall x, word (dprint x)) ->
  tokens [] (errors_file dprint l) = flat_map (fun r => map dprint (fields r)) l.
Proof.
  intros Wd. unfold errors_file. induction l as [|r l IH]; [reflexivity|].
  cbn [flat_map]. rewrite <- !app_assoc. cbn [app]. rewrite row_words by auto. now rewrite IH.
Qed.
