(** Concrete keyframes: a pinhole camera that rounds down to whole pixels. *)
From Coq Require Import ZArith QArith Reals List Bool Lia Lra Qreals.
From Verif Require Import Outcome Pose PoseProofs PyramidModel PyramidSpec BorderModel BaseModel BaseSpec BaseProofs BaseMore BaseInit.
Import ListNotations.
Open Scope Z_scope.

Definition pin_map (v : vec) : Q * Q := (inject_Z (Int_part (vx v / vz v)), inject_Z (Int_part (vy v / vz v))).
Definition pin_unmap (x : Q * Q) : vec := V3 (Q2R (fst x)) (Q2R (snd x)) 1.

Lemma int_part_IZR z : Int_part (IZR z) = z.
Proof.
  unfold Int_part. assert (H : z + 1 = up (IZR z)); [|lia].
  apply tech_up; rewrite plus_IZR; lra.
Qed.

Lemma Q2R_Z z : Q2R (inject_Z z) = IZR z.
Proof. unfold Q2R. cbn. field. Qed.

(** whole pixels are seen where they are *)
Lemma pin_back a b : pin_map (pin_unmap (inject_Z a, inject_Z b)) = (inject_Z a, inject_Z b).
Proof.
  unfold pin_map, pin_unmap. cbn [vx vy vz fst snd]. rewrite !Q2R_Z. unfold Rdiv. rewrite Rinv_1, !Rmult_1_r.
  now rewrite !int_part_IZR.
Qed.

Lemma pin_directed : directed pin_unmap.
Proof.
  intros x E. unfold vnorm, pin_unmap, dot in E. cbn [vx vy vz] in E.
  apply sqrt_eq_0 in E; nra.
Qed.

Definition black (w h : Z) : gray := {| grows := h; gcols := w; gat := fun _ _ => 0 |}.
Definition pt (x y : Z) (s : bstate) (d : R) : bpoint :=
  {| b_pos := (inject_Z x, inject_Z y); b_state := s; b_depth := Some d; b_dev := Dev 1 |}.
Definition frame_at (t : vec) (ps : list bpoint) : bframe :=
  {| f_pose := SE qone t; f_image := black 8 8; f_imm := []; f_opt := ps |}.

(** the first keyframe has an active point in pixel (3, 2) at depth 1; the second one stands at
    (3, 2, 0) and has an outlier straight ahead at depth 1, seen by the first at depth sqrt 14 *)
Definition one := frame_at vzero [pt 3 2 ACTIVE 1; pt 5 5 OUTLIER 7].
Definition two := frame_at (V3 3 2 0) [pt 0 0 OUTLIER 1].
Definition kfs12 : frames := [(1, one); (2, two)].

Lemma rigid_at t ps : rigid (f_pose (frame_at t ps)).
Proof. unfold rigid, unit_quat, qnorm2. cbn. unfold dot. cbn. ring. Qed.

Lemma act_shift t v : act (SE qone t) v = vadd v t.
Proof.
  unfold act, rot, vadd, vscale, cross, dot, qone, vzero. cbn. f_equal; ring.
Qed.

Lemma place_two v' : same_place two (V3 0 0 1) one v' <-> v' = V3 3 2 1.
Proof.
  unfold same_place, two, one, frame_at. cbn [f_pose]. rewrite !act_shift. unfold vadd, vzero. cbn [vx vy vz].
  destruct v' as [a b c]. cbn [vx vy vz]. split; intros H.
  - injection H as H1 H2 H3. f_equal; lra.
  - injection H as -> -> ->. f_equal; ring.
Qed.

Lemma sighted_two v : sighted pin_unmap (inject_Z 0, inject_Z 0) 1 v <-> v = V3 0 0 1.
Proof.
  rewrite sighted_norm by apply pin_directed. unfold normalized, pin_unmap. cbn [fst snd]. rewrite Q2R_Z.
  assert (N : vnorm (V3 0 0 1) = 1%R).
  { unfold vnorm, dot. cbn. replace (0 * 0 + 0 * 0 + 1 * 1)%R with 1%R by ring. apply sqrt_1. }
  rewrite N, Rinv_1. assert (E : vscale 1 (vscale 1 (V3 0 0 1)) = V3 0 0 1) by (unfold vscale; cbn; f_equal; ring).
  rewrite E. reflexivity.
Qed.

Lemma pin_321 : pin_map (V3 3 2 1) = (inject_Z 3, inject_Z 2).
Proof.
  unfold pin_map. cbn [vx vy vz]. unfold Rdiv. rewrite Rinv_1, !Rmult_1_r.
  now rewrite (int_part_IZR 3), (int_part_IZR 2).
Qed.

Lemma keyed12 : well_keyed kfs12.
Proof. cbn. lia. Qed.

Lemma known12 bn : depths_known Optimized kfs12 bn.
Proof.
  intros n f p [I|[I|[]]] P _; injection I as <- <-; cbn in P; repeat (destruct P as [<- |P]; [discriminate|]); destruct P.
Qed.

Lemma appears12 r x d : appears pin_map pin_unmap 8 8 Optimized kfs12 1 one r x d <->
  (r = (1, 0%nat) /\ x = (inject_Z 3, inject_Z 2) /\ d = 1%R) \/
  (r = (2, 0%nat) /\ x = (inject_Z 3, inject_Z 2) /\ d = vnorm (V3 3 2 1)).
Proof.
  destruct r as [n i]. split.
  - intros (f & p & I & J & C). cbn [fst snd] in *. destruct I as [I|[I|[]]]; injection I as <- <-.
    + destruct C as [(_ & A & -> & D)|(NE & _)]; [|now elim NE]. left.
      destruct i as [|[|i]]; cbn in J; [| |destruct i; discriminate]; injection J as <-; [|discriminate].
      cbn in D. injection D as <-. auto.
    + destruct C as [(E & _)|(_ & dp & v & v' & D & S & P & -> & -> & _)]; [discriminate|]. right.
      destruct i as [|i]; cbn in J; [|destruct i; discriminate]. injection J as <-. cbn in D, S. injection D as <-.
      apply sighted_two in S. subst v. apply place_two in P. subst v'. rewrite pin_321. auto.
  - intros [(E & -> & ->)|(E & -> & ->)]; injection E as -> ->.
    + exists one, (pt 3 2 ACTIVE 1). cbn. split; [now left|]. split; [reflexivity|]. left. auto.
    + exists two, (pt 0 0 OUTLIER 1). cbn [fst snd]. split; [right; now left|]. split; [reflexivity|]. right.
      split; [discriminate|]. exists 1%R, (V3 0 0 1), (V3 3 2 1). split; [reflexivity|].
      split; [now apply sighted_two|]. split; [now apply place_two|]. rewrite pin_321.
      repeat split; discriminate.
Qed.

Lemma inside12 : all_inside pin_map pin_unmap 8 8 Optimized kfs12 1 one.
Proof.
  intros r x d A. apply appears12 in A. destruct A as [(_ & -> & _)|(_ & -> & _)]; repeat split; discriminate.
Qed.

Lemma falls32 : falls (inject_Z 3, inject_Z 2) 3 2.
Proof. repeat split; discriminate. Qed.

Lemma far14 : (1 < vnorm (V3 3 2 1))%R.
Proof.
  unfold vnorm, dot. cbn. rewrite <- sqrt_1 at 1. apply sqrt_lt_1; lra.
Qed.

(** the active point of the base keyframe is hidden behind an outlier of the other one *)
Lemma hidden : exists cmap unmap w h kfs bn bf p i x y images depths m,
  directed unmap /\ (forall a b, cmap (unmap (inject_Z a, inject_Z b)) = (inject_Z a, inject_Z b)) /\
  well_keyed kfs /\ is_base false kfs bn bf /\ depths_known Optimized kfs bn /\
  all_inside cmap unmap w h Optimized kfs bn bf /\
  nth_error (f_opt bf) i = Some p /\ b_state p = ACTIVE /\ falls (b_pos p) x y /\ b_depth p = Some 1%R /\
  trackerReference cmap unmap w h NewKeyFrame false 1 kfs = Ok (images, depths) /\
  nth_error depths 0 = Some m /\ (1 < dat m x y)%R /\
  exists r q f d, appears cmap unmap w h Optimized kfs bn bf r q (dat m x y) /\ In (fst r, f) kfs /\
    nth_error (f_opt f) (snd r) = Some d /\ b_state d = OUTLIER.
Proof.
  destruct (level0 pin_map pin_unmap 8 8 NewKeyFrame false 1 kfs12 1 one keyed12) as
    (images & depths & m & E & _ & _ & M & _ & _ & H).
  { exists [], (2, two). reflexivity. }
  { apply rigid_at. } { apply pin_directed. } { apply known12. } { apply inside12. } { lia. }
  exists pin_map, pin_unmap, 8, 8, kfs12, 1, one, (pt 3 2 ACTIVE 1), 0%nat, 3, 2, images, depths, m.
  split; [apply pin_directed|]. split; [apply pin_back|]. split; [apply keyed12|].
  split; [exists [], (2, two); reflexivity|]. split; [apply known12|]. split; [apply inside12|].
  split; [reflexivity|]. split; [reflexivity|]. split; [apply falls32|]. split; [reflexivity|].
  split; [exact E|]. split; [exact M|]. cbn [point_kind] in H.
  assert (A2 : appears pin_map pin_unmap 8 8 Optimized kfs12 1 one (2, 0%nat) (inject_Z 3, inject_Z 2) (vnorm (V3 3 2 1)))
    by (apply appears12; right; auto).
  destruct (H 3 2) as [[_ N]|(r & q & A & F & LAST)].
  - elim N. exists (2, 0%nat), (inject_Z 3, inject_Z 2), (vnorm (V3 3 2 1)). split; [exact A2|apply falls32].
  - assert (r = (2, 0%nat) /\ dat m 3 2 = vnorm (V3 3 2 1)) as [-> DE].
    { pose proof A as A'. apply appears12 in A'. destruct A' as [(-> & _ & _)|(-> & _ & D)]; [|auto].
      exfalso. destruct (LAST _ _ _ A2 falls32) as [X|[X|[X _]]]; [discriminate|cbn in X; lia|discriminate]. }
    split; [rewrite DE; apply far14|].
    exists (2, 0%nat), q, two, (pt 0 0 OUTLIER 1). split; [exact A|]. split; [right; now left|].
    split; reflexivity.
Qed.

(** an outlier of another keyframe is listed, one of the base keyframe is not *)
Lemma outlier_listed : exists cmap unmap w h kfs bn bf ls,
  directed unmap /\ (forall a b, cmap (unmap (inject_Z a, inject_Z b)) = (inject_Z a, inject_Z b)) /\
  well_keyed kfs /\ is_base false kfs bn bf /\ depths_known Optimized kfs bn /\
  (forall o, projectOntoBaseKf cmap unmap w h Optimized false kfs o = Ok (restricted o (columns ls))) /\
  exists l f p, In l ls /\ In (fst (l_ref l), f) kfs /\ nth_error (f_opt f) (snd (l_ref l)) = Some p /\
    b_state p = OUTLIER.
Proof.
  destruct (projected_all pin_map pin_unmap 8 8 Optimized false kfs12 1 one keyed12) as (ls & L & P).
  { exists [], (2, two). reflexivity. } { apply rigid_at. } { apply pin_directed. } { apply known12. }
  exists pin_map, pin_unmap, 8, 8, kfs12, 1, one, ls.
  split; [apply pin_directed|]. split; [apply pin_back|]. split; [apply keyed12|].
  split; [exists [], (2, two); reflexivity|]. split; [apply known12|]. split; [exact P|].
  assert (A2 : appears pin_map pin_unmap 8 8 Optimized kfs12 1 one (2, 0%nat) (inject_Z 3, inject_Z 2) (vnorm (V3 3 2 1)))
    by (apply appears12; right; auto).
  apply L in A2. eexists. exists two, (pt 0 0 OUTLIER 1). split; [exact A2|]. cbn. split; [right; now left|]. auto.
Qed.

(** the same scene with images of width 3 *)
Definition narrow (t : vec) (ps : list bpoint) : bframe :=
  {| f_pose := SE qone t; f_image := black 3 8; f_imm := []; f_opt := ps |}.
Definition kfs_narrow : frames := [(1, narrow vzero [pt 1 2 ACTIVE 1]); (2, narrow (V3 3 2 0) [pt 0 0 ACTIVE 1])].

Lemma narrow_border :
  well_keyed kfs_narrow /\ is_base false kfs_narrow 1 (narrow vzero [pt 1 2 ACTIVE 1]) /\
  rigid (SE qone vzero) /\ depths_known Optimized kfs_narrow 1 /\
  appears pin_map pin_unmap 3 8 Optimized kfs_narrow 1 (narrow vzero [pt 1 2 ACTIVE 1]) (2, 0%nat)
    (inject_Z 3, inject_Z 2) (vnorm (V3 3 2 1)).
Proof.
  split; [cbn; lia|]. split; [exists []; eexists; reflexivity|]. split; [exact (rigid_at vzero [])|]. split.
  - intros n f p [I|[I|[]]] P _; injection I as <- <-; cbn in P; destruct P as [<- |[]]; discriminate.
  - exists (narrow (V3 3 2 0) [pt 0 0 ACTIVE 1]), (pt 0 0 ACTIVE 1). cbn [fst snd].
    split; [right; now left|]. split; [reflexivity|]. right. split; [discriminate|].
    exists 1%R, (V3 0 0 1), (V3 3 2 1). split; [reflexivity|]. split; [now apply sighted_two|].
    split; [now apply (proj2 (place_two (V3 3 2 1)))|]. rewrite pin_321. repeat split; discriminate.
Qed.

(** ** The initializer *)

Definition flat_source : source :=
  {| c_image := black 8 8; c_first := [(4, 4); (0, 0); (6, 6)]; c_again := fun n => [(4, 4); (5, 3)];
     c_plain := fun _ => Some 2%R; c_spherical := fun v => if Rlt_dec (vx v) 6 then Some 2%R else None |}.

Lemma needed_case a b : spherical_depth pin_unmap (c_spherical flat_source)
    {| b_pos := (inject_Z a, inject_Z b); b_state := ACTIVE; b_depth := None; b_dev := DevInf |} =
  if a <? 6 then {| b_pos := (inject_Z a, inject_Z b); b_state := ACTIVE; b_depth := Some 2%R; b_dev := DevInf |}
  else {| b_pos := (inject_Z a, inject_Z b); b_state := OOB; b_depth := None; b_dev := DevInf |}.
Proof.
  unfold spherical_depth, flat_source. cbn [b_state active b_pos c_spherical pin_unmap vx fst]. rewrite Q2R_Z.
  destruct (Rlt_dec (IZR a) 6) as [L|L].
  - apply (lt_IZR a 6) in L. replace (a <? 6) with true by (symmetry; apply Z.ltb_lt; exact L). reflexivity.
  - replace (a <? 6) with false; [reflexivity|]. symmetry. apply Z.ltb_ge.
    destruct (Z.le_gt_cases 6 a) as [X|X]; [exact X|]. elim L. now apply IZR_lt.
Qed.

Lemma hits_case p d : hits pin_unmap 8 8 2 (c_spherical flat_source) p d <->
  (2 <= fst p <= 5 /\ 2 <= snd p <= 6 /\ d = 2%R).
Proof.
  unfold hits, well_inside, flat_source. cbn [c_spherical]. unfold pin_unmap. cbn [vx fst]. rewrite Q2R_Z.
  destruct (Rlt_dec (IZR (fst p)) 6) as [L|L].
  - apply (lt_IZR _ 6) in L. split.
    + intros [H E]. injection E as <-. repeat split; lia.
    + intros (H1 & H2 & ->). split; [lia|reflexivity].
  - split; [intros [_ E]; discriminate|]. intros (H & _). elim L. apply IZR_lt. lia.
Qed.

Lemma create_case : exists f0 f1, createKeyFrames pin_unmap 8 8 false 2 10 sid flat_source flat_source = Ok (f0, f1, true) /\
  length (f_imm f0) = 2%nat.
Proof.
  unfold createKeyFrames. unfold spherical_points, first_points, addImmatures, immature, toVec2.
  cbn [app map c_first c_again c_image flat_source f_imm fst snd set_dev].
  unfold one_round, set_dev. cbn [map f_imm selectPointsDenser with_lists addImmatures app immature toVec2 fst snd].
  unfold spherical_depth, immature, toVec2.
  cbn -[Rlt_dec Q2R IZR inject_Z]. rewrite !Q2R_Z.
  destruct (Rlt_dec 4 6) as [_|X]; [|exfalso; lra].
  destruct (Rlt_dec 6 6) as [X|_]; [exfalso; lra|].
  destruct (Rlt_dec 5 6) as [_|X]; [|exfalso; lra].
  cbn -[Rlt_dec Q2R IZR inject_Z].
  eexists. eexists. split; [reflexivity|reflexivity].
Qed.

Lemma pin_ray a b c : c <> 0%R -> pin_map (vscale c (pin_unmap (inject_Z a, inject_Z b))) = (inject_Z a, inject_Z b).
Proof.
  intros C. unfold pin_map, pin_unmap, vscale. cbn [vx vy vz fst snd]. rewrite !Q2R_Z.
  replace (c * IZR a / (c * 1))%R with (IZR a) by (field; exact C).
  replace (c * IZR b / (c * 1))%R with (IZR b) by (field; exact C).
  now rewrite !int_part_IZR.
Qed.

Lemma flat_points f p : initial_points pin_unmap 8 8 2 10 flat_source f -> In p (f_imm f) ->
  (b_pos p = (inject_Z 4, inject_Z 4) \/ b_pos p = (inject_Z 5, inject_Z 3)) /\ b_depth p = Some 2%R.
Proof.
  intros (it & n & _ & _ & _ & S & _) I. destruct (sublist_in _ _ _ _ p S I) as (q & Q & d & H & (P & D & _)).
  apply hits_case in H. destruct H as (_ & _ & ->). split; [|exact D]. rewrite P.
  destruct Q as [<- |[<- |[]]]; auto.
Qed.

(** right after this initialisation the hypotheses about the tracker reference hold *)
Lemma ready_case : exists f0 f1, createKeyFrames pin_unmap 8 8 false 2 10 sid flat_source flat_source = Ok (f0, f1, true) /\
  well_keyed (initialFrames 0 1 (f0, f1)) /\ is_base true (initialFrames 0 1 (f0, f1)) 1 f1 /\ rigid (f_pose f1) /\
  depths_known Immature (initialFrames 0 1 (f0, f1)) 1 /\ no_deviation Immature (initialFrames 0 1 (f0, f1)) /\
  all_inside pin_map pin_unmap 8 8 Immature (initialFrames 0 1 (f0, f1)) 1 f1 /\ f_imm f1 <> [] /\
  (forall r x d, appears pin_map pin_unmap 8 8 Immature (initialFrames 0 1 (f0, f1)) 1 f1 r x d -> (0 <= d)%R).
Proof.
  destruct create_case as (f0 & f1 & E & _). exists f0, f1.
  assert (RS : rigid sid) by exact (rigid_at vzero []).
  pose proof (spherical_ready pin_unmap 8 8 2 10 sid flat_source flat_source f0 f1 true 0 1 1 ltac:(lia) RS E) as [K ND].
  pose proof (create_spherical pin_unmap 8 8 2 10 sid flat_source flat_source f0 f1 true ltac:(lia) RS E)
    as (_ & P0 & P1 & G0 & G1 & _ & _ & X0 & X1).
  assert (PE : forall v, act (f_pose f1) v = v) by (intros v; rewrite <- (P1 v) at 2; now rewrite act_id).
  assert (R1 : rigid (f_pose f1)).
  { unfold createKeyFrames in E. apply bind_inv in E. destruct E as (g0 & _ & E). apply bind_inv in E.
    destruct E as (g1 & E1 & E). injection E as _ <-.
    apply spherical_inv in E1; [|lia]. destruct E1 as (-> & _). apply rigid_inv, RS. }
  assert (POS : forall r x d, appears pin_map pin_unmap 8 8 Immature (initialFrames 0 1 (f0, f1)) 1 f1 r x d ->
     (x = (inject_Z 4, inject_Z 4) \/ x = (inject_Z 5, inject_Z 3)) /\ (0 <= d)%R).
  { intros r x d (f & p & I & J & C). apply nth_error_In in J. cbn [getPoints] in J.
    destruct C as [(N & _ & -> & D)|(N & dp & v & v' & D & S & P & -> & -> & _)].
    - destruct I as [I|[I|[]]]; [injection I as I _; rewrite N in I; discriminate|]. injection I as _ <-.
      destruct (flat_points f1 p X1 J) as [H1 H2]. split; [exact H1|]. rewrite D in H2. injection H2 as ->. lra.
    - destruct I as [I|[I|[]]]; [|injection I as I _; elim N; now rewrite <- I]. injection I as _ <-. cbn [fst] in *.
      destruct (flat_points f0 p X0 J) as [H1 H2]. rewrite D in H2. injection H2 as ->.
      unfold same_place in P. rewrite P0, act_id, PE in P. subst v'.
      apply sighted_norm in S; [|apply pin_directed]. split; [|unfold vnorm; apply sqrt_pos].
      assert (SC : v = vscale (2 * / vnorm (pin_unmap (b_pos p))) (pin_unmap (b_pos p))).
      { rewrite S. unfold normalized, vscale. destruct (pin_unmap (b_pos p)) as [a b c]. cbn [vx vy vz]. f_equal; ring. }
      assert (CZ : (2 * / vnorm (pin_unmap (b_pos p)) <> 0)%R).
      { apply Rmult_integral_contrapositive_currified; [lra|]. apply Rinv_neq_0_compat, pin_directed. }
      rewrite SC. destruct H1 as [H1|H1]; rewrite H1 in *; rewrite pin_ray by exact CZ; auto. }
  split; [exact E|]. split; [cbn; lia|]. split; [exists [(0, f0)]; reflexivity|]. split; [exact R1|].
  split; [exact K|]. split; [exact ND|]. split; [|split].
  - intros r x d A. apply POS in A. rewrite G1. destruct A as [[-> | ->] _]; repeat split; discriminate.
  - destruct X1 as (it & n & _ & _ & _ & _ & NE). exact NE.
  - intros r x d A. now apply POS in A.
Qed.
