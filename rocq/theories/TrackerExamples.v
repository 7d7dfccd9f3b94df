(** Concrete cases for the tracking properties. *)
From Coq Require Import ZArith QArith Reals List Bool Lia Lra.
From Verif Require Import Outcome Pose CamModel CamSpec PyramidModel PyramidSpec TrackerModel TrackerSpec TrackerMore.
Import ListNotations.
Open Scope Z_scope.

Definition ex_img : gray := {| grows := 64; gcols := 64; gat := fun x y => (3 * x + y) mod 256 |}.
Definition ex_points : list (Q * Q) := [(33 # 2, 41 # 2); (21 # 2, 81 # 2)]%Q.
Definition ex_ds : list R := [2; 3]%R.
Definition ex_ws : list R := [1; 1]%R.
Definition ex_set (n : Z) (grad light : bool) : tracker_settings :=
  {| s_levelNum := n; s_minA := -1; s_maxA := 1; s_minB := -10; s_maxB := 10; s_optimizeLight := light; s_useGrad := grad; s_gradC := 50 |}.

Lemma ex_valid : valid_base ex_img ex_points ex_ds ex_ws.
Proof.
  unfold valid_base. cbn [grows gcols ex_img]. repeat split; try lia.
  repeat (constructor; [unfold inside, Qle, Qlt; cbn; lia|]). constructor.
Qed.

Lemma ex_solver : level_solver (fun pr e => e).
Proof. intros pr e. split; [reflexivity|left; reflexivity]. Qed.

(** a solver that really moves *)
Definition ex_solve (m : se3) (pr : level_problem) (e : estimate) : estimate :=
  if Rle_dec (fst (l_boundsA pr)) (fst (snd e)) then
    if Rle_dec (fst (snd e)) (snd (l_boundsA pr)) then
      if Rle_dec (fst (l_boundsB pr)) (snd (snd e)) then
        if Rle_dec (snd (snd e)) (snd (l_boundsB pr)) then (m, snd e) else e
      else e
    else e
  else e.

Lemma ex_solve_ok m : level_solver (ex_solve m) /\
  forall pr e, ~ ((fst (l_boundsA pr) <= fst (snd e) <= snd (l_boundsA pr))%R /\ (fst (l_boundsB pr) <= snd (snd e) <= snd (l_boundsB pr))%R) -> ex_solve m pr e = e.
Proof.
  split.
  - intros pr e. unfold ex_solve. destruct (Rle_dec _ _); [|auto]. destruct (Rle_dec _ _); [|auto]. destruct (Rle_dec _ _); [|auto]. destruct (Rle_dec _ _); [|auto].
    split; [reflexivity|]. right. cbn [fst snd]. auto.
  - intros pr e H. unfold ex_solve. destruct (Rle_dec _ _); [|auto]. destruct (Rle_dec _ _); [|auto]. destruct (Rle_dec _ _); [|auto]. destruct (Rle_dec _ _); [|auto].
    exfalso. apply H. auto.
Qed.

(** an interior point that belongs to a border cell of the coarsest of five levels *)
Lemma ex_cell : In (21 # 2, 81 # 2)%Q ex_points /\ 0 <= 0 < gcols ex_img / 2 ^ (5 - 1) /\ 0 <= 2 < grows ex_img / 2 ^ (5 - 1) /\
  (exists bx by_, in_pixel (21 # 2) bx /\ in_pixel (81 # 2) by_ /\ in_block (5 - 1) 0 2 bx by_).
Proof.
  split; [right; left; reflexivity|]. cbn [gcols grows ex_img]. split; [vm_compute; split; congruence|]. split; [vm_compute; split; congruence|].
  exists 10, 40. repeat split; try (vm_compute; congruence).
Qed.

Lemma ex_border solve cam frame coarse : track_in_system solve (fun _ _ _ _ _ => true) (ex_set 5 true false) cam ex_img ex_points ex_ds ex_ws frame coarse = UB.
Proof.
  destruct ex_cell as (I & X & Y & B). eapply (border_reached solve _ (ex_set 5 true false) cam ex_img ex_points ex_ds ex_ws frame coarse _ 0 2).
  - cbn. lia.
  - exact ex_valid.
  - reflexivity.
  - repeat constructor; lra.
  - repeat constructor; lra.
  - reflexivity.
  - exact I.
  - exact X.
  - exact Y.
  - exact B.
  - left. reflexivity.
Qed.

Lemma ex_no_points : depthedImagePyramid ex_img 3 [] [] [] <> Abort /\ forall images depths,
  depthedImagePyramid ex_img 3 [] [] [] = Ok (images, depths) -> borders_free (ex_set 3 true false) images depths.
Proof.
  split; [discriminate|]. intros images depths E G. split; [cbn; lra|].
  destruct (PyramidProofs.depth_pyramid ex_img 3 [] [] []) as (im & de & D & W & E' & _ & _ & DEP & Z0 & ZL); [lia|reflexivity|reflexivity|constructor|].
  rewrite E in E'. injection E' as <- <-. intros i img dep x y HI HD X Y B.
  assert (WZ : forall a b, W a b = 0%R). { intros a b. apply DEP. intros [|j] q Q; discriminate. }
  destruct i as [|i].
  - destruct Z0 as (m & M & _ & _ & V). rewrite HD in M. injection M as <-. destruct (V x y) as [-> V']. rewrite V'; [lra|]. intros [|j] q Q; discriminate.
  - destruct (ZL (S i) dep) as (_ & _ & V); [lia|exact HD|]. destruct (V x y) as [_ V2]; [lia|lia|]. rewrite V2; [lra|].
    assert (XZ : forall n a f, (forall z, f z = 0%R) -> xsum n a f = 0%R).
    { induction n as [|n IH]; intros a f H; cbn; [reflexivity|]. rewrite H, IH by exact H. lra. }
    unfold block_rtotal. rewrite XZ; [rewrite Rabs_R0; lra|]. intros z. apply XZ. intros; apply WZ.
Qed.
