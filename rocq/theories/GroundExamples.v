(** A planar terrain over four points. *)
From Coq Require Import ZArith QArith Qreals List Bool Arith Lia Reals Lra Permutation.
From Verif Require Import Outcome Pose GeomModel SectorModel SectorSpec SectorExamples.
From Verif Require Import DelModel DelSpec DelPlaneSpec DelRun2 DelThm DelExact DelExamples DelDiscSpec DelFinal DelFinalEx.
From Verif Require Import GroundModel GroundSpec GroundProofs GroundMore GroundUnique.
Import ListNotations.
Open Scope nat_scope.

Definition four_units : list vec := [V3 1 0 0; V3 1 0 0; V3 1 0 0; V3 1 0 0].
Definition four_depths : list R := [1; -2; 3; 4]%R.
Definition plain_order : list Z := [0; 1; 2; 3]%Z.
Definition four_mesh : @triangulation point :=
  match triangulate eps eps (q 0 0) ps plain_order ch0 60 with Ok T => T | _ => {| t_mesh := bounding (q 0 0) (q 0 0) (q 0 0); t_inv := fun _ => 0%Z; t_vertices := []; t_edges := []; t_triangles := [] |} end.
Definition four : ground := {| g_triang := four_mesh; g_refs := ref_depths four_units four_depths |}.
Definition g4 := exact (eps * maxDim (q 0 0) ps) (eps * maxDim (q 0 0) ps).

Lemma four_run : triangulate eps eps (q 0 0) ps plain_order ch0 60 = Ok four_mesh.
Proof.
  unfold four_mesh. assert (B : match triangulate eps eps (q 0 0) ps plain_order ch0 60 with Ok _ => true | _ => false end = true) by (vm_compute; reflexivity).
  destruct (triangulate eps eps (q 0 0) ps plain_order ch0 60); [reflexivity|discriminate B..].
Qed.
Lemma four_made : make_ground eps eps (q 0 0) ps four_units four_depths plain_order ch0 60 = Ok four.
Proof. unfold make_ground. rewrite four_run. reflexivity. Qed.
Lemma plain_perm : Permutation plain_order (map Z.of_nat (seq 0 4)).
Proof. apply Permutation_refl. Qed.
Lemma four_unit : Forall (fun n => vnorm n = 1%R) four_units.
Proof.
  assert (N : vnorm (V3 1 0 0) = 1%R). { unfold vnorm, dot. cbn. replace (1 * 1 + 0 * 0 + 0 * 0)%R with 1%R by ring. apply sqrt_1. }
  unfold four_units. auto.
Qed.

(** a point strictly inside, away from the edges *)
Definition mid : point := q 4 3.
Lemma away_test (g : geometry point) m x : existsb (fun e => containsE g m e x) (seq 0 (ne m)) = false -> consistent m -> ~ on_edge g m x.
Proof.
  intros H C (e & E & O). assert (existsb (fun e => containsE g m e x) (seq 0 (ne m)) = true); [|congruence].
  apply existsb_exists. exists e. split; [apply in_seq; pose proof (c_rangeE _ C e E); lia|exact O].
Qed.
Lemma four_consistent : consistent (t_mesh four_mesh).
Proof. exact (k_con _ _ _ (proj1 (run_good eps eps (q 0 0) ps plain_order ch0 60 four_mesh ch0_ok plain_perm ps_position four_run))). Qed.
Lemma mid_away : ~ on_edge g4 (t_mesh four_mesh) mid.
Proof. apply away_test; [vm_compute; reflexivity|exact four_consistent]. Qed.
Lemma mid_inside : inside_hull (q 0 0 :: ps) (place mid).
Proof.
  exists (q 0 0), (q 7 1), (q 3 8). cbn [In ps]. repeat (split; [tauto|]). split.
  - unfold orient, place, q, Q2R. cbn. lra.
  - exists (13/53)%R, (23/53)%R, (17/53)%R. repeat (split; [lra|]). unfold mix, place, mid, q, Q2R. cbn. f_equal; lra.
Qed.

Definition take (n : nat) (s : list nat) : nat := if n <? length s then n else 0.
Lemma take_ok n : forall s : list nat, s <> [] -> take n s < length s.
Proof. intros s N. unfold take. destruct (n <? length s) eqn:E; [apply Nat.ltb_lt, E|]. destruct s; [congruence|cbn; lia]. Qed.

(** the part of the query without the depths *)
Definition search (es em : Q) p l (T : @triangulation point) (x : point) fs (coin : nat -> bool) f : option bool :=
  match enclosingTriangle (exact (es * maxDim p l) (em * maxDim p l)) (t_mesh T) x fs coin f with Ok (Some t) => Some (isIncidentToBoundary (t_mesh T) t) | _ => None end.
Lemma search_has (es em : Q) p l T refs solve x fs coin f b : search es em p l T x fs coin f = Some b ->
  has_depth_at es em p l {| g_triang := T; g_refs := refs |} x fs coin f = Ok (negb b) /\ (b = true -> depth_at solve es em p l {| g_triang := T; g_refs := refs |} x fs coin f = Ok None).
Proof.
  unfold search, has_depth_at, depth_at. cbn [g_triang].
  destruct (enclosingTriangle (exact (es * maxDim p l) (em * maxDim p l)) (t_mesh T) x fs coin f) as [[t|]| | | |]; try discriminate. intros H. injection H as H. cbn [bind corners_of at_boundary hasInterpolatedDepth]. rewrite H. split; [reflexivity|]. intros ->. reflexivity.
Qed.
Lemma search_mid : search eps eps (q 0 0) ps four_mesh mid (take 0) (fun _ => true) 60 = Some false.
Proof. vm_compute. reflexivity. Qed.
Lemma search_heads : search eps eps (q 0 0) ps four_mesh (q 7 1) (take 0) (fun _ => true) 60 = Some false.
Proof. vm_compute. reflexivity. Qed.
Lemma search_tails : search eps eps (q 0 0) ps four_mesh (q 7 1) (take 0) (fun _ => false) 60 = Some true.
Proof. vm_compute. reflexivity. Qed.

Lemma four_has x coin : has_depth_at eps eps (q 0 0) ps four x (take 0) coin 60 = Ok true <-> exists r, depth_at affine_through eps eps (q 0 0) ps four x (take 0) coin 60 = Ok (Some r).
Proof.
  exact (proj2 (proj2 (has_depth eps eps (q 0 0) ps four_units four_depths plain_order ch0 60 four affine_through x (take 0) coin 60 ch0_ok plain_perm ps_position affine_through_ok four_unit eq_refl four_made (take_ok 0)))).
Qed.

Lemma mid_answered : exists r, depth_at affine_through eps eps (q 0 0) ps four mid (take 0) (fun _ => true) 60 = Ok (Some r).
Proof. apply four_has. exact (proj1 (search_has eps eps (q 0 0) ps four_mesh (ref_depths four_units four_depths) affine_through mid (take 0) (fun _ => true) 60 false search_mid)). Qed.

(** asked twice at the same corner of the hull *)
Lemma asked_twice :
  depth_at affine_through eps eps (q 0 0) ps four (q 7 1) (take 0) (fun _ => true) 60 = Ok (Some 2%R) /\
  depth_at affine_through eps eps (q 0 0) ps four (q 7 1) (take 0) (fun _ => false) 60 = Ok None.
Proof.
  split; [|exact (proj2 (search_has eps eps (q 0 0) ps four_mesh (ref_depths four_units four_depths) affine_through (q 7 1) (take 0) (fun _ => false) 60 true search_tails) eq_refl)].
  pose proof (point_answer eps eps (q 0 0) ps plain_order ch0 60 four affine_through four_units four_depths ch0_ok plain_perm ps_position affine_through_ok four_unit eq_refl four_made (q 7 1) 1 (-2)%R (take 0) (fun _ => true) 60 (take_ok 0) eq_refl eq_refl) as PA.
  assert (A : Rabs (-2) = 2%R) by (rewrite Rabs_left; lra). rewrite A in PA.
  destruct (proj1 (four_has (q 7 1) (fun _ => true)) (proj1 (search_has eps eps (q 0 0) ps four_mesh (ref_depths four_units four_depths) affine_through (q 7 1) (take 0) (fun _ => true) 60 false search_heads))) as (r & B). destruct PA as [P|[P|P]]; congruence.
Qed.
