(** Concrete triangulations: the hypotheses of the theorems are met, and points on a line. *)
From Coq Require Import ZArith QArith List Bool Arith Lia Reals Lra Permutation Qreals.
From Verif Require Import Outcome DelModel DelSpec DelPlaneSpec DelThm DelExact.
Import ListNotations.
Open Scope nat_scope.

(** a decision procedure for general position, used for the examples only *)
Definition gpb (g : geometry point) (l : list point) : bool :=
  forallb (fun i => forallb (fun j => (i =? j) || (negb (g_equal g (nth i l (0, 0)%Q) (nth j l (0, 0)%Q)) &&
    forallb (fun k => (k =? i) || (k =? j) ||
      (negb (Qeq_bool (cross2 (psub (nth j l (0, 0)%Q) (nth i l (0, 0)%Q)) (psub (nth k l (0, 0)%Q) (nth i l (0, 0)%Q))) 0) &&
       negb (g_onSegment g (nth i l (0, 0)%Q) (nth j l (0, 0)%Q) (nth k l (0, 0)%Q)))) (seq 0 (length l))))
    (seq 0 (length l))) (seq 0 (length l)).

Lemma gpb_ok g l : gpb g l = true -> general_position place g l.
Proof.
  intros H i j a b I J N. unfold gpb in H. rewrite forallb_forall in H.
  assert (LT : forall k c, nth_error l k = Some c -> In k (seq 0 (length l)) /\ nth k l (0, 0)%Q = c).
  { intros k c K. split; [apply in_seq; split; [lia|]; cbn; apply nth_error_Some; congruence|apply nth_error_nth, K]. }
  destruct (LT i a I) as [I1 I2]. destruct (LT j b J) as [J1 J2]. specialize (H i I1). rewrite forallb_forall in H. specialize (H j J1).
  apply Nat.eqb_neq in N. rewrite N in H. cbn [orb] in H. rewrite I2, J2 in H. apply andb_true_iff in H. destruct H as [H1 H2].
  split; [apply negb_true_iff, H1|]. intros k c K KI KJ. destruct (LT k c K) as [K1 K2]. rewrite forallb_forall in H2. specialize (H2 k K1).
  apply Nat.eqb_neq in KI, KJ. rewrite KI, KJ in H2. cbn [orb] in H2. rewrite K2 in H2. apply andb_true_iff in H2. destruct H2 as [H2 H3].
  split; [|apply negb_true_iff, H3]. rewrite place_orient. apply negb_true_iff in H2. intros Z.
  assert (Q : (cross2 (psub b a) (psub c a) == 0)%Q) by (apply eqR_Qeq; rewrite Z; unfold Q2R; cbn; lra).
  apply Qeq_bool_iff in Q. congruence.
Qed.

Definition ch0 : choices := fun _ => (fun _ => 0, fun _ => true).
Definition eps : Q := 1 # 1000000000.
Definition q (x y : Z) : point := (inject_Z x, inject_Z y).

Definition vertices_of (o : outcome (@triangulation point)) := match o with Ok T => Ok (t_vertices T, nv (t_mesh T)) | UB => UB | Abort => Abort | Throw => Throw | NoFuel => NoFuel end.

(** four points in general position, inserted out of order *)
Example general_example :
  general_position place (exact (eps * maxDim (q 0 0) [q 7 1; q 3 8; q 4 3]) (eps * maxDim (q 0 0) [q 7 1; q 3 8; q 4 3]))
    (corner0 (q 0 0) [q 7 1; q 3 8; q 4 3] :: corner1 (q 0 0) [q 7 1; q 3 8; q 4 3] :: corner2 (q 0 0) [q 7 1; q 3 8; q 4 3] :: [q 0 0; q 7 1; q 3 8; q 4 3]) /\
  vertices_of (triangulate eps eps (q 0 0) [q 7 1; q 3 8; q 4 3] [2; 0; 3; 1]%Z ch0 60) = Ok ([4; 6; 3; 5], 7).
Proof. split; [apply gpb_ok; vm_compute; reflexivity|vm_compute; reflexivity]. Qed.

Lemma seq_perm : Permutation [2; 0; 3; 1]%Z (map Z.of_nat (seq 0 4)).
Proof.
  cbn. apply (perm_trans (l' := [0; 2; 3; 1]%Z)); [constructor|]. constructor.
  apply (perm_trans (l' := [2; 1; 3]%Z)); [constructor; constructor|constructor].
Qed.

(** so the guarantees hold for this run *)
Example general_run : exists T, triangulate eps eps (q 0 0) [q 7 1; q 3 8; q 4 3] [2; 0; 3; 1]%Z ch0 60 = Ok T /\
  consistent (t_mesh T) /\ planar place (t_mesh T) /\ fills place (t_mesh T).
Proof.
  destruct (triangulate_ok eps eps (q 0 0) [q 7 1; q 3 8; q 4 3] [2; 0; 3; 1]%Z ch0 60) as [H|(T & H & C & _ & PL & FI & _)].
  - intros i s N. destruct s; [congruence|cbn; lia].
  - exact seq_perm.
  - apply general_example.
  - exfalso. pose proof (proj2 general_example) as Q. rewrite H in Q. discriminate.
  - exists T. auto.
Qed.

(** a history with an edge that may be flipped: one point in the bounding triangle, then one on an inner edge *)
Example history_example : exists m, history (P := point) m 1 /\ (exists e, edge_of m e /\ ET m e 1 <> None) /\ exists t, tri_of m t.
Proof.
  destruct (history_defined _ _ (h_start (q 0 0) (q 9 0) (q 0 9))) as (D & _ & _).
  destruct (D (q 2 2) 0%Z 0) as (m' & H).
  { exists 0. split; [vm_compute; lia|vm_compute; auto]. }
  exists m'. split; [apply (h_triangle _ 0 (q 2 2) 0%Z 0 m' (h_start (q 0 0) (q 9 0) (q 0 9))); [exists 0; split; [vm_compute; lia|vm_compute; auto]|exact H]|].
  vm_compute in H. injection H as <-. split; [exists 3|exists 1].
  - split; [exists 3; split; [vm_compute; lia|vm_compute; auto]|vm_compute; discriminate].
  - exists 3. split; [vm_compute; lia|vm_compute; auto].
Qed.

(** three points on a vertical line: two edges join the same two vertices, and two triangles have
    the same corners *)
Lemma vertical_double : exists T, triangulate eps eps (q 0 0) [q 0 1; q 0 2] [0; 1; 2]%Z ch0 50 = Ok T /\ exists e e' u v, In e (t_edges T) /\ In e' (t_edges T) /\ e <> e' /\
  joins (t_mesh T) e u v /\ joins (t_mesh T) e' u v.
Proof.
  assert (H : match triangulate eps eps (q 0 0) [q 0 1; q 0 2] [0; 1; 2]%Z ch0 50 with Ok T => existsb (Nat.eqb 14) (t_edges T) && existsb (Nat.eqb 15) (t_edges T) &&
    ((EV (t_mesh T) 14 0 =? 3) && (EV (t_mesh T) 14 1 =? 5)) && ((EV (t_mesh T) 15 0 =? 3) && (EV (t_mesh T) 15 1 =? 5)) | _ => false end = true) by (vm_compute; reflexivity).
  destruct (triangulate eps eps (q 0 0) [q 0 1; q 0 2] [0; 1; 2]%Z ch0 50) as [T| | | |]; try discriminate. exists T. split; [reflexivity|]. exists 14, 15, 3, 5.
  rewrite !andb_true_iff, !existsb_exists, !Nat.eqb_eq in H. destruct H as [[[(a & A & QA) (b & B & QB)] [C D]] [E F]]. apply Nat.eqb_eq in QA, QB. subst a b.
  split; [exact A|]. split; [exact B|]. split; [discriminate|]. split; left; auto.
Qed.

(** two points on the line through the first bounding vertex, or two equal points: abort *)
Lemma diagonal_aborts : triangulate eps eps (q 1 1) [q 8 8] [0; 1]%Z ch0 50 = Abort.
Proof. vm_compute. reflexivity. Qed.
Lemma equal_aborts : triangulate eps eps (q 1 1) [q 1 1] [0; 1]%Z ch0 50 = Abort.
Proof. vm_compute. reflexivity. Qed.

(** a duplicate inserted second of four: index 2 yields the vertex of point 3 *)
Lemma twice_wrong : exists T v, triangulate eps eps (q 0 0) [q 0 0; q 7 1; q 3 8] [0; 1; 2; 3]%Z ch0 50 = Ok T /\ nth_error (t_vertices T) 2 = Some v /\ IDX (t_mesh T) v = 3%Z.
Proof.
  assert (H : match triangulate eps eps (q 0 0) [q 0 0; q 7 1; q 3 8] [0; 1; 2; 3]%Z ch0 50 with Ok T => match nth_error (t_vertices T) 2 with Some v => (IDX (t_mesh T) v =? 3)%Z | None => false end | _ => false end = true) by (vm_compute; reflexivity).
  destruct (triangulate eps eps (q 0 0) [q 0 0; q 7 1; q 3 8] [0; 1; 2; 3]%Z ch0 50) as [T| | | |]; try discriminate. destruct (nth_error (t_vertices T) 2) as [v|] eqn:N; [|discriminate].
  exists T, v. apply Z.eqb_eq in H. auto.
Qed.
(** the same points in another order: the constructor reads past the array *)
Lemma twice_past : triangulate eps eps (q 0 0) [q 7 1; q 3 8; q 0 0] [0; 3; 1; 2]%Z ch0 50 = UB.
Proof. vm_compute. reflexivity. Qed.
(** the hypotheses of the theorem about dropped points *)
Example twice_run : let g := exact (eps * 8) (eps * 8) in
  let B := bounding (q (-8) (-8)) (q 32 (-8)) (q (-8) 32) in
  let l1 := [(0%Z, q 0 0); (1%Z, q 0 0)] in let l2 := [(2%Z, q 7 1); (3%Z, q 3 8)] in
  match insert_all g ch0 50 l1 0 B (fun _ => 0%Z) 4, insert_all g ch0 50 (l1 ++ l2) 0 B (fun _ => 0%Z) 4 with
  | Ok (m1, _), Ok (m, _) => nv m1 < 3 + length l1 /\ nv m1 < nv m
  | _, _ => False
  end.
Proof. vm_compute. lia. Qed.
