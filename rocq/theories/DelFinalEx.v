(** A triangulation meeting the hypotheses of the theorems about circles. *)
From Coq Require Import ZArith QArith List Bool Arith Lia Reals Lra Permutation Qreals.
From Verif Require Import Outcome DelModel DelSpec DelPlaneSpec DelThm DelExact DelExamples DelDiscSpec DelFinal.
Import ListNotations.
Open Scope nat_scope.

(** the index triples of the triangles *)
Definition triples_of (o : outcome (@triangulation point)) := match o with
  | Ok T => Ok (map (fun t => (IDX (t_mesh T) (TV (t_mesh T) t 0), IDX (t_mesh T) (TV (t_mesh T) t 1), IDX (t_mesh T) (TV (t_mesh T) t 2))) (t_triangles T))
  | UB => UB | Abort => Abort | Throw => Throw | NoFuel => NoFuel end.

(** four points; the diagonal is flipped whatever the order *)
Definition ps : list point := [q 7 1; q 3 8; q 9 6].
Lemma ps_position : general_position place (exact (eps * maxDim (q 0 0) ps) (eps * maxDim (q 0 0) ps))
  (corner0 (q 0 0) ps :: corner1 (q 0 0) ps :: corner2 (q 0 0) ps :: q 0 0 :: ps).
Proof. apply gpb_ok. vm_compute. reflexivity. Qed.

Lemma ps_cocircular : forall i j k h x y z u, nth_error (q 0 0 :: ps) i = Some x -> nth_error (q 0 0 :: ps) j = Some y -> nth_error (q 0 0 :: ps) k = Some z -> nth_error (q 0 0 :: ps) h = Some u ->
  NoDup [i; j; k; h] -> ~ exists o, dist2 o (place x) = dist2 o (place y) /\ dist2 o (place y) = dist2 o (place z) /\ dist2 o (place z) = dist2 o (place u).
Proof.
  assert (A : forall o, let D n := dist2 o (place (nth n (q 0 0 :: ps) (q 0 0))) in D 0 = D 1 -> D 1 = D 2 -> D 2 = D 3 -> False).
  { intros [a b]. unfold dist2, place, ps, q, Q2R. cbn. intros. lra. }
  intros i j k h x y z u I J K H N (o & E1 & E2 & E3).
  assert (L : forall n v, nth_error (q 0 0 :: ps) n = Some v -> n < 4 /\ v = nth n (q 0 0 :: ps) (q 0 0)).
  { intros n v E. split; [apply (nth_error_Some (q 0 0 :: ps) n); congruence|]. symmetry. apply nth_error_nth, E. }
  destruct (L i x I) as [I1 ->]. destruct (L j y J) as [J1 ->]. destruct (L k z K) as [K1 ->]. destruct (L h u H) as [H1 ->]. clear L I J K H. specialize (A o). cbv zeta in A.
  set (D := fun n => dist2 o (place (nth n (q 0 0 :: ps) (q 0 0)))) in *.
  change (D i = D j) in E1. change (D j = D k) in E2. change (D k = D h) in E3. change (D 0 = D 1 -> D 1 = D 2 -> D 2 = D 3 -> False) in A. clearbody D.
  apply NoDup_cons_iff in N. destruct N as [N1 N]. apply NoDup_cons_iff in N. destruct N as [N2 N]. apply NoDup_cons_iff in N. destruct N as [N3 _]. cbn [In] in N1, N2, N3.
  assert (ALL : forall n, n < 4 -> D n = D i).
  { intros n Hn. assert (n = i \/ n = j \/ n = k \/ n = h) by lia. destruct H as [->|[->|[->| ->]]]; congruence. }
  apply A; (transitivity (D i); [apply ALL; lia|symmetry; apply ALL; lia]).
Qed.

Lemma ps_perm : Permutation [2; 0; 3; 1]%Z (map Z.of_nat (seq 0 4)).
Proof. exact seq_perm. Qed.
Lemma ch0_ok : forall i (s : list nat), s <> [] -> fst (ch0 i) s < length s.
Proof. intros i s N. destruct s; [congruence|cbn; lia]. Qed.

(** so the theorems apply: in both orders the triangles are those of the points 0, 1, 2 and 1, 2, 3 *)
Example ps_runs :
  triples_of (triangulate eps eps (q 0 0) ps [2; 0; 3; 1]%Z ch0 60) = Ok [(2, 1, 0); (2, 1, 3)]%Z /\
  triples_of (triangulate eps eps (q 0 0) ps [0; 1; 2; 3]%Z ch0 60) = Ok [(0, 1, 2); (1, 3, 2)]%Z.
Proof. split; vm_compute; reflexivity. Qed.
