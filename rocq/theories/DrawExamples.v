(** Concrete drawings. *)
From Coq Require Import ZArith QArith List Bool Arith Lia Permutation.
From Verif Require Import Outcome DelModel DelSpec DelPlaneSpec DelThm DelExact DelExamples DrawModel DrawSpec DrawProofs.
Import ListNotations.
Open Scope nat_scope.

Definition drawn_new (pad : Q) (p : point) (l : list point) (order : list Z) (w h : Z) :=
  let* T := triangulate eps eps p l order ch0 60 in draw_new pad p l w h (t_mesh T).
Definition drawn_on (p : point) (l : list point) (order : list Z) :=
  let* T := triangulate eps eps p l order ch0 60 in draw_on p l (t_mesh T).

(** a square box *)
Example square_position :
  general_position place (exact (eps * maxDim (q 1 2) [q 9 3; q 4 10; q 5 5]) (eps * maxDim (q 1 2) [q 9 3; q 4 10; q 5 5]))
    (corner0 (q 1 2) [q 9 3; q 4 10; q 5 5] :: corner1 (q 1 2) [q 9 3; q 4 10; q 5 5] :: corner2 (q 1 2) [q 9 3; q 4 10; q 5 5] :: [q 1 2; q 9 3; q 4 10; q 5 5]) /\
  (box_width (q 1 2) [q 9 3; q 4 10; q 5 5] == box_height (q 1 2) [q 9 3; q 4 10; q 5 5])%Q /\
  (0 < box_width (q 1 2) [q 9 3; q 4 10; q 5 5])%Q.
Proof. split; [apply gpb_ok; vm_compute; reflexivity|split; vm_compute; reflexivity]. Qed.

(** drawn into an image of 120 by 60 with a tenth of padding *)
Example square_drawn : drawn_new (1 # 10) (q 1 2) [q 9 3; q 4 10; q 5 5] [2; 0; 3; 1]%Z 120 60 =
  Ok [((112, 12), (49, 56)); ((62, 24), (49, 56)); ((12, 6), (49, 56)); ((12, 6), (112, 12)); ((62, 24), (12, 6)); ((112, 12), (62, 24))]%Z.
Proof. vm_compute. reflexivity. Qed.

(** drawn over an image: whole coordinates are met exactly *)
Example whole_drawn : drawn_on (q 1 2) [q 9 3; q 4 10; q 5 5] [2; 0; 3; 1]%Z =
  Ok [((9, 3), (4, 10)); ((5, 5), (4, 10)); ((1, 2), (4, 10)); ((1, 2), (9, 3)); ((5, 5), (1, 2)); ((9, 3), (5, 5))]%Z.
Proof. vm_compute. reflexivity. Qed.

(** a leftmost point between two pixels: the point (7, 3) is drawn at (6, 3), the point (1, 8) at (0, 8) *)
Lemma shifted_drawn : exists T r, triangulate eps eps (1 # 2, 0)%Q [q 1 8; q 7 3] [2; 0; 1]%Z ch0 60 = Ok T /\
  draw_on (1 # 2, 0)%Q [q 1 8; q 7 3] (t_mesh T) = Ok r /\ In ((0, 8), (6, 3))%Z r /\
  forall a b, In (a, b) r -> a <> (7, 3)%Z /\ b <> (7, 3)%Z /\ a <> (1, 8)%Z /\ b <> (1, 8)%Z.
Proof.
  assert (H : drawn_on (1 # 2, 0)%Q [q 1 8; q 7 3] [2; 0; 1]%Z = Ok [((0, 8), (6, 3)); ((0, 0), (6, 3)); ((0, 8), (0, 0))]%Z) by (vm_compute; reflexivity).
  unfold drawn_on in H. destruct (triangulate _ _ _ _ _ _ _) as [T| | | |]; cbn [bind] in H; try discriminate.
  exists T, [((0, 8), (6, 3)); ((0, 0), (6, 3)); ((0, 8), (0, 0))]%Z. split; [reflexivity|]. split; [exact H|]. split; [left; reflexivity|].
  intros a b I. cbn [In] in I. repeat (destruct I as [I|I]; [injection I as <- <-; repeat split; discriminate|]). contradiction.
Qed.

(** a box three times as wide as high: the point on the right is drawn at column 260 of 100 *)
Lemma wide_drawn : exists T r, triangulate eps eps (q 0 0) [q 30 1; q 12 10] [2; 0; 1]%Z ch0 60 = Ok T /\
  draw_new (1 # 10) (q 0 0) [q 30 1; q 12 10] 100 100 (t_mesh T) = Ok r /\ In ((260, 12), (110, 37))%Z r.
Proof.
  assert (H : drawn_new (1 # 10) (q 0 0) [q 30 1; q 12 10] [2; 0; 1]%Z 100 100 =
    Ok [((260, 12), (110, 37)); ((10, 10), (110, 37)); ((260, 12), (10, 10))]%Z) by (vm_compute; reflexivity).
  unfold drawn_new in H. destruct (triangulate _ _ _ _ _ _ _) as [T| | | |]; cbn [bind] in H; try discriminate.
  eexists T, _. split; [reflexivity|]. split; [exact H|]. left. reflexivity.
Qed.

(** points on a vertical line cannot be drawn *)
Lemma flat_drawn : exists T, triangulate eps eps (q 0 0) [q 0 1; q 0 2] [0; 1; 2]%Z ch0 60 = Ok T /\
  draw_new (1 # 10) (q 0 0) [q 0 1; q 0 2] 100 100 (t_mesh T) = UB.
Proof.
  assert (H : drawn_new (1 # 10) (q 0 0) [q 0 1; q 0 2] [0; 1; 2]%Z 100 100 = UB) by (vm_compute; reflexivity).
  assert (N : vertices_of (triangulate eps eps (q 0 0) [q 0 1; q 0 2] [0; 1; 2]%Z ch0 60) <> UB) by (vm_compute; discriminate).
  unfold drawn_new in H. destruct (triangulate _ _ _ _ _ _ _) as [T| | | |]; cbn [bind vertices_of] in *; try discriminate; try congruence.
  exists T. auto.
Qed.
