(** C99: drawing a planar triangulation. *)
From Coq Require Import ZArith QArith List Arith Permutation.
From Verif Require Import Outcome Dbl DelModel DelSpec DelPlaneSpec DelThm DelExact DelExamples DrawModel DrawSpec DrawProofs DrawExamples.
Import ListNotations.
Open Scope nat_scope.

(** drawn over an image: every listed edge once, its ends less than two pixels up and left of the
    points, and at the very pixels of the points if the upper left corner of their box is a pixel *)
Theorem C99_over_image : forall (es em : Q) p l order ch fuel T,
  (forall i (s : list nat), s <> [] -> fst (ch i) s < length s) ->
  Permutation order (map Z.of_nat (seq 0 (S (length l)))) ->
  general_position place (exact (es * maxDim p l) (em * maxDim p l)) (corner0 p l :: corner1 p l :: corner2 p l :: p :: l) ->
  triangulate es em p l order ch fuel = Ok T ->
  (0 <= minx p l)%Q -> (0 <= miny p l)%Q -> (maxx p l <= inject_Z INT_MAX)%Q -> (maxy p l <= inject_Z INT_MAX)%Q ->
  exists es px, Permutation es (t_edges T) /\ draw_on p l (t_mesh T) = Ok (map (line_of px (t_mesh T)) es) /\
    forall q, In q (p :: l) ->
      (inject_Z (fst (px q)) <= fst q < inject_Z (fst (px q)) + 2)%Q /\
      (inject_Z (snd (px q)) <= snd q < inject_Z (snd (px q)) + 2)%Q /\
      ((minx p l == inject_Z (whole (minx p l)))%Q -> (miny p l == inject_Z (whole (miny p l)))%Q ->
       px q = (whole (fst q), whole (snd q))).
Proof. exact draw_on_ok. Qed.
Print Assumptions C99_over_image.

(** otherwise not: the difference and the corner are truncated separately *)
Theorem C99_over_image_refuted : exists T r, triangulate eps eps (1 # 2, 0)%Q [q 1 8; q 7 3] [2; 0; 1]%Z ch0 60 = Ok T /\
  draw_on (1 # 2, 0)%Q [q 1 8; q 7 3] (t_mesh T) = Ok r /\ In ((0, 8), (6, 3))%Z r /\
  forall a b, In (a, b) r -> a <> (7, 3)%Z /\ b <> (7, 3)%Z /\ a <> (1, 8)%Z /\ b <> (1, 8)%Z.
Proof. exact shifted_drawn. Qed.
Print Assumptions C99_over_image_refuted.

(** drawn into a new image: with a square box every listed edge once, on the image, past the padding,
    in the order of the coordinates *)
Theorem C99_new_image : forall (es em : Q) p l order ch fuel T pad w h,
  (forall i (s : list nat), s <> [] -> fst (ch i) s < length s) ->
  Permutation order (map Z.of_nat (seq 0 (S (length l)))) ->
  general_position place (exact (es * maxDim p l) (em * maxDim p l)) (corner0 p l :: corner1 p l :: corner2 p l :: p :: l) ->
  triangulate es em p l order ch fuel = Ok T ->
  (0 < pad < 1 # 2)%Q -> (0 < w <= INT_MAX)%Z -> (0 < h <= INT_MAX)%Z ->
  (0 < box_width p l)%Q -> (box_width p l == box_height p l)%Q ->
  exists es px, Permutation es (t_edges T) /\ draw_new pad p l w h (t_mesh T) = Ok (map (line_of px (t_mesh T)) es) /\
    (forall q, In q (p :: l) -> on_image w h (px q) /\
      (whole (pad * inject_Z w) <= fst (px q))%Z /\ (whole (pad * inject_Z h) <= snd (px q))%Z) /\
    (forall q q', In q (p :: l) -> In q' (p :: l) ->
      ((fst q <= fst q')%Q -> (fst (px q) <= fst (px q'))%Z) /\ ((snd q <= snd q')%Q -> (snd (px q) <= snd (px q'))%Z)).
Proof. exact draw_new_ok. Qed.
Print Assumptions C99_new_image.

(** otherwise not: the scales of the two directions are exchanged.  With a box wider than high by more
    than the padding, an edge ending in a rightmost point leaves the image; likewise for high boxes *)
Theorem C99_wide_refuted : forall (pad : Q) p l w h (m : mesh point) r,
  (0 <= pad)%Q -> (0 < w)%Z -> draw_new pad p l w h m = Ok r ->
  (0 < box_height p l)%Q -> ((1 + 2 * pad) * box_height p l <= box_width p l)%Q ->
  forall e v, In e (scaled_order m) -> end_of m e v -> (fst (POS m v) == maxx p l)%Q ->
  exists a b, In (a, b) r /\ ((w <= fst a)%Z \/ (w <= fst b)%Z).
Proof. exact draw_new_wide. Qed.
Print Assumptions C99_wide_refuted.

Theorem C99_tall_refuted : forall (pad : Q) p l w h (m : mesh point) r,
  (0 <= pad)%Q -> (0 < h)%Z -> draw_new pad p l w h m = Ok r ->
  (0 < box_width p l)%Q -> ((1 + 2 * pad) * box_width p l <= box_height p l)%Q ->
  forall e v, In e (scaled_order m) -> end_of m e v -> (snd (POS m v) == maxy p l)%Q ->
  exists a b, In (a, b) r /\ ((h <= snd a)%Z \/ (h <= snd b)%Z).
Proof. exact draw_new_tall. Qed.
Print Assumptions C99_tall_refuted.

Example C99_wide_case : exists T r, triangulate eps eps (q 0 0) [q 30 1; q 12 10] [2; 0; 1]%Z ch0 60 = Ok T /\
  draw_new (1 # 10) (q 0 0) [q 30 1; q 12 10] 100 100 (t_mesh T) = Ok r /\ In ((260, 12), (110, 37))%Z r.
Proof. exact wide_drawn. Qed.

(** and a box without extent in one direction is undefined behaviour as soon as there is an edge *)
Theorem C99_flat_refuted : forall (pad : Q) p l w h (m : mesh point) e,
  (box_width p l == 0)%Q \/ (box_height p l == 0)%Q -> In e (scaled_order m) -> draw_new pad p l w h m = UB.
Proof. exact draw_new_flat. Qed.
Print Assumptions C99_flat_refuted.

Example C99_flat_case : exists T, triangulate eps eps (q 0 0) [q 0 1; q 0 2] [0; 1; 2]%Z ch0 60 = Ok T /\
  draw_new (1 # 10) (q 0 0) [q 0 1; q 0 2] 100 100 (t_mesh T) = UB.
Proof. exact flat_drawn. Qed.

(** which edges: in any mesh whose records agree, drawn once by draw and twice by drawCurved *)
Theorem C99_once : forall (P : Type) (m : mesh P),
  NoDup (scaled_order m) /\ forall e, In e (scaled_order m) <-> inner_edge m e.
Proof. exact @draw_once. Qed.
Print Assumptions C99_once.

Theorem C99_curved_twice_refuted : forall (P : Type) (m : mesh P), consistent m ->
  (forall e, inner_edge m e -> times e (curved_order m) = 2) /\ forall e, ~ inner_edge m e -> times e (curved_order m) = 0.
Proof. exact @draw_twice. Qed.
Print Assumptions C99_curved_twice_refuted.

(** the points (1,2), (9,3), (4,10), (5,5) *)
Example C99_case : drawn_new (1 # 10) (q 1 2) [q 9 3; q 4 10; q 5 5] [2; 0; 3; 1]%Z 120 60 =
  Ok [((112, 12), (49, 56)); ((62, 24), (49, 56)); ((12, 6), (49, 56)); ((12, 6), (112, 12)); ((62, 24), (12, 6)); ((112, 12), (62, 24))]%Z.
Proof. exact square_drawn. Qed.
