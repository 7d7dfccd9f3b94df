(** C111: densely drawn sectors *)
From Coq Require Import Reals ZArith List Bool Sorted.
From Verif Require Import Outcome Pose GeomModel SectorModel SectorSpec DenseModel DenseSpec DenseProofs.
Import ListNotations.
Open Scope R_scope.

(** Every dot is at a pixel of every tenth row and column, row by row and once, and its depth is the distance at which the
    viewing ray meets the triangle of the sector asked for. *)
Theorem C111_dots : forall solve last unmap k rows cols m l m', cone_solver solve -> orthogonal_column last -> stored m -> sees unmap rows cols ->
  drawDenseTriangle solve last unmap (Some k) rows cols m = (l, m') ->
  StronglySorted before l /\
  forall x y d, In (x, y, d) l -> tenth rows cols x y /\ exists s, In (k, s) m /\ meets (unmap x y) s d.
Proof. exact drawn. Qed.
Print Assumptions C111_dots.

(** If no ray is in two sectors no dot is missing and the terrain stays as it is. *)
Theorem C111_separate : forall solve last unmap k rows cols m l m', cone_solver solve -> orthogonal_column last -> stored m -> sees unmap rows cols ->
  separate unmap rows cols m -> drawDenseTriangle solve last unmap (Some k) rows cols m = (l, m') ->
  m' = m /\ forall x y d, In (x, y, d) l <-> tenth rows cols x y /\ exists s, In (k, s) m /\ meets (unmap x y) s d.
Proof. exact drawn_separate. Qed.
Print Assumptions C111_separate.

(** A null sector draws nothing. *)
Theorem C111_null : forall solve last unmap rows cols m, stored m -> fst (drawDenseTriangle solve last unmap None rows cols m) = [].
Proof. exact drawn_null. Qed.
Print Assumptions C111_null.

(** The sectors left do not depend on the sector drawn; only sectors under a visited pixel can be lost; where a sector is left
    some sector has drawn the pixel. *)
Theorem C111_left : forall solve last unmap sec sec' rows cols m, cone_solver solve -> stored m ->
  let m' := snd (drawDenseTriangle solve last unmap sec rows cols m) in
  m' = snd (drawDenseTriangle solve last unmap sec' rows cols m) /\ sub m' m /\
  (forall ks, In ks m -> (forall x y, tenth rows cols x y -> ~ in_cone (unmap x y) (snd ks)) -> In ks m') /\
  (forall x y ks, tenth rows cols x y -> In ks m' -> in_cone (unmap x y) (snd ks) ->
     exists k d, In (x, y, d) (fst (drawDenseTriangle solve last unmap (Some k) rows cols m))).
Proof. exact drawn_left. Qed.
Print Assumptions C111_left.

(** No pixel is drawn for two sectors. *)
Theorem C111_one : forall solve last unmap k k' rows cols m x y d d', stored m ->
  In (x, y, d) (fst (drawDenseTriangle solve last unmap (Some k) rows cols m)) ->
  In (x, y, d') (fst (drawDenseTriangle solve last unmap (Some k') rows cols m)) -> k = k' /\ d = d'.
Proof. exact drawn_one. Qed.
Print Assumptions C111_one.

(** Drawing changes the terrain: drawn once more the dot is gone, and with it the depth the terrain knew there. *)
Theorem C111_again_refuted : stored two /\ sees look 1 11 /\ forall solve last, cone_solver solve -> orthogonal_column last ->
  exists d m, drawDenseTriangle solve last look (Some 1%Z) 1 11 two = ([(0%Z, 0%Z, d)], m) /\ 0 < d /\
    drawDenseTriangle solve last look (Some 1%Z) 1 11 m = ([], m) /\
    fst (spherical_terrain solve last two (look 0 0)) = Some d /\ fst (spherical_terrain solve last m (look 0 0)) = None.
Proof. exact again. Qed.
Print Assumptions C111_again_refuted.
