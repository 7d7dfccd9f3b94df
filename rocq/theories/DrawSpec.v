(** Notions for the statements about drawing a triangulation. *)
From Coq Require Import List ZArith QArith Qround.
From Verif Require Import DelModel DelSpec.
Import ListNotations.

(** An edge between two input points. *)
Definition inner_edge {P} (m : mesh P) (e : nat) : Prop := edge_of m e /\ (3 <= EV m e 0)%nat /\ (3 <= EV m e 1)%nat.

(** How often an element occurs. *)
Definition times (e : nat) (l : list nat) : nat := length (filter (Nat.eqb e) l).

(** The whole part of a rational: towards zero. *)
Definition whole (x : Q) : Z := if Qlt_le_dec x 0 then Qceiling x else Qfloor x.

(** The lines drawn are those between the pixels of the ends of the edges listed. *)
Definition line_of (px : point -> Z * Z) (m : mesh point) (e : nat) : (Z * Z) * (Z * Z) :=
  (px (POS m (EV m e 0)), px (POS m (EV m e 1))).

(** Width and height of the bounding box. *)
Definition box_width (p : point) (l : list point) : Q := (maxx p l - minx p l)%Q.
Definition box_height (p : point) (l : list point) : Q := (maxy p l - miny p l)%Q.

(** The pixel is on an image of this size. *)
Definition on_image (w h : Z) (x : Z * Z) : Prop := (0 <= fst x < w)%Z /\ (0 <= snd x < h)%Z.
