(** Specifications for the residual pattern near the border. *)
From Coq Require Import ZArith QArith Qabs List.
From Verif Require Import PyramidModel PyramidSpec PixelSelectorModel.
Import ListNotations.
Open Scope Q_scope.

(** [h] is the smallest integer at least as large as every coordinate of the pattern. *)
Definition is_height (pattern : list (Q * Q)) (h : Z) : Prop :=
  (forall o, In o pattern -> Qabs (fst o) <= inject_Z h /\ Qabs (snd o) <= inject_Z h) /\
  exists o, In o pattern /\ (inject_Z (h - 1) < Qabs (fst o) \/ inject_Z (h - 1) < Qabs (snd o)).

(** The point keeps at least the distance [b] from the lines x = 0, x = w, y = 0, y = h. *)
Definition keeps (w h : Z) (b : Z) (p : Q * Q) : Prop :=
  (inject_Z b <= fst p /\ fst p <= inject_Z (w - b)) /\ (inject_Z b <= snd p /\ snd p <= inject_Z (h - b)).

(** Some pattern pixel is to the right of or below the image. *)
Definition sticks_out (w h : Z) (pattern : list (Q * Q)) (p : Q * Q) : Prop :=
  exists o, In o pattern /\ (inject_Z w <= fst p + fst o \/ inject_Z h <= snd p + snd o).

(** [v] is the value of the pixel of the image that contains the point [q]. *)
Definition pixel_value (img : gray) (q : Q * Q) (v : Z) : Prop :=
  exists x y, (0 <= x < gcols img /\ 0 <= y < grows img)%Z /\ in_pixel (fst q) x /\ in_pixel (snd q) y /\ v = gat img x y.

(** The index nearest to [k] inside a row of length [n]. *)
Definition clampz (n k : Z) : Z := Z.max 0 (Z.min (n - 1) k).

(** [g] is the matrix of gradient norms of the frame: central differences, the border repeated. *)
Definition gradient_norm (frame : gray) (g : PixelSelectorModel.image) : Prop :=
  PixelSelectorModel.im_cols g = gcols frame /\ PixelSelectorModel.im_rows g = grows frame /\
  forall x y, (0 <= x < gcols frame)%Z -> (0 <= y < grows frame)%Z ->
    let dx := inject_Z (gat frame (clampz (gcols frame) (x + 1)) y - gat frame (clampz (gcols frame) (x - 1)) y) / 2 in
    let dy := inject_Z (gat frame x (clampz (grows frame) (y + 1)) - gat frame x (clampz (grows frame) (y - 1))) / 2 in
    let v := PixelSelectorModel.im_at g x y in
    0 <= v /\ v * v == dx * dx + dy * dy.
