(** Words of the statements about the program that shows selected points (C108). *)
From Coq Require Import ZArith QArith List Ascii String.
From Verif Require Import PlyModel SelModel.
Import ListNotations.
Open Scope Z_scope.

(** Names of images *)
Definition image_name (nm : bytes) : Prop := exists p, nm = p ++ lit ".jpg" \/ nm = p ++ lit ".png".

(** The first difference decides; a proper beginning comes first. *)
Definition before (a b : bytes) : Prop :=
  (exists c r, b = a ++ c :: r) \/
  (exists p x y r s, a = p ++ x :: r /\ b = p ++ y :: s /\ (N_of_ascii x < N_of_ascii y)%N).

(** All names of images of a directory, each once, in order *)
Definition in_order (names l : list bytes) : Prop :=
  (forall nm, In nm l <-> In nm names /\ image_name nm) /\
  (forall i j a b, nth_error l i = Some a -> nth_error l j = Some b -> (i < j)%nat -> before a b).

(** A picture of bytes that is not empty *)
Definition proper (im : gray) : Prop :=
  0 < g_rows im /\ 0 < g_cols im /\ forall x y, 0 <= x < g_cols im -> 0 <= y < g_rows im -> 0 <= g_at im x y <= 255.

(** Brightness of the nearest pixel *)
Definition near (im : gray) (x y : Z) : Z :=
  g_at im (if x <? 0 then 0 else if g_cols im <=? x then g_cols im - 1 else x)
          (if y <? 0 then 0 else if g_rows im <=? y then g_rows im - 1 else y).
(** The square of the length of the gradient, four times *)
Definition slope (im : gray) (x y : Z) : Z :=
  (near im (x + 1) y - near im (x - 1) y) ^ 2 + (near im x (y + 1) - near im x (y - 1)) ^ 2.

(** Contract of cv::magnitude for the halves that occur: the root of the sum of squares, which is computed exactly;
    whether it exceeds a whole number is told correctly. *)
Definition mag_ok (mag : Z -> Z -> Q) : Prop :=
  (forall a b, (0 <= mag a b)%Q) /\
  (forall a b c d, a ^ 2 + b ^ 2 = c ^ 2 + d ^ 2 -> mag a b = mag c d) /\
  (forall a b t, -255 <= a <= 255 -> -255 <= b <= 255 -> 0 <= t <= 255 -> ((mag a b <= inject_Z t)%Q <-> a ^ 2 + b ^ 2 <= 4 * t ^ 2)).

(** Pictures whose brightness varies by at most [k] *)
Definition within (k : Z) (im : gray) : Prop :=
  forall x y x' y', 0 <= x < g_cols im -> 0 <= y < g_rows im -> 0 <= x' < g_cols im -> 0 <= y' < g_rows im -> g_at im x y - g_at im x' y' <= k.

(** [b] brighter by [c], or the negative of [a] *)
Definition brighter (c : Z) (a b : gray) : Prop :=
  g_rows a = g_rows b /\ g_cols a = g_cols b /\ forall x y, 0 <= x < g_cols a -> 0 <= y < g_rows a -> g_at b x y = g_at a x y + c.
Definition negative (c : Z) (a b : gray) : Prop :=
  g_rows a = g_rows b /\ g_cols a = g_cols b /\ forall x y, 0 <= x < g_cols a -> 0 <= y < g_rows a -> g_at b x y = c - g_at a x y.

(** The directory with a slash at its end *)
Definition folder (d d' : bytes) : Prop :=
  (d = [] /\ d' = []) \/ (exists q, d = q ++ ["/"%char] /\ d' = d) \/
  (d <> [] /\ (forall q, d <> q ++ ["/"%char]) /\ d' = d ++ ["/"%char]).

(** The same pictures, some brighter, darker or turned to the negative *)
Definition alike (read read' : bytes -> option gray) : Prop :=
  forall f, match read f, read' f with
            | Some a, Some b => 0 < g_rows a /\ 0 < g_cols a /\ exists c, brighter c a b \/ negative c a b
            | None, None => True
            | _, _ => False
            end.
