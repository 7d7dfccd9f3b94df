(** Drawings of depths: insertDepths (source/util/util.cpp 182-199), KeyFrame::drawDepthedFrame
    (source/system/KeyFrame.cpp 89-102), Terrain::drawDensePlainDepths (source/util/Terrain.cpp 51-66)
    and InterpolationDrawer::initialized (source/output/InterpolationDrawer.cpp 10-40).  A drawing is
    the list of figures in the order in which they are drawn; the figures themselves are OpenCV's. *)
From Coq Require Import List ZArith QArith Bool.
From Verif Require Import Outcome Dbl DblArith UtilModel TraceModel EpiModel.
Import ListNotations.
Open Scope outcome_scope.
Open Scope Z_scope.

(** cv::circle with a radius, cv::rectangle (util.cpp 146-150: putSquare) with half a side *)
Inductive shape := Circle | Square.
Record figure := { g_shape : shape; g_at : Z * Z; g_size : Z; g_col : scalar; g_thick : Z }.
(** the thickness of a figure that is filled: cv::FILLED *)
Definition FILLED : Z := -1.

Fixpoint mapO {A B} (f : A -> outcome B) (l : list A) : outcome (list B) :=
  match l with
  | [] => Ok []
  | a :: l' => let* b := f a in let* bs := mapO f l' in Ok (b :: bs)
  end.

(** util.cpp 191-196: one turn *)
Definition insert_depth (solid : bool) (lo hi : dbl) (pd : pos * dbl) : outcome figure :=
  let* c := to_cv_point (fst pd) in
  Ok {| g_shape := Circle; g_at := c; g_size := if solid then 6 else 5; g_col := depth_col (snd pd) lo hi;
        g_thick := if solid then FILLED else 2 |}.

(** util.cpp 182-199; printing the bounds is left out *)
Definition insert_depths (pts : list pos) (depths : list dbl) (lo hi : dbl) (solid : bool) : outcome (list figure) :=
  if negb (length pts =? length depths)%nat then Throw
  else mapO (insert_depth solid lo hi) (combine pts depths).

(** toCvVec3bDummy, converted back to a cv::Scalar for the drawing function *)
Definition byte_col (d lo hi : dbl) : outcome scalar :=
  let* v := to_vec3b (depth_col d lo hi) in
  let '(b, g, r) := v in Ok (of_int b, of_int g, of_int r).

(** KeyFrame.cpp 93 *)
Definition shown (p : ipoint) : bool := pstate_eqb (i_state p) ACTIVE && negb (is_pinf (i_max p)).

(** KeyFrame.cpp 94-95; reading a depth that was never written is undefined *)
Definition frame_square (lo hi : dbl) (x : pos * ipoint) : outcome figure :=
  match i_depth (snd x) with
  | None => UB
  | Some d =>
      let* c := to_cv_point (fst x) in let* k := byte_col d lo hi in
      Ok {| g_shape := Square; g_at := c; g_size := 5; g_col := k; g_thick := 2 |}
  end.

(** KeyFrame.cpp 97-98; the depth of an optimized point is exp(-logInvDepth) *)
Definition frame_circle (lo hi : dbl) (x : pos * dbl) : outcome figure :=
  let* c := to_cv_point (fst x) in let* k := byte_col (snd x) lo hi in
  Ok {| g_shape := Circle; g_at := c; g_size := 5; g_col := k; g_thick := 2 |}.

(** KeyFrame.cpp 89-102 *)
Definition draw_frame (lo hi : dbl) (imm : list (pos * ipoint)) (opt : list (pos * dbl)) : outcome (list figure) :=
  let* a := mapO (frame_square lo hi) (filter (fun x => shown (snd x)) imm) in
  let* b := mapO (frame_circle lo hi) opt in
  Ok (a ++ b).

(** Terrain.cpp 57-65: the pixels of one row from column [x] on; [terrain] is operator(). *)
Definition px : Type := Z * Z * Z.
Fixpoint dense_row (terrain : pos -> outcome (option dbl)) (lo hi : dbl) (y x : Z) (row : list px) : outcome (list px) :=
  match row with
  | [] => Ok []
  | p :: row' =>
      let* d := terrain (inject_Z x, inject_Z y) in
      let* p' := match d with Some d => to_vec3b (depth_col d lo hi) | None => Ok p end in
      let* rest := dense_row terrain lo hi y (x + 1) row' in
      Ok (p' :: rest)
  end.
Fixpoint dense_rows (terrain : pos -> outcome (option dbl)) (lo hi : dbl) (y : Z) (img : list (list px)) : outcome (list (list px)) :=
  match img with
  | [] => Ok []
  | r :: img' =>
      let* r' := dense_row terrain lo hi y 0 r in
      let* rest := dense_rows terrain lo hi (y + 1) img' in
      Ok (r' :: rest)
  end.

(** Terrain.cpp 51-66; [is8u3] is img.type() == CV_8UC3 *)
Definition draw_dense (is8u3 : bool) (terrain : pos -> outcome (option dbl)) (lo hi : dbl) (img : list (list px))
  : outcome (list (list px)) :=
  if negb is8u3 then Throw else dense_rows terrain lo hi 0 img.

(** InterpolationDrawer.cpp 10-40: the new bounds of the colours, the figures under the edges of the
    triangulation and those over them.  [imm]: position and depth of the immature points of the
    keyframe; [cur]: the bounds before.  *)
Definition initialized (mul : Q -> Z -> dbl) (red blue : Q) (cur : dbl * dbl) (imm : list (pos * option dbl))
           (kps : list pos) (kds : list dbl) : outcome (dbl * dbl * list figure * list figure) :=
  let* ds := mapO (fun x => match snd x with Some d => Ok d | None => UB end) imm in
  let* bnd := set_depth_col_bounds mul red blue cur ds in
  let* under := insert_depths kps kds (fst bnd) (snd bnd) true in
  let* over := insert_depths (map fst imm) ds (fst bnd) (snd bnd) false in
  Ok (bnd, under, over).
