(** Model of the drawing of a triangulation (source/util/Triangulation.cpp 594-670): which lines are
    drawn, and between which pixels.  Coordinates are rational, arithmetic exact; conversions to int
    are undefined behaviour outside the range of int. *)
From Coq Require Import List ZArith QArith Bool.
From Verif Require Import Outcome Dbl DelModel.
Import ListNotations.
Open Scope outcome_scope.

Section Mesh.
Context {P : Type}.

(** 620-622: edges of the bounding triangle are skipped. *)
Definition shown (m : mesh P) (e : nat) : bool :=
  negb (isFromBoundingTri (EV m e 0)) && negb (isFromBoundingTri (EV m e 1)).

(** 619-625: all edges in the order in which they are met; [drawn] is edgesDrawn. *)
Fixpoint edges_scaled (m : mesh P) (l : list nat) (drawn : list nat) : list nat :=
  match l with
  | [] => []
  | e :: l' =>
      if shown m e then
        if existsb (Nat.eqb e) drawn then edges_scaled m l' drawn else e :: edges_scaled m l' (e :: drawn)
      else edges_scaled m l' drawn
  end.

(** 663-669: the same loop in drawCurved; nothing is ever put into edgesDrawn. *)
Fixpoint edges_curved (m : mesh P) (l : list nat) (drawn : list nat) : list nat :=
  match l with
  | [] => []
  | e :: l' =>
      if shown m e then
        if existsb (Nat.eqb e) drawn then edges_curved m l' drawn else e :: edges_curved m l' drawn
      else edges_curved m l' drawn
  end.

(** 619-620, 664-665: the loops over the vertices and their edges. *)
Definition met (m : mesh P) : list nat := flat_map (VE m) (seq 0 (nv m)).

Definition scaled_order (m : mesh P) : list nat := edges_scaled m (met m) [].
Definition curved_order (m : mesh P) : list nat := edges_curved m (met m) [].
End Mesh.

Open Scope Q_scope.

(** A conversion to int. *)
Definition conv (x : Q) : outcome Z := to_int (Fin x).

(** util.cpp: toCvPoint with scale and shift; 626-629. *)
Definition pixel_at (upperLeft : point) (scaleX scaleY : Q) (shift : Z * Z) (p : point) : outcome (Z * Z) :=
  let* x := conv ((fst p - fst upperLeft) * scaleX) in
  let* y := conv ((snd p - snd upperLeft) * scaleY) in
  if in_int (x + fst shift) && in_int (y + snd shift) then Ok (x + fst shift, y + snd shift)%Z else UB.

(** 613-632: drawScaled; the lines in the order in which they are drawn. *)
Fixpoint lines (upperLeft : point) (scaleX scaleY : Q) (shift : Z * Z) (m : mesh point) (es : list nat)
  : outcome (list ((Z * Z) * (Z * Z))) :=
  match es with
  | [] => Ok []
  | e :: es' =>
      let* a := pixel_at upperLeft scaleX scaleY shift (POS m (EV m e 0)) in
      let* b := pixel_at upperLeft scaleX scaleY shift (POS m (EV m e 1)) in
      let* r := lines upperLeft scaleX scaleY shift m es' in
      Ok ((a, b) :: r)
  end.

(** 38-39 *)
Definition upper_left (p : point) (l : list point) : point := (minx p l, miny p l).
Definition bottom_right (p : point) (l : list point) : point := (maxx p l, maxy p l).

(** 609-611: draw on a given image. *)
Definition draw_on (p : point) (l : list point) (m : mesh point) : outcome (list ((Z * Z) * (Z * Z))) :=
  let ul := upper_left p l in
  let* x := conv (fst ul) in
  let* y := conv (snd ul) in
  lines ul 1 1 (x, y) m (scaled_order m).

(** 594-607: draw into a new image.  A division by zero gives an infinite scale, which no conversion
    survives once there is an edge. *)
Definition draw_new (padding : Q) (p : point) (l : list point) (w h : Z) (m : mesh point)
  : outcome (list ((Z * Z) * (Z * Z))) :=
  let ul := upper_left p l in
  let diag := ((fst (bottom_right p l) - fst ul) * (1 + 2 * padding), (snd (bottom_right p l) - snd ul) * (1 + 2 * padding)) in
  let* sx := conv (padding * inject_Z w) in
  let* sy := conv (padding * inject_Z h) in
  if Qeq_bool (fst diag) 0 || Qeq_bool (snd diag) 0 then
    match scaled_order m with [] => Ok [] | _ => UB end
  else lines ul (inject_Z w / snd diag) (inject_Z h / fst diag) (sx, sy) m (scaled_order m).
