(** C100, C101: drawing a spherical triangulation. *)
From Coq Require Import Reals ZArith List.
From Verif Require Import Pose GeomModel SectorModel ArcModel ArcSpec ArcProofs ArcMore.
Import ListNotations.
Open Scope R_scope.

(** C100: fillUncovered colours exactly the squares whose corner is seen at a right angle or less from
    some ray of the triangulation *)
Theorem C100_filled : forall (solve : vec -> vec -> vec -> vec -> R * R * R) rays,
  least_squares solve rays -> basic solve rays -> (forall r, In r rays -> r <> vzero) ->
  forall (unmap : Z -> Z -> vec) rows cols C (col : C) img p,
  (inside rows cols p /\ (exists c r, grid_corner rows cols c /\ square_of c p /\ In r rays /\ 0 <= dot r (unmap (fst c) (snd c))) ->
   fillUncovered solve unmap rays rows cols col img p = col) /\
  (~ (inside rows cols p /\ exists c r, grid_corner rows cols c /\ square_of c p /\ In r rays /\ 0 <= dot r (unmap (fst c) (snd c))) ->
   fillUncovered solve unmap rays rows cols col img p = img p).
Proof. exact (fun s r L B N u rows cols C col img p => fill_spec s r L B N u rows cols col img p). Qed.
Print Assumptions C100_filled.

(** so what is filled includes everything within the hull of the rays, which is covered *)
Theorem C100_covered : forall (solve : vec -> vec -> vec -> vec -> R * R * R) rays,
  least_squares solve rays -> basic solve rays -> (forall r, In r rays -> r <> vzero) ->
  forall v, in_hull rays v -> rays <> [] -> isInConvexDummy solve rays v = true.
Proof. exact hull_found. Qed.
Print Assumptions C100_covered.

(** but the test is one for half-spaces and not for the hull *)
Theorem C100_half_space : forall (solve : vec -> vec -> vec -> vec -> R * R * R) rays,
  least_squares solve rays -> basic solve rays -> (forall r, In r rays -> r <> vzero) ->
  forall v, isInConvexDummy solve rays v = true <-> exists r, In r rays /\ 0 <= dot r v.
Proof. exact half_space. Qed.
Print Assumptions C100_half_space.

Theorem C100_hull_refuted : isInConvexDummy ortho_solve axes (V3 1 (-1) (-1)) = true /\ ~ in_hull axes (V3 1 (-1) (-1)).
Proof. exact outside_found. Qed.
Print Assumptions C100_hull_refuted.

Example C100_case : least_squares ortho_solve axes /\ basic ortho_solve axes /\ forall r, In r axes -> r <> vzero.
Proof. exact (conj axes_least (conj axes_basic axes_nonzero)). Qed.

(** C101: draw draws one arc between any two rays that are neighbours in a sector *)
Theorem C101_once : forall secs, NoDup (arcs_drawn secs) /\
  (forall i j, In (i, j) (arcs_drawn secs) <-> (i <= j)%Z /\ neighbours secs i j).
Proof. exact arcs_once. Qed.
Print Assumptions C101_once.

(** an arc is drawn as fifty segments between consecutive points *)
Theorem C101_segments : forall X (px : vec -> X) from to, length (drawCurvedInternal px from to) = 50%nat /\
  forall i, (i < 50)%nat -> nth_error (drawCurvedInternal px from to) i = Some (px (rayCur from to i), px (rayCur from to (S i))).
Proof. exact @curve_segments. Qed.
Print Assumptions C101_segments.

(** and the points go from the one ray to the other in equal steps along the great circle, in the
    cone between them *)
Theorem C101_great_circle : forall from to, from <> vzero -> to <> vzero -> along from <> vneg (along to) ->
  let f := along from in let g := along to in let th := acos (dot f g) in
  rayCur from to 0 = f /\ rayCur from to 50 = g /\
  (forall it jt, (it <= 50)%nat -> (jt <= 50)%nat ->
     dot (rayCur from to it) (rayCur from to jt) = cos (th * (INR it - INR jt) / 50)) /\
  (forall it, (it <= 50)%nat -> exists x y, 0 <= x /\ 0 <= y /\
     rayCur from to it = vadd (vscale x f) (vscale y g)).
Proof. exact arc_all. Qed.
Print Assumptions C101_great_circle.

Example C101_case : along e1 <> vneg (along e2) /\ rayCur e1 e2 0 = e1 /\ rayCur e1 e2 25 = V3 (/ sqrt 2) (/ sqrt 2) 0 /\ rayCur e1 e2 50 = e2.
Proof. exact quarter. Qed.

(** for opposite rays the curve stays where it starts *)
Theorem C101_opposite_refuted : forall from to, from <> vzero -> to <> vzero -> along from = vneg (along to) ->
  forall it, rayCur from to it = along from.
Proof. exact arc_opposite. Qed.
Print Assumptions C101_opposite_refuted.
