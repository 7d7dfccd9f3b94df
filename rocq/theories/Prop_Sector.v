(** Properties of the sector queries and of the depth interpolation (C45, C46). *)
From Coq Require Import Reals ZArith List Bool Lra.
From Verif Require Import Outcome Pose GeomModel SectorModel SectorSpec SectorProofs SectorMore SectorExamples.
Import ListNotations.
Open Scope R_scope.

(** C45: nothing is found exactly when no stored sector contains the ray. *)
Theorem C45_found : forall solve m ray, cone_solver solve -> NoDup (map fst m) ->
  (forall ks, In ks m -> proper (snd ks)) ->
  (fst (enclosingSector solve m ray) = None <-> forall ks, In ks m -> ~ in_cone ray (snd ks)).
Proof. exact found_iff. Qed.
Print Assumptions C45_found.

(** C45: the sector found contains the ray, is a least bad such sector, and is the only one of
    those containing the ray that is kept; every other sector is kept, in order. *)
Theorem C45_sector : forall solve m ray b m', cone_solver solve -> NoDup (map fst m) ->
  (forall ks, In ks m -> proper (snd ks)) -> enclosingSector solve m ray = (Some b, m') ->
  In b m /\ In b m' /\ in_cone ray (snd b) /\ sub m' m /\
  (forall ks, In ks m' -> in_cone ray (snd ks) -> ks = b) /\
  (forall ks, In ks m -> ~ in_cone ray (snd ks) -> In ks m') /\
  (forall ks, In ks m -> in_cone ray (snd ks) -> widest_angle (snd b) <= widest_angle (snd ks)).
Proof. exact sector_spec. Qed.
Print Assumptions C45_sector.

(** C45: a query that finds nothing changes nothing. *)
Theorem C45_none : forall solve m ray m', enclosingSector solve m ray = (None, m') -> m' = m.
Proof. exact none_same. Qed.
Print Assumptions C45_none.

(** C45: repeating a query gives the same answer and changes nothing more. *)
Theorem C45_repeat : forall solve m ray a m', NoDup (map fst m) ->
  enclosingSector solve m ray = (a, m') -> enclosingSector solve m' ray = (a, m').
Proof. exact query_repeat. Qed.
Print Assumptions C45_repeat.

(** C45: over any history of queries sectors are only removed, only those containing one of the
    rays asked for, every answer is an original sector containing its ray, and a ray without a
    sector never gets one. *)
Theorem C45_history : forall solve rays m l m', cone_solver solve -> NoDup (map fst m) ->
  (forall ks, In ks m -> proper (snd ks)) -> queries solve m rays = (l, m') ->
  sub m' m /\ length l = length rays /\
  (forall i ray b, nth_error rays i = Some ray -> nth_error l i = Some (Some b) -> In b m /\ in_cone ray (snd b)) /\
  (forall ks, In ks m -> (forall ray, In ray rays -> ~ in_cone ray (snd ks)) -> In ks m') /\
  (forall ray, fst (enclosingSector solve m ray) = None -> fst (enclosingSector solve m' ray) = None).
Proof. exact history. Qed.
Print Assumptions C45_history.

(** C45, counterexample: asking for another ray in between loses the sector of the first. *)
Theorem C45_forgets_refuted : exists m r1 r2 s1 s2,
  NoDup (map fst m) /\ (forall ks, In ks m -> proper (snd ks)) /\
  forall solve, cone_solver solve ->
    fst (queries solve m [r1; r2; r1]) = [Some s1; Some s2; None] /\ in_cone r1 (snd s1) /\ In s1 m.
Proof. exact forgets_witness. Qed.
Print Assumptions C45_forgets_refuted.

Example C45_witness :
  cone_solver cramer /\ NoDup (map fst [(1%Z, axes); (2%Z, inner)]) /\
  (forall ks, In ks [(1%Z, axes); (2%Z, inner)] -> proper (snd ks)) /\
  enclosingSector cramer [(1%Z, axes); (2%Z, inner)] (V3 1 1 1) = (Some (2%Z, inner), [(2%Z, inner)]).
Proof. exact sector_witness. Qed.

(** C46: the depth is the distance of the one point where the ray meets the triangle of the three
    known points. *)
Theorem C46_point : forall last s r, orthogonal_column last -> proper s -> r <> vzero -> in_cone r s ->
  exists t, 0 < t /\ in_triangle3 (vscale t r) (s0 s) (s1 s) (s2 s) /\
    plane_depth last s r = vnorm (vscale t r) /\
    (forall t', in_triangle3 (vscale t' r) (s0 s) (s1 s) (s2 s) -> t' = t).
Proof. exact terrain_point. Qed.
Print Assumptions C46_point.

(** C46: towards a corner the depth is the known one. *)
Theorem C46_corner : forall last s k, orthogonal_column last -> proper s -> 0 < k ->
  plane_depth last s (vscale k (s0 s)) = vnorm (s0 s) /\
  plane_depth last s (vscale k (s1 s)) = vnorm (s1 s) /\
  plane_depth last s (vscale k (s2 s)) = vnorm (s2 s).
Proof. exact terrain_corner. Qed.
Print Assumptions C46_corner.

(** C46: neither the choice of the plane vector nor the order of the corners matters (a rotation
    and a swap generate all orders). *)
Theorem C46_order : forall last last' s s' r,
  orthogonal_column last -> orthogonal_column last' -> proper s -> r <> vzero -> in_cone r s ->
  (s' = Sec (s1 s) (s2 s) (s0 s) \/ s' = Sec (s1 s) (s0 s) (s2 s) \/ s' = s) ->
  plane_depth last' s' r = plane_depth last s r.
Proof. exact terrain_order. Qed.
Print Assumptions C46_order.

(** C46: neither does the length of the viewing ray. *)
Theorem C46_length : forall last s r k, orthogonal_column last -> proper s -> r <> vzero -> in_cone r s ->
  0 < k -> plane_depth last s (vscale k r) = plane_depth last s r.
Proof. exact terrain_length. Qed.
Print Assumptions C46_length.

(** C46: never farther than the farthest corner. *)
Theorem C46_bounded : forall last s r, orthogonal_column last -> proper s -> r <> vzero -> in_cone r s ->
  0 < plane_depth last s r <= Rmax (Rmax (vnorm (s0 s)) (vnorm (s1 s))) (vnorm (s2 s)).
Proof. exact terrain_bounded. Qed.
Print Assumptions C46_bounded.

(** C46: the query as a whole. *)
Theorem C46_query : forall solve last m r, cone_solver solve -> orthogonal_column last ->
  NoDup (map fst m) -> (forall ks, In ks m -> proper (snd ks)) -> r <> vzero ->
  match fst (spherical_terrain solve last m r) with
  | None => forall ks, In ks m -> ~ in_cone r (snd ks)
  | Some d => exists ks t, In ks m /\ in_cone r (snd ks) /\ 0 < t /\
      in_triangle3 (vscale t r) (s0 (snd ks)) (s1 (snd ks)) (s2 (snd ks)) /\ d = vnorm (vscale t r) /\ 0 < d
  end.
Proof. exact spherical_query. Qed.
Print Assumptions C46_query.

(** C46, counterexample: it can be nearer than the nearest corner (the triangle is flat, not a
    sphere). *)
Theorem C46_nearer_refuted : exists s r, proper s /\ in_cone r s /\
  forall last, orthogonal_column last ->
    plane_depth last s r < Rmin (Rmin (vnorm (s0 s)) (vnorm (s1 s))) (vnorm (s2 s)).
Proof. exact nearer_witness. Qed.
Print Assumptions C46_nearer_refuted.

(** C46: the planar terrain interpolates the absolute depths linearly in the image. *)
Theorem C46_planar : forall solve units depths a b c p u v w da db dc,
  affine_solver solve -> area2 (tv_pos a) (tv_pos b) (tv_pos c) <> 0 ->
  Forall (fun n => vnorm n = 1) units -> length units = length depths ->
  known depths (tv_index a) da -> known depths (tv_index b) db -> known depths (tv_index c) dc ->
  barycentric p (tv_pos a) (tv_pos b) (tv_pos c) u v w ->
  terrain solve (ref_depths units depths) (Some (a, b, c)) false p =
    Ok (Some (u * Rabs da + v * Rabs db + w * Rabs dc)).
Proof. exact planar_spec. Qed.
Print Assumptions C46_planar.

(** C46: inside the triangle between the least and the greatest absolute depth. *)
Theorem C46_planar_range : forall solve units depths a b c p u v w da db dc d,
  affine_solver solve -> area2 (tv_pos a) (tv_pos b) (tv_pos c) <> 0 ->
  Forall (fun n => vnorm n = 1) units -> length units = length depths ->
  known depths (tv_index a) da -> known depths (tv_index b) db -> known depths (tv_index c) dc ->
  barycentric p (tv_pos a) (tv_pos b) (tv_pos c) u v w -> 0 <= u -> 0 <= v -> 0 <= w ->
  terrain solve (ref_depths units depths) (Some (a, b, c)) false p = Ok (Some d) ->
  Rmin (Rmin (Rabs da) (Rabs db)) (Rabs dc) <= d <= Rmax (Rmax (Rabs da) (Rabs db)) (Rabs dc).
Proof. exact planar_range. Qed.
Print Assumptions C46_planar_range.

(** C46: no depth outside the triangulation or next to its boundary. *)
Theorem C46_planar_none : forall solve refs tri boundary p,
  tri = None \/ boundary = true -> terrain solve refs tri boundary p = Ok None.
Proof. exact planar_none. Qed.
Print Assumptions C46_planar_none.

(** C46, counterexample: hasInterpolatedDepth is undefined where operator() answers false. *)
Theorem C46_has_depth_refuted : exists tri boundary,
  hasInterpolatedDepth tri boundary = UB /\
  forall solve refs p, terrain solve refs tri boundary p = Ok None.
Proof. exact has_depth_witness. Qed.
Print Assumptions C46_has_depth_refuted.

Example C46_witness :
  orthogonal_column plane_through /\ proper axes /\ V3 1 1 1 <> vzero /\ in_cone (V3 1 1 1) axes /\
  plane_depth plane_through axes (V3 1 1 1) = sqrt 3 / 3.
Proof. exact terrain_witness. Qed.

Example C46_planar_witness :
  affine_solver affine_through /\
  terrain affine_through (ref_depths [V3 1 0 0; V3 0 1 0; V3 0 0 1] [-1; 2; 3])
    (Some (TV (P2 0 0) 0, TV (P2 2 0) 1, TV (P2 0 2) 2)) false (P2 1 1) = Ok (Some (5 / 2)).
Proof. exact planar_witness. Qed.
