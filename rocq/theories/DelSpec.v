(** Specification of a consistent mesh, independent of how it is built. *)
From Coq Require Import ZArith List Arith.
From Verif Require Import DelModel.
Import ListNotations.

Section Spec.
Context {P : Type}.
Implicit Types m : mesh P.

(** An edge or triangle belongs to the mesh when some vertex lists it. *)
Definition edge_of m (e : nat) : Prop := exists v, v < nv m /\ In e (VE m v).
Definition tri_of m (t : nat) : Prop := exists v, v < nv m /\ In t (VT m v).

(** Vertices of an edge and of a triangle, sides of a triangle, triangles of an edge. *)
Definition end_of m (e v : nat) : Prop := EV m e 0 = v \/ EV m e 1 = v.
Definition corner m (t v : nat) : Prop := TV m t 0 = v \/ TV m t 1 = v \/ TV m t 2 = v.
Definition side m (t e : nat) : Prop := TE m t 0 = e \/ TE m t 1 = e \/ TE m t 2 = e.
Definition beside m (e t : nat) : Prop := ET m e 0 = Some t \/ ET m e 1 = Some t.
Definition joins m (e u v : nat) : Prop := (EV m e 0 = u /\ EV m e 1 = v) \/ (EV m e 0 = v /\ EV m e 1 = u).
Definition joined m (u v : nat) : Prop := exists e, edge_of m e /\ joins m e u v.

Record consistent m : Prop := {
  (* the sets of a vertex contain each element once *)
  c_setE : forall v, v < nv m -> NoDup (VE m v);
  c_setT : forall v, v < nv m -> NoDup (VT m v);
  (* a vertex lists exactly the edges and triangles containing it *)
  c_vertE : forall v e, v < nv m -> edge_of m e -> (In e (VE m v) <-> end_of m e v);
  c_vertT : forall v t, v < nv m -> tri_of m t -> (In t (VT m v) <-> corner m t v);
  (* ends and corners are vertices *)
  c_ends : forall e v, edge_of m e -> end_of m e v -> v < nv m;
  c_corners : forall t v, tri_of m t -> corner m t v -> v < nv m;
  c_rangeE : forall e, edge_of m e -> e < ne m;
  c_rangeT : forall t, tri_of m t -> t < nt m;
  (* edges and triangles are not degenerate *)
  c_edge : forall e, edge_of m e -> EV m e 0 <> EV m e 1;
  c_tri : forall t, tri_of m t -> TV m t 0 <> TV m t 1 /\ TV m t 0 <> TV m t 2 /\ TV m t 1 <> TV m t 2;
  (* an edge lists a triangle iff the triangle lists the edge *)
  c_beside : forall e t, edge_of m e -> beside m e t -> tri_of m t /\ side m t e;
  c_side : forall t e, tri_of m t -> side m t e -> edge_of m e /\ beside m e t;
  c_two : forall e t, edge_of m e -> ~ (ET m e 0 = Some t /\ ET m e 1 = Some t);
  (* the three sides of a triangle join its corners, each two of them *)
  c_sides : forall t u v, tri_of m t -> corner m t u -> corner m t v -> u <> v -> exists e, side m t e /\ joins m e u v;
  c_inner : forall t e v, tri_of m t -> side m t e -> end_of m e v -> corner m t v;
  c_sides3 : forall t, tri_of m t -> TE m t 0 <> TE m t 1 /\ TE m t 0 <> TE m t 2 /\ TE m t 1 <> TE m t 2;
  (* no two edges join the same vertices, no two triangles have the same corners *)
  c_simple : forall e e' u v, edge_of m e -> edge_of m e' -> joins m e u v -> joins m e' u v -> e = e';
  c_distinct : forall t t', tri_of m t -> tri_of m t' -> (forall v, corner m t v -> corner m t' v) -> t = t';
  (* an edge has a triangle on both sides, except the three sides of the bounding triangle *)
  c_outer : forall e, edge_of m e -> (exists t, ET m e 0 = Some t) /\
      (ET m e 1 = None -> EV m e 0 < 3 /\ EV m e 1 < 3);
  c_bound : 3 <= nv m }.

(** Numbers of edges and triangles of the mesh. *)
Definition sizes m (n : nat) : Prop :=
  exists le lt, NoDup le /\ NoDup lt /\ (forall e, In e le <-> edge_of m e) /\ (forall t, In t lt <-> tri_of m t) /\
    nv m = n + 3 /\ length le = 3 * n + 3 /\ length lt = 2 * n + 1.
End Spec.

(** ** Histories: points put into triangles or inner edges, edges flipped *)
Section Histories.
Context {P : Type}.
Implicit Types m : mesh P.

(** The edge has two triangles and their vertices apart from it are not joined by an edge. *)
Definition may_flip m (e : nat) : Prop :=
  edge_of m e /\ exists t0 t1, ET m e 0 = Some t0 /\ ET m e 1 = Some t1 /\
  forall c d, corner m t0 c -> ~ end_of m e c -> corner m t1 d -> ~ end_of m e d -> ~ joined m c d.

(** [history m n]: m is a mesh after n accepted points, whatever the geometry decided. *)
Inductive history : mesh P -> nat -> Prop :=
| h_start b0 b1 b2 : history (bounding b0 b1 b2) 0
| h_triangle m n p i t m' : history m n -> tri_of m t ->
    divideTriangle (makeVertex m p i) t (nv m) = Outcome.Ok m' -> history m' (S n)
| h_edge m n p i e m' : history m n -> edge_of m e -> ET m e 1 <> None ->
    divideEdge (makeVertex m p i) e (nv m) = Outcome.Ok m' -> history m' (S n)
| h_dropped m n p i : history m n -> history (popVertex (makeVertex m p i)) n
| h_flip m n e m' : history m n -> may_flip m e -> performFlip m e = Outcome.Ok m' -> history m' n.
End Histories.
