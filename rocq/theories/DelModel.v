(** Model of source/util/Triangulation.cpp (without the drawing functions) and of the planar
    predicates of source/util/geometry.cpp.  Pointers are numbers: vertices, edges and triangles are
    numbered in the order of their creation and the null triangle is [None].  Nothing is freed
    before the end of the construction except a vertex that was not used (line 75). *)
From Coq Require Import ZArith QArith List Bool Arith.
From Verif Require Import Outcome.
Import ListNotations.
Open Scope nat_scope.
Open Scope outcome_scope.

(** The predicates of geometry.cpp used by the triangulation; the tolerances of doesABcontain and
    areEqual are those of the whole construction (Triangulation.cpp 256, 503) *)
Record geometry (P : Type) := {
  g_sameSide : P -> P -> P -> P -> bool;
  g_onSegment : P -> P -> P -> bool;
  g_equal : P -> P -> bool;
  g_delaunay : P -> P -> P -> P -> bool }.
Arguments g_sameSide {P}. Arguments g_onSegment {P}. Arguments g_equal {P}. Arguments g_delaunay {P}.

(** geometry.cpp 38-42 *)
Definition isInsideTriangle {P} (g : geometry P) (a b c p : P) : bool :=
  g_sameSide g a b p c && g_sameSide g a c p b && g_sameSide g b c p a.

(** geometry.cpp 44-47 *)
Definition isABCDConvex {P} (g : geometry P) (a b c d : P) : bool :=
  g_sameSide g a b c d && g_sameSide g b c a d && g_sameSide g c d a b && g_sameSide g d a b c.

(** Triangulation.h 22-43 and 99-101: _vertices, _edges, _triangles with the fields of their
    elements.  EV/ET: vert and triang of an edge, TV/TE: vert and edges of a triangle (second
    argument: position in the array), VE/VT: the sets edges and triangles of a vertex *)
Record mesh (P : Type) := {
  nv : nat; ne : nat; nt : nat;
  EV : nat -> nat -> nat; ET : nat -> nat -> option nat;
  TV : nat -> nat -> nat; TE : nat -> nat -> nat;
  VE : nat -> list nat; VT : nat -> list nat;
  POS : nat -> P; IDX : nat -> Z }.
Arguments nv {P}. Arguments ne {P}. Arguments nt {P}. Arguments EV {P}. Arguments ET {P}. Arguments TV {P}. Arguments TE {P}.
Arguments VE {P}. Arguments VT {P}. Arguments POS {P}. Arguments IDX {P}.

(** Assignments to a field *)
Definition upd {A} (f : nat -> A) (i : nat) (x : A) : nat -> A := fun j => if j =? i then x else f j.
Definition upd2 {A} (f : nat -> nat -> A) (i k : nat) (x : A) : nat -> nat -> A :=
  fun j l => if (j =? i) && (l =? k) then x else f j l.

Section Mesh.
Context {P : Type}.
Implicit Types (m : mesh P) (g : geometry P).

Definition setEV m e k v : mesh P :=
  {| nv := nv m; ne := ne m; nt := nt m; EV := upd2 (EV m) e k v; ET := ET m; TV := TV m; TE := TE m; VE := VE m; VT := VT m; POS := POS m; IDX := IDX m |}.
Definition setET m e k t : mesh P :=
  {| nv := nv m; ne := ne m; nt := nt m; EV := EV m; ET := upd2 (ET m) e k t; TV := TV m; TE := TE m; VE := VE m; VT := VT m; POS := POS m; IDX := IDX m |}.
Definition setTV m t k v : mesh P :=
  {| nv := nv m; ne := ne m; nt := nt m; EV := EV m; ET := ET m; TV := upd2 (TV m) t k v; TE := TE m; VE := VE m; VT := VT m; POS := POS m; IDX := IDX m |}.
Definition setTE m t k e : mesh P :=
  {| nv := nv m; ne := ne m; nt := nt m; EV := EV m; ET := ET m; TV := TV m; TE := upd2 (TE m) t k e; VE := VE m; VT := VT m; POS := POS m; IDX := IDX m |}.

(** insert and erase of an unordered_set *)
Definition set_insert (x : nat) (l : list nat) : list nat := if existsb (Nat.eqb x) l then l else x :: l.
Definition set_erase (x : nat) (l : list nat) : list nat := filter (fun y => negb (y =? x)) l.

Definition setVE m v l : mesh P :=
  {| nv := nv m; ne := ne m; nt := nt m; EV := EV m; ET := ET m; TV := TV m; TE := TE m; VE := upd (VE m) v l; VT := VT m; POS := POS m; IDX := IDX m |}.
Definition setVT m v l : mesh P :=
  {| nv := nv m; ne := ne m; nt := nt m; EV := EV m; ET := ET m; TV := TV m; TE := TE m; VE := VE m; VT := upd (VT m) v l; POS := POS m; IDX := IDX m |}.
Definition insE m v e := setVE m v (set_insert e (VE m v)).
Definition delE m v e := setVE m v (set_erase e (VE m v)).
Definition insT m v t := setVT m v (set_insert t (VT m v)).
Definition delT m v t := setVT m v (set_erase t (VT m v)).

(** 107-122: makeBoundingVertex (index -1) and makeVertex *)
Definition makeVertex m (p : P) (index : Z) : mesh P :=
  {| nv := S (nv m); ne := ne m; nt := nt m; EV := EV m; ET := ET m; TV := TV m; TE := TE m;
     VE := upd (VE m) (nv m) []; VT := upd (VT m) (nv m) []; POS := upd (POS m) (nv m) p; IDX := upd (IDX m) (nv m) index |}.
(** 75: _vertices.pop_back() *)
Definition popVertex m : mesh P :=
  {| nv := pred (nv m); ne := ne m; nt := nt m; EV := EV m; ET := ET m; TV := TV m; TE := TE m; VE := VE m; VT := VT m; POS := POS m; IDX := IDX m |}.
(** 124-132: makeEdge and makeTriangle, [k] times; the fields are null until they are set *)
Definition makeEdges m (k : nat) : mesh P :=
  {| nv := nv m; ne := ne m + k; nt := nt m; EV := EV m; ET := ET m; TV := TV m; TE := TE m; VE := VE m; VT := VT m; POS := POS m; IDX := IDX m |}.
Definition makeTriangles m (k : nat) : mesh P :=
  {| nv := nv m; ne := ne m; nt := nt m + k; EV := EV m; ET := ET m; TV := TV m; TE := TE m; VE := VE m; VT := VT m; POS := POS m; IDX := IDX m |}.

(** for loops over 0..1 and 0..2 *)
Definition for2 {A} (f : A -> nat -> A) (a : A) : A := f (f a 0) 1.
Definition for3 {A} (f : A -> nat -> A) (a : A) : A := f (f (f a 0) 1) 2.

(** 236-239 and 241-245 *)
Definition isIncidentE m (v e : nat) : bool := (EV m e 0 =? v) || (EV m e 1 =? v).
Definition isIncidentT m (v t : nat) : bool := (TV m t 0 =? v) || (TV m t 1 =? v) || (TV m t 2 =? v).

(** 194-213 *)
Definition findThirdVert m (tri : option nat) (e : nat) : outcome nat :=
  match tri with
  | None => UB
  | Some t =>
      if (TE m t 0 =? e) || (TE m t 1 =? e) || (TE m t 2 =? e) then
        match find (fun v => negb (v =? EV m e 0) && negb (v =? EV m e 1)) [TV m t 0; TV m t 1; TV m t 2] with
        | Some v => Ok v
        | None => Abort
        end
      else Throw
  end.

(** 215-234 *)
Definition findOppositeEdge m (t v : nat) : outcome nat :=
  if isIncidentT m v t then
    match find (fun e => negb (EV m e 0 =? v) && negb (EV m e 1 =? v)) [TE m t 0; TE m t 1; TE m t 2] with
    | Some e => Ok e
    | None => Abort
    end
  else Throw.

Definition oeqb (a : option nat) (b : nat) : bool := match a with Some x => x =? b | None => false end.
Definition sel {A} (a b : A) (k : nat) : A := if k =? 0 then a else b.

(** 148-158: the sides of the old triangle number k are given to the new triangles *)
Definition flip_sides (e o inc0 nt0 k : nat) m (i : nat) : mesh P :=
  let c := TE m o i in
  if c =? e then m
  else
    let slot := if oeqb (ET m c 0) o then 0 else 1 in
    let j := if isIncidentE m inc0 c then 0 else 1 in
    setTE (setET m c slot (Some (nt0 + j))) (nt0 + j) k c.

(** 134-192 *)
Definition performFlip m (e : nat) : outcome (mesh P) :=
  let inc := sel (EV m e 0) (EV m e 1) in
  let* c := findThirdVert m (ET m e 0) e in
  let* d := findThirdVert m (ET m e 1) e in
  match ET m e 0, ET m e 1 with
  | Some o0, Some o1 =>
      let old := sel o0 o1 in
      let apart := sel c d in
      let newEdge := ne m in
      let n0 := nt m in
      let m := makeTriangles (makeEdges m 1) 2 in
      let m := for2 (fun m k => setEV m newEdge k (apart k)) m in
      let m := for2 (fun m k => setET m newEdge k (Some (n0 + k))) m in
      let m := for2 (fun m k => for3 (flip_sides e (old k) (inc 0) n0 k) m) m in
      let m := for2 (fun m j => setTE m (n0 + j) 2 newEdge) m in
      let m := for2 (fun m j => for2 (fun m k => setTV m (n0 + j) k (apart k)) m) m in
      let m := for2 (fun m j => setTV m (n0 + j) 2 (inc j)) m in
      let m := for2 (fun m j => for2 (fun m k => delT m (inc j) (old k)) (delE m (inc j) e)) m in
      let m := for2 (fun m k => delT m (apart k) (old k)) m in
      let m := for2 (fun m j => insT (for2 (fun m k => delT m (inc j) (old k)) (delE m (inc j) e)) (inc j) (n0 + j)) m in
      let m := for2 (fun m k => for2 (fun m j => insT m (apart k) (n0 + j)) (insE m (apart k) newEdge)) m in
      Ok m
  | _, _ => UB
  end.

(** 372-418; line 373 (the point must be in the triangle) is checked by the caller [insertPoint] *)
Definition divideTriangle m (t v : nat) : outcome (mesh P) :=
  let e0 := ne m in
  let n0 := nt m in
  let w := TV m t in
  let* x0 := findOppositeEdge m t (w 0) in
  let* x1 := findOppositeEdge m t (w 1) in
  let* x2 := findOppositeEdge m t (w 2) in
  let x := fun i => match i with 0 => x0 | 1 => x1 | _ => x2 end in
  let m := makeTriangles (makeEdges m 3) 3 in
  let m := for3 (fun m i =>
    let m := setEV m (e0 + i) 0 v in
    let m := setEV m (e0 + i) 1 (w i) in
    let m := setET m (e0 + i) 0 (Some (n0 + (i + 1) mod 3)) in
    let m := setET m (e0 + i) 1 (Some (n0 + (i + 2) mod 3)) in
    let m := setTE m (n0 + (i + 1) mod 3) 0 (e0 + i) in
    setTE m (n0 + (i + 2) mod 3) 1 (e0 + i)) m in
  let m := for3 (fun m i =>
    let slot := if oeqb (ET m (x i) 0) t then 0 else 1 in
    let m := setTE m (n0 + i) 2 (x i) in
    let m := setET m (x i) slot (Some (n0 + i)) in
    let m := setTV m (n0 + i) 0 (w ((i + 1) mod 3)) in
    let m := setTV m (n0 + i) 1 (w ((i + 2) mod 3)) in
    setTV m (n0 + i) 2 v) m in
  let m := for3 (fun m i =>
    let m := insE m (w i) (e0 + i) in
    let m := insT m (w i) (n0 + (i + 1) mod 3) in
    let m := insT m (w i) (n0 + (i + 2) mod 3) in
    delT m (w i) t) m in
  Ok (for3 (fun m i => insT (insE m v (e0 + i)) v (n0 + i)) m).

(** 443-451: the side of the old triangle o, other than e, that ends in the vertex u *)
Definition externSide m (e o u : nat) : outcome nat :=
  match find (fun c => negb (c =? e) && isIncidentE m u c) [TE m o 0; TE m o 1; TE m o 2] with
  | Some c => Ok c
  | None => UB
  end.

(** 437-455: the sides of the new triangle newTri[a][i] *)
Definition split_sides (e0 n0 x old : nat) m (a i : nat) : mesh P :=
  let n := n0 + (2 * a + i) in
  let m := setTE m n 0 (e0 + (2 + a)) in
  let m := setET m (e0 + (2 + a)) i (Some n) in
  let m := setTE m n 1 (e0 + i) in
  let m := setET m (e0 + i) a (Some n) in
  let m := setTE m n 2 x in
  setET m x (if oeqb (ET m x 0) old then 0 else 1) (Some n).

(** 457-466: its vertices *)
Definition split_corners (n0 inc apart v : nat) m (a i : nat) : mesh P :=
  let n := n0 + (2 * a + i) in
  let m := insT (setTV m n 0 inc) inc n in
  let m := insT (setTV m n 1 v) v n in
  insT (setTV m n 2 apart) apart n.

(** 468-474: the old triangle is removed from the sets *)
Definition split_forget (inc : nat -> nat) (apart old : nat) m : mesh P :=
  for2 (fun m i => delT m (inc i) old) (delT m apart old).

(** 476-486 and 488-494: the new edges *)
Definition split_inc (e0 inc v e : nat) m (i : nat) : mesh P :=
  let m := insE (setEV m (e0 + i) 0 v) v (e0 + i) in
  let m := insE (setEV m (e0 + i) 1 inc) inc (e0 + i) in
  delE m inc e.
Definition split_apart (e0 apart v : nat) m (a : nat) : mesh P :=
  let m := insE (setEV m (e0 + (2 + a)) 0 v) v (e0 + (2 + a)) in
  insE (setEV m (e0 + (2 + a)) 1 apart) apart (e0 + (2 + a)).

(** 420-494; newTri[a][i] is the new triangle number 2 a + i, newIncEdges[i] the new edge number i
    and newApEdges[a] the new edge number 2 + a.  The four sides are looked up first: the fields
    read by the look-up are not changed by the loop *)
Definition divideEdge m (e v : nat) : outcome (mesh P) :=
  let inc := sel (EV m e 0) (EV m e 1) in
  let* c := findThirdVert m (ET m e 0) e in
  let* d := findThirdVert m (ET m e 1) e in
  match ET m e 0, ET m e 1 with
  | Some o0, Some o1 =>
      let old := sel o0 o1 in
      let apart := sel c d in
      let e0 := ne m in
      let n0 := nt m in
      let* x00 := externSide m e o0 (inc 0) in
      let* x01 := externSide m e o0 (inc 1) in
      let* x10 := externSide m e o1 (inc 0) in
      let* x11 := externSide m e o1 (inc 1) in
      let x := fun a i => sel (sel x00 x01 i) (sel x10 x11 i) a in
      let m := makeEdges (makeTriangles m 4) 4 in
      let m := for2 (fun m a => for2 (fun m i => split_sides e0 n0 (x a i) (old a) m a i) m) m in
      let m := for2 (fun m a => for2 (fun m i => split_corners n0 (inc i) (apart a) v m a i) m) m in
      let m := for2 (fun m a => split_forget inc (apart a) (old a) m) m in
      let m := for2 (fun m i => split_inc e0 (inc i) v e m i) m in
      Ok (for2 (fun m a => split_apart e0 (apart a) v m a) m)
  | _, _ => UB
  end.

(** 263-267: the bounding vertices are the first three *)
Definition isFromBoundingTri (v : nat) : bool := v <? 3.
(** 252-256 *)
Definition containsE g m (e : nat) (p : P) : bool := g_onSegment g (POS m (EV m e 0)) (POS m (EV m e 1)) p.
(** 247-256 *)
Definition containsT g m (t : nat) (p : P) : bool :=
  containsE g m (TE m t 0) p || containsE g m (TE m t 1) p || containsE g m (TE m t 2) p ||
  isInsideTriangle g (POS m (TV m t 0)) (POS m (TV m t 1)) (POS m (TV m t 2)) p.
(** 258-261 *)
Definition isInsideBound g m (p : P) : bool := isInsideTriangle g (POS m 0) (POS m 1) (POS m 2) p.

(** 271-291 *)
Definition isEdgeLegal g m (e : nat) : outcome bool :=
  let b1 := isFromBoundingTri (EV m e 0) in
  let b2 := isFromBoundingTri (EV m e 1) in
  if b1 && b2 then Ok true
  else
    let* c := findThirdVert m (ET m e 0) e in
    let* d := findThirdVert m (ET m e 1) e in
    if (isFromBoundingTri c || isFromBoundingTri d) && negb b1 && negb b2 then Ok true
    else
      let pa := POS m (EV m e 0) in
      let pb := POS m (EV m e 1) in
      if b1 || b2 then Ok (negb (isABCDConvex g pa (POS m c) pb (POS m d)))
      else Ok (negb (isABCDConvex g pa (POS m c) pb (POS m d)) || g_delaunay g pa pb (POS m c) (POS m d)).

(** 305-358: the visibility walk; [coin] is the random choice of each round *)
Fixpoint walk g m (p : P) (coin : nat -> bool) (fuel : nat) (cur : nat) : outcome nat :=
  match fuel with
  | O => NoFuel
  | S fuel' =>
      let* tri :=
        (match ET m cur 0, ET m cur 1 with
         | None, t => Ok t
         | t, None => Ok t
         | Some t0, Some t1 =>
             let* c := findThirdVert m (Some t0) cur in
             Ok (if g_sameSide g (POS m (EV m cur 0)) (POS m (EV m cur 1)) (POS m c) p then Some t0 else Some t1)
         end) in
      match tri with
      | None => UB
      | Some t =>
          match filter (fun c => negb (c =? cur)) [TE m t 0; TE m t 1; TE m t 2] with
          | [s0; s1] =>
              let* c0 := findThirdVert m (Some t) s0 in
              let* c1 := findThirdVert m (Some t) s1 in
              let w0 := negb (g_sameSide g (POS m (EV m s0 0)) (POS m (EV m s0 1)) (POS m c0) p) in
              let w1 := negb (g_sameSide g (POS m (EV m s1 0)) (POS m (EV m s1 1)) (POS m c1) p) in
              let next := if w0 && w1 then (if coin fuel' then s0 else s1)
                          else if w0 then s0 else if w1 then s1 else cur in
              if containsT g m t p then Ok t else walk g m p coin fuel' next
          | _ => UB
          end
      end
  end.

(** 293-359; [first] stands for the order of the unordered_set *)
Definition enclosingTriangle g m (p : P) (first : list nat -> nat) (coin : nat -> bool) (fuel : nat) : outcome (option nat) :=
  if negb (isInsideBound g m p) then Ok None
  else
    match nth_error (VE m 0) (first (VE m 0)) with
    | None => UB
    | Some cur =>
        match ET m cur 0, ET m cur 1 with
        | Some t0, s =>
            if containsT g m t0 p then Ok (Some t0)
            else
              match s with
              | Some t1 => if containsT g m t1 p then Ok (Some t1) else let* t := walk g m p coin fuel cur in Ok (Some t)
              | None => let* t := walk g m p coin fuel cur in Ok (Some t)
              end
        | None, Some t1 => if containsT g m t1 p then Ok (Some t1) else let* t := walk g m p coin fuel cur in Ok (Some t)
        | None, None => let* t := walk g m p coin fuel cur in Ok (Some t)
        end
    end.

(** 524-542: the queue of edges that may be illegal *)
Fixpoint legalize g (v : nat) (fuel : nat) m (queue : list nat) : outcome (mesh P) :=
  match fuel with
  | O => NoFuel
  | S fuel' =>
      match queue with
      | [] => Ok m
      | e :: queue' =>
          let* legal := isEdgeLegal g m e in
          if legal then legalize g v fuel' m queue'
          else
            match ET m e 0, ET m e 1 with
            | Some t0, s =>
                match (if isIncidentT m v t0 then s else Some t0) with
                | None => UB
                | Some o =>
                    let more := filter (fun c => negb (c =? e)) [TE m o 0; TE m o 1; TE m o 2] in
                    let* m' := performFlip m e in
                    legalize g v fuel' m' (queue' ++ more)
                end
            | None, _ => UB
            end
      end
  end.

(** 509-522: the side or triangle that contains the point is divided; the queue is returned too *)
Definition insertPoint g m (t v : nat) : outcome (mesh P * list nat) :=
  let p := POS m v in
  let sides := [TE m t 0; TE m t 1; TE m t 2] in
  match fold_left (fun acc s => if containsE g m s p then Some s else acc) sides None with
  | Some side =>
      match ET m side 0, ET m side 1 with
      | Some o0, Some o1 =>
          let queue := filter (fun c => negb (c =? side)) ([TE m o0 0; TE m o0 1; TE m o0 2] ++ [TE m o1 0; TE m o1 1; TE m o1 2]) in
          let* m' := divideEdge m side v in
          Ok (m', queue)
      | _, _ => UB
      end
  | None =>
      if containsT g m t p then
        let* m' := divideTriangle m t v in
        Ok (m', sides)
      else Throw
  end.

(** 496-544: returns the vertex given back *)
Definition addPoint g m (v : nat) (first : list nat -> nat) (coin : nat -> bool) (fuel : nat) : outcome (mesh P * nat) :=
  let p := POS m v in
  let* tri := enclosingTriangle g m p first coin fuel in
  match tri with
  | None => UB
  | Some t =>
      match find (fun u => g_equal g (POS m u) p) [TV m t 0; TV m t 1; TV m t 2] with
      | Some u => Ok (m, u)
      | None =>
          let* mq := insertPoint g m t v in
          let* m' := legalize g v fuel (fst mq) (snd mq) in
          Ok (m', v)
      end
  end.

(** 41-63: the bounding triangle *)
Definition bounding (b0 b1 b2 : P) : mesh P :=
  let m := {| nv := 0; ne := 0; nt := 0; EV := fun _ _ => 0; ET := fun _ _ => None; TV := fun _ _ => 0; TE := fun _ _ => 0;
              VE := fun _ => []; VT := fun _ => []; POS := fun _ => b0; IDX := fun _ => (-1)%Z |} in
  let m := makeVertex (makeVertex (makeVertex m b0 (-1)) b1 (-1)) b2 (-1) in
  let m := makeEdges (makeTriangles m 1) 3 in
  let m := for3 (fun m i =>
    let m := insE (setEV m i 0 i) i i in
    let m := insE (setEV m i 1 ((i + 1) mod 3)) ((i + 1) mod 3) i in
    let m := setET (setET m i 0 (Some 0)) i 1 None in
    setTE m 0 i i) m in
  for3 (fun m i => setTV (insT m i 0) 0 i i) m.

(** Choices of one insertion: order of the set, random draws *)
Definition choices := nat -> (list nat -> nat) * (nat -> bool).

(** 69-79: the points in the order of insertion; indicesInv is a map from indices.  [i] is the
    counter of the loop *)
Fixpoint insert_all g (ch : choices) (fuel : nat) (order : list (Z * P)) (i : nat) m (inv : Z -> Z) (n : Z)
  : outcome (mesh P * (Z -> Z)) :=
  match order with
  | [] => Ok (m, inv)
  | (ind, p) :: rest =>
      let v := nv m in
      let* r := addPoint g (makeVertex m p ind) v (fst (ch i)) (snd (ch i)) fuel in
      let (m', u) := r in
      if u =? v then
        insert_all g ch fuel rest (S i) m' (fun k => if (k =? ind)%Z then (Z.of_nat i + 3)%Z else inv k) n
      else
        let k0 := IDX m' u in
        if ((0 <=? k0) && (k0 <? n))%Z then
          insert_all g ch fuel rest (S i) (popVertex m') (fun k => if (k =? ind)%Z then inv k0 else inv k) n
        else UB
  end.

(** 546-577: the edges and triangles kept by tidy() *)
Definition usedE m (e : nat) : bool := existsb (fun v => existsb (Nat.eqb e) (VE m v)) (seq 0 (nv m)).
Definition usedT m (t : nat) : bool := existsb (fun v => existsb (Nat.eqb t) (VT m v)) (seq 0 (nv m)).
Definition keptE m : list nat := filter (usedE m) (seq 0 (ne m)).
Definition keptT m : list nat := filter (usedT m) (seq 0 (nt m)).

(** The constructed object *)
Record triangulation := { t_mesh : mesh P; t_inv : Z -> Z; t_vertices : list nat; t_edges : list nat; t_triangles : list nat }.

(** 92-96 *)
Definition lookup m (inv : Z -> Z) (index : Z) : outcome nat :=
  if ((index <? 0) || (Z.of_nat (nv m) - 3 <=? index))%Z then Throw
  else if ((0 <=? inv index) && (inv index <? Z.of_nat (nv m)))%Z then Ok (Z.to_nat (inv index)) else UB.

(** 579-592 *)
Fixpoint fill_vertices m (inv : Z -> Z) (i : Z) (n : nat) : outcome (list nat) :=
  match n with
  | O => Ok []
  | S n' =>
      let* v := lookup m inv i in
      let* r := fill_vertices m inv (i + 1)%Z n' in
      Ok (v :: r)
  end.

(** 14-83: the constructor; [order] is the shuffled list of indices with their points *)
Definition construct g (b0 b1 b2 : P) (ch : choices) (fuel : nat) (order : list (Z * P)) : outcome triangulation :=
  let* r := insert_all g ch fuel order 0 (bounding b0 b1 b2) (fun _ => 0%Z) (Z.of_nat (length order)) in
  let (m, inv) := r in
  let* vs := fill_vertices m inv 0 (nv m - 3) in
  Ok {| t_mesh := m; t_inv := inv; t_vertices := vs;
        t_edges := filter (fun e => negb (isFromBoundingTri (EV m e 0)) && negb (isFromBoundingTri (EV m e 1))) (keptE m);
        t_triangles := filter (fun t => negb (isFromBoundingTri (TV m t 0) || isFromBoundingTri (TV m t 1) || isFromBoundingTri (TV m t 2))) (keptT m) |}.
End Mesh.

(** ** The predicates in exact arithmetic *)
Open Scope Q_scope.

Definition point := (Q * Q)%type.
Definition psub (a b : point) : point := (fst a - fst b, snd a - snd b).
(** geometry.cpp 30-32 *)
Definition cross2 (a b : point) : Q := fst a * snd b - snd a * fst b.
Definition dot2 (a b : point) : Q := fst a * fst b + snd a * snd b.
Definition qlt (a b : Q) : bool := negb (Qle_bool b a).

(** geometry.cpp 34-36 *)
Definition isSameSide (a b p1 p2 : point) : bool :=
  Qle_bool 0 (cross2 (psub b a) (psub p1 a) * cross2 (psub b a) (psub p2 a)).

(** geometry.cpp 49-51 *)
Definition areEqual (eps : Q) (a b : point) : bool := qlt (dot2 (psub a b) (psub a b)) (eps * eps).

(** x >= - eps * sqrt n for eps, n >= 0 *)
Definition geRoot (x eps n : Q) : bool := Qle_bool 0 x || Qle_bool (x * x) (eps * eps * n).

(** geometry.cpp 53-60, multiplied by the length of ab and compared squared, for eps >= 0; with
    a = b the code divides by zero and both comparisons with the result (NaN) are false *)
Definition doesABcontain (eps : Q) (a b p : point) : bool :=
  let ab := psub b a in
  let ap := psub p a in
  let n := dot2 ab ab in
  let c := cross2 ap ab in
  negb (Qeq_bool n 0) && qlt (c * c) (eps * eps * n) && geRoot (dot2 ab ap) eps n && geRoot (n - dot2 ab ap) eps n.

(** geometry.cpp 62-78 *)
Definition isABDelaunay (a b c d : point) : bool :=
  let da := psub a d in
  let db := psub b d in
  let dc := psub c d in
  let det := fst da * (snd db * dot2 dc dc - dot2 db db * snd dc) - snd da * (fst db * dot2 dc dc - dot2 db db * fst dc)
             + dot2 da da * (fst db * snd dc - snd db * fst dc) in
  Qle_bool (det * cross2 (psub b a) (psub c b)) 0.

(** Triangulation.cpp 256 and 503 with the tolerances eps * maxDim *)
Definition exact (epsSegment epsSame : Q) : geometry point :=
  {| g_sameSide := isSameSide; g_onSegment := doesABcontain epsSegment; g_equal := areEqual epsSame; g_delaunay := isABDelaunay |}.

(** 22-36: bounds of a list that is not empty *)
Definition qmin (a b : Q) : Q := if qlt b a then b else a.
Definition qmax (a b : Q) : Q := if qlt a b then b else a.
Definition minx (p : point) (l : list point) : Q := fold_left (fun a q => qmin a (fst q)) l (fst p).
Definition miny (p : point) (l : list point) : Q := fold_left (fun a q => qmin a (snd q)) l (snd p).
Definition maxx (p : point) (l : list point) : Q := fold_left (fun a q => qmax a (fst q)) l (fst p).
Definition maxy (p : point) (l : list point) : Q := fold_left (fun a q => qmax a (snd q)) l (snd p).
(** 37 *)
Definition maxDim (p : point) (l : list point) : Q := qmax (maxx p l - minx p l) (maxy p l - miny p l).

(** 14-83 for points p :: l; [order] is the list of indices after std::shuffle *)
Definition triangulate (epsSegment epsSame : Q) (p : point) (l : list point) (order : list Z) (ch : choices) (fuel : nat)
  : outcome (@triangulation point) :=
  let d := maxDim p l in
  let x := minx p l in
  let y := miny p l in
  construct (exact (epsSegment * d) (epsSame * d)) (x - d, y - d) (x + 4 * d, y - d) (x - d, y + 4 * d) ch fuel
    (map (fun i => (i, nth (Z.to_nat i) (p :: l) p)) order).
