(** Model of source/util/DistanceMap.cpp. *)
From Coq Require Import List ZArith QArith Bool.
From Verif Require Import Outcome Dbl.
Import ListNotations.
Open Scope Z_scope.
Open Scope outcome_scope.

(** unsigned 32-bit wrap-around *)
Definition u32 (x : Z) : Z := x mod 2^32.

(** DistanceMap.cpp:10-18, [clp2].  All operations on 32-bit unsigned values. *)
Definition clp2 (x0 : Z) : Z :=
  let x := u32 (x0 - 1) in
  let x := Z.lor x (Z.shiftr x 1) in
  let x := Z.lor x (Z.shiftr x 2) in
  let x := Z.lor x (Z.shiftr x 4) in
  let x := Z.lor x (Z.shiftr x 8) in
  let x := Z.lor x (Z.shiftr x 16) in
  u32 (x + 1).

(** include/util/settings.h:45-51, [Settings::DistanceMap]: the two limits are finite doubles. *)
Record dm_settings := { maxWidth : Q; maxHeight : Q }.

(** settings.h:46,49: defaults 480 and 302. *)
Definition dm_default : dm_settings := {| maxWidth := 480#1; maxHeight := 302#1 |}.

(** DistanceMap.cpp:23-24: [1 + (given - 1) / max] computed in double (no rounding modelled)
    and converted to int.  A zero limit gives an infinity or NaN: undefined conversion. *)
Definition side_div (given : Z) (mx : Q) : outcome Z :=
  if Qeq_bool mx 0 then UB
  else to_int (Fin (1 + inject_Z (given - 1) / mx)).

(** conversion unsigned -> int (two's complement, as gcc defines it) *)
Definition to_signed32 (x : Z) : Z := if x <? 2^31 then x else x - 2^32.

(** DistanceMap.cpp:23-25: the reduction factor [pyrDown].  The int arguments of clp2 are
    converted to unsigned first. *)
Definition reduction (givenW givenH : Z) (s : dm_settings) : outcome Z :=
  let* wdiv := side_div givenW (maxWidth s) in
  let* hdiv := side_div givenH (maxHeight s) in
  Ok (to_signed32 (Z.min (clp2 (u32 wdiv)) (clp2 (u32 hdiv)))).

(** DistanceMap.h:21-22, DistanceMap.cpp:31: the matrix [dist] with [gw] columns and [gh]
    rows; [gat x y] is the content of row [y], column [x]. *)
Record grid := { gw : Z; gh : Z; gat : Z -> Z -> Z }.

Definition in_grid (g : grid) (x y : Z) : bool :=
  (0 <=? x) && (x <? gw g) && (0 <=? y) && (y <? gh g).

(** Matrix element access of Eigen: outside the matrix it is undefined behaviour. *)
Definition gget (g : grid) (x y : Z) : outcome Z :=
  if in_grid g x y then Ok (gat g x y) else UB.

Definition gset (g : grid) (x y v : Z) : outcome grid :=
  if in_grid g x y
  then Ok {| gw := gw g; gh := gh g;
             gat := fun x' y' => if (x' =? x) && (y' =? y) then v else gat g x' y' |}
  else UB.

Notation cell := (Z * Z)%type.
Notation point := (dbl * dbl)%type.

(** DistanceMap.cpp:36: the in-image test of a seed point. *)
Definition seed_inside (givenW givenH : Z) (p : point) : bool :=
  dle (of_int 0) (fst p) && dlt (fst p) (of_int givenW) &&
  dle (of_int 0) (snd p) && dlt (snd p) (of_int givenH).

(** DistanceMap.cpp:39,72: [p.cast<int>() / pyrDown]. *)
Definition cell_of (k : Z) (p : point) : outcome cell :=
  let* cx := to_int (fst p) in
  let* cy := to_int (snd p) in
  if k =? 0 then UB else Ok (Z.quot cx k, Z.quot cy k).

(** DistanceMap.cpp:35-42: one seed point. *)
Definition seed_step (givenW givenH k : Z) (st : grid * list cell) (p : point)
  : outcome (grid * list cell) :=
  let '(g, q) := st in
  if negb (seed_inside givenW givenH p) then Ok (g, q)
  else
    let* c := cell_of k p in
    let* g' := gset g (fst c) (snd c) 0 in
    Ok (g', q ++ [c]).

(** DistanceMap.cpp:49-55 and 56-62: one of the four neighbour relaxations.  The range test on
    the moved coordinate is the one of the code; the access itself is checked by [gget]. *)
Definition relax (curd : Z) (st : grid * list cell) (n : cell) (rangeOk : bool)
  : outcome (grid * list cell) :=
  let '(g, q) := st in
  if rangeOk then
    let* d := gget g (fst n) (snd n) in
    if curd + 1 <? d then
      let* g' := gset g (fst n) (snd n) (curd + 1) in
      Ok (g', q ++ [n])
    else Ok (g, q)
  else Ok (g, q).

(** DistanceMap.cpp:44-63: body of the while loop for the popped cell [cur].
    [curd + 1] is int arithmetic: overflow is undefined behaviour. *)
Definition bfs_body (g : grid) (cur : cell) (q : list cell) : outcome (grid * list cell) :=
  let '(cx, cy) := cur in
  let* curd := gget g cx cy in
  if INT_MAX <? curd + 1 then UB else
  let xr v := (0 <=? v) && (v <? gw g) in
  let yr v := (0 <=? v) && (v <? gh g) in
  let* st := relax curd (g, q) (cx - 1, cy) (xr (cx - 1)) in
  let* st := relax curd st (cx + 1, cy) (xr (cx + 1)) in
  let* st := relax curd st (cx, cy - 1) (yr (cy - 1)) in
  relax curd st (cx, cy + 1) (yr (cy + 1)).

(** DistanceMap.cpp:44-63: the while loop, with fuel. *)
Fixpoint bfs (fuel : nat) (g : grid) (q : list cell) : outcome grid :=
  match q with
  | [] => Ok g
  | cur :: q' =>
      match fuel with
      | O => NoFuel
      | S fuel' =>
          let* st := bfs_body g cur q' in
          bfs fuel' (fst st) (snd st)
      end
  end.

Record dmap := { dm_pyrDown : Z; dm_dist : grid }.

(** DistanceMap.cpp:20-64: the constructor. *)
Definition build (fuel : nat) (givenW givenH : Z) (pts : list point) (s : dm_settings)
  : outcome dmap :=
  let* k := reduction givenW givenH s in
  if k =? 0 then UB else
  let w := Z.quot givenW k in
  let h := Z.quot givenH k in
  let g0 := {| gw := w; gh := h; gat := fun _ _ => INT_MAX |} in
  let* st := ofold (seed_step givenW givenH k) pts (g0, []) in
  let* g := bfs fuel (fst st) (snd st) in
  Ok {| dm_pyrDown := k; dm_dist := g |}.

(** DistanceMap.cpp:69-80: the pairs (index, distance).  AlignedBox::contains is inclusive at
    both ends, so column [cols] and row [rows] pass the test. *)
Definition choose_entry (m : dmap) (i : nat) (p : point) : outcome (nat * Z) :=
  let* c := cell_of (dm_pyrDown m) p in
  let '(x, y) := c in
  let g := dm_dist m in
  if (0 <=? x) && (x <=? gw g) && (0 <=? y) && (y <=? gh g) then
    let* d := gget g x y in Ok (i, d)
  else Ok (i, -1).

Fixpoint choose_entries (m : dmap) (i : nat) (pts : list point) : outcome (list (nat * Z)) :=
  match pts with
  | [] => Ok []
  | p :: ps =>
      let* e := choose_entry m i p in
      let* es := choose_entries m (S i) ps in
      Ok (e :: es)
  end.

(** DistanceMap.cpp:66-91: [choose].  [nth_element n l] stands for the rearrangement
    std::nth_element performs with the descending comparison on distances; the theorems
    quantify over every function meeting the standard's postcondition.  A negative [total]
    makes the middle iterator precede begin: undefined behaviour. *)
Definition choose (nth_element : nat -> list (nat * Z) -> list (nat * Z))
    (m : dmap) (pts : list point) (pointsNeeded : Z) : outcome (list nat) :=
  let* es := choose_entries m 0 pts in
  let total := Z.min pointsNeeded (Z.of_nat (length pts)) in
  if total <? 0 then UB else
  let n := Z.to_nat total in
  let es' := nth_element n es in
  Ok (map fst (filter (fun e => negb (snd e =? -1)) (firstn n es'))).
