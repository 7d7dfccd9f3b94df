(** Model of source/util/PlyHolder.cpp (all) and printInPly (source/util/util.cpp:33-73).
    A file is the list of its bytes; the file system is assumed to accept every write.
    [fmt prec x] is what operator<< prints for a double at the given precision. *)
From Coq Require Import List ZArith Bool Ascii String.
From Verif Require Import Outcome Dbl.
Import ListNotations.
Open Scope Z_scope.

Notation bytes := (list ascii).
Definition lit (s : string) : bytes := list_ascii_of_string s.
Definition nl : ascii := "010".
Definition sp : ascii := " ".

(** Points and colours.  cv::Vec3b holds (blue, green, red). *)
Notation point := (dbl * dbl * dbl)%type.
Notation color := (Z * Z * Z)%type.

(** std::to_string(int) and operator<< of an integer. *)
Definition digit (d : Z) : ascii := ascii_of_N (Z.to_N (48 + d)).
Fixpoint digits (fuel : nat) (z : Z) : bytes :=
  match fuel with
  | O => []
  | S f => if z <? 10 then [digit z] else digits f (z / 10) ++ [digit (z mod 10)]
  end.
Definition dec (z : Z) : bytes :=
  if z <? 0 then "-"%char :: digits (S (Z.to_nat (Z.log2 (- z)))) (- z)
  else digits (S (Z.to_nat (Z.log2 z))) z.

Section Ply.
Variable fmt : Z -> dbl -> bytes.

(** The raw string before the count (PlyHolder.cpp:17-19, util.cpp:53-55). *)
Definition head1 : bytes :=
  lit "ply" ++ [nl] ++ lit "format ascii 1.0" ++ [nl] ++ lit "element vertex ".
(** The raw string after the count (PlyHolder.cpp:21-29, util.cpp:56-64). *)
Definition head2 : bytes :=
  [nl] ++ lit "property float x" ++ [nl] ++ lit "property float y" ++ [nl] ++ lit "property float z" ++ [nl] ++
  lit "property uchar red" ++ [nl] ++ lit "property uchar green" ++ [nl] ++ lit "property uchar blue" ++ [nl] ++
  lit "end_header" ++ [nl].

(** PlyHolder.cpp:46-47, util.cpp:69-71: one vertex line. *)
Definition vertex_line (prec : Z) (p : point) (c : color) : bytes :=
  let '(x, y, z) := p in
  let '(b, g, r) := c in
  fmt prec x ++ [sp] ++ fmt prec y ++ [sp] ++ fmt prec z ++ [sp] ++ dec r ++ [sp] ++ dec g ++ [sp] ++ dec b ++ [nl].

(** PlyHolder.h:18-20 with the file it names. *)
Record holder := { h_file : bytes; h_count : Z }.

(** PlyHolder.cpp:7 *)
Definition countSpace : nat := 19.

(** PlyHolder.cpp:9-33: the constructor (it throws if the file cannot be created). *)
Definition ply_open : holder :=
  {| h_file := head1 ++ lit "0" ++ repeat sp (countSpace - 1) ++ head2; h_count := 0 |}.

(** PlyHolder.cpp:35-55: putPoints with the stream's default precision 6.  The counter is an int:
    overflow is undefined behaviour. *)
Definition put_points (h : holder) (points : list point) (colors : list color) : outcome holder :=
  let pcs := combine points colors in
  let cnt := Z.of_nat (List.length pcs) in
  if INT_MAX <? h_count h + cnt then UB
  else Ok {| h_file := h_file h ++ flat_map (fun pc => vertex_line 6 (fst pc) (snd pc)) pcs;
             h_count := h_count h + cnt |}.

(** Writing at a position of an existing file (seekp then operator<<). *)
Definition overwrite (pos : nat) (v f : bytes) : bytes :=
  firstn pos f ++ v ++ skipn (pos + List.length v) f.

(** PlyHolder.cpp:57-64: updatePointCount.  A count longer than the field would ask for a string of
    negative (huge unsigned) length: std::length_error. *)
Definition update_count (h : holder) : outcome holder :=
  let v := dec (h_count h) in
  if (countSpace <? List.length v)%nat then Throw
  else Ok {| h_file := overwrite 36 (v ++ repeat sp (countSpace - List.length v)) (h_file h);
             h_count := h_count h |}.

Inductive ply_op := PutPoints (points : list point) (colors : list color) | UpdateCount.
Definition ply_step (h : holder) (o : ply_op) : outcome holder :=
  match o with
  | PutPoints ps cs => put_points h ps cs
  | UpdateCount => update_count h
  end.
Definition ply_run (ops : list ply_op) (h : holder) : outcome holder := ofold ply_step ops h.

Definition is_fin (d : dbl) : bool := match d with Fin _ => true | _ => false end.

(** util.cpp:35-49: points with finite coordinates and their colours.  colors[i] with i out of
    range is undefined behaviour (the reference is formed before the check). *)
Fixpoint finite_points (points : list point) (colors : list color) : outcome (list (point * color)) :=
  match points with
  | [] => Ok []
  | p :: ps =>
      match colors with
      | [] => UB
      | c :: cs =>
          bind (finite_points ps cs) (fun r =>
            let '(x, y, z) := p in
            Ok (if is_fin x && is_fin y && is_fin z then (p, c) :: r else r))
      end
  end.

(** util.cpp:33-73 *)
Definition print_in_ply (points : list point) (colors : list color) : outcome bytes :=
  bind (finite_points points colors) (fun pcs =>
    Ok (head1 ++ dec (Z.of_nat (List.length pcs)) ++ head2 ++
        flat_map (fun pc => vertex_line 15 (fst pc) (snd pc)) pcs)).

End Ply.
