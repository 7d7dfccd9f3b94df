(** A small reader for the PLY files, independent of the writer: C17, C18 and C21 are stated with
    it.  The header is fixed except for the vertex count, which may be padded with spaces; every
    further line is split at single spaces. *)
From Coq Require Import List ZArith Bool Ascii String.
From Verif Require Import Dbl PlyModel.
Import ListNotations.
Open Scope Z_scope.

Fixpoint strip (p l : list ascii) : option (list ascii) :=
  match p, l with
  | [], _ => Some l
  | a :: p', b :: l' => if Ascii.eqb a b then strip p' l' else None
  | _ :: _, [] => None
  end.

Definition digit_value (c : ascii) : option Z :=
  let n := Z.of_N (N_of_ascii c) in
  if (48 <=? n) && (n <=? 57) then Some (n - 48) else None.

(** Reads decimal digits; [any]: at least one was read. *)
Fixpoint read_digits (any : bool) (acc : Z) (l : list ascii) : option (Z * list ascii) :=
  match l with
  | [] => if any then Some (acc, []) else None
  | c :: l' => match digit_value c with
               | Some d => read_digits true (10 * acc + d) l'
               | None => if any then Some (acc, l) else None
               end
  end.

Fixpoint drop_spaces (l : list ascii) : list ascii :=
  match l with
  | c :: l' => if Ascii.eqb c " " then drop_spaces l' else l
  | [] => []
  end.

(** Lines, each ended by a newline; anything after the last newline makes the text malformed. *)
Fixpoint lines (cur : list ascii) (l : list ascii) : option (list (list ascii)) :=
  match l with
  | [] => match cur with [] => Some [] | _ => None end
  | c :: l' => if Ascii.eqb c "010" then option_map (cons (rev cur)) (lines [] l') else lines (c :: cur) l'
  end.

Fixpoint words (cur : list ascii) (l : list ascii) : list (list ascii) :=
  match l with
  | [] => [rev cur]
  | c :: l' => if Ascii.eqb c " " then rev cur :: words [] l' else words (c :: cur) l'
  end.

Definition ply_text (ls : list string) : list ascii :=
  flat_map (fun s => list_ascii_of_string s ++ ["010"%char]) ls.

(** Declared vertex count and the vertex lines as word lists. *)
Definition parse_ply (f : list ascii) : option (Z * list (list (list ascii))) :=
  match strip (ply_text ["ply"; "format ascii 1.0"]%string ++ list_ascii_of_string "element vertex ") f with
  | None => None
  | Some f1 =>
      match read_digits false 0 f1 with
      | None => None
      | Some (n, f2) =>
          match strip (ply_text [""; "property float x"; "property float y"; "property float z";
                                 "property uchar red"; "property uchar green"; "property uchar blue";
                                 "end_header"]%string) (drop_spaces f2) with
          | None => None
          | Some f3 => option_map (fun ls => (n, map (words []) ls)) (lines [] f3)
          end
      end
  end.

(** Contract of the number printer: something without spaces and newlines. *)
Definition fmt_ok (fmt : Z -> dbl -> list ascii) : Prop :=
  forall prec x, fmt prec x <> [] /\ Forall (fun c => c <> " "%char /\ c <> "010"%char) (fmt prec x).

(** A word denotes a non-negative integer. *)
Definition denotes (w : list ascii) (z : Z) : Prop := read_digits false 0 w = Some (z, []).

(** The words of the line of a point with 8-bit colour (blue, green, red). *)
Definition vertex_words (fmt : Z -> dbl -> list ascii) (prec : Z) (pc : (dbl * dbl * dbl) * (Z * Z * Z))
  (ws : list (list ascii)) : Prop :=
  let '((x, y, z), (b, g, r)) := pc in
  exists wr wg wb, ws = [fmt prec x; fmt prec y; fmt prec z; wr; wg; wb] /\
    denotes wr r /\ denotes wg g /\ denotes wb b.

Definition color_ok (c : Z * Z * Z) : Prop :=
  let '(b, g, r) := c in 0 <= b < 256 /\ 0 <= g < 256 /\ 0 <= r < 256.

(** The points given to a sequence of operations, in order. *)
Definition put_of (o : ply_op) : list (point * color) :=
  match o with PutPoints ps cs => combine ps cs | UpdateCount => [] end.
Definition given (ops : list ply_op) : list (point * color) := flat_map put_of ops.

(** Count declared by the last update of a sequence. *)
Fixpoint declared (n0 sofar : Z) (ops : list ply_op) : Z :=
  match ops with
  | [] => n0
  | UpdateCount :: r => declared sofar sofar r
  | PutPoints ps cs :: r => declared n0 (sofar + Z.of_nat (List.length (combine ps cs))) r
  end.

(** Points with three finite coordinates. *)
Definition finite_point (pc : point * color) : bool :=
  let '((x, y, z), _) := pc in
  match x, y, z with Fin _, Fin _, Fin _ => true | _, _, _ => false end.
