(** Specifications for the dataset reader. *)
From Coq Require Import ZArith QArith Bool List.
From Verif Require Import Dbl ReaderModel.
Import ListNotations.

(** A line of a trajectory file: frame number, translation, quaternion. *)
Record line := { l_frame : Z; l_tx : Q; l_ty : Q; l_tz : Q;
                 l_qx : Q; l_qy : Q; l_qz : Q; l_qw : Q }.

(** How a number may be written in a file. *)
Definition writes (w : word) (q : Q) : Prop :=
  match w with WInt z => (inject_Z z = q)%Q | WReal r => r = q | WBad _ => False end.

(** The words of a line, with the frame number an int. *)
Definition line_words (ws : list word) (l : line) : Prop :=
  exists tx ty tz qx qy qz qw,
    ws = [WInt (l_frame l); tx; ty; tz; qx; qy; qz; qw] /\
    (INT_MIN <= l_frame l <= INT_MAX)%Z /\
    writes tx (l_tx l) /\ writes ty (l_ty l) /\ writes tz (l_tz l) /\
    writes qx (l_qx l) /\ writes qy (l_qy l) /\ writes qz (l_qz l) /\ writes qw (l_qw l).

(** The words of a file of well-formed lines. *)
Inductive file_lines : list word -> list line -> Prop :=
| fl_nil : file_lines [] []
| fl_cons ws l rest ls : line_words ws l -> file_lines rest ls -> file_lines (ws ++ rest) (l :: ls).

(** The entry a line stands for. *)
Definition entry_of (l : line) : entry :=
  Inverse [Det (l_tx l); Det (l_ty l); Det (l_tz l)]
          [Det (l_qx l); Det (l_qy l); Det (l_qz l); Det (l_qw l)].

(** An entry made of variables never written. *)
Definition undetermined : entry := Inverse [Indet; Indet; Indet] [Indet; Indet; Indet; Indet].

(** A numeral. *)
Definition numeral (w : word) : Prop := match w with WBad _ => False | _ => True end.

(** The entry made of seven variables in the order of a line. *)
Definition entry_cells (c : list cell) : entry := Inverse (firstn 3 c) (skipn 3 c).
