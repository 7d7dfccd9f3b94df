(** Model of samples/mfov/reader/MultiFovReader.cpp.

    Files are lists of blank-separated words with a flag for blanks after the last one.  Oracles:
    what the file system holds ([fs_line], [fs_words]) and how a non-integer numeral is split when
    an int is read from it ([split]). *)
From Coq Require Import ZArith QArith Bool Ascii String List.
From Verif Require Import Outcome Dbl.
Import ListNotations.
Open Scope Z_scope.
Open Scope outcome_scope.

(** A word of the file. *)
Inductive word :=
| WInt (z : Z)          (* integer numeral *)
| WReal (q : Q)         (* another numeral, with its value as a double *)
| WBad (upto_end : bool). (* no numeral; does the conversion read it to its end? *)

Record file := { f_words : list word; f_blank_end : bool }.

(** State of an std::ifstream: remaining words, blanks at the end, eofbit, failbit. *)
Record stream := { s_words : list word; s_blank : bool; s_eof : bool; s_fail : bool }.
Definition open_stream (f : file) : stream :=
  {| s_words := f_words f; s_blank := f_blank_end f; s_eof := false; s_fail := false |}.

(** A double variable: never written, or a value. *)
Inductive cell := Indet | Det (q : Q).

(** The stream after its first word was converted up to the word's end, leaving [rest]. *)
Definition consumed (rest : list word) (failed : bool) (s : stream) : stream :=
  {| s_words := rest; s_blank := s_blank s;
     s_eof := match rest with [] => negb (s_blank s) | _ => false end;
     s_fail := failed |}.

(** operator>>(double&) into a variable holding [old]: the sentry fails if the stream is not good
    or holds only blanks; a failed conversion stores 0. *)
Definition get_double (old : cell) (s : stream) : cell * stream :=
  if s_eof s || s_fail s
  then (old, {| s_words := s_words s; s_blank := s_blank s; s_eof := s_eof s; s_fail := true |})
  else match s_words s with
       | [] => (old, {| s_words := []; s_blank := s_blank s; s_eof := true; s_fail := true |})
       | WInt z :: rest => (Det (inject_Z z), consumed rest false s)
       | WReal q :: rest => (Det q, consumed rest false s)
       | WBad true :: rest => (Det 0, consumed rest true s)
       | WBad false :: _ =>
           (Det 0, {| s_words := s_words s; s_blank := s_blank s; s_eof := false; s_fail := true |})
       end.

(** operator>>(int&). *)
Definition get_int (split : Q -> option Z * list word) (s : stream) : option Z * stream :=
  if s_eof s || s_fail s
  then (None, {| s_words := s_words s; s_blank := s_blank s; s_eof := s_eof s; s_fail := true |})
  else match s_words s with
       | [] => (None, {| s_words := []; s_blank := s_blank s; s_eof := true; s_fail := true |})
       | WInt z :: rest =>
           if in_int z then (Some z, consumed rest false s)
           else (Some (if z <? 0 then INT_MIN else INT_MAX), consumed rest true s)
       | WReal q :: rest =>
           let (r, left) := split q in
           match left with
           | [] => (r, consumed rest false s)
           | _ => (r, {| s_words := left ++ rest; s_blank := s_blank s; s_eof := false;
                         s_fail := match r with Some _ => false | None => true end |})
           end
       | WBad true :: rest => (Some 0, consumed rest true s)
       | WBad false :: _ =>
           (Some 0, {| s_words := s_words s; s_blank := s_blank s; s_eof := false; s_fail := true |})
       end.

(** [k] doubles one after another into fresh variables. *)
Fixpoint get_doubles (k : nat) (s : stream) : list cell * stream :=
  match k with
  | O => ([], s)
  | S k' => let (c, s1) := get_double Indet s in
            let (cs, s2) := get_doubles k' s1 in (c :: cs, s2)
  end.

(** An entry of worldToFrameGT: SE3() or the inverse of the pose with the read translation and
    quaternion (x, y, z, w). *)
Inductive entry := Identity | Inverse (trans quat : list cell).

(** 55-62: the loop, with a bound on its iterations. *)
Fixpoint read_poses (split : Q -> option Z * list word) (fuel : nat) (s : stream)
         (acc : list entry) : outcome (list entry) :=
  if s_eof s then Ok acc else
  match fuel with
  | O => NoFuel
  | S f =>
      let (_, s1) := get_int split s in
      let (t, s2) := get_doubles 3 s1 in
      let (q, s3) := get_doubles 4 s2 in
      read_poses split f s3 (acc ++ [Inverse t q])
  end.

(** 54-62 *)
Definition read_trajectory (split : Q -> option Z * list word) (fuel : nat) (f : file)
  : outcome (list entry) :=
  read_poses split fuel (open_stream f) [Identity].

(** 84-89: getDepths, the matrix row by row; a cell is uninitialised before it is read. *)
Definition read_depths (w h : Z) (f : file) : list cell :=
  fst (get_doubles (Z.to_nat w * Z.to_nat h) (open_stream f)).

(** 4-7: the directory name. *)
Definition reader_dir (dir : string) : outcome string :=
  match String.length dir with
  | O => UB
  | S k => Ok (if match get k dir with Some c => Ascii.eqb c "/" | None => false end
               then substring 0 k dir else dir)
  end.

(** 14-15, 48-49, 66-68, 77-79: sprintf of the directory and a name into char[256]. *)
Definition sprintf_path (dir name : string) : outcome string :=
  if (String.length dir + String.length name <? 256)%nat then Ok (dir ++ name)%string else UB.

(** The arguments given to the constructor of the camera. *)
Inductive camera :=
| Pinhole                                                (* 29-30 *)
| Poly (width height : option Z) (center coeffs : list cell). (* 44-45, scale 1 *)

Definition neg_cell (c : cell) : cell := match c with Indet => Indet | Det q => Det (- q) end.

(** 26-46: from the first line of the intrinsics file, given as a string and as words. *)
Definition read_camera (split : Q -> option Z * list word) (line : string) (words : file)
  : outcome camera :=
  if (String.length line <? 3)%nat then Throw else
  if String.eqb (substring 0 3 line) "K =" then Ok Pinhole else
  let (w, s) := get_int split (open_stream words) in
  let (h, s) := get_int split s in
  let (c, s) := get_doubles 5 s in
  let (ctr, _) := get_doubles 2 s in
  match c with
  | [c0; _; c2; c3; c4] => Ok (Poly w h ctr (map neg_cell [c0; c2; c3; c4]))
  | _ => UB
  end.

(** 4-63: the constructor. *)
Definition reader_new (split : Q -> option Z * list word) (fuel : nat)
           (fs_line : string -> option (option (string * file)))
           (fs_words : string -> option file) (dir : string)
  : outcome (camera * list entry) :=
  let* d := reader_dir dir in
  let* camName := sprintf_path d "/info/intrinsics.txt" in
  match fs_line camName with
  | None => Throw
  | Some None => Throw
  | Some (Some (line, words)) =>
      let* cam := read_camera split line words in
      let* posesName := sprintf_path d "/info/groundtruth.txt" in
      match fs_words posesName with
      | None => Throw
      | Some f => let* p := read_trajectory split fuel f in Ok (cam, p)
      end
  end.

(** 92-94: operator[] without a check. *)
Definition get_pose (poses : list entry) (k : Z) : outcome entry :=
  if k <? 0 then UB else match nth_error poses (Z.to_nat k) with Some e => Ok e | None => UB end.
