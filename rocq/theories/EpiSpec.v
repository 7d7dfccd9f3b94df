(** What a drawing of a list of samples shows, independently of the loop that draws it. *)
From Coq Require Import List ZArith QArith Bool.
From Verif Require Import Outcome Dbl DblArith UtilModel TraceModel EpiModel.
Import ListNotations.

(** All positions are far from the limits of int. *)
Definition within (l : list (pos * dbl)) : Prop :=
  Forall (fun x => (-1000000000 <= fst (fst x) <= 1000000000 /\ -1000000000 <= snd (fst x) <= 1000000000)%Q) l.

(** Normalised vectors have coordinates between -1 and 1. *)
Definition bounded (unit : pos -> pos) : Prop :=
  forall v, (-1 <= fst (unit v) <= 1 /\ -1 <= snd (unit v) <= 1)%Q.

(** [d] leads from sample [i] to the next one, for the last sample from the previous one. *)
Definition leads (l : list (pos * dbl)) (i : nat) (d : pos) : Prop :=
  exists a b u v x y, nth_error l a = Some (x, y) /\ nth_error l b = Some (u, v) /\ d = pos_sub u x /\
    ((S i < length l /\ a = i /\ b = S i) \/ (S i = length l /\ S a = i /\ b = i))%nat.

(** [unit] divides [v] by its length. *)
Definition normalises (unit : pos -> pos) (v : pos) : Prop :=
  (fst v * snd (unit v) == snd v * fst (unit v) /\
   fst (unit v) * fst (unit v) + snd (unit v) * snd (unit v) == 1)%Q.

(** [n] is perpendicular to [d] and has length 1. *)
Definition normal_to (d n : pos) : Prop :=
  (fst d * fst n + snd d * snd n == 0 /\ fst n * fst n + snd n * snd n == 1)%Q.

(** The mark of a line between [p + k n] and [p - k n], ends cut to whole pixels. *)
Definition across (p n : pos) (k : Q) (m : mark) : Prop :=
  m_beg m = (qtrunc (fst p + k * fst n), qtrunc (snd p + k * snd n))%Q /\
  m_end m = (qtrunc (fst p - k * fst n), qtrunc (snd p - k * snd n))%Q.

(** [i] is the first place with the lowest energy. *)
Definition lowest (l : list (pos * dbl)) (i : nat) (x : dbl) : Prop :=
  (exists p, nth_error l i = Some (p, x)) /\
  (forall j p y, nth_error l j = Some (p, y) -> dle x y = true) /\
  (forall j p y, (j < i)%nat -> nth_error l j = Some (p, y) -> dlt x y = true).

(** [x] is the highest energy. *)
Definition highest (l : list (pos * dbl)) (x : dbl) : Prop :=
  (exists i p, nth_error l i = Some (p, x)) /\
  (forall j p y, nth_error l j = Some (p, y) -> dle y x = true).

(** No energy is NaN. *)
Definition real (l : list (pos * dbl)) : Prop := forall j p x, nth_error l j = Some (p, x) -> x <> NaN.

(** The positions looked at by a tracing are far from the limits of int. *)
Definition on_sheet (e : env) : Prop := forall a,
  (-1000000000 <= fst (e_point e a) <= 1000000000 /\ -1000000000 <= snd (e_point e a) <= 1000000000)%Q.
