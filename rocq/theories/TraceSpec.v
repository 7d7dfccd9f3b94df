(** Notions for the statements about tracing that do not depend on how traceOn computes. *)
From Coq Require Import List ZArith QArith Bool.
From Verif Require Import Outcome Dbl DblArith TraceModel.
Import ListNotations.

(** The depth estimate of a point: value, interval, deviation, number of tracings, level. *)
Definition same_estimate (p q : ipoint) : Prop :=
  i_depth q = i_depth p /\ i_min q = i_min p /\ i_max q = i_max p /\ i_dev q = i_dev p /\
  i_num q = i_num p /\ i_level q = i_level p /\ i_quality q = i_quality p.

(** Number of successful tracings in a history. *)
Fixpoint successes (l : list tstatus) : Z :=
  match l with
  | [] => 0
  | OK :: l' => 1 + successes l'
  | _ :: l' => successes l'
  end%Z.

(** The statuses reported before the search along the curve. *)
Definition unsearched (st : tstatus) : Prop := st = WAS_OOB \/ st = BIG_PREDICTED_ERROR \/ st = EPIPOLAR_OOB.

(** [st] is the last status of [l] that was reported after a search. *)
Definition last_search (l : list tstatus) (st : tstatus) : Prop :=
  exists before after, l = before ++ st :: after /\ ~ unsearched st /\ Forall unsearched after.

(** A square root: not negative, or not a number. *)
Definition deviation (d : dbl) : Prop :=
  match d with Fin x => (0 <= x)%Q | PInf => True | NInf => False | NaN => True end.

Definition peq (a b : pos) : Prop := (fst a == fst b /\ snd a == snd b)%Q.

(** The point at displacement [q] from the middle of [a] and [b] in direction [d]. *)
Definition displaced (a b d : pos) (q : Q) (p : pos) : Prop :=
  (2 * fst p == fst a + fst b + 2 * q * fst d /\ 2 * snd p == snd a + snd b + 2 * q * snd d)%Q.

Definition dist2 (a b : pos) : Q :=
  ((fst a - fst b) * (fst a - fst b) + (snd a - snd b) * (snd a - snd b))%Q.

(** [pts] are the positions met from parameter [a] on when each parameter is the previous one
    plus [delta]: a run along the curve. *)
Inductive run (point : dbl -> pos) (delta : dbl -> dbl) : dbl -> list sample -> Prop :=
| run_one a : run point delta a [(point a, a)]
| run_more a l : run point delta (dadd a (delta a)) l -> run point delta a ((point a, a) :: l).

(** [l] is a sequence of blocks, each a run along the curve listed twice. *)
Inductive doubled (point : dbl -> pos) (delta : dbl -> dbl) : list sample -> Prop :=
| doubled_nil : doubled point delta []
| doubled_app l a r : doubled point delta l -> run point delta a r -> doubled point delta (l ++ r ++ r).

(** every value that is a number is at least x *)
Definition at_least (x d : dbl) : Prop := d = NaN \/ dle x d = true.

(** [x] is the energy measured at sample [i]: on the level that follows from the size of the
    projected pattern, cut to the available ones. *)
Definition measured (s : tsettings) (e : env) (maxd : dbl) (pts : list sample) (i : nat) (x : dbl) : Prop :=
  exists p a z, nth_error pts i = Some (p, a) /\
    let far := match maxd, i with PInf, O => true | _, _ => false end in
    to_int (e_level e far a) = Ok z /\
    x = e_energy e far a (Z.min (t_levels s - 1) (Z.max 0 z)).

(** energies are sums of squares *)
Definition nonneg (d : dbl) : Prop :=
  match d with Fin x => (0 <= x)%Q | PInf => True | NInf => False | NaN => True end.

(** The oracles of one call describe one scene: the energy of a sample is the energy of the image
    of its level at the position scaled to that level, and its depth is that of its position. *)
Definition one_scene (e : env) : Prop :=
  (forall far a l, e_energy e far a l = fst (fst (e_eval e l (pos_scale (/ pow2 l) (e_point e a))))) /\
  (forall a, e_depth e a = e_triang e (Some (e_point e a))).
