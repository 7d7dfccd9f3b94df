(** Words of the statements about the counts of a traced frame (C109). *)
From Coq Require Import List ZArith Bool.
From Verif Require Import Outcome TraceModel TallyModel.
Import ListNotations.
Open Scope Z_scope.

(** Points as they come about: new, read back or traced. *)
Inductive alive (s : tsettings) : ipoint -> Prop :=
| alive_new on : alive s (new_ipoint on)
| alive_restored p : alive s p -> alive s (restored p)
| alive_traced fuel e p st q : alive s p -> traceOn fuel s e p = Ok (st, q) -> alive s q.

(** How many elements have the property [f] *)
Definition how_many {A} (f : A -> bool) (l : list A) : Z := Z.of_nat (length (filter f l)).

(** [t] counts the results of tracing. *)
Definition counts (s : tsettings) (res : list (tstatus * ipoint)) (t : tally) : Prop :=
  y_traced t = how_many (fun r => match fst r with OK => true | _ => false end) res /\
  y_good t = how_many (fun r => isReady s (snd r)) res /\
  length (y_times t) = 8%nat /\
  (forall k, (k < 8)%nat -> nth k (y_times t) 0 = how_many (fun r => i_num (snd r) =? Z.of_nat k) res) /\
  length (y_levels t) = Z.to_nat (t_levels s) /\
  (forall k, (k < Z.to_nat (t_levels s))%nat -> nth k (y_levels t) 0 = how_many (fun r => i_level (snd r) =? Z.of_nat k) res).
Definition sum (l : list Z) : Z := fold_right Z.add 0 l.
