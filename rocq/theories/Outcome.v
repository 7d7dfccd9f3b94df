(** Outcomes shared by all models.  Undefined behaviour, a failed glog CHECK
    (process abort), a C++ exception and fuel exhaustion of a loop are separate
    outcomes, never default values. *)
From Coq Require Import List ZArith.
Import ListNotations.

Inductive outcome (A : Type) : Type :=
| Ok (a : A)        (* normal return *)
| UB                (* undefined behaviour of C++ *)
| Abort             (* failed CHECK of glog *)
| Throw             (* C++ exception *)
| NoFuel.           (* loop bound of the model exhausted *)
Arguments Ok {A} a.
Arguments UB {A}.
Arguments Abort {A}.
Arguments Throw {A}.
Arguments NoFuel {A}.

Definition bind {A B} (x : outcome A) (f : A -> outcome B) : outcome B :=
  match x with
  | Ok a => f a
  | UB => UB
  | Abort => Abort
  | Throw => Throw
  | NoFuel => NoFuel
  end.

Declare Scope outcome_scope.
Delimit Scope outcome_scope with outcome.
Notation "'let*' x ':=' e 'in' f" := (bind e (fun x => f))
  (at level 200, x pattern, e at level 100, f at level 200, right associativity)
  : outcome_scope.

Definition is_ok {A} (x : outcome A) : Prop := exists a, x = Ok a.

Lemma bind_ok_inv {A B} (x : outcome A) (f : A -> outcome B) b :
  bind x f = Ok b -> exists a, x = Ok a /\ f a = Ok b.
Proof. destruct x; simpl; intros H; try discriminate. eauto. Qed.

(** Fold over a list that stops at the first abnormal outcome. *)
Fixpoint ofold {A B} (f : A -> B -> outcome A) (l : list B) (a : A) : outcome A :=
  match l with
  | [] => Ok a
  | b :: l' => bind (f a b) (ofold f l')
  end.
