(** Algebraic laws of brightness transforms, stated on functions of one intensity. *)
From Coq Require Import Reals.
Open Scope R_scope.

(** [h] acts like [g] followed by [f]. *)
Definition acts_as_composition (f g h : R -> R) : Prop := forall x, h x = f (g x).

(** [g] undoes [f]. *)
Definition undoes (g f : R -> R) : Prop := forall x, g (f x) = x.

(** The intensity [t] seen in the tracked frame and [b] seen in the base frame fit the affine
    transform with gain [e^a] and offset [o] exactly: e^a (t + o) = b. *)
Definition fits (a o t b : R) : Prop := exp a * (t + o) = b.
