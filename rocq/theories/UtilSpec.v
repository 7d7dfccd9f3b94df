(** Specifications for the helpers of util.cpp. *)
From Coq Require Import ZArith QArith Ascii String List Bool.
From Verif Require Import Dbl.
Import ListNotations.
Open Scope Z_scope.

(** The rows of a two-row picture show the levels num-1, ..., 0, the coarse half above. *)
Definition shows_all_levels (num : Z) (up down : list Z) : Prop :=
  up ++ down = map (fun i => num - 1 - Z.of_nat i) (seq 0 (Z.to_nat num)) /\
  List.length up = List.length down.

(** Comparison of doubles without NaN, by value. *)
Definition dleP (a b : dbl) : Prop := dle a b = true.
Definition deq (a b : dbl) : Prop := dleP a b /\ dleP b a.

Definition count (p : dbl -> bool) (l : list dbl) : nat := List.length (filter p l).

(** [v] is the [k]-th smallest (from 0) of the list: at most [k] elements are smaller and more than
    [k] are not larger. *)
Definition order_statistic (k : nat) (l : list dbl) (v : dbl) : Prop :=
  In v l /\ (count (fun x => dlt x v) l <= k < count (fun x => dle x v) l)%nat.

Definition in_bounds (c : dbl) : Prop := dleP (of_int 0) c /\ dleP c (of_int 255).

(** Unix paths: absolute or not, and the components between slashes (repeated slashes count as
    one). *)
Definition is_absolute (p : string) : bool :=
  match p with String c _ => Ascii.eqb c "/" | EmptyString => false end.

(** Components of [acc] followed by the rest. *)
Fixpoint comps_from (acc : string) (p : string) : list string :=
  match p with
  | EmptyString => match acc with EmptyString => [] | _ => [acc] end
  | String c p' =>
    if Ascii.eqb c "/"
    then match acc with EmptyString => comps_from EmptyString p'
                      | _ => acc :: comps_from EmptyString p' end
    else comps_from (acc ++ String c EmptyString) p'
  end.
Definition components (p : string) : list string := comps_from EmptyString p.

(** A path as the operating system reads it. *)
Definition path_of (p : string) : bool * list string := (is_absolute p, components p).
