(** Specification vocabulary for the DsoSystem properties (C01-C07, C09, C10, C26, C27, C55, C56).
    The histories below are functions of the accepted frame numbers and a few settings only. *)
From Coq Require Import List ZArith Bool Permutation Sorting.Sorted.
From Verif Require Import Outcome DsoModel.
Import ListNotations.
Open Scope Z_scope.

(** Laws of rigid motions used by C06. *)
Record pose_laws {P : Type} (pid : P) (pmul : P -> P -> P) (pinv : P -> P) : Prop := {
  pl_assoc : forall a b c, pmul a (pmul b c) = pmul (pmul a b) c;
  pl_id_l : forall a, pmul pid a = a;
  pl_id_r : forall a, pmul a pid = a;
  pl_inv_l : forall a, pmul (pinv a) a = pid;
  pl_inv_r : forall a, pmul a (pinv a) = pid
}.

(** Number of frames dropped between the two initial frames. *)
Definition skip_count (skip : Z) : nat := Z.to_nat skip.

(** Frame [n] is due to become a keyframe when the newest keyframe is [k]. *)
Definition due (shift k n : Z) : bool := (k <? n) && ((n - k) mod shift =? 0).

(** History of a system: all keyframes ever created, newest first, each with the numbers of the
    frames tracked against it. *)
Definition history_step (shift : Z) (last cont : bool) (h : list (Z * list Z)) (n : Z)
  : list (Z * list Z) :=
  match h with
  | [] => []
  | (k, t) :: h' =>
      if due shift k n then (if cont then (n, []) :: h else h)
      else if last then (k, t ++ [n]) :: h'
      else match h' with
           | (k2, t2) :: h'' => (k, t) :: (k2, t2 ++ [n]) :: h''
           | [] => h
           end
  end.

Definition history (skip shift : Z) (last cont : bool) (nums : list Z) : list (Z * list Z) :=
  match nums with
  | [] => []
  | f :: r => match skipn (skip_count skip) r with
              | [] => []
              | n :: rest => fold_left (history_step shift last cont) rest [(n, []); (f, [])]
              end
  end.

(** Keyframe numbers by the cadence rule alone. *)
Fixpoint cadence (shift k : Z) (nums : list Z) : list Z :=
  match nums with
  | [] => []
  | n :: r => if due shift k n then n :: cadence shift n r else cadence shift k r
  end.

Definition expected_kfs (skip shift : Z) (cont : bool) (nums : list Z) : list Z :=
  match nums with
  | [] => []
  | f :: r => match skipn (skip_count skip) r with
              | [] => []
              | n :: rest => f :: n :: (if cont then cadence shift n rest else [])
              end
  end.

(** The frames that take part after initialisation: the two initial ones and all later ones. *)
Definition used_frames (skip : Z) (nums : list Z) : list Z :=
  match nums with
  | [] => []
  | f :: r => match skipn (skip_count skip) r with [] => [] | l => f :: l end
  end.

Section Calls.
Variables P IP OP : Type.
Notation kf := (kf P IP OP).
Notation call := (call P IP OP).
Notation event := (event P IP OP).
Notation frame_in := (frame_in P IP OP).

(** Frame numbers and observers of a sequence of calls. *)
Definition numbers (cs : list call) : list Z :=
  flat_map (fun c => match c with AddFrame fi => [fi_num fi] | AddObserver _ => [] end) cs.
Definition observers_added (cs : list call) : list nat :=
  flat_map (fun c => match c with AddFrame _ => [] | AddObserver o => [o] end) cs.

(** What the observers have been told. *)
Definition reported (log : list event) : list kf :=
  flat_map (fun e => match e with
                     | EvMarg l => l
                     | EvDestructed l => l
                     | _ => []
                     end) log.

Definition shape (k : kf) : Z * list Z := (kf_num k, map fst (kf_tracked k)).

(** Contracts of the inputs of one call, needed by the counting properties only:
    - the choice returns distinct valid positions, not more than needed (C12);
    - bundle adjustment keeps the number of optimised points. *)
Definition choice_ok (fi : frame_in) : Prop :=
  forall n need res, 0 <= need -> fi_choose fi n need = Ok res ->
    NoDup res /\ (forall i, In i res -> (i < n)%nat) /\ Z.of_nat (length res) <= need.
Definition ba_ok (fi : frame_in) : Prop :=
  forall n l, length (fi_ba_opt fi n l) = length l.
(** std::sort by descending index: a permutation with non-increasing indices. *)
Definition sort_ok (fi : frame_in) : Prop :=
  forall pos res, Permutation res (fi_sort fi pos res) /\
    StronglySorted (fun a b => forall x y, nth_error pos a = Some x -> nth_error pos b = Some y ->
                               (snd y <= snd x)%nat) (fi_sort fi pos res).

Definition calls_ok (Q : frame_in -> Prop) (cs : list call) : Prop :=
  forall fi, In (AddFrame fi) cs -> Q fi.

End Calls.

Arguments numbers {P IP OP} _.
Arguments observers_added {P IP OP} _.
Arguments reported {P IP OP} _.
Arguments shape {P IP OP} _.
Arguments choice_ok {P IP OP} _.
Arguments ba_ok {P IP OP} _.
Arguments sort_ok {P IP OP} _.
Arguments calls_ok {P IP OP} _ _.

(** Settings under which the system never leaves defined behaviour, and inputs of a call for which
    the components outside the model return normally within their contracts (C65). *)
Definition settings_ok (s : dso_settings) : Prop :=
  1 <= maxKeyFrames s /\ shiftBetweenKeyFrames s <> 0 /\ 0 <= maxOptimizedPoints s /\
  (trackFromLastKf s = false -> 2 <= maxKeyFrames s) /\ (runBA s = true -> 2 <= maxKeyFrames s).

Definition inputs_ok {P IP OP} (fi : frame_in P IP OP) : Prop :=
  is_ok (fi_init fi) /\ is_ok (fi_track fi) /\ is_ok (fi_select fi) /\
  (forall n need, 0 <= need -> is_ok (fi_choose fi n need)) /\
  choice_ok fi /\ sort_ok fi /\ ba_ok fi.

(** The elements of a list at given places. *)
Definition at_places {A} (l : list A) (inds : list nat) : list A :=
  flat_map (fun i => match nth_error l i with Some x => [x] | None => [] end) inds.

(** Places inside keyframe [n] among the chosen positions. *)
Definition places (pos : list (Z * nat)) (n : Z) (chosen : list nat) : list nat :=
  flat_map (fun i => match nth_error pos i with
                     | Some (m, ind) => if m =? n then [ind] else []
                     | None => [] end) chosen.

(** How a keyframe changes when the immature points at places [inds] are activated (C10). *)
Definition activated {P IP OP} (promote : IP -> OP) (inds : list nat) (k k' : kf P IP OP) : Prop :=
  kf_num k' = kf_num k /\ kf_pose k' = kf_pose k /\ kf_tracked k' = kf_tracked k /\
  length (at_places (kf_imm k) inds) = length inds /\
  Permutation (kf_imm k) (at_places (kf_imm k) inds ++ kf_imm k') /\
  kf_opt k' = kf_opt k ++ map promote (at_places (kf_imm k) inds).

(** All frames of a list of keyframes: each keyframe followed by the frames tracked against it. *)
Definition frames_of {P IP OP} (l : list (kf P IP OP)) : list Z :=
  flat_map (fun k => kf_num k :: map fst (kf_tracked k)) l.
