(** Specification vocabulary for snapshots (C22-C25). *)
From Coq Require Import Ascii String ZArith List Bool Sorting.Sorted.
From Verif Require Import Outcome Dbl SnapshotModel.
Import ListNotations.
Open Scope Z_scope.

Section Spec.
Variable D : Type.
Notation skf := (skf D).
Notation ipt := (ipt D).
Notation opt := (opt D).
Notation pkf := (pkf D).
Notation num k := (p_num (k_pre k)).

(** Contract of the text form of doubles: a word that reads back as the same value. *)
Definition codec_ok (dprint : D -> list ascii) (dparse : list ascii -> option D) : Prop :=
  forall x, dparse (dprint x) = Some x /\ dprint x <> [] /\
    Forall (fun c => c <> " "%char /\ c <> "010"%char) (dprint x).

(** What a snapshot can hold: normalised rotations, arrays of the pattern size, int-sized counts. *)
Definition pkf_ok (qnormalize : D * D * D * D -> D * D * D * D) (f : pkf) : Prop :=
  qnormalize (fst (p_pose f)) = fst (p_pose f) /\ INT_MIN <= p_num f <= INT_MAX.
Definition imm_ok (ps : nat) (p : ipt) : Prop :=
  (1 <= ps)%nat /\ length (i_dirs p) = ps /\ length (i_int p) = ps /\ length (i_grad p) = ps /\ length (i_gradn p) = ps /\
  INT_MIN <= i_state p <= INT_MAX.
Definition kf_ok (ps : nat) (qnormalize : D * D * D * D -> D * D * D * D) (k : skf) : Prop :=
  pkf_ok qnormalize (k_pre k) /\ qnormalize (fst (k_pose k)) = fst (k_pose k) /\
  Forall (imm_ok ps) (k_imm k) /\ Forall (pkf_ok qnormalize) (k_tracked k) /\
  Z.of_nat (length (k_imm k)) <= INT_MAX /\ Z.of_nat (length (k_opt k)) <= INT_MAX /\
  Z.of_nat (length (k_tracked k)) <= INT_MAX.

(** Equality of everything a snapshot is meant to keep. *)
Definition imm_same (a b : ipt) : Prop :=
  i_p a = i_p b /\ i_dirs a = i_dirs b /\ i_int a = i_int b /\ i_grad a = i_grad b /\ i_gradn a = i_gradn b /\
  i_min a = i_min b /\ i_max a = i_max b /\ i_depth a = i_depth b /\ i_quality a = i_quality b /\
  i_energy a = i_energy b /\ i_stddev a = i_stddev b /\ i_state a = i_state b.
Definition opt_same (a b : opt) : Prop :=
  o_p a = o_p b /\ o_logInv a = o_logInv b /\ o_stddev a = o_stddev b.
Definition kf_same (a b : skf) : Prop :=
  k_pre a = k_pre b /\ k_pose a = k_pose b /\ k_light a = k_light b /\
  Forall2 imm_same (k_imm a) (k_imm b) /\ Forall2 opt_same (k_opt a) (k_opt b) /\ k_tracked a = k_tracked b.

(** The loaded map holds exactly these keyframes, by increasing number. *)
Definition holds (m : list (Z * skf)) (ks : list skf) : Prop :=
  StronglySorted Z.lt (map fst m) /\
  (forall n k', In (n, k') m -> exists k, In k ks /\ num k = n /\ kf_same k k') /\
  (forall k, In k ks -> exists k', In (num k, k') m /\ kf_same k k').

(** Frames tracked by several keyframes are saved under one name. *)
Definition tracked_consistent (ks : list skf) : Prop :=
  forall a b, In a (flat_map k_tracked ks) -> In b (flat_map k_tracked ks) -> p_num a = p_num b -> a = b.

(** State of a directory after saving keyframes one after the other: per keyframe number the one
    saved last; its tracked frames as saved last under their numbers. *)
Definition last_kf (hist : list skf) (n : Z) : option skf := find (fun k => num k =? n) (rev hist).
Definition last_tracked (hist : list skf) (n : Z) : option pkf :=
  find (fun t => p_num t =? n) (rev (flat_map k_tracked hist)).
Definition refresh (hist : list skf) (k : skf) : skf :=
  {| k_pre := k_pre k; k_pose := k_pose k; k_light := k_light k; k_imm := k_imm k; k_opt := k_opt k;
     k_tracked := map (fun t => match last_tracked hist (p_num t) with Some u => u | None => t end) (k_tracked k) |}.
Definition merged (hist : list skf) (ks : list skf) : Prop :=
  forall k, In k ks <-> exists n k0, last_kf hist n = Some k0 /\ k = refresh hist k0.

(** A directory without keyframe directories (an empty one, for example). *)
Definition clean (f : fs) : Prop :=
  NoDup (fs_dirs f) /\ forall d, In d (fs_dirs f) -> firstn 2 d <> list_ascii_of_string "kf".

(** Several snapshots saved into the same directory, each with its depth colour file. *)
Fixpoint saves dprint dneg dexp dzero (ps : nat) (l : list (list ascii * list skf)) (f : fs) : outcome fs :=
  match l with
  | [] => Ok f
  | (cols, ks) :: r => bind (save dprint dneg dexp dzero ps cols ks f) (saves dprint dneg dexp dzero ps r)
  end.
End Spec.
Arguments codec_ok {D}. Arguments kf_ok {D}. Arguments imm_same {D}. Arguments opt_same {D}. Arguments kf_same {D}.
Arguments holds {D}. Arguments tracked_consistent {D}. Arguments last_kf {D}. Arguments last_tracked {D}.
Arguments refresh {D}. Arguments merged {D}. Arguments imm_ok {D}. Arguments pkf_ok {D}.
Arguments saves {D}.
