(** Fields of a mesh after an assignment. *)
From Coq Require Import ZArith List Bool Arith Lia.
From Verif Require Import DelModel DelSpec.
Import ListNotations.

Lemma upd_at {A} (f : nat -> A) i x j : upd f i x j = if j =? i then x else f j.
Proof. reflexivity. Qed.
Lemma upd2_at {A} (f : nat -> nat -> A) i k x j l : upd2 f i k x j l = if (j =? i) && (l =? k) then x else f j l.
Proof. reflexivity. Qed.
Lemma upd2_same {A} (f : nat -> nat -> A) i k x : upd2 f i k x i k = x.
Proof. unfold upd2. now rewrite !Nat.eqb_refl. Qed.
Lemma upd2_row {A} (f : nat -> nat -> A) i k x j l : j <> i -> upd2 f i k x j l = f j l.
Proof. intros H. unfold upd2. apply Nat.eqb_neq in H. now rewrite H. Qed.
Lemma upd2_col {A} (f : nat -> nat -> A) i k x j l : l <> k -> upd2 f i k x j l = f j l.
Proof. intros H. unfold upd2. apply Nat.eqb_neq in H. now rewrite H, andb_false_r. Qed.

Lemma in_set_insert x y l : In x (set_insert y l) <-> x = y \/ In x l.
Proof.
  unfold set_insert. destruct (existsb (Nat.eqb y) l) eqn:E.
  - apply existsb_exists in E. destruct E as (z & Z & E). apply Nat.eqb_eq in E. subst z. split; [auto|]. intros [->|H]; assumption.
  - cbn. split; intros [H|H]; auto.
Qed.
Lemma in_set_erase x y l : In x (set_erase y l) <-> x <> y /\ In x l.
Proof. unfold set_erase. rewrite filter_In, negb_true_iff, Nat.eqb_neq. tauto. Qed.
Lemma nodup_set_insert y l : NoDup l -> NoDup (set_insert y l).
Proof.
  intros H. unfold set_insert. destruct (existsb (Nat.eqb y) l) eqn:E; [exact H|]. constructor; [|exact H].
  intros I. assert (existsb (Nat.eqb y) l = true); [|congruence]. apply existsb_exists. exists y. split; [exact I|apply Nat.eqb_refl].
Qed.
Lemma nodup_set_erase y l : NoDup l -> NoDup (set_erase y l).
Proof. apply NoDup_filter. Qed.

Section Fields.
Context {P : Type}.
Implicit Types m : mesh P.

(** membership in the sets of a vertex after the four set operations *)
Lemma VE_insE m v e u x : In x (VE (insE m v e) u) <-> (u = v /\ x = e) \/ In x (VE m u).
Proof.
  cbn. unfold upd. destruct (u =? v) eqn:E; [apply Nat.eqb_eq in E; subst|apply Nat.eqb_neq in E].
  - rewrite in_set_insert. tauto.
  - tauto.
Qed.
Lemma VE_delE m v e u x : In x (VE (delE m v e) u) <-> ~ (u = v /\ x = e) /\ In x (VE m u).
Proof.
  cbn. unfold upd. destruct (u =? v) eqn:E; [apply Nat.eqb_eq in E; subst|apply Nat.eqb_neq in E].
  - rewrite in_set_erase. tauto.
  - tauto.
Qed.
Lemma VT_insT m v e u x : In x (VT (insT m v e) u) <-> (u = v /\ x = e) \/ In x (VT m u).
Proof.
  cbn. unfold upd. destruct (u =? v) eqn:E; [apply Nat.eqb_eq in E; subst|apply Nat.eqb_neq in E].
  - rewrite in_set_insert. tauto.
  - tauto.
Qed.
Lemma VT_delT m v e u x : In x (VT (delT m v e) u) <-> ~ (u = v /\ x = e) /\ In x (VT m u).
Proof.
  cbn. unfold upd. destruct (u =? v) eqn:E; [apply Nat.eqb_eq in E; subst|apply Nat.eqb_neq in E].
  - rewrite in_set_erase. tauto.
  - tauto.
Qed.

Lemma VE_insE_nd m v e u : NoDup (VE m u) -> NoDup (VE (insE m v e) u).
Proof. intros H. cbn. unfold upd. destruct (u =? v) eqn:E; [apply Nat.eqb_eq in E; subst; apply nodup_set_insert|]; exact H. Qed.
Lemma VE_delE_nd m v e u : NoDup (VE m u) -> NoDup (VE (delE m v e) u).
Proof. intros H. cbn. unfold upd. destruct (u =? v) eqn:E; [apply Nat.eqb_eq in E; subst; apply nodup_set_erase|]; exact H. Qed.
Lemma VT_insT_nd m v e u : NoDup (VT m u) -> NoDup (VT (insT m v e) u).
Proof. intros H. cbn. unfold upd. destruct (u =? v) eqn:E; [apply Nat.eqb_eq in E; subst; apply nodup_set_insert|]; exact H. Qed.
Lemma VT_delT_nd m v e u : NoDup (VT m u) -> NoDup (VT (delT m v e) u).
Proof. intros H. cbn. unfold upd. destruct (u =? v) eqn:E; [apply Nat.eqb_eq in E; subst; apply nodup_set_erase|]; exact H. Qed.

(** sets that an assignment does not concern *)
Lemma VE_setEV m e k v : VE (setEV m e k v) = VE m. Proof. reflexivity. Qed.
Lemma VE_setET m e k v : VE (setET m e k v) = VE m. Proof. reflexivity. Qed.
Lemma VE_setTV m e k v : VE (setTV m e k v) = VE m. Proof. reflexivity. Qed.
Lemma VE_setTE m e k v : VE (setTE m e k v) = VE m. Proof. reflexivity. Qed.
Lemma VE_insT m v t : VE (insT m v t) = VE m. Proof. reflexivity. Qed.
Lemma VE_delT m v t : VE (delT m v t) = VE m. Proof. reflexivity. Qed.
Lemma VE_makeE m k : VE (makeEdges m k) = VE m. Proof. reflexivity. Qed.
Lemma VE_makeT m k : VE (makeTriangles m k) = VE m. Proof. reflexivity. Qed.
Lemma VT_setEV m e k v : VT (setEV m e k v) = VT m. Proof. reflexivity. Qed.
Lemma VT_setET m e k v : VT (setET m e k v) = VT m. Proof. reflexivity. Qed.
Lemma VT_setTV m e k v : VT (setTV m e k v) = VT m. Proof. reflexivity. Qed.
Lemma VT_setTE m e k v : VT (setTE m e k v) = VT m. Proof. reflexivity. Qed.
Lemma VT_insE m v t : VT (insE m v t) = VT m. Proof. reflexivity. Qed.
Lemma VT_delE m v t : VT (delE m v t) = VT m. Proof. reflexivity. Qed.
Lemma VT_makeE m k : VT (makeEdges m k) = VT m. Proof. reflexivity. Qed.
Lemma VT_makeT m k : VT (makeTriangles m k) = VT m. Proof. reflexivity. Qed.
End Fields.

Create HintDb mesh.
Global Hint Rewrite @VE_insE @VE_delE @VT_insT @VT_delT @VE_setEV @VE_setET @VE_setTV @VE_setTE @VE_insT @VE_delT @VE_makeE @VE_makeT
  @VT_setEV @VT_setET @VT_setTV @VT_setTE @VT_insE @VT_delE @VT_makeE @VT_makeT : mesh.

(** NoDup of the sets after a sequence of assignments *)
Ltac nodup_sets := repeat match goal with
  | |- NoDup (VE (insE _ _ _) _) => apply VE_insE_nd
  | |- NoDup (VE (delE _ _ _) _) => apply VE_delE_nd
  | |- NoDup (VT (insT _ _ _) _) => apply VT_insT_nd
  | |- NoDup (VT (delT _ _ _) _) => apply VT_delT_nd
  | |- NoDup (VE (setEV _ _ _ _) _) => rewrite VE_setEV
  | |- NoDup (VE (setET _ _ _ _) _) => rewrite VE_setET
  | |- NoDup (VE (setTV _ _ _ _) _) => rewrite VE_setTV
  | |- NoDup (VE (setTE _ _ _ _) _) => rewrite VE_setTE
  | |- NoDup (VE (insT _ _ _) _) => rewrite VE_insT
  | |- NoDup (VE (delT _ _ _) _) => rewrite VE_delT
  | |- NoDup (VE (makeEdges _ _) _) => rewrite VE_makeE
  | |- NoDup (VE (makeTriangles _ _) _) => rewrite VE_makeT
  | |- NoDup (VT (setEV _ _ _ _) _) => rewrite VT_setEV
  | |- NoDup (VT (setET _ _ _ _) _) => rewrite VT_setET
  | |- NoDup (VT (setTV _ _ _ _) _) => rewrite VT_setTV
  | |- NoDup (VT (setTE _ _ _ _) _) => rewrite VT_setTE
  | |- NoDup (VT (insE _ _ _) _) => rewrite VT_insE
  | |- NoDup (VT (delE _ _ _) _) => rewrite VT_delE
  | |- NoDup (VT (makeEdges _ _) _) => rewrite VT_makeE
  | |- NoDup (VT (makeTriangles _ _) _) => rewrite VT_makeT
  end.

Section Fields2.
Context {P : Type}.
Implicit Types m : mesh P.
(** the arrays of edges and triangles after an assignment *)
Lemma fEV_setEV m e k v : EV (setEV m e k v) = upd2 (EV m) e k v. Proof. reflexivity. Qed.
Lemma fEV_setET m e k v : EV (setET m e k v) = EV m. Proof. reflexivity. Qed.
Lemma fEV_setTV m e k v : EV (setTV m e k v) = EV m. Proof. reflexivity. Qed.
Lemma fEV_setTE m e k v : EV (setTE m e k v) = EV m. Proof. reflexivity. Qed.
Lemma fEV_insE m v e : EV (insE m v e) = EV m. Proof. reflexivity. Qed.
Lemma fEV_delE m v e : EV (delE m v e) = EV m. Proof. reflexivity. Qed.
Lemma fEV_insT m v e : EV (insT m v e) = EV m. Proof. reflexivity. Qed.
Lemma fEV_delT m v e : EV (delT m v e) = EV m. Proof. reflexivity. Qed.
Lemma fEV_makeEdges m k : EV (makeEdges m k) = EV m. Proof. reflexivity. Qed.
Lemma fEV_makeTriangles m k : EV (makeTriangles m k) = EV m. Proof. reflexivity. Qed.
Lemma fET_setEV m e k v : ET (setEV m e k v) = ET m. Proof. reflexivity. Qed.
Lemma fET_setET m e k v : ET (setET m e k v) = upd2 (ET m) e k v. Proof. reflexivity. Qed.
Lemma fET_setTV m e k v : ET (setTV m e k v) = ET m. Proof. reflexivity. Qed.
Lemma fET_setTE m e k v : ET (setTE m e k v) = ET m. Proof. reflexivity. Qed.
Lemma fET_insE m v e : ET (insE m v e) = ET m. Proof. reflexivity. Qed.
Lemma fET_delE m v e : ET (delE m v e) = ET m. Proof. reflexivity. Qed.
Lemma fET_insT m v e : ET (insT m v e) = ET m. Proof. reflexivity. Qed.
Lemma fET_delT m v e : ET (delT m v e) = ET m. Proof. reflexivity. Qed.
Lemma fET_makeEdges m k : ET (makeEdges m k) = ET m. Proof. reflexivity. Qed.
Lemma fET_makeTriangles m k : ET (makeTriangles m k) = ET m. Proof. reflexivity. Qed.
Lemma fTV_setEV m e k v : TV (setEV m e k v) = TV m. Proof. reflexivity. Qed.
Lemma fTV_setET m e k v : TV (setET m e k v) = TV m. Proof. reflexivity. Qed.
Lemma fTV_setTV m e k v : TV (setTV m e k v) = upd2 (TV m) e k v. Proof. reflexivity. Qed.
Lemma fTV_setTE m e k v : TV (setTE m e k v) = TV m. Proof. reflexivity. Qed.
Lemma fTV_insE m v e : TV (insE m v e) = TV m. Proof. reflexivity. Qed.
Lemma fTV_delE m v e : TV (delE m v e) = TV m. Proof. reflexivity. Qed.
Lemma fTV_insT m v e : TV (insT m v e) = TV m. Proof. reflexivity. Qed.
Lemma fTV_delT m v e : TV (delT m v e) = TV m. Proof. reflexivity. Qed.
Lemma fTV_makeEdges m k : TV (makeEdges m k) = TV m. Proof. reflexivity. Qed.
Lemma fTV_makeTriangles m k : TV (makeTriangles m k) = TV m. Proof. reflexivity. Qed.
Lemma fTE_setEV m e k v : TE (setEV m e k v) = TE m. Proof. reflexivity. Qed.
Lemma fTE_setET m e k v : TE (setET m e k v) = TE m. Proof. reflexivity. Qed.
Lemma fTE_setTV m e k v : TE (setTV m e k v) = TE m. Proof. reflexivity. Qed.
Lemma fTE_setTE m e k v : TE (setTE m e k v) = upd2 (TE m) e k v. Proof. reflexivity. Qed.
Lemma fTE_insE m v e : TE (insE m v e) = TE m. Proof. reflexivity. Qed.
Lemma fTE_delE m v e : TE (delE m v e) = TE m. Proof. reflexivity. Qed.
Lemma fTE_insT m v e : TE (insT m v e) = TE m. Proof. reflexivity. Qed.
Lemma fTE_delT m v e : TE (delT m v e) = TE m. Proof. reflexivity. Qed.
Lemma fTE_makeEdges m k : TE (makeEdges m k) = TE m. Proof. reflexivity. Qed.
Lemma fTE_makeTriangles m k : TE (makeTriangles m k) = TE m. Proof. reflexivity. Qed.
Lemma fnv_setEV m e k v : nv (setEV m e k v) = nv m. Proof. reflexivity. Qed.
Lemma fnv_setET m e k v : nv (setET m e k v) = nv m. Proof. reflexivity. Qed.
Lemma fnv_setTV m e k v : nv (setTV m e k v) = nv m. Proof. reflexivity. Qed.
Lemma fnv_setTE m e k v : nv (setTE m e k v) = nv m. Proof. reflexivity. Qed.
Lemma fnv_insE m v e : nv (insE m v e) = nv m. Proof. reflexivity. Qed.
Lemma fnv_delE m v e : nv (delE m v e) = nv m. Proof. reflexivity. Qed.
Lemma fnv_insT m v e : nv (insT m v e) = nv m. Proof. reflexivity. Qed.
Lemma fnv_delT m v e : nv (delT m v e) = nv m. Proof. reflexivity. Qed.
Lemma fne_setEV m e k v : ne (setEV m e k v) = ne m. Proof. reflexivity. Qed.
Lemma fne_setET m e k v : ne (setET m e k v) = ne m. Proof. reflexivity. Qed.
Lemma fne_setTV m e k v : ne (setTV m e k v) = ne m. Proof. reflexivity. Qed.
Lemma fne_setTE m e k v : ne (setTE m e k v) = ne m. Proof. reflexivity. Qed.
Lemma fne_insE m v e : ne (insE m v e) = ne m. Proof. reflexivity. Qed.
Lemma fne_delE m v e : ne (delE m v e) = ne m. Proof. reflexivity. Qed.
Lemma fne_insT m v e : ne (insT m v e) = ne m. Proof. reflexivity. Qed.
Lemma fne_delT m v e : ne (delT m v e) = ne m. Proof. reflexivity. Qed.
Lemma fnt_setEV m e k v : nt (setEV m e k v) = nt m. Proof. reflexivity. Qed.
Lemma fnt_setET m e k v : nt (setET m e k v) = nt m. Proof. reflexivity. Qed.
Lemma fnt_setTV m e k v : nt (setTV m e k v) = nt m. Proof. reflexivity. Qed.
Lemma fnt_setTE m e k v : nt (setTE m e k v) = nt m. Proof. reflexivity. Qed.
Lemma fnt_insE m v e : nt (insE m v e) = nt m. Proof. reflexivity. Qed.
Lemma fnt_delE m v e : nt (delE m v e) = nt m. Proof. reflexivity. Qed.
Lemma fnt_insT m v e : nt (insT m v e) = nt m. Proof. reflexivity. Qed.
Lemma fnt_delT m v e : nt (delT m v e) = nt m. Proof. reflexivity. Qed.
Lemma fPOS_setEV m e k v : POS (setEV m e k v) = POS m. Proof. reflexivity. Qed.
Lemma fPOS_setET m e k v : POS (setET m e k v) = POS m. Proof. reflexivity. Qed.
Lemma fPOS_setTV m e k v : POS (setTV m e k v) = POS m. Proof. reflexivity. Qed.
Lemma fPOS_setTE m e k v : POS (setTE m e k v) = POS m. Proof. reflexivity. Qed.
Lemma fPOS_insE m v e : POS (insE m v e) = POS m. Proof. reflexivity. Qed.
Lemma fPOS_delE m v e : POS (delE m v e) = POS m. Proof. reflexivity. Qed.
Lemma fPOS_insT m v e : POS (insT m v e) = POS m. Proof. reflexivity. Qed.
Lemma fPOS_delT m v e : POS (delT m v e) = POS m. Proof. reflexivity. Qed.
Lemma fIDX_setEV m e k v : IDX (setEV m e k v) = IDX m. Proof. reflexivity. Qed.
Lemma fIDX_setET m e k v : IDX (setET m e k v) = IDX m. Proof. reflexivity. Qed.
Lemma fIDX_setTV m e k v : IDX (setTV m e k v) = IDX m. Proof. reflexivity. Qed.
Lemma fIDX_setTE m e k v : IDX (setTE m e k v) = IDX m. Proof. reflexivity. Qed.
Lemma fIDX_insE m v e : IDX (insE m v e) = IDX m. Proof. reflexivity. Qed.
Lemma fIDX_delE m v e : IDX (delE m v e) = IDX m. Proof. reflexivity. Qed.
Lemma fIDX_insT m v e : IDX (insT m v e) = IDX m. Proof. reflexivity. Qed.
Lemma fIDX_delT m v e : IDX (delT m v e) = IDX m. Proof. reflexivity. Qed.
End Fields2.

Create HintDb fields.
Global Hint Rewrite @fEV_setEV @fEV_setET @fEV_setTV @fEV_setTE @fEV_insE @fEV_delE @fEV_insT @fEV_delT @fEV_makeEdges @fEV_makeTriangles @fET_setEV @fET_setET @fET_setTV @fET_setTE @fET_insE @fET_delE @fET_insT @fET_delT @fET_makeEdges @fET_makeTriangles @fTV_setEV @fTV_setET @fTV_setTV @fTV_setTE @fTV_insE @fTV_delE @fTV_insT @fTV_delT @fTV_makeEdges @fTV_makeTriangles @fTE_setEV @fTE_setET @fTE_setTV @fTE_setTE @fTE_insE @fTE_delE @fTE_insT @fTE_delT @fTE_makeEdges @fTE_makeTriangles : fields.
Global Hint Rewrite @fnv_setEV @fnv_setET @fnv_setTV @fnv_setTE @fnv_insE @fnv_delE @fnv_insT @fnv_delT @fne_setEV @fne_setET @fne_setTV @fne_setTE @fne_insE @fne_delE @fne_insT @fne_delT @fnt_setEV @fnt_setET @fnt_setTV @fnt_setTE @fnt_insE @fnt_delE @fnt_insT @fnt_delT @fPOS_setEV @fPOS_setET @fPOS_setTV @fPOS_setTE @fPOS_insE @fPOS_delE @fPOS_insT @fPOS_delT @fIDX_setEV @fIDX_setET @fIDX_setTV @fIDX_setTE @fIDX_insE @fIDX_delE @fIDX_insT @fIDX_delT : fields.
