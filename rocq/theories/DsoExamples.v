(** A concrete system used to show that the hypotheses of the theorems in Prop_Dso.v are met.
    Poses are the isometries of the integer line (a non-commutative group). *)
From Coq Require Import List ZArith Bool Lia Permutation Sorting.Sorted ZifyBool.
From Verif Require Import Outcome Dbl DsoModel DsoSpec.
Import ListNotations.
Open Scope Z_scope.

Definition iso : Type := bool * Z.
Definition iso_id : iso := (false, 0).
Definition iso_mul (a b : iso) : iso :=
  (xorb (fst a) (fst b), snd a + (if fst a then - snd b else snd b)).
Definition iso_inv (a : iso) : iso := (fst a, if fst a then snd a else - snd a).

Lemma iso_laws : pose_laws iso_id iso_mul iso_inv.
Proof.
  constructor; unfold iso_mul, iso_inv, iso_id.
  - intros [[] a] [[] b] [[] c]; simpl; f_equal; lia.
  - intros [[] a]; simpl; f_equal; lia.
  - intros [[] a]; simpl; f_equal; lia.
  - intros [[] a]; simpl; f_equal; lia.
  - intros [[] a]; simpl; f_equal; lia.
Qed.

(** Stable insertion sort by descending place. *)
Definition place_of (pos : list (Z * nat)) (i : nat) : nat :=
  match nth_error pos i with Some p => snd p | None => 0%nat end.
Fixpoint ins (pos : list (Z * nat)) (i : nat) (l : list nat) : list nat :=
  match l with
  | [] => [i]
  | j :: r => if (place_of pos j <=? place_of pos i)%nat then i :: l else j :: ins pos i r
  end.
Definition sort_desc (pos : list (Z * nat)) (l : list nat) : list nat := fold_right (ins pos) [] l.

Lemma ins_perm pos i l : Permutation (i :: l) (ins pos i l).
Proof.
  induction l as [|j l IH]; simpl; [auto|]. destruct (place_of pos j <=? place_of pos i)%nat; [auto|].
  rewrite perm_swap. constructor. exact IH.
Qed.
Lemma sort_perm pos l : Permutation l (sort_desc pos l).
Proof. induction l as [|i l IH]; simpl; [constructor|]. rewrite <- ins_perm. constructor. exact IH. Qed.

Lemma ins_sorted pos i l : StronglySorted (fun a b => (place_of pos b <= place_of pos a)%nat) l ->
  StronglySorted (fun a b => (place_of pos b <= place_of pos a)%nat) (ins pos i l).
Proof.
  induction l as [|j l IH]; simpl; intros H; [repeat constructor|]. inversion H as [|? ? H1 H2]; subst.
  destruct (Nat.leb_spec (place_of pos j) (place_of pos i)).
  - constructor; [exact H|]. constructor; [lia|]. eapply Forall_impl; [|exact H2]. simpl. intros; lia.
  - constructor; [auto|]. eapply Permutation_Forall; [apply ins_perm|]. constructor; [lia|exact H2].
Qed.
Lemma sort_sorted pos l : StronglySorted (fun a b => (place_of pos b <= place_of pos a)%nat) (sort_desc pos l).
Proof. induction l; simpl; [constructor|]. apply ins_sorted; auto. Qed.

Definition frame (n : Z) : frame_in iso Z Z :=
  {| fi_num := n;
     fi_init := Ok ((true, 3), [1; -2; 5], [4; 7]);
     fi_track := Ok (Z.odd n, n);
     fi_trace := fun k l => map (fun x => if x <? 0 then x + 1 else x) l;
     fi_select := Ok [n; - n; 2 * n];
     fi_choose := fun c need => Ok (firstn (Z.to_nat need) (seq 0 c));
     fi_sort := sort_desc;
     fi_ba_pose := fun k p => iso_mul (false, k) p;
     fi_ba_opt := fun k l => map (Z.add 1) l |}.

Lemma sort_desc_ok pos res : Permutation res (sort_desc pos res) /\
  StronglySorted (fun a b => forall x y, nth_error pos a = Some x -> nth_error pos b = Some y ->
                             (snd y <= snd x)%nat) (sort_desc pos res).
Proof.
  split; [apply sort_perm|]. pose proof (sort_sorted pos res) as H.
  induction H as [|a l H1 IH H2]; constructor; auto. eapply Forall_impl; [|exact H2].
  intros b Hb x y Hx Hy. unfold place_of in Hb. rewrite Hx, Hy in Hb. exact Hb.
Qed.

Lemma NoDup_firstn {A} (l : list A) : forall n, NoDup l -> NoDup (firstn n l).
Proof.
  induction l as [|x l IH]; intros [|n] H; simpl; try constructor; inversion H; subst; auto.
  intros Hin. apply H2. rewrite <- (firstn_skipn n l). apply in_app_iff; auto.
Qed.

Lemma frame_inputs_ok n : inputs_ok (frame n).
Proof.
  unfold inputs_ok, is_ok. simpl. do 4 (split; [eauto|]). split; [|split].
  - intros c need res Hn H. simpl in H. injection H as <-. split; [|split].
    + apply NoDup_firstn, seq_NoDup.
    + intros i Hi. assert (In i (seq 0 c)). { rewrite <- (firstn_skipn (Z.to_nat need) (seq 0 c)). apply in_app_iff; auto. }
      apply in_seq in H. lia.
    + rewrite firstn_length. lia.
  - intros pos res. apply sort_desc_ok.
  - intros k l. simpl. apply map_length.
Qed.

(** Settings of the examples: 3 keyframes, 6 points, a keyframe every 3 frames, 1 skipped frame. *)
Definition demo (last cont ba : bool) : dso_settings :=
  {| maxKeyFrames := 3; maxOptimizedPoints := 6; shiftBetweenKeyFrames := 3; trackFromLastKf := last;
     continueChoosing := cont; firstFramesSkip := 1; initialMaxFrame := 4; runBA := ba |}.

Definition demo_calls (ns : list Z) : list (call iso Z Z) :=
  AddObserver 7%nat :: map (fun n => AddFrame (frame n)) ns ++ [AddObserver 8%nat].

Definition demo_run (s : dso_settings) (ns : list Z) :=
  run iso_id iso_mul iso_inv (fun x : Z => x) (fun x => 0 <? x) s (demo_calls ns) (init s [1%nat] [2%nat]).

Lemma demo_settings_ok last cont ba : settings_ok (demo last cont ba).
Proof. unfold settings_ok. simpl. repeat split; intros; lia. Qed.

Lemma demo_calls_ok ns : calls_ok inputs_ok (demo_calls ns).
Proof.
  intros fi [H|H]; [discriminate|]. apply in_app_iff in H as [H|[H|[]]]; [|discriminate].
  apply in_map_iff in H as (n & E & _). injection E as <-. apply frame_inputs_ok.
Qed.

Definition summary {P IP OP} (x : outcome (state P IP OP)) :=
  match x with
  | Ok st => Some (map shape (st_kfs st), map shape (reported (st_log st)), opt_count (st_kfs st), length (st_log st))
  | _ => None
  end.
Definition demo_numbers : list Z := [1;2;4;5;6;7;8;9;10;12;13;15;16;17;19;22;23;25;26].

Lemma demo_last : summary (demo_run (demo true true true) demo_numbers) =
  Some ([(19, []); (22, [23]); (25, [26])],
        [(1, []); (4, [5; 6]); (7, [8; 9]); (10, [12]); (13, [15]); (16, [17])], 6, 63%nat).
Proof. vm_compute. reflexivity. Qed.
Lemma demo_lbo : summary (demo_run (demo false true true) demo_numbers) =
  Some ([(19, [23]); (22, [26]); (25, [])],
        [(1, [5; 6]); (4, [8; 9]); (7, [12]); (10, [15]); (13, [17]); (16, [])], 6, 63%nat).
Proof. vm_compute. reflexivity. Qed.
Lemma demo_disabled : summary (demo_run (demo true false true) demo_numbers) =
  Some ([(1, []); (4, [5; 6; 8; 9; 12; 15; 17; 23; 26])], [], 0, 50%nat).
Proof. vm_compute. reflexivity. Qed.

(** A snapshot with one tracked frame in the newest keyframe. *)
Definition snap : list (kf iso Z Z) :=
  [ {| kf_num := 3; kf_pose := (true, 2); kf_tracked := [(4, (false, 1))]; kf_imm := [1]; kf_opt := [5] |};
    {| kf_num := 6; kf_pose := (false, 4); kf_tracked := [(7, (true, 9))]; kf_imm := []; kf_opt := [6; 7] |} ].

Lemma snap_restores nobs : In nobs [0; 1; 2]%nat ->
  is_ok (restore iso_mul iso_inv (demo true true true) nobs [1%nat] [2%nat] snap).
Proof. intros [<-|[<-|[<-|[]]]]; eexists; vm_compute; reflexivity. Qed.

(** A history in which the third frame triggers initialisation. *)
Definition failed_prefix : state iso Z Z :=
  match demo_run (demo true true true) [1; 2] with Ok st => st | _ => init (demo true true true) [] [] end.
Definition failed_state : state iso Z Z :=
  match begin_frame (demo true true true) failed_prefix 3 with Ok st => st | _ => failed_prefix end.
Lemma failed_example : begin_frame (demo true true true) failed_prefix 3 = Ok failed_state.
Proof. vm_compute. reflexivity. Qed.
