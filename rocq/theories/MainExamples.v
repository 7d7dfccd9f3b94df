(** Concrete runs of the sample program, and facts about file names (C97). *)
From Coq Require Import List ZArith Bool Lia ZifyBool.
From Verif Require Import Outcome Dbl DsoModel DsoSpec DsoExamples UtilModel MainModel MainSpec MainProofs MainLoop MainTop.
Import ListNotations.
Open Scope Z_scope.

(** ** File names *)
Section Names.
Variables start skip shift : Z.
Variables last cont : bool.
Variable fl : main_flags.
Variable plain : bool.
Variable levels : nat.
Notation out := (frame_output start skip shift last cont fl plain levels).

Lemma out_names n x : In x (names (out n)) -> snd x = n.
Proof.
  unfold frame_output, names, optional.
  repeat match goal with |- context [if ?b then _ else _] => destruct b end;
    cbn; intros H; repeat destruct H as [<-|H]; try reflexivity; destruct H.
Qed.
Lemma out_once n : NoDup (names (out n)).
Proof.
  unfold frame_output, names, optional.
  repeat match goal with |- context [if ?b then _ else _] => destruct b end; cbn;
    repeat constructor; cbn; intuition congruence.
Qed.
Lemma names_app a b : names (a ++ b) = names a ++ names b.
Proof. apply flat_map_app. Qed.

Lemma all_once l : NoDup l -> NoDup (names (flat_map out l)).
Proof.
  induction 1 as [|n l Hn _ IH]; [constructor|]. cbn [flat_map]. rewrite names_app.
  assert (Hin : forall x, In x (names (flat_map out l)) -> In (snd x) l).
  { intros x Hx. unfold names in Hx. rewrite flat_map_concat_map in Hx.
    apply in_concat in Hx as (y & Hy & Hxy). apply in_map_iff in Hy as (o & <- & Ho).
    apply in_flat_map in Ho as (k & Hk & Ho). rewrite (out_names k x); [exact Hk|].
    unfold names. apply in_flat_map. exists o. auto. }
  pose proof (out_once n) as H1. pose proof (out_names n) as H2.
  induction (names (out n)) as [|x r IHr]; [exact IH|]. inversion H1; subst. cbn [app]. constructor.
  - rewrite in_app_iff. intros [Hx|Hx]; [contradiction|]. apply Hin in Hx. rewrite (H2 x) in Hx by (left; reflexivity). contradiction.
  - apply IHr; [assumption|]. intros y Hy. apply H2. right. exact Hy.
Qed.

Lemma interp_out n : length (filter is_interp (out n)) =
  if (init_frame start skip <=? n) && negb plain && fl_write fl then 1%nat else 0%nat.
Proof.
  unfold frame_output, optional.
  destruct ((init_frame start skip <=? n) && negb plain); cbn [andb].
  - destruct (fl_write fl); cbn [andb];
      repeat match goal with |- context [if ?b then _ else _] => destruct b end; reflexivity.
  - repeat match goal with |- context [if ?b then _ else _] => destruct b end; reflexivity.
Qed.
End Names.

Lemma interp_all start skip shift last cont fl plain levels k :
  fl_write fl = true -> plain = false ->
  Z.of_nat (length (filter is_interp (flat_map (frame_output start skip shift last cont fl plain levels) (asked start k)))) =
  Z.max 0 (Z.of_nat k - Z.of_nat (S (skip_count skip))).
Proof.
  intros Hw ->. induction k as [|k IH]; [cbn; lia|].
  rewrite asked_S, flat_map_app, filter_app, app_length. cbn [flat_map]. rewrite app_nil_r, interp_out, Hw, Nat2Z.inj_add, IH.
  cbn [negb andb]. unfold init_frame. destruct (Z.leb_spec (start + 1 + Z.of_nat (skip_count skip)) (start + Z.of_nat k)); cbn [andb]; lia.
Qed.

Lemma asked_nodup start k : NoDup (asked start k).
Proof.
  unfold asked. apply FinFun.Injective_map_NoDup; [|apply seq_NoDup]. intros a b H. lia.
Qed.

Lemma names_beginning a b : beginning a b -> beginning (names a) (names b).
Proof. intros [r ->]. exists (names r). apply names_app. Qed.
Lemma nodup_beginning {A} (a b : list A) : beginning a b -> NoDup b -> NoDup a.
Proof. intros [r ->]. induction a as [|x a IH]; intros H; [constructor|]. inversion H; subst. constructor; [|auto].
  intros Hx. apply H2. apply in_app_iff. auto.
Qed.

Lemma names_filter l : names (filter of_frame l) = names l.
Proof. induction l as [|o l IH]; [reflexivity|]. unfold names in *. cbn [filter flat_map]. destruct o; cbn [of_frame flat_map named app]; rewrite IH; reflexivity. Qed.

Lemma main_once P pid pmul pinv IP OP promote ready s plain levels width fl dir reader gt image :
  fl_gt_only fl = false ->
  NoDup (names (fst (main P pid pmul pinv IP OP promote ready s plain levels width fl dir reader gt image))).
Proof.
  intros Hg. rewrite <- names_filter. eapply nodup_beginning; [apply names_beginning, (proj1 (main_images P pid pmul pinv IP OP promote ready s plain levels width fl dir reader gt image Hg))|].
  apply all_once. apply asked_nodup.
Qed.

Lemma main_interp P pid pmul pinv IP OP promote ready s plain levels width fl dir reader gt image out :
  fl_gt_only fl = false -> fl_write fl = true -> plain = false -> 0 <= fl_count fl ->
  main P pid pmul pinv IP OP promote ready s plain levels width fl dir reader gt image = (out, Ok tt) ->
  Z.of_nat (length (filter is_interp out)) = Z.max 0 (fl_count fl - Z.of_nat (S (skip_count (firstFramesSkip s)))).
Proof.
  intros Hg Hw Hp Hc E. destruct (main_images P pid pmul pinv IP OP promote ready s plain levels width fl dir reader gt image Hg) as [_ H].
  rewrite E in H. destruct (H eq_refl) as [l Hl]. cbn [fst] in Hl. rewrite Hl, !filter_app, !app_length.
  assert (Hh : filter is_interp (header fl) = []) by (unfold header, optional; destruct (fl_gt fl); reflexivity).
  rewrite Hh. cbn [filter is_interp length]. rewrite Nat.add_0_r, Nat.add_0_l.
  change (frames_asked fl) with (asked (fl_start fl) (Z.to_nat (fl_count fl))).
  rewrite interp_all by assumption. lia.
Qed.

(** ** A run: frames 3 to 11, one skipped, a keyframe every third frame *)
Definition demo_flags (write pyr debug gt : bool) (count : Z) : main_flags :=
  {| fl_write := write; fl_gt := gt; fl_gt_only := false; fl_pyr := pyr; fl_debug := debug;
     fl_track := false; fl_interp := true; fl_start := 3; fl_count := count |}.
Definition demo_main (cont : bool) (fl : main_flags) (dir : bool) : prog unit :=
  main iso iso_id iso_mul iso_inv Z Z (fun x => x) (fun x => 0 <? x) (demo true cont true) false 2 1200 fl dir
       (Ok tt) (Ok tt) (fun n => Ok (frame n)).

Lemma demo_output : demo_main true (demo_flags true true false true 7) false =
  ([WArgs; WCloud; WCloudGT;
    WDebug 3 PBlack; WTrack 3 [CBlack; CBlack];
    WDebug 4 PBlack; WTrack 4 [CBlack; CBlack];
    WInterp; SInterp; WDebug 5 PBlack; WTrack 5 [CBlack; CBlack]; WPyr 5 5;
    WInterp; SInterp; WDebug 6 (PFull 5 6 (CRes 6 0)); WTrack 6 [CRes 6 0; CRes 6 1];
    WInterp; SInterp; WDebug 7 (PFull 5 7 (CRes 7 0)); WTrack 7 [CRes 7 0; CRes 7 1];
    WInterp; SInterp; WDebug 8 (PFull 8 8 (CRes 8 0)); WTrack 8 [CRes 8 0; CRes 8 1]; WPyr 8 8;
    WInterp; SInterp; WDebug 9 (PFull 8 9 (CRes 9 0)); WTrack 9 [CRes 9 0; CRes 9 1];
    WSnapshot [3; 5; 8]], Ok tt).
Proof. vm_compute. reflexivity. Qed.

Lemma demo_gone : snd (demo_main false (demo_flags true true false true 7) false) = UB.
Proof. vm_compute. reflexivity. Qed.
Lemma demo_short : snd (demo_main true (demo_flags true true false true 2) false) = Abort /\
  snd (demo_main true (demo_flags true true false false 2) false) = Ok tt.
Proof. split; vm_compute; reflexivity. Qed.
Lemma demo_readable fl : readable iso Z Z fl (fun n => Ok (frame n)).
Proof. intros n _. exists (frame n). split; [reflexivity|apply frame_inputs_ok]. Qed.
