From Coq Require Import ZArith QArith List Bool Ascii String Lia Permutation ZifyBool.
From Verif Require Import Outcome PixelSelectorModel PixelSelectorSpec PixelSelectorProofs PlyModel SelModel SelSpec SelProofs.
Import ListNotations.
Open Scope Z_scope.

Lemma folder_is d d' : folder d d' -> slashed d = d'.
Proof.
  unfold slashed. intros [[-> ->]|[[q [-> ->]]|[N [Q ->]]]].
  - reflexivity.
  - rewrite rev_app_distr. reflexivity.
  - destruct (rev d) as [|c r] eqn:E.
    + apply (f_equal (@rev ascii)) in E. rewrite rev_involutive in E. contradiction.
    + destruct (Ascii.eqb c "/") eqn:C; auto. apply Ascii.eqb_eq in C. subst c.
      apply (f_equal (@rev ascii)) in E. rewrite rev_involutive in E. exfalso. exact (Q _ E).
Qed.

Section Top.
Variable maxloc : image -> Z -> Z -> Z -> Z * Z.
Variable shuffle : nat -> list (Z * Z) -> list (Z * Z).
Variable mag : Z -> Z -> Q.
Variable imread : bytes -> option gray.
Variable opendir : bytes -> option (list bytes).
Variable fuel : nat.
Notation main := (main maxloc shuffle mag imread opendir fuel).
Notation show := (show maxloc shuffle mag imread fuel).

Lemma main_images d names l : opendir d = Some names -> NoDup names -> in_order names l ->
  main [d] = show (slashed d) (ps_init ps_default) l /\ (forall nm, In nm l -> is_image nm = true).
Proof.
  intros O N I. rewrite (in_order_unique _ _ N I). unfold SelModel.main. rewrite O, show_images. split; [reflexivity|].
  intros nm H. apply filter_In in H. apply H.
Qed.

Theorem main_shown d d' names : folder d d' -> opendir d = Some names -> NoDup names ->
  exists l rest, in_order names l /\ map (fun nm => d' ++ nm) l = map fst (fst (main [d])) ++ rest /\ (snd (main [d]) = Ok tt <-> rest = []).
Proof.
  intros F O N. apply folder_is in F. subst d'. exists (images names).
  destruct (main_images d names _ O N (images_order _ N)) as [E A]. rewrite E.
  destruct (show_prefix maxloc shuffle mag imread fuel d _ (ps_init ps_default) A) as [rest H]. exists rest. split; [now apply images_order|exact H].
Qed.

Theorem main_empty d d' names pre nm post : folder d d' -> opendir d = Some names -> NoDup names -> in_order names (pre ++ nm :: post) ->
  imread (d' ++ nm) = None ->
  (List.length (fst (main [d])) <= List.length pre)%nat /\ snd (main [d]) <> Ok tt /\
  (List.length (fst (main [d])) = List.length pre -> snd (main [d]) = Throw).
Proof.
  intros F O N I R. apply folder_is in F. subst d'. destruct (main_images d names _ O N I) as [E A]. rewrite E.
  apply show_empty; auto; intros; apply A; apply in_or_app; cbn; auto.
Qed.

Theorem main_points d names : maxloc_ok maxloc -> shuffle_ok shuffle -> mag_ok mag -> opendir d = Some names ->
  (forall f im, imread f = Some im -> proper im /\ (Z.to_nat (g_rows im) <= fuel)%nat /\ (Z.to_nat (g_cols im) <= fuel)%nat) ->
  forall f px, In (f, px) (fst (main [d])) -> exists im, imread f = Some im /\
    forall x y, In (x, y) px -> (x, y) = (0, 0) \/ (0 <= x <= g_cols im - 2 /\ 0 <= y <= g_rows im - 2 /\ 100 < slope im x y).
Proof.
  intros Mo So Ma O Rd f px H. unfold SelModel.main in H. rewrite O in H.
  destruct (show_steep maxloc shuffle mag Mo So Ma imread fuel Rd _ _ (ps_init ps_default) ltac:(discriminate) f px H) as [im [R Q]].
  exists im. split; auto. intros x y I. destruct (Q _ I) as [Z0|[A [B C]]]; auto.
Qed.

Lemma fresh_block : adapted_block ps_default (ps_init ps_default) default_pointsNum = Ok 16.
Proof. vm_compute. reflexivity. Qed.

Lemma fresh_ok g : maxloc_ok maxloc -> shuffle_ok shuffle -> (Z.to_nat (im_rows g) <= fuel)%nat -> (Z.to_nat (im_cols g) <= fuel)%nat ->
  exists px st, select maxloc shuffle fuel ps_default (ps_init ps_default) g default_pointsNum = Ok (px, st) /\ Z.of_nat (List.length px) <= 2000.
Proof.
  intros Mo So F1 F2.
  destruct (select_ok maxloc shuffle fuel ps_default _ g default_pointsNum 16 Mo So ltac:(discriminate) fresh_block ltac:(lia) ltac:(discriminate) F1 F2)
    as [res [found [cands [kept [f [S [_ [_ [_ [L _]]]]]]]]]]. exists res. eexists. split; [exact S|]. unfold default_pointsNum in L. lia.
Qed.

Lemma pref_pos im : 0 < g_cols im -> (pref_h im <=? 0) = (g_rows im * 1200 <? g_cols im).
Proof.
  intros C. unfold pref_h. destruct (g_rows im * 1200 <? g_cols im) eqn:E.
  - apply Z.leb_le. assert (g_rows im * 1200 / g_cols im < 1); [apply Z.div_lt_upper_bound; lia|lia].
  - apply Z.leb_gt. assert (1 <= g_rows im * 1200 / g_cols im); [apply Z.div_le_lower_bound; lia|lia].
Qed.

(** The first image *)
Theorem main_first d d' names nm l im : maxloc_ok maxloc -> shuffle_ok shuffle ->
  folder d d' -> opendir d = Some names -> NoDup names -> in_order names (nm :: l) ->
  imread (d' ++ nm) = Some im -> 0 < g_rows im -> 0 < g_cols im -> (Z.to_nat (g_rows im) <= fuel)%nat -> (Z.to_nat (g_cols im) <= fuel)%nat ->
  if g_rows im * 1200 <? g_cols im then main [d] = ([], Throw)
  else exists px rest, fst (main [d]) = (d' ++ nm, px) :: rest /\ Z.of_nat (List.length px) <= 2000.
Proof.
  intros Mo So F O N I R Hr Hc F1 F2. apply folder_is in F. subst d'. destruct (main_images d names _ O N I) as [E A]. rewrite E.
  cbn [SelModel.show]. assert (Ex : is_image (slashed d ++ nm) = true).
  { apply is_image_iff, image_of_slashed, is_image_iff, A. cbn; auto. }
  rewrite Ex, R. destruct (fresh_ok (grad_norm mag im) Mo So F1 F2) as [px [st [S L]]]. rewrite S, pref_pos by auto.
  destruct (g_rows im * 1200 <? g_cols im); [reflexivity|]. cbn [fst]. eauto.
Qed.

(** A dim image and another one *)
Theorem main_dim d d' names a b l ia ib : maxloc_ok maxloc -> shuffle_ok shuffle -> mag_ok mag ->
  folder d d' -> opendir d = Some names -> NoDup names -> in_order names (a :: b :: l) ->
  imread (d' ++ a) = Some ia -> imread (d' ++ b) = Some ib -> proper ia -> within 7 ia -> g_cols ia <= g_rows ia * 1200 ->
  0 < g_rows ib -> 0 < g_cols ib ->
  (Z.to_nat (g_rows ia) <= fuel)%nat -> (Z.to_nat (g_cols ia) <= fuel)%nat ->
  main [d] = ([(d' ++ a, [])], NoFuel).
Proof.
  intros Mo So Ma F O N I Ra Rb P W T Rr Cc F1 F2. apply folder_is in F. subst d'. destruct (main_images d names _ O N I) as [E A]. rewrite E.
  assert (Ex : forall nm, In nm (a :: b :: l) -> is_image (slashed d ++ nm) = true).
  { intros nm H. apply is_image_iff, image_of_slashed, is_image_iff, A, H. }
  cbn [SelModel.show]. rewrite (Ex a), Ra by (cbn; auto).
  rewrite (dim_none maxloc shuffle mag Mo So Ma fuel _ ia 16 P W fresh_block ltac:(lia) F1 F2).
  rewrite pref_pos by apply P. replace (g_rows ia * 1200 <? g_cols ia) with false by lia.
  rewrite (Ex b), Rb by (cbn; auto). rewrite zero_stuck by auto. reflexivity.
Qed.
End Top.

Theorem main_perm maxloc shuffle mag imread opendir opendir' fuel d names names' :
  opendir d = Some names -> opendir' d = Some names' -> Permutation names names' ->
  main maxloc shuffle mag imread opendir fuel [d] = main maxloc shuffle mag imread opendir' fuel [d].
Proof. intros O O' P. unfold main. rewrite O, O', (sort_same _ _ P). reflexivity. Qed.

Theorem main_alike maxloc shuffle mag imread imread' opendir fuel args : mag_ok mag -> alike imread imread' ->
  main maxloc shuffle mag imread opendir fuel args = main maxloc shuffle mag imread' opendir fuel args.
Proof.
  intros M A. unfold main. destruct args as [|d [|]]; auto. destruct (opendir d) as [names|]; auto.
  generalize (ps_init ps_default). induction (sort names) as [|nm l IH]; intros st; cbn [show]; auto.
  destruct (is_image (slashed d ++ nm)); auto. specialize (A (slashed d ++ nm)).
  destruct (imread (slashed d ++ nm)) as [a|], (imread' (slashed d ++ nm)) as [b|]; try contradiction; auto.
  destruct A as [R [C [c H]]].
  assert (E : grad_norm mag a = grad_norm mag b) by (destruct H; [eapply brighter_same|eapply negative_same]; eauto).
  assert (P : pref_h a = pref_h b) by (destruct H as [[X [Y _]]|[X [Y _]]]; unfold pref_h; now rewrite X, Y).
  rewrite E, P. destruct (select _ _ _ _ _ _ _) as [[px st']| | | |]; auto. destruct (pref_h b <=? 0); auto. now rewrite IH.
Qed.

Theorem main_args maxloc shuffle mag imread opendir fuel args : List.length args <> 1%nat ->
  main maxloc shuffle mag imread opendir fuel args = ([], Ok tt).
Proof. intros H. destruct args as [|a [|b l]]; auto. contradiction H. reflexivity. Qed.
Theorem main_none maxloc shuffle mag imread opendir fuel d : opendir d = None ->
  main maxloc shuffle mag imread opendir fuel [d] = ([], UB).
Proof. cbn. now intros ->. Qed.

(** ** Instances *)
Definition half_up (a b : Z) : Q := Z.sqrt_up (a ^ 2 + b ^ 2) # 2.
Lemma half_up_ok : mag_ok half_up.
Proof.
  split; [|split].
  - intros a b. unfold half_up, Qle. cbn [Qnum Qden]. pose proof (Z.sqrt_up_nonneg (a ^ 2 + b ^ 2)). lia.
  - intros a b c d H. unfold half_up. now rewrite H.
  - intros a b t _ _ T. unfold half_up, Qle. cbn -[Z.pow Z.mul Z.sqrt_up]. rewrite Z.mul_1_r. rewrite Z.pow_2_r with (a := t).
    replace (4 * (t * t)) with ((t * 2) * (t * 2)) by ring.
    assert (S0 : 0 <= a ^ 2 + b ^ 2) by nia. pose proof (Z.sqrt_up_spec (a ^ 2 + b ^ 2)) as Sp.
    destruct (Z.eq_dec (a ^ 2 + b ^ 2) 0) as [Z0|Z0].
    + rewrite Z0. rewrite Z.sqrt_up_eqn0 by lia. nia.
    + specialize (Sp ltac:(lia)). destruct Sp as [S1 S2]. pose proof (Z.sqrt_up_nonneg (a ^ 2 + b ^ 2)).
      set (r := Z.sqrt_up _) in *. split; intros H0; nia.
Qed.

(** A directory with a bright square on black, a grey picture, a text and an image that cannot be read *)
Definition square : gray := {| g_rows := 100; g_cols := 100; g_at := fun x y => if (20 <=? x) && (x <? 30) && (20 <=? y) && (y <? 30) then 200 else 0 |}.
Definition grey : gray := {| g_rows := 100; g_cols := 100; g_at := fun x y => 50 + (x + y) mod 8 |}.
Definition tape : gray := {| g_rows := 1; g_cols := 1300; g_at := fun _ _ => 0 |}.
Definition demo_read (f : bytes) : option gray :=
  if bytes_eqb f (lit "d/a.png") then Some square else if bytes_eqb f (lit "d/b.jpg") then Some grey
  else if bytes_eqb f (lit "d/z.png") then Some tape else None.
Definition demo_dir (l : list string) (d : bytes) : option (list bytes) := if bytes_eqb d (lit "d") then Some (map lit l) else None.
Notation demo l := (main first_max no_shuffle half_up demo_read (demo_dir l) 200 [lit "d"]).

Lemma square_proper : proper square.
Proof. repeat split; cbn; try lia; destruct (_ && _); lia. Qed.
Lemma grey_proper : proper grey.
Proof. repeat split; cbn [g_rows g_cols g_at grey]; try lia; intros; pose proof (Z.mod_pos_bound (x + y) 8 ltac:(lia)); lia. Qed.
Lemma grey_within : within 7 grey.
Proof. intros x y x' y' _ _ _ _. cbn [g_at grey]. pose proof (Z.mod_pos_bound (x + y) 8 ltac:(lia)). pose proof (Z.mod_pos_bound (x' + y') 8 ltac:(lia)). lia. Qed.
Lemma demo_folder : folder (lit "d") (lit "d/").
Proof.
  right. right. split; [discriminate|]. split; [|reflexivity]. intros q. destruct q as [|x [|y q]]; cbn; intros H; inversion H.
Qed.

(** The grey picture first: two images shown, then it goes on forever with the third. *)
Lemma demo_skip : demo ["b.jpg"; "note.txt"; "B.JPG"]%string = ([(lit "d/b.jpg", [])], Ok tt).
Proof. vm_compute. reflexivity. Qed.
Lemma demo_stuck : demo ["z.png"; "b.jpg"]%string = ([(lit "d/b.jpg", [])], NoFuel).
Proof. vm_compute. reflexivity. Qed.
Lemma demo_unread : demo ["x.jpg"; "b.jpg"; "c.png"]%string = ([(lit "d/b.jpg", [])], Throw).
Proof. vm_compute. reflexivity. Qed.
Lemma demo_points : exists px, demo ["a.png"]%string = ([(lit "d/a.png", px)], Ok tt) /\ List.length px <> 0%nat.
Proof. eexists. split; [vm_compute; reflexivity|discriminate]. Qed.
Lemma demo_thin : main first_max no_shuffle half_up demo_read (demo_dir ["z.png"]%string) 1300 [lit "d"] = ([], Throw).
Proof. vm_compute. reflexivity. Qed.

Lemma skip_refuted :
  ~ (forall maxloc shuffle mag imread opendir opendir' fuel d d' names nm, maxloc_ok maxloc -> shuffle_ok shuffle -> mag_ok mag ->
       folder d d' -> imread (d' ++ nm) = None -> opendir d = Some (nm :: names) -> opendir' d = Some names ->
       main maxloc shuffle mag imread opendir fuel [d] = main maxloc shuffle mag imread opendir' fuel [d]).
Proof.
  intros H. specialize (H first_max no_shuffle half_up demo_read (demo_dir ["x.jpg"]%string) (demo_dir []) 0%nat (lit "d") (lit "d/") [] (lit "x.jpg")
    first_max_ok no_shuffle_ok half_up_ok demo_folder eq_refl eq_refl eq_refl). vm_compute in H. discriminate.
Qed.

Lemma demo_order : in_order [lit "z.png"; lit "note.txt"; lit "b.jpg"] [lit "b.jpg"; lit "z.png"].
Proof.
  assert (N : NoDup [lit "z.png"; lit "note.txt"; lit "b.jpg"]).
  { repeat constructor; cbn; intuition discriminate. }
  exact (images_order _ N).
Qed.

Lemma demo_alike : alike demo_read (fun f => match demo_read f with Some im => Some {| g_rows := g_rows im; g_cols := g_cols im; g_at := fun x y => 255 - g_at im x y |} | None => None end).
Proof.
  intros f. destruct (demo_read f) as [a|] eqn:E; auto.
  assert (P : 0 < g_rows a /\ 0 < g_cols a).
  { unfold demo_read in E. repeat (destruct (bytes_eqb f _); [inversion E; cbn; lia|]). discriminate. }
  repeat split; try apply P. exists 255. right. repeat split.
Qed.
