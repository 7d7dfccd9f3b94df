(** C108: the program that shows selected points, and gradients. *)
From Coq Require Import ZArith QArith List Bool Ascii String Lia Permutation.
From Verif Require Import Outcome PixelSelectorModel PixelSelectorSpec PixelSelectorProofs PlyModel SelModel SelSpec SelProofs SelTop.
Import ListNotations.
Open Scope Z_scope.

(** C108: the images shown are a beginning of the list of all files named .jpg or .png, each once, in the order of
    their names; the program ends normally exactly if all are shown. *)
Theorem C108_shown : forall maxloc shuffle mag imread opendir fuel d d' names,
  folder d d' -> opendir d = Some names -> NoDup names ->
  let r := main maxloc shuffle mag imread opendir fuel [d] in
  exists l rest, in_order names l /\ map (fun nm => d' ++ nm) l = map fst (fst r) ++ rest /\ (snd r = Ok tt <-> rest = []).
Proof. exact main_shown. Qed.
Print Assumptions C108_shown.

(** C108: there is only one such order, and that in which readdir lists the files does not matter. *)
Theorem C108_order : forall names l l', NoDup names -> in_order names l -> in_order names l' -> l = l'.
Proof. exact (fun names l l' N I I' => eq_trans (in_order_unique names l N I) (eq_sym (in_order_unique names l' N I'))). Qed.
Print Assumptions C108_order.
Theorem C108_listing : forall maxloc shuffle mag imread opendir opendir' fuel d names names',
  opendir d = Some names -> opendir' d = Some names' -> Permutation names names' ->
  main maxloc shuffle mag imread opendir fuel [d] = main maxloc shuffle mag imread opendir' fuel [d].
Proof. exact main_perm. Qed.
Print Assumptions C108_listing.

(** C108: at the first file that is no readable image the program ends with an exception. *)
Theorem C108_unreadable : forall maxloc shuffle mag imread opendir fuel d d' names pre nm post,
  folder d d' -> opendir d = Some names -> NoDup names -> in_order names (pre ++ nm :: post) -> imread (d' ++ nm) = None ->
  let r := main maxloc shuffle mag imread opendir fuel [d] in
  (List.length (fst r) <= List.length pre)%nat /\ snd r <> Ok tt /\ (List.length (fst r) = List.length pre -> snd r = Throw).
Proof. exact main_empty. Qed.
Print Assumptions C108_unreadable.

(** C108: so such files are not skipped, as line 50 intends. *)
Theorem C108_skip_refuted :
  ~ (forall maxloc shuffle mag imread opendir opendir' fuel d d' names nm, maxloc_ok maxloc -> shuffle_ok shuffle -> mag_ok mag ->
       folder d d' -> imread (d' ++ nm) = None -> opendir d = Some (nm :: names) -> opendir' d = Some names ->
       main maxloc shuffle mag imread opendir fuel [d] = main maxloc shuffle mag imread opendir' fuel [d]).
Proof. exact skip_refuted. Qed.
Print Assumptions C108_skip_refuted.

(** C108: the first image is shown with at most 2000 points, unless it is more than 1200 times as wide as high: then
    the program ends with an exception. *)
Theorem C108_first : forall maxloc shuffle mag imread opendir fuel d d' names nm l im,
  maxloc_ok maxloc -> shuffle_ok shuffle ->
  folder d d' -> opendir d = Some names -> NoDup names -> in_order names (nm :: l) ->
  imread (d' ++ nm) = Some im -> 0 < g_rows im -> 0 < g_cols im ->
  (Z.to_nat (g_rows im) <= fuel)%nat -> (Z.to_nat (g_cols im) <= fuel)%nat ->
  let r := main maxloc shuffle mag imread opendir fuel [d] in
  if g_rows im * 1200 <? g_cols im then r = ([], Throw)
  else exists px rest, fst r = (d' ++ nm, px) :: rest /\ Z.of_nat (List.length px) <= 2000.
Proof. exact main_first. Qed.
Print Assumptions C108_first.

(** C108: every point shown is (0, 0) or a pixel not in the last row or column with a gradient longer than 5. *)
Theorem C108_points : forall maxloc shuffle mag imread opendir fuel d names,
  maxloc_ok maxloc -> shuffle_ok shuffle -> mag_ok mag -> opendir d = Some names ->
  (forall f im, imread f = Some im -> proper im /\ (Z.to_nat (g_rows im) <= fuel)%nat /\ (Z.to_nat (g_cols im) <= fuel)%nat) ->
  forall f px, In (f, px) (fst (main maxloc shuffle mag imread opendir fuel [d])) -> exists im, imread f = Some im /\
    forall x y, In (x, y) px -> (x, y) = (0, 0) \/ (0 <= x <= g_cols im - 2 /\ 0 <= y <= g_rows im - 2 /\ 100 < slope im x y).
Proof. exact main_points. Qed.
Print Assumptions C108_points.

(** C108: brighter, darker or negative images are shown with the same points. *)
Theorem C108_alike : forall maxloc shuffle mag imread imread' opendir fuel args, mag_ok mag -> alike imread imread' ->
  main maxloc shuffle mag imread opendir fuel args = main maxloc shuffle mag imread' opendir fuel args.
Proof. exact main_alike. Qed.
Print Assumptions C108_alike.

(** C108: if the brightness of the first image varies by at most 7, no point of it is found and the program never ends
    with the second one. *)
Theorem C108_dim_stuck : forall maxloc shuffle mag imread opendir fuel d d' names a b l ia ib,
  maxloc_ok maxloc -> shuffle_ok shuffle -> mag_ok mag ->
  folder d d' -> opendir d = Some names -> NoDup names -> in_order names (a :: b :: l) ->
  imread (d' ++ a) = Some ia -> imread (d' ++ b) = Some ib -> proper ia -> within 7 ia -> g_cols ia <= g_rows ia * 1200 ->
  0 < g_rows ib -> 0 < g_cols ib ->
  (Z.to_nat (g_rows ia) <= fuel)%nat -> (Z.to_nat (g_cols ia) <= fuel)%nat ->
  main maxloc shuffle mag imread opendir fuel [d] = ([(d' ++ a, [])], NoFuel).
Proof. exact main_dim. Qed.
Print Assumptions C108_dim_stuck.

(** C108: a directory that cannot be opened is undefined behaviour; without exactly one argument nothing happens. *)
Theorem C108_no_directory : forall maxloc shuffle mag imread opendir fuel d, opendir d = None ->
  main maxloc shuffle mag imread opendir fuel [d] = ([], UB).
Proof. exact main_none. Qed.
Print Assumptions C108_no_directory.
Theorem C108_arguments : forall maxloc shuffle mag imread opendir fuel args, List.length args <> 1%nat ->
  main maxloc shuffle mag imread opendir fuel args = ([], Ok tt).
Proof. exact main_args. Qed.
Print Assumptions C108_arguments.

(** The contracts can be met, and the hypotheses. *)
Example C108_contracts : maxloc_ok first_max /\ shuffle_ok no_shuffle /\ mag_ok half_up /\ folder (lit "d") (lit "d/").
Proof. exact (conj first_max_ok (conj no_shuffle_ok (conj half_up_ok demo_folder))). Qed.
Example C108_proper : proper square /\ proper grey /\ within 7 grey.
Proof. exact (conj square_proper (conj grey_proper grey_within)). Qed.
Example C108_in_order : in_order [lit "z.png"; lit "note.txt"; lit "b.jpg"] [lit "b.jpg"; lit "z.png"].
Proof. exact demo_order. Qed.
Example C108_ex_points : exists px, demo ["a.png"]%string = ([(lit "d/a.png", px)], Ok tt) /\ List.length px <> 0%nat.
Proof. exact demo_points. Qed.
Example C108_ex_skip : demo ["b.jpg"; "note.txt"; "B.JPG"]%string = ([(lit "d/b.jpg", [])], Ok tt).
Proof. exact demo_skip. Qed.
Example C108_ex_stuck : demo ["z.png"; "b.jpg"]%string = ([(lit "d/b.jpg", [])], NoFuel).
Proof. exact demo_stuck. Qed.
Example C108_ex_unread : demo ["x.jpg"; "b.jpg"; "c.png"]%string = ([(lit "d/b.jpg", [])], Throw).
Proof. exact demo_unread. Qed.
Example C108_ex_alike : alike demo_read (fun f => match demo_read f with Some im => Some {| g_rows := g_rows im; g_cols := g_cols im; g_at := fun x y => 255 - g_at im x y |} | None => None end).
Proof. exact demo_alike. Qed.
