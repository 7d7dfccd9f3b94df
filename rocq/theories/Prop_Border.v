(** C38: residual patterns near the border. *)
From Coq Require Import ZArith QArith List Lia.
From Verif Require Import Outcome PyramidModel PyramidSpec BorderModel BorderSpec BorderProofs
  PixelSelectorModel PixelSelectorSpec PixelSelectorProofs.
Import ListNotations.
Open Scope Z_scope.

(** Every image, every non-empty pattern of height [ph], every point: a point closer than [ph] to
    the border is marked out of bounds; the others read the pixels of the pattern if none of them is
    to the right of or below the image, and memory outside the image if one is. *)
Theorem C38_exact : forall img pattern p ph, pattern <> [] -> is_height pattern ph ->
  (~ keeps (gcols img) (grows img) ph p -> new_point img pattern p = Ok None) /\
  (keeps (gcols img) (grows img) ph p -> sticks_out (gcols img) (grows img) pattern p -> new_point img pattern p = UB) /\
  (keeps (gcols img) (grows img) ph p -> ~ sticks_out (gcols img) (grows img) pattern p ->
   exists vs, new_point img pattern p = Ok (Some vs) /\
     Forall2 (fun o v => pixel_value img (fst p + fst o, snd p + snd o)%Q v) pattern vs).
Proof. exact new_point_exact. Qed.
Print Assumptions C38_exact.

(** The second case needs a point exactly on the right or lower line of the border test. *)
Theorem C38_line : forall w h pattern p ph, is_height pattern ph -> keeps w h ph p -> sticks_out w h pattern p ->
  (fst p == inject_Z (w - ph) \/ snd p == inject_Z (h - ph))%Q.
Proof. exact sticks_out_line. Qed.
Print Assumptions C38_line.

(** A border larger by one pixel is safe. *)
Theorem C38_wider_border : forall img pattern p ph, pattern <> [] -> is_height pattern ph ->
  keeps (gcols img) (grows img) (ph + 1) p ->
  exists vs, new_point img pattern p = Ok (Some vs) /\
    Forall2 (fun o v => pixel_value img (fst p + fst o, snd p + snd o)%Q v) pattern vs.
Proof. exact wider_border_safe. Qed.
Print Assumptions C38_wider_border.

(** With the default pattern the column gcols - 2 passes the border test and is read outside. *)
Theorem C38_border_refuted : forall img y, 4 <= gcols img -> 2 <= y <= grows img - 2 ->
  isOnImage (gcols img) (grows img) (inject_Z (gcols img - 2), inject_Z y) 2 = true /\
  new_point img default_pattern (inject_Z (gcols img - 2), inject_Z y) = UB.
Proof. exact default_column. Qed.
Print Assumptions C38_border_refuted.

(** A fresh pixel selector with default settings, asked for 909 points in a dark frame with a white
    last column, returns such a point, whatever cv::minMaxLoc picks among equal maxima and
    std::shuffle does; adding the points to a keyframe then reads outside the frame. *)
Theorem C38_selector_refuted : forall maxloc shuffle fuel g, maxloc_ok maxloc -> shuffle_ok shuffle -> (51 <= fuel)%nat ->
  gradient_norm edge_frame g ->
  exists res st, select maxloc shuffle fuel ps_default (ps_init ps_default) g 909 = Ok (res, st) /\
    addImmatures edge_frame default_pattern res = UB.
Proof. exact selector_then_UB. Qed.
Print Assumptions C38_selector_refuted.

Example C38_height : is_height default_pattern 2 /\ pattern_height default_pattern = Ok 2.
Proof. split; [exact default_height|reflexivity]. Qed.
Example C38_gradient : gradient_norm edge_frame
  {| im_rows := 51; im_cols := 51; im_at := fun x _ => if 49 <=? x then (255 # 2)%Q else 0%Q |}.
Proof.
  split; [reflexivity|]. split; [reflexivity|]. intros x y X Y. cbn [edge_frame gcols grows gat im_at] in *. unfold clampz.
  replace (51 - 1) with 50 by reflexivity. rewrite Z.sub_diag.
  replace (Z.max 0 (Z.min 50 (x - 1)) =? 50) with false by (symmetry; apply Z.eqb_neq; lia).
  destruct (Z.leb_spec 49 x).
  - replace (Z.max 0 (Z.min 50 (x + 1)) =? 50) with true by (symmetry; apply Z.eqb_eq; lia). split; [discriminate|reflexivity].
  - replace (Z.max 0 (Z.min 50 (x + 1)) =? 50) with false by (symmetry; apply Z.eqb_neq; lia). split; [discriminate|reflexivity].
Qed.
Example C38_inner_point : exists vs, new_point edge_frame default_pattern (inject_Z 48, (61 # 2)%Q) = Ok (Some vs) /\ length vs = 9%nat.
Proof. eexists. split; [vm_compute; reflexivity|reflexivity]. Qed.
