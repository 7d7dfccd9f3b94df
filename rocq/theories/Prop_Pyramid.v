(** C39, C40: image and depth pyramids. *)
From Coq Require Import ZArith QArith Reals List Lia Lra.
From Verif Require Import Outcome PyramidModel PyramidSpec PyramidProofs.
Import ListNotations.
Open Scope Z_scope.

(** ** C39 *)
(** Byte images of any size; every level of a pyramid of any height. *)
Theorem C39_sizes : forall base L images l img, 0 <= grows base -> 0 <= gcols base ->
  imagePyramid base L = Ok images -> nth_error images l = Some img ->
  grows img = grows base / 2 ^ Z.of_nat l /\ gcols img = gcols base / 2 ^ Z.of_nat l.
Proof. exact pyramid_sizes. Qed.
Print Assumptions C39_sizes.

Theorem C39_levels : forall base L, 1 <= L ->
  exists images, imagePyramid base L = Ok images /\ length images = Z.to_nat L /\ nth_error images 0 = Some base.
Proof. exact pyramid_levels. Qed.
Print Assumptions C39_levels.

(** Each pixel is the mean of the four below it, rounded down. *)
Theorem C39_mean_of_four : forall base L images l img img' x y, (forall x y, 0 <= gat base x y <= 255) ->
  imagePyramid base L = Ok images -> nth_error images l = Some img -> nth_error images (S l) = Some img' ->
  let s := gat img (2 * x) (2 * y) + gat img (2 * x + 1) (2 * y)
           + gat img (2 * x) (2 * y + 1) + gat img (2 * x + 1) (2 * y + 1) in
  4 * gat img' x y <= s < 4 * gat img' x y + 4.
Proof. exact pyramid_mean4. Qed.
Print Assumptions C39_mean_of_four.

(** A pixel is between the extreme values of its block of the full image. *)
Theorem C39_between : forall base L images l img x y lo hi, (forall x y, 0 <= gat base x y <= 255) ->
  imagePyramid base L = Ok images -> nth_error images l = Some img ->
  (forall bx by_, in_block (Z.of_nat l) x y bx by_ -> lo <= gat base bx by_ <= hi) ->
  lo <= gat img x y <= hi.
Proof. exact pyramid_between. Qed.
Print Assumptions C39_between.

Theorem C39_constant : forall base L images l img x y c, (forall x y, 0 <= gat base x y <= 255) ->
  imagePyramid base L = Ok images -> nth_error images l = Some img ->
  (forall bx by_, in_block (Z.of_nat l) x y bx by_ -> gat base bx by_ = c) ->
  gat img x y = c.
Proof. exact pyramid_constant. Qed.
Print Assumptions C39_constant.

(** It is at most the mean of the block and at most 3/4 l below it (both sides times 4^l). *)
Theorem C39_darkening : forall base L images l img x y, (forall x y, 0 <= gat base x y <= 255) ->
  imagePyramid base L = Ok images -> nth_error images l = Some img ->
  4 ^ Z.of_nat l * gat img x y <= block_total l x y (gat base) /\
  4 * block_total l x y (gat base) <= 4 ^ Z.of_nat l * (4 * gat img x y + 3 * Z.of_nat l).
Proof. exact pyramid_darkening. Qed.
Print Assumptions C39_darkening.

(** The bound on the darkening is attained at every level. *)
Theorem C39_darkening_tight : forall l, (l <= 255)%nat -> exists base,
  (forall x y, 0 <= gat base x y <= 255) /\
  forall images img, imagePyramid base (Z.of_nat l + 1) = Ok images -> nth_error images l = Some img ->
  4 * block_total l 0 0 (gat base) = 4 ^ Z.of_nat l * (4 * gat img 0 0 + 3 * Z.of_nat l).
Proof. exact darkening_tight. Qed.
Print Assumptions C39_darkening_tight.

Definition c39_image : gray := {| grows := 5; gcols := 6; gat := fun x y => (17 * x + 31 * y) mod 256 |}.
Example C39_case : (forall x y, 0 <= gat c39_image x y <= 255) /\
  exists images img, imagePyramid c39_image 3 = Ok images /\ nth_error images 2 = Some img /\
    grows img = 1 /\ gcols img = 1 /\ gat img 0 0 = 72.
Proof.
  split; [intros x y; change (gat c39_image x y) with ((17 * x + 31 * y) mod 256); pose proof (Z.mod_pos_bound (17 * x + 31 * y) 256 ltac:(lia)); lia|].
  exists (pyr_levels 3 c39_image), (boxFilterPyrDown (boxFilterPyrDown c39_image)).
  split; [reflexivity|]. split; [reflexivity|]. split; [reflexivity|]. split; [reflexivity|]. vm_compute. reflexivity.
Qed.

(** ** C40 *)
Theorem C40_weighted_mean : forall base L points ds ws,
  1 <= L -> length points = length ds -> length ds = length ws ->
  Forall (inside (gcols base) (grows base)) points ->
  exists images depths D W,
    depthedImagePyramid base L points ds ws = Ok (images, depths) /\
    imagePyramid base L = Ok images /\ length depths = Z.to_nat L /\
    deposited points ds ws D W /\
    (exists m, nth_error depths 0 = Some m /\ dcols m = gcols base /\ drows m = grows base /\
      forall x y, dat m x y = D x y /\ (none_in points x y -> D x y = (-1)%R)) /\
    (forall l m, (1 <= l)%nat -> nth_error depths l = Some m ->
      dcols m = gcols base / 2 ^ Z.of_nat l /\ drows m = grows base / 2 ^ Z.of_nat l /\
      forall x y, 0 <= x -> 0 <= y -> cell_value l x y D W (dat m x y)).
Proof. exact depth_pyramid. Qed.
Print Assumptions C40_weighted_mean.

Theorem C40_between : forall points ds ws D W l x y v lo hi,
  deposited points ds ws D W -> cell_value l x y D W v -> Forall (fun w => (0 <= w)%R) ws ->
  (1 / 100000000 < block_rtotal l x y W)%R ->
  (forall i p d, nth_error points i = Some p -> nth_error ds i = Some d ->
    (exists bx by_, in_block (Z.of_nat l) x y bx by_ /\ in_pixel (fst p) bx /\ in_pixel (snd p) by_) ->
    (lo <= d <= hi)%R) ->
  (lo <= v <= hi)%R.
Proof. exact depth_between. Qed.
Print Assumptions C40_between.

(** The last pixel column is excluded: a point on the right border, which the border test of the
    caller lets through, is written outside the matrix. *)
Theorem C40_border_refuted : forall base y d w, 0 < gcols base -> 0 <= y < grows base ->
  depthedImagePyramid base 1 [(inject_Z (gcols base), inject_Z y)] [d] [w] = UB.
Proof. exact border_point. Qed.
Print Assumptions C40_border_refuted.

Example C40_case : Forall (inside 4 4) [(1 # 2, 3 # 2)%Q; (7 # 2, 0)%Q; (1 # 3, 5 # 3)%Q] /\
  last_in [(1 # 2, 3 # 2)%Q; (7 # 2, 0)%Q; (1 # 3, 5 # 3)%Q] 0 1 2 /\
  in_block 1 0 0 0 1.
Proof.
  split; [|split].
  - repeat (constructor; [unfold inside, Qle, Qlt; cbn; lia|]); constructor.
  - split.
    + exists (1 # 3, 5 # 3)%Q. repeat split; discriminate.
    + intros j p J N. do 3 (destruct j as [|j]; [lia|]). destruct j; discriminate.
  - unfold in_block. lia.
Qed.
