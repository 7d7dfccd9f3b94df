(** Models of include/util/util.h (boxFilterPyrDown), source/util/ImagePyramid.cpp,
    source/util/DepthedImagePyramid.cpp and of pyrNUpDepth (source/util/util.cpp).  Depths and
    weights are real numbers (the float roundings of pyrNUpDepth are not modelled), point
    coordinates are rationals (finite doubles). *)
From Coq Require Import ZArith QArith Reals List Bool.
From Verif Require Import Outcome.
Import ListNotations.
Open Scope Z_scope.
Open Scope outcome_scope.

(** cv::Mat1b: [gat x y] is row [y], column [x]. *)
Record gray := { grows : Z; gcols : Z; gat : Z -> Z -> Z }.

(** util.h 86-99 for unsigned char: accumulation in int, integer division by 4, conversion to
    unsigned char.  The loop writes every pixel of the result exactly once; here it is the
    function of the pixel. *)
Definition boxFilterPyrDown (img : gray) : gray :=
  {| grows := Z.quot (grows img) 2; gcols := Z.quot (gcols img) 2;
     gat := fun x y =>
       let accum := gat img (2 * x) (2 * y) + gat img (2 * x + 1) (2 * y)
                    + gat img (2 * x) (2 * y + 1) + gat img (2 * x + 1) (2 * y + 1) in
       Z.quot accum 4 mod 256 |}.

(** ImagePyramid.cpp 9-10: the levels after the first. *)
Fixpoint pyr_levels (n : nat) (img : gray) : list gray :=
  match n with
  | O => []
  | S m => img :: pyr_levels m (boxFilterPyrDown img)
  end.

(** ImagePyramid.cpp 6-11: a negative number of levels makes std::vector throw, for zero levels
    images[0] does not exist. *)
Definition imagePyramid (base : gray) (levelNum : Z) : outcome (list gray) :=
  if levelNum <? 0 then Throw
  else if levelNum =? 0 then UB
  else Ok (pyr_levels (Z.to_nat levelNum) base).

(** util.cpp 207: int() of a double, truncation towards zero. *)
Definition qtrunc (q : Q) : Z := Z.quot (Qnum q) (Zpos (Qden q)).
Definition toCvPoint (p : Q * Q) : Z * Z := (qtrunc (fst p), qtrunc (snd p)).

(** cv::Mat1d. *)
Record dmat := { drows : Z; dcols : Z; dat : Z -> Z -> R }.

(** Assignment to an element; outside the matrix undefined behaviour. *)
Definition dset (m : dmat) (p : Z * Z) (v : R) : outcome dmat :=
  let (x, y) := p in
  if (0 <=? x) && (x <? dcols m) && (0 <=? y) && (y <? drows m)
  then Ok {| drows := drows m; dcols := dcols m;
             dat := fun x' y' => if (x' =? x) && (y' =? y) then v else dat m x' y' |}
  else UB.

(** DepthedImagePyramid.cpp 20-24 *)
Fixpoint insert_points (pts : list (Q * Q * R * R)) (depths weights : dmat) : outcome (dmat * dmat) :=
  match pts with
  | [] => Ok (depths, weights)
  | (p, d, w) :: pts' =>
      let* depths' := dset depths (toCvPoint p) d in
      let* weights' := dset weights (toCvPoint p) w in
      insert_points pts' depths' weights'
  end.

(** Sum of f 0 .. f (n-1). *)
Fixpoint rsum (n : nat) (f : nat -> R) : R :=
  match n with O => 0%R | S m => (rsum m f + f m)%R end.

(** cv::integral: one row and one column more; the element (x, y) is the sum over all elements
    above and to the left. *)
Definition integral (m : dmat) : dmat :=
  {| drows := drows m + 1; dcols := dcols m + 1;
     dat := fun x y => rsum (Z.to_nat y) (fun j => rsum (Z.to_nat x) (fun i => dat m (Z.of_nat i) (Z.of_nat j))) |}.

(** util.cpp 238-261; the matrix of the result is a function of the pixel. *)
Definition pyrNUpDepth (iwd iw : dmat) (levelNum : Z) : dmat :=
  let d := Z.shiftl 1 levelNum in
  {| drows := Z.shiftr (drows iwd - 1) levelNum; dcols := Z.shiftr (dcols iwd - 1) levelNum;
     dat := fun x y =>
       let origX := Z.shiftl x levelNum in
       let origY := Z.shiftl y levelNum in
       let box m := (dat m (origX + d) (origY + d) - dat m (origX + d) origY
                     - dat m origX (origY + d) + dat m origX origY)%R in
       let depthsSum := box iwd in
       let weightsSum := box iw in
       if Rlt_dec (1 / 100000000) (Rabs weightsSum) then (depthsSum / weightsSum)%R else (-1)%R |}.

(** DepthedImagePyramid.cpp 7-35: the images and the depths. *)
Definition depthedImagePyramid (base : gray) (levelNum : Z)
  (points : list (Q * Q)) (depthsVec weightsVec : list R) : outcome (list gray * list dmat) :=
  let* images := imagePyramid base levelNum in
  if (Nat.eqb (length points) (length depthsVec)) && (Nat.eqb (length depthsVec) (length weightsVec)) then
    let depths0 := {| drows := grows base; dcols := gcols base; dat := fun _ _ => (-1)%R |} in
    let weights0 := {| drows := grows base; dcols := gcols base; dat := fun _ _ => 0%R |} in
    let* dw := insert_points (combine (combine points depthsVec) weightsVec) depths0 weights0 in
    let (depths, weights) := dw in
    let weighted := {| drows := drows depths; dcols := dcols depths;
                       dat := fun x y => (dat depths x y * dat weights x y)%R |} in
    let iwd := integral weighted in
    let iw := integral weights in
    Ok (images, depths :: map (fun il => pyrNUpDepth iwd iw (Z.of_nat il)) (seq 1 (Z.to_nat levelNum - 1)))
  else Abort.
