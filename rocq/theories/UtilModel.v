(** Helpers of source/util/util.cpp: drawLeveled, setDepthColBounds, depthCol, fileInDir,
    toCvVec3bDummy. *)
From Coq Require Import ZArith QArith Ascii String List Bool.
From Verif Require Import Outcome Dbl DblArith.
Import ListNotations.
Open Scope Z_scope.
Open Scope outcome_scope.

(** * drawLeveled (util.cpp 96-121)

    An image is represented by the index of the pyramid level it shows; [None] is a default
    constructed cv::Mat.  Sizes in pixels and resampling are not modelled, the integer divisions
    and the accesses of the two arrays are. *)

(** [a[i] = x] on a std::vector; outside the bounds undefined behaviour. *)
Definition vset {A} (a : list (option A)) (i : Z) (x : A) : outcome (list (option A)) :=
  if (0 <=? i) && (i <? Z.of_nat (List.length a))
  then Ok (firstn (Z.to_nat i) a ++ Some x :: skipn (S (Z.to_nat i)) a)
  else UB.

(** C++ integer division: undefined for a zero divisor. *)
Definition idiv (a b : Z) : outcome Z := if b =? 0 then UB else Ok (Z.quot a b).

(** util.cpp 108-110 and 111-113: the loop body for pl = [from], [from]-1, ..., as long as
    pl >= [last]; [idx pl] is the array index written. *)
Fixpoint place_down (steps : nat) (pl : Z) (idx : Z -> Z) (a : list (option Z))
  : outcome (list (option Z)) :=
  match steps with
  | O => Ok a
  | S n => let* a' := vset a (idx pl) pl in place_down n (pl - 1) idx a'
  end.

(** Number of iterations of "for (; pl >= last; --pl)". *)
Definition steps_down (pl last : Z) : nat := Z.to_nat (pl - last + 1).

(** cv::hconcat / cv::vconcat of a row containing an empty image next to others fails an
    assertion inside OpenCV (exception); an empty list of images as well. *)
Fixpoint hconcat (a : list (option Z)) : outcome (list Z) :=
  match a with
  | [] => Ok []
  | None :: _ => Throw
  | Some x :: a' => let* r := hconcat a' in Ok (x :: r)
  end.

(** util.cpp 96-121: returns the levels shown in the upper and in the lower row, from left to
    right.  std::vector with a negative size throws. *)
Definition draw_leveled (num resultW : Z) : outcome (list Z * list Z) :=
  let downCnt := Z.quot num 2 in
  let upCnt := num - downCnt in
  let* _upW := idiv resultW upCnt in
  let* _downW := idiv resultW downCnt in
  if (upCnt <? 0) || (downCnt <? 0) then Throw else
  let upRes := repeat None (Z.to_nat upCnt) in
  let downRes := repeat None (Z.to_nat downCnt) in
  let n1 := steps_down (num - 1) upCnt in
  let* upRes := place_down n1 (num - 1) (fun pl => num - pl - 1) upRes in
  let pl := num - 1 - Z.of_nat n1 in
  let* downRes := place_down (steps_down pl 0) pl (fun pl => downCnt - pl - 1) downRes in
  let* upImg := hconcat upRes in
  let* downImg := hconcat downRes in
  Ok (upImg, downImg).

(** * setDepthColBounds (util.cpp 75-94) *)

(** std::sort on doubles: without NaN, a sorted rearrangement (here by insertion); with a NaN the
    comparison is no strict weak order and the call is undefined. *)
Fixpoint dinsert (x : dbl) (l : list dbl) : list dbl :=
  match l with
  | [] => [x]
  | y :: l' => if dle x y then x :: y :: l' else y :: dinsert x l'
  end.

Definition dsort (l : list dbl) : outcome (list dbl) :=
  if existsb dnan l then UB else Ok (fold_right dinsert [] l).

(** util.cpp 80-84 and 86-90: the index for one of the two flags.  [mul] is the product of the
    flag and the size as a double; the conversion to int is undefined out of range. *)
Definition quantile_index (mul : Q -> Z -> dbl) (part : Q) (size : Z) : outcome Z :=
  let* i := to_int (mul part size) in
  let i := if i <? 0 then 0 else i in
  Ok (if i >=? size then size - 1 else i).

(** util.cpp 75-94: the new (minDepthCol, maxDepthCol). *)
Definition set_depth_col_bounds (mul : Q -> Z -> dbl) (red blue : Q)
           (cur : dbl * dbl) (depths : list dbl) : outcome (dbl * dbl) :=
  match depths with
  | [] => Ok cur
  | _ =>
    let* sorted := dsort depths in
    let size := Z.of_nat (List.length sorted) in
    let* redInd := quantile_index mul red size in
    let* blueInd := quantile_index mul blue size in
    match nth_error sorted (Z.to_nat redInd), nth_error sorted (Z.to_nat blueInd) with
    | Some a, Some b => Ok (a, b)
    | _, _ => UB
    end
  end.

(** * depthCol (util.cpp 170-180) *)

(** cv::Scalar as blue, green, red; defs.h 8-10. *)
Definition scalar := (dbl * dbl * dbl)%type.
Definition CV_RED : scalar := (of_int 0, of_int 0, of_int 255).
Definition CV_GREEN : scalar := (of_int 0, of_int 255, of_int 0).
Definition CV_BLUE : scalar := (of_int 255, of_int 0, of_int 0).

Definition smul (s : scalar) (k : dbl) : scalar :=
  let '(b, g, r) := s in (dmul b k, dmul g k, dmul r k).
Definition sadd (s t : scalar) : scalar :=
  let '(b, g, r) := s in let '(b', g', r') := t in (dadd b b', dadd g g', dadd r r').

(** util.cpp 170-180.  [dist] is zero only as maxd - maxd = +0. *)
Definition depth_col (d mind maxd : dbl) : scalar :=
  if dlt d mind then CV_RED
  else if dlt maxd d then CV_BLUE
  else
    let mid := ddiv (dadd mind maxd) (of_int 2) in
    let dist := dsub maxd mid in
    if dlt mid d
    then sadd (smul CV_GREEN (ddiv (dsub maxd d) dist)) (smul CV_BLUE (ddiv (dsub d mid) dist))
    else sadd (smul CV_RED (ddiv (dsub mid d) dist)) (smul CV_GREEN (ddiv (dsub d mind) dist)).

(** Conversion double -> unsigned char: undefined when the truncated value does not fit. *)
Definition to_uchar (d : dbl) : outcome Z :=
  match d with
  | Fin q => if (0 <=? qtrunc q) && (qtrunc q <=? 255) then Ok (qtrunc q) else UB
  | _ => UB
  end.

(** util.cpp 203-205: toCvVec3bDummy. *)
Definition to_vec3b (s : scalar) : outcome (Z * Z * Z) :=
  let '(b, g, r) := s in
  let* b' := to_uchar b in let* g' := to_uchar g in let* r' := to_uchar r in Ok (b', g', r').

(** util.cpp 263-273: drawDepthedFrame, one pixel; [None] keeps the grey value. *)
Definition draw_depth_pixel (d mind maxd : dbl) : outcome (option (Z * Z * Z)) :=
  if dlt (of_int 0) d then let* c := to_vec3b (depth_col d mind maxd) in Ok (Some c)
  else Ok None.

(** * fileInDir (util.cpp 275-280) *)

(** std::string::back on a non-empty string. *)
Fixpoint string_back (s : string) : option ascii :=
  match s with
  | EmptyString => None
  | String c EmptyString => Some c
  | String _ s' => string_back s'
  end.

Definition slash : ascii := "/".

(** util.cpp 275-280. *)
Definition file_in_dir (dir file : string) : string :=
  if (1 <? Z.of_nat (String.length dir)) &&
     match string_back dir with Some c => Ascii.eqb c slash | None => false end
  then (dir ++ file)%string
  else (dir ++ "/" ++ file)%string.
