(** Models of DsoSystem::projectOntoBaseKf and of the three places that build the reference of the
    frame tracker (source/system/DsoSystem.cpp 86-110, 122-205, 420-433, 542-566), of the point lists
    of a keyframe (source/system/KeyFrame.cpp, include/system/OptimizedPoint.h) and of
    DelaunayDsoInitializer::createKeyFrames (source/system/DelaunayDsoInitializer.cpp 46-135).
    Pixel positions are rationals (finite doubles), depths and poses real numbers. *)
From Coq Require Import ZArith QArith Reals List Bool.
From Verif Require Import Outcome Pose PyramidModel BorderModel.
Import ListNotations.
Open Scope Z_scope.
Open Scope outcome_scope.

(** ImmaturePoint::State and OptimizedPoint::State, which have the same values
    (include/system/ImmaturePoint.h 22, include/system/OptimizedPoint.h 16) *)
Inductive bstate := ACTIVE | OOB | OUTLIER.
Definition active (s : bstate) : bool := match s with ACTIVE => true | _ => false end.

(** stddev: a number, or INF as the constructor of ImmaturePoint leaves it (ImmaturePoint.cpp 29) *)
Inductive dev := Dev (d : R) | DevInf.

(** The fields of ImmaturePoint and OptimizedPoint that matter here.  [b_depth] is what
    depth(p) gives (DsoSystem.cpp 138-151); [None] is the uninitialised field of an ImmaturePoint. *)
Record bpoint := { b_pos : Q * Q; b_state : bstate; b_depth : option R; b_dev : dev }.

(** KeyFrame: thisToWorld, preKeyFrame->frame() and the two point lists *)
Record bframe := { f_pose : se3; f_image : gray; f_imm : list bpoint; f_opt : list bpoint }.

(** the template parameter PointT and getPoints, DsoSystem.cpp 122-133 *)
Inductive kind := Immature | Optimized.
Definition getPoints (k : kind) (f : bframe) : list bpoint :=
  match k with Immature => f_imm f | Optimized => f_opt f end.

(** std::map<int, KeyFrame> in the order of its keys *)
Definition frames := list (Z * bframe).

(** DsoSystem.h 48-56: keyFrames.rbegin() of an empty map and ++rbegin() beyond the first element
    are undefined. *)
Definition baseKeyFrame (fromLast : bool) (kfs : frames) : outcome (Z * bframe) :=
  match rev kfs with
  | last :: others =>
      if fromLast then Ok last else match others with lbo :: _ => Ok lbo | [] => UB end
  | [] => UB
  end.

(** p.get(): the number of the keyframe and the index in its list *)
Definition ref := (Z * nat)%type.

(** The four outputs, [None] being a null pointer. *)
Record outs := { o_points : option (list (Q * Q)); o_depths : option (list R);
                 o_ptrs : option (list ref); o_kfs : option (list Z) }.

(** DsoSystem.cpp 163-170: resize(0) *)
Definition cleared (o : outs) : outs :=
  {| o_points := option_map (fun _ => []) (o_points o); o_depths := option_map (fun _ => []) (o_depths o);
     o_ptrs := option_map (fun _ => []) (o_ptrs o); o_kfs := option_map (fun _ => []) (o_kfs o) |}.

(** DsoSystem.cpp 178-185 and 193-200: push_back on the outputs that are asked for *)
Definition push (o : outs) (x : Q * Q) (d : R) (r : ref) (n : Z) : outs :=
  {| o_points := option_map (fun l => l ++ [x]) (o_points o); o_depths := option_map (fun l => l ++ [d]) (o_depths o);
     o_ptrs := option_map (fun l => l ++ [r]) (o_ptrs o); o_kfs := option_map (fun l => l ++ [n]) (o_kfs o) |}.

(** reading the field depth *)
Definition read_depth (p : bpoint) : outcome R :=
  match b_depth p with Some d => Ok d | None => UB end.

(** Eigen's normalized(); the zero vector stays as it is *)
Definition normalized (v : vec) : vec := vscale (/ vnorm v) v.

Section Projection.
(** CameraModel::map, unmap, width and height *)
Variables (cmap : vec -> Q * Q) (unmap : Q * Q -> vec) (w h : Z).

(** DsoSystem.cpp 176-186; the depth is read only when it is asked for *)
Fixpoint own_points (n : Z) (i : nat) (ps : list bpoint) (o : outs) : outcome outs :=
  match ps with
  | [] => Ok o
  | p :: ps' =>
      if active (b_state p) then
        let* d := match o_depths o with Some _ => read_depth p | None => Ok 0%R end in
        own_points n (S i) ps' (push o (b_pos p) d (n, i) n)
      else own_points n (S i) ps' o
  end.

(** DsoSystem.cpp 188-201 *)
Fixpoint other_points (curToBase : se3) (n : Z) (i : nat) (ps : list bpoint) (o : outs) : outcome outs :=
  match ps with
  | [] => Ok o
  | p :: ps' =>
      let* d := read_depth p in
      let baseDir := act curToBase (vscale d (normalized (unmap (b_pos p)))) in
      let basePos := cmap baseDir in
      if negb (isOnImage w h basePos 0) then other_points curToBase n (S i) ps' o
      else other_points curToBase n (S i) ps' (push o basePos (vnorm baseDir) (n, i) n)
  end.

(** DsoSystem.cpp 172-204: the loop over the keyframes; two elements of the map are the same
    keyframe when their keys are the same *)
Fixpoint all_points (k : kind) (base : Z * bframe) (kfs : frames) (o : outs) : outcome outs :=
  match kfs with
  | [] => Ok o
  | (n, f) :: kfs' =>
      let* o' :=
        if n =? fst base then own_points n 0 (getPoints k f) o
        else other_points (smul (sinv (f_pose (snd base))) (f_pose f)) n 0 (getPoints k f) o in
      all_points k base kfs' o'
  end.

(** DsoSystem.cpp 158-205 *)
Definition projectOntoBaseKf (k : kind) (fromLast : bool) (kfs : frames) (o : outs) : outcome outs :=
  let* base := baseKeyFrame fromLast kfs in
  all_points k base kfs (cleared o).

(** refs[i]->stddev: the point behind a pointer *)
Definition deref (k : kind) (kfs : frames) (r : ref) : outcome bpoint :=
  match find (fun nf => fst nf =? fst r) kfs with
  | Some (_, f) => match nth_error (getPoints k f) (snd r) with Some p => Ok p | None => UB end
  | None => UB
  end.

(** 1.0 / stddev; the infinite weight of a deviation 0 has no counterpart here, the theorems assume
    deviations that are not 0 *)
Definition weight (d : dev) : R := match d with Dev x => (/ x)%R | DevInf => 0%R end.

Fixpoint weights_of (k : kind) (kfs : frames) (rs : list ref) : outcome (list R) :=
  match rs with
  | [] => Ok []
  | r :: rs' =>
      let* p := deref k kfs r in
      let* ws := weights_of k kfs rs' in
      Ok (weight (b_dev p) :: ws)
  end.

(** The three places: initialisation (DsoSystem.cpp 420-429), a new keyframe (542-552), the
    constructor from a snapshot (86-106). *)
Inductive occasion := Initialized | NewKeyFrame | Restored.

Definition point_kind (oc : occasion) (kfs : frames) : kind :=
  match oc with
  | Initialized => Immature
  | NewKeyFrame => Optimized
  | Restored => if Nat.eqb (length kfs) 2 then Immature else Optimized
  end.

Definition unfilled : outs := {| o_points := Some []; o_depths := Some []; o_ptrs := Some []; o_kfs := None |}.
Definition unfilled_init : outs := {| o_points := Some []; o_depths := Some []; o_ptrs := None; o_kfs := None |}.
Definition filled {A} (o : option (list A)) : list A := match o with Some l => l | None => [] end.

(** The DepthedImagePyramid given to the new FrameTracker: its images and depths. *)
Definition trackerReference (oc : occasion) (fromLast : bool) (levelNum : Z) (kfs : frames)
  : outcome (list gray * list dmat) :=
  let k := point_kind oc kfs in
  let* base := baseKeyFrame fromLast kfs in
  match oc with
  | Initialized =>
      let* o := projectOntoBaseKf k fromLast kfs unfilled_init in
      let ps := filled (o_points o) in
      depthedImagePyramid (f_image (snd base)) levelNum ps (filled (o_depths o)) (map (fun _ => 1%R) ps)
  | _ =>
      let* o := projectOntoBaseKf k fromLast kfs unfilled in
      let* ws := weights_of k kfs (filled (o_ptrs o)) in
      depthedImagePyramid (f_image (snd base)) levelNum (filled (o_points o)) (filled (o_depths o)) ws
  end.

(** * The point lists of a keyframe *)

(** ImmaturePoint.cpp 18-39; [ph] is residualPattern.height.  The reads of the pattern are in
    BorderModel. *)
Definition immature (ph : Z) (p : Q * Q) : bpoint :=
  {| b_pos := p; b_state := if isOnImage w h p ph then ACTIVE else OOB; b_depth := None; b_dev := DevInf |}.

(** KeyFrame.cpp 55-60; toVec2 of a cv::Point *)
Definition toVec2 (p : Z * Z) : Q * Q := (inject_Z (fst p), inject_Z (snd p)).
Definition addImmatures (ph : Z) (ps : list (Z * Z)) (imm : list bpoint) : list bpoint :=
  imm ++ map (fun p => immature ph (toVec2 p)) ps.

(** OptimizedPoint.h 23-27, 32-37: -log(depth) is kept, depth() is the exponential of its
    negative, for a positive depth the depth itself.  A depth that is not positive becomes not a
    number (or 0); the model gives UB for it and the theorems assume positive depths, as they do for
    the uninitialised depth that is read here. *)
Definition optimized_of (p : bpoint) : outcome bpoint :=
  let* d := read_depth p in
  if Rlt_dec 0 d then
    Ok {| b_pos := b_pos p; b_state := ACTIVE; b_depth := Some (exp (- - ln d)); b_dev := b_dev p |}
  else UB.

Fixpoint optimized_all (ps : list bpoint) : outcome (list bpoint) :=
  match ps with
  | [] => Ok []
  | p :: ps' => let* q := optimized_of p in let* qs := optimized_all ps' in Ok (q :: qs)
  end.

Definition with_lists (f : bframe) (imm opt : list bpoint) : bframe :=
  {| f_pose := f_pose f; f_image := f_image f; f_imm := imm; f_opt := opt |}.

(** KeyFrame.cpp 71-76 *)
Definition activateAllImmature (f : bframe) : outcome bframe :=
  let* qs := optimized_all (f_imm f) in
  Ok (with_lists f [] (f_opt f ++ qs)).

(** KeyFrame.cpp 78-86 *)
Definition deactivated (ph : Z) (p : bpoint) : bpoint :=
  let ip := immature ph (b_pos p) in
  {| b_pos := b_pos ip; b_state := b_state ip; b_depth := b_depth p; b_dev := b_dev ip |}.
Definition deactivateAllOptimized (ph : Z) (f : bframe) : bframe :=
  with_lists f (f_imm f ++ map (deactivated ph) (f_opt f)) [].

(** KeyFrame.cpp 62-69; [sel] is what pixelSelector.select returns *)
Definition selectPointsDenser (ph : Z) (sel : list (Z * Z)) (f : bframe) : bframe :=
  with_lists f (addImmatures ph sel []) [].

(** * DelaunayDsoInitializer::createKeyFrames *)

Definition set_dev (d : dev) (p : bpoint) : bpoint :=
  {| b_pos := b_pos p; b_state := b_state p; b_depth := b_depth p; b_dev := d |}.

(** KeyFrame.cpp 9-25 and DelaunayDsoInitializer.cpp 62-66: the keyframe with its first points, all
    with deviation 1; the pose is set in lines 69-70 *)
Definition first_points (ph : Z) (pose : se3) (img : gray) (sel : list (Z * Z)) : bframe :=
  {| f_pose := pose; f_image := img; f_imm := map (set_dev (Dev 1)) (addImmatures ph sel []); f_opt := [] |}.

(** DelaunayDsoInitializer.cpp 77-84; [terrain] is Terrain::operator() *)
Definition plain_depth (terrain : Q * Q -> option R) (p : bpoint) : bpoint :=
  match terrain (b_pos p) with
  | Some d => {| b_pos := b_pos p; b_state := ACTIVE; b_depth := Some d; b_dev := b_dev p |}
  | None => {| b_pos := b_pos p; b_state := OOB; b_depth := b_depth p; b_dev := b_dev p |}
  end.

(** DelaunayDsoInitializer.cpp 103-111; [terrain] is SphericalTerrain::operator() *)
Definition spherical_depth (terrain : vec -> option R) (p : bpoint) : bpoint :=
  match (if active (b_state p) then terrain (unmap (b_pos p)) else None) with
  | Some d => {| b_pos := b_pos p; b_state := ACTIVE; b_depth := Some d; b_dev := b_dev p |}
  | None => {| b_pos := b_pos p; b_state := OOB; b_depth := b_depth p; b_dev := b_dev p |}
  end.

(** DelaunayDsoInitializer.cpp 123-124 in exact arithmetic: a quotient by zero (infinite or not a
    number) and a value out of the range of int are undefined when converted to int. *)
Definition newPointsNeeded (needed total inTriang : Z) : outcome Z :=
  if inTriang =? 0 then UB
  else
    let v := Z.quot (needed * total) inTriang in
    if (-2147483648 <=? v) && (v <=? 2147483647) then Ok v else UB.

(** DelaunayDsoInitializer.cpp 103-122: depths, then the points that are not ACTIVE are erased *)
Definition one_round (terrain : vec -> option R) (ps : list bpoint) : list bpoint :=
  filter (fun p => active (b_state p)) (map (spherical_depth terrain) ps).

(** DelaunayDsoInitializer.cpp 99-128 for one keyframe: two rounds with a new selection between them;
    [select n] is what pixelSelector.select returns when n points are asked for.  The number of
    points is computed after both rounds. *)
Definition spherical_points (ph : Z) (needed : Z) (terrain : vec -> option R) (select : Z -> list (Z * Z))
  (f : bframe) : outcome bframe :=
  let total := Z.of_nat (length (f_imm f)) in
  let r1 := one_round terrain (f_imm f) in
  let* n := newPointsNeeded needed total (Z.of_nat (length r1)) in
  let f2 := selectPointsDenser ph (select n) (with_lists f r1 (f_opt f)) in
  let total2 := Z.of_nat (length (f_imm f2)) in
  let r2 := one_round terrain (f_imm f2) in
  let* _ := newPointsNeeded needed total2 (Z.of_nat (length r2)) in
  Ok (with_lists f2 r2 (f_opt f2)).

(** What one of the two frames brings. *)
Record source := {
  c_image : gray;                      (** the grey frame *)
  c_first : list (Z * Z);              (** the first selection of pixels *)
  c_again : Z -> list (Z * Z);         (** the second one *)
  c_plain : Q * Q -> option R;         (** Terrain over the matched points *)
  c_spherical : vec -> option R }.     (** SphericalTerrain over them *)

(** DelaunayDsoInitializer.cpp 46-135; [firstToSecond] is the result of stereoMatcher.match.  The
    third component tells whether the observers are called (line 130-131). *)
Definition createKeyFrames (plain : bool) (ph : Z) (needed : Z) (firstToSecond : se3) (a b : source)
  : outcome (bframe * bframe * bool) :=
  let f0 := first_points ph sid (c_image a) (c_first a) in
  let f1 := first_points ph (sinv firstToSecond) (c_image b) (c_first b) in
  if plain then
    Ok (with_lists f0 (map (plain_depth (c_plain a)) (f_imm f0)) [],
        with_lists f1 (map (plain_depth (c_plain b)) (f_imm f1)) [], false)
  else
    let* g0 := spherical_points ph needed (c_spherical a) (c_again a) f0 in
    let* g1 := spherical_points ph needed (c_spherical b) (c_again b) f1 in
    Ok (g0, g1, true).

(** The keyframes of the system right after initialisation, DsoSystem.cpp 395-404; the numbers of
    the two frames are different. *)
Definition initialFrames (n0 n1 : Z) (fs : bframe * bframe) : frames := [(n0, fst fs); (n1, snd fs)].

End Projection.
