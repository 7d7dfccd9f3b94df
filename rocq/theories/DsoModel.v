(** Model of source/system/DsoSystem.cpp: the keyframe window, the frame history, the pose table,
    activation of points and the notifications sent to observers.

    Not modelled here: images, light parameters, the values computed by tracking, tracing, stereo
    matching and bundle adjustment.  Their results are inputs of each call ([frame_in]); the
    theorems quantify over all of them. *)
From Coq Require Import List ZArith Bool.
From Verif Require Import Outcome Dbl.
Import ListNotations.
Open Scope Z_scope.
Open Scope outcome_scope.

Section Dso.
(** Poses (Sophus SE3) with identity, composition and inverse. *)
Variable P : Type.
Variable pid : P.
Variable pmul : P -> P -> P.
Variable pinv : P -> P.
(** Immature and optimised points; [promote] is the constructor OptimizedPoint(const
    ImmaturePoint &), [ready] is ImmaturePoint::isReady (source/system/ImmaturePoint.cpp:77-79). *)
Variable IP OP : Type.
Variable promote : IP -> OP.
Variable ready : IP -> bool.

(** include/system/KeyFrame.h:19-56: number of the frame, thisToWorld, tracked frames as
    (number, baseToThis), immature and optimised points. *)
Record kf := {
  kf_num : Z;
  kf_pose : P;
  kf_tracked : list (Z * P);
  kf_imm : list IP;
  kf_opt : list OP
}.

(** The settings used by DsoSystem (include/util/settings.h:97-104,156-168,236-255). *)
Record dso_settings := {
  maxKeyFrames : Z;
  maxOptimizedPoints : Z;
  shiftBetweenKeyFrames : Z;
  trackFromLastKf : bool;
  continueChoosing : bool;
  firstFramesSkip : Z;
  initialMaxFrame : Z;
  runBA : bool
}.

(** Notifications of DsoObserver (include/output/DsoObserver.h) and of FrameTrackerObserver, and
    the entries the motion prediction reads.  Several registered observers of the same kind get
    the same calls; one log stands for all of them. *)
Inductive event :=
| EvInitialized (l : list kf)                 (* DsoSystem.cpp:410-411 *)
| EvNewKf (k : kf)                            (* 437-438, 524-525 *)
| EvNewFrame (n : Z)                          (* 449-450 *)
| EvPredict (lbo last : Z) (plbo plast : option P) (gapLast gapPrev : Z) (* 231-266 *)
| EvTracked (n : Z) (obs : list nat)          (* trackFrame with the tracker's observers *)
| EvMarg (l : list kf)                        (* 288-289 *)
| EvDestructed (l : list kf).                 (* 117-118 *)

(** DsoSystem.h:74-97.  [st_first], [st_skipped]: state of DelaunayDsoInitializer.  [st_tbl n] is
    the entry of worldToFrame, [None] if it still holds the default identity; entries from
    [st_size] on do not exist.  worldToFramePredict is assigned at the same indices by tracking
    and initialisation and has the same size; it is not kept separately. *)
Record state := {
  st_inited : bool;
  st_first : option Z;
  st_skipped : Z;
  st_kfs : list kf;
  st_nums : list Z;
  st_size : Z;
  st_tbl : Z -> option P;
  st_ftobs : list nat;
  st_tracker : option (list nat);
  st_log : list event
}.

(** Everything the environment decides during one call of addFrame.
    [fi_init]: stereo matching and point selection of the initialiser (motion between the two
    frames, points of both), may throw.  [fi_track]: result of FrameTracker::trackFrame.
    [fi_trace]: effect of tracing on the immature points of the keyframe with the given number.
    [fi_select]: points of a new keyframe.  [fi_choose count needed]: DistanceMap::choose.
    [fi_sort]: std::sort of the chosen indices by descending position.
    [fi_ba_pose], [fi_ba_opt]: result of bundle adjustment per keyframe number. *)
Record frame_in := {
  fi_num : Z;
  fi_init : outcome (P * list IP * list IP);
  fi_track : outcome P;
  fi_trace : Z -> list IP -> list IP;
  fi_select : outcome (list IP);
  fi_choose : nat -> Z -> outcome (list nat);
  fi_sort : list (Z * nat) -> list nat -> list nat;
  fi_ba_pose : Z -> P -> P;
  fi_ba_opt : Z -> list OP -> list OP
}.

(** Updates of single fields. *)
Definition set_kfs (st : state) (l : list kf) : state :=
  {| st_inited := st_inited st; st_first := st_first st; st_skipped := st_skipped st; st_kfs := l;
     st_nums := st_nums st; st_size := st_size st; st_tbl := st_tbl st; st_ftobs := st_ftobs st;
     st_tracker := st_tracker st; st_log := st_log st |}.
Definition set_tbl (st : state) (t : Z -> option P) : state :=
  {| st_inited := st_inited st; st_first := st_first st; st_skipped := st_skipped st;
     st_kfs := st_kfs st; st_nums := st_nums st; st_size := st_size st; st_tbl := t;
     st_ftobs := st_ftobs st; st_tracker := st_tracker st; st_log := st_log st |}.
Definition set_tracker (st : state) (t : option (list nat)) : state :=
  {| st_inited := st_inited st; st_first := st_first st; st_skipped := st_skipped st;
     st_kfs := st_kfs st; st_nums := st_nums st; st_size := st_size st; st_tbl := st_tbl st;
     st_ftobs := st_ftobs st; st_tracker := t; st_log := st_log st |}.
Definition emit (st : state) (es : list event) : state :=
  {| st_inited := st_inited st; st_first := st_first st; st_skipped := st_skipped st;
     st_kfs := st_kfs st; st_nums := st_nums st; st_size := st_size st; st_tbl := st_tbl st;
     st_ftobs := st_ftobs st; st_tracker := st_tracker st; st_log := st_log st ++ es |}.

(** DsoSystem.cpp:15-38: the constructor.  [ctorObs]: frame-tracker observers passed to the
    constructor, [createdObs]: those added by DSO observers during [created] (36-37), which go to
    the member copy (274-278). *)
Definition init (s : dso_settings) (ctorObs createdObs : list nat) : state :=
  {| st_inited := false; st_first := None; st_skipped := 0; st_kfs := []; st_nums := [];
     st_size := initialMaxFrame s; st_tbl := fun _ => None; st_ftobs := ctorObs ++ createdObs;
     st_tracker := None; st_log := [] |}.

(** DsoSystem.cpp:274-278. *)
Definition add_ft_observer (st : state) (o : nat) : state :=
  {| st_inited := st_inited st; st_first := st_first st; st_skipped := st_skipped st;
     st_kfs := st_kfs st; st_nums := st_nums st; st_size := st_size st; st_tbl := st_tbl st;
     st_ftobs := st_ftobs st ++ [o];
     st_tracker := match st_tracker st with Some l => Some (l ++ [o]) | None => None end;
     st_log := st_log st |}.

(** DsoSystem.h:48-56: the keyframe map is a list in increasing order of numbers.  Dereferencing
    rbegin (or its successor) of a too small map is undefined behaviour. *)
Definition last_kf (l : list kf) : outcome kf :=
  match rev l with k :: _ => Ok k | [] => UB end.
Definition lbo_kf (l : list kf) : outcome kf :=
  match rev l with _ :: k :: _ => Ok k | _ => UB end.
Definition base_kf (s : dso_settings) (l : list kf) : outcome kf :=
  if trackFromLastKf s then last_kf l else lbo_kf l.

(** std::map::insert: no effect if the number is present. *)
Fixpoint insert_kf (k : kf) (l : list kf) : list kf :=
  match l with
  | [] => [k]
  | a :: l' => if kf_num k <? kf_num a then k :: l
               else if kf_num k =? kf_num a then l else a :: insert_kf k l'
  end.

(** Modification of the keyframe with a given number. *)
Definition upd_kf (n : Z) (f : kf -> kf) (l : list kf) : list kf :=
  map (fun k => if kf_num k =? n then f k else k) l.

(** worldToFrame[n] = p *)
Definition tbl_set (size : Z) (t : Z -> option P) (n : Z) (p : P) : outcome (Z -> option P) :=
  if (0 <=? n) && (n <? size) then Ok (fun m => if m =? n then Some p else t m) else UB.

(** DsoSystem.cpp:373-379: adjustWorldToFrameSizes. *)
Definition adjust_size (size n : Z) : outcome Z :=
  if n <=? 0 then Abort
  else if size <=? n then (if n =? INT_MAX then UB else Ok (n + 1)) else Ok size.

(** DsoSystem.cpp:385-391 with DelaunayDsoInitializer.cpp:27-44: the part of addFrame before
    anything can throw. *)
Definition begin_frame (s : dso_settings) (st : state) (n : Z) : outcome state :=
  let* size := adjust_size (st_size st) n in
  if match rev (st_nums st) with [] => false | m :: _ => n <=? m end then Abort
  else
    let mk inited first skipped :=
      {| st_inited := inited; st_first := first; st_skipped := skipped; st_kfs := st_kfs st;
         st_nums := st_nums st ++ [n]; st_size := size; st_tbl := st_tbl st;
         st_ftobs := st_ftobs st; st_tracker := st_tracker st; st_log := st_log st |} in
    if st_inited st then Ok (mk true (st_first st) (st_skipped st))
    else match st_first st with
         | None => Ok (mk false (Some n) (st_skipped st))
         | Some f => if st_skipped st <? firstFramesSkip s
                     then Ok (mk false (Some f) (st_skipped st + 1))
                     else Ok (mk true (Some f) (st_skipped st))
         end.

(** DsoSystem.cpp:393-441 with DelaunayDsoInitializer.cpp:46-135: successful initialisation.
    The keyframes get the poses identity and firstToSecond^-1 (DelaunayDsoInitializer.cpp:68-69). *)
Definition finish_init (s : dso_settings) (st : state) (fi : frame_in) : outcome (state * option Z) :=
  let* r := fi_init fi in
  let '(firstToSecond, imm0, imm1) := r in
  match st_first st with
  | None => UB
  | Some f =>
    let k0 := {| kf_num := f; kf_pose := pid; kf_tracked := []; kf_imm := imm0; kf_opt := [] |} in
    let k1 := {| kf_num := fi_num fi; kf_pose := pinv firstToSecond; kf_tracked := [];
                 kf_imm := imm1; kf_opt := [] |} in
    let* t0 := tbl_set (st_size st) (st_tbl st) f (pinv (kf_pose k0)) in
    let* t1 := tbl_set (st_size st) t0 (fi_num fi) (pinv (kf_pose k1)) in
    let kfs := insert_kf k1 (insert_kf k0 (st_kfs st)) in
    let* b := base_kf s kfs in
    let* l := last_kf kfs in
    Ok (emit (set_tracker (set_tbl (set_kfs st kfs) t1) (Some (st_ftobs st)))
             [EvInitialized kfs; EvNewKf b],
        Some (kf_num l))
  end.

(** DsoSystem.cpp:268-272: doNeedKf; a zero shift between keyframes is a division by zero. *)
Definition need_kf (s : dso_settings) (n lastNum : Z) : outcome bool :=
  let shift := n - lastNum in
  if 0 <? shift then
    if shiftBetweenKeyFrames s =? 0 then UB
    else Ok (Z.rem shift (shiftBetweenKeyFrames s) =? 0)
  else Ok false.

(** DsoSystem.cpp:280-294: marginalizeFrames; (retired, kept).  The comparison converts
    maxKeyFrames to an unsigned type: a negative value is never exceeded. *)
Definition marginalize (s : dso_settings) (l : list kf) : list kf * list kf :=
  let size := Z.of_nat (length l) in
  if (0 <=? maxKeyFrames s) && (maxKeyFrames s <? size) then
    let c := Z.to_nat (size - maxKeyFrames s) in (firstn c l, skipn c l)
  else ([], l).

(** DsoSystem.cpp:311-326: positions (keyframe number, index) of the ready immature points. *)
Definition ready_positions (l : list kf) : list (Z * nat) :=
  flat_map (fun k => flat_map (fun e : nat * IP => if ready (snd e) then [(kf_num k, fst e)] else [])
                              (combine (seq 0 (length (kf_imm k))) (kf_imm k))) l.

(** DsoSystem.cpp:356-357: swap with the last element and pop. *)
Definition swap_pop {A} (ind : nat) (l : list A) : outcome (list A) :=
  match rev l with
  | [] => UB
  | lst :: rest =>
      if (S ind =? length l)%nat then Ok (rev rest)
      else if (ind <? length l)%nat then Ok (firstn ind (rev rest) ++ lst :: skipn (S ind) (rev rest))
      else UB
  end.

(** DsoSystem.cpp:350-358: activation of one point. *)
Definition activate_one (pos : list (Z * nat)) (l : list kf) (i : nat) : outcome (list kf) :=
  match nth_error pos i with
  | None => UB
  | Some (n, ind) =>
      match find (fun k => kf_num k =? n) l with
      | None => UB
      | Some k =>
          match nth_error (kf_imm k) ind with
          | None => UB
          | Some ip =>
              let* imm := swap_pop ind (kf_imm k) in
              Ok (upd_kf n (fun k => {| kf_num := kf_num k; kf_pose := kf_pose k;
                                        kf_tracked := kf_tracked k; kf_imm := imm;
                                        kf_opt := kf_opt k ++ [promote ip] |}) l)
          end
      end
  end.

(** DsoSystem.cpp:332-336 *)
Definition opt_count (l : list kf) : Z :=
  fold_right (fun k n => Z.of_nat (length (kf_opt k)) + n) 0 l.

(** DsoSystem.cpp:296-359: activateNewOptimizedPoints.  The base keyframe is dereferenced as soon
    as there is a keyframe (299). *)
Definition activate (s : dso_settings) (fi : frame_in) (l : list kf) : outcome (list kf) :=
  let pos := ready_positions l in
  let* chosen := fi_choose fi (length pos) (maxOptimizedPoints s - opt_count l) in
  ofold (activate_one pos) (fi_sort fi pos chosen) l.

(** DsoSystem.cpp:534-539: rewriting the pose table from the keyframes. *)
Definition rewrite_kf (size : Z) (t : Z -> option P) (k : kf) : outcome (Z -> option P) :=
  let w := pinv (kf_pose k) in
  let* t' := tbl_set size t (kf_num k) w in
  ofold (fun t e => tbl_set size t (fst e) (pmul (snd e) w)) (kf_tracked k) t'.

(** DsoSystem.cpp:527-540: bundle adjustment.  BundleAdjuster.cpp:102-107,143 dereferences a second
    keyframe, which is null if there is only one; with none the first is null (137). *)
Definition adjust (s : dso_settings) (fi : frame_in) (st : state) : outcome state :=
  if runBA s then
    if (length (st_kfs st) <? 2)%nat then UB
    else
      let kfs := map (fun k => {| kf_num := kf_num k; kf_pose := fi_ba_pose fi (kf_num k) (kf_pose k);
                                  kf_tracked := kf_tracked k; kf_imm := kf_imm k;
                                  kf_opt := fi_ba_opt fi (kf_num k) (kf_opt k) |}) (st_kfs st) in
      let* t := ofold (rewrite_kf (st_size st)) kfs (st_tbl st) in
      Ok (set_tbl (set_kfs st kfs) t)
  else Ok st.

(** DsoSystem.cpp:515-567: promotion to a keyframe.  The pose of the new keyframe is
    base.thisToWorld * baseToThis^-1 (KeyFrame.cpp:34-37). *)
Definition promote_kf (s : dso_settings) (st : state) (fi : frame_in) (basePose baseToThis : P)
  : outcome state :=
  let* imm := fi_select fi in
  let k := {| kf_num := fi_num fi; kf_pose := pmul basePose (pinv baseToThis); kf_tracked := [];
              kf_imm := imm; kf_opt := [] |} in
  let '(gone, kept) := marginalize s (insert_kf k (st_kfs st)) in
  let st1 := match gone with [] => set_kfs st kept | _ => emit (set_kfs st kept) [EvMarg gone] end in
  let* kfs := activate s fi kept in
  let* b := base_kf s kfs in
  let* st2 := adjust s fi (emit (set_kfs st1 kfs) [EvNewKf b]) in
  Ok (set_tracker st2 (Some (st_ftobs st2))).

(** DsoSystem.cpp:446-569: a frame of an initialised system. *)
Definition track_frame (s : dso_settings) (st : state) (fi : frame_in) : outcome (state * option Z) :=
  let n := fi_num fi in
  let* b := base_kf s (st_kfs st) in
  match rev (st_nums st) with
  | n1 :: n2 :: n3 :: _ =>
    if (0 <=? n3) && (n3 <? st_size st) && (0 <=? n2) && (n2 <? st_size st) then
      match st_tracker st with
      | None => UB
      | Some obs =>
        let* pose := fi_track fi in
        let* t := tbl_set (st_size st) (st_tbl st) n (pmul pose (pinv (kf_pose b))) in
        let traced := map (fun k => {| kf_num := kf_num k; kf_pose := kf_pose k;
                                       kf_tracked := kf_tracked k;
                                       kf_imm := fi_trace fi (kf_num k) (kf_imm k);
                                       kf_opt := kf_opt k |}) (st_kfs st) in
        let* l := last_kf (st_kfs st) in
        let* need := need_kf s n (kf_num l) in
        let kfs := if need then traced
                   else upd_kf (kf_num b)
                          (fun k => {| kf_num := kf_num k; kf_pose := kf_pose k;
                                       kf_tracked := kf_tracked k ++ [(n, pose)];
                                       kf_imm := kf_imm k; kf_opt := kf_opt k |}) traced in
        let st1 := emit (set_tbl (set_kfs st kfs) t)
                     [EvNewFrame n;
                      EvPredict n3 n2 (st_tbl st n3) (st_tbl st n2) (n2 - n1) (n3 - n2);
                      EvTracked n obs] in
        if continueChoosing s && need then
          let* st2 := promote_kf s st1 fi (kf_pose b) pose in
          Ok (st2, Some n)
        else Ok (st1, Some n)
      end
    else UB
  | _ => UB
  end.

(** DsoSystem.cpp:381-570: addFrame; the result is the number of the returned frame, if any. *)
Definition add_frame (s : dso_settings) (st : state) (fi : frame_in) : outcome (state * option Z) :=
  let* st1 := begin_frame s st (fi_num fi) in
  if st_inited st then track_frame s st1 fi
  else if st_inited st1 then finish_init s st1 fi
  else Ok (st1, None).

(** Calls of the public interface between construction and destruction. *)
Inductive call :=
| AddFrame (fi : frame_in)
| AddObserver (o : nat).

Definition do_call (s : dso_settings) (st : state) (c : call) : outcome state :=
  match c with
  | AddFrame fi => let* r := add_frame s st fi in Ok (fst r)
  | AddObserver o => Ok (add_ft_observer st o)
  end.

Definition run (s : dso_settings) (calls : list call) (st : state) : outcome state :=
  ofold (do_call s) calls st.

(** DsoSystem.cpp:112-119: the destructor. *)
Definition destroy (st : state) : list event := st_log st ++ [EvDestructed (st_kfs st)].

(** DsoSystem.cpp:40-110: the constructor from a snapshot with [nobs] DSO observers, for the
    loaded keyframes in map order.  frameNumbers gets the tracked frames once per observer
    (68-78).  lightKfToLast reads the last tracked frame of the newest keyframe or else of the one
    before it (81-84).  The tracker gets the constructor's observer list (108). *)
Fixpoint repeat_app {A} (n : nat) (l : list A) : list A :=
  match n with O => [] | S n' => l ++ repeat_app n' l end.

Definition restore_kf (nobs : nat) (st : state) (k : kf) : outcome state :=
  let w := pinv (kf_pose k) in
  let* size := adjust_size (st_size st) (kf_num k) in
  let* t := tbl_set size (st_tbl st) (kf_num k) w in
  let st1 := {| st_inited := st_inited st; st_first := st_first st; st_skipped := st_skipped st;
                st_kfs := st_kfs st; st_nums := st_nums st ++ [kf_num k]; st_size := size;
                st_tbl := t; st_ftobs := st_ftobs st; st_tracker := st_tracker st;
                st_log := st_log st |} in
  ofold (fun st (e : Z * P) =>
    let* size := adjust_size (st_size st) (fst e) in
    let* t := tbl_set size (st_tbl st) (fst e) (pmul (snd e) w) in
    Ok {| st_inited := st_inited st; st_first := st_first st; st_skipped := st_skipped st;
          st_kfs := st_kfs st; st_nums := st_nums st ++ [fst e]; st_size := size; st_tbl := t;
          st_ftobs := st_ftobs st; st_tracker := st_tracker st; st_log := st_log st |})
    (repeat_app nobs (kf_tracked k)) st1.

Definition restore (s : dso_settings) (nobs : nat) (ctorObs createdObs : list nat) (kfs : list kf)
  : outcome state :=
  if (length kfs <? 2)%nat then Abort
  else
    let st0 := {| st_inited := true; st_first := None; st_skipped := 0; st_kfs := kfs;
                  st_nums := []; st_size := initialMaxFrame s; st_tbl := fun _ => None;
                  st_ftobs := ctorObs ++ createdObs; st_tracker := None; st_log := [] |} in
    let* st := ofold (restore_kf nobs) kfs st0 in
    let* l := last_kf kfs in
    let* lbo := lbo_kf kfs in
    match kf_tracked l, kf_tracked lbo with
    | [], [] => UB
    | _, _ => Ok (set_tracker st (Some ctorObs))
    end.

End Dso.

Arguments kf_num {P IP OP} _.
Arguments kf_pose {P IP OP} _.
Arguments kf_tracked {P IP OP} _.
Arguments kf_imm {P IP OP} _.
Arguments kf_opt {P IP OP} _.
Arguments Build_kf {P IP OP}.
Arguments EvInitialized {P IP OP}.
Arguments EvNewKf {P IP OP}.
Arguments EvNewFrame {P IP OP}.
Arguments EvPredict {P IP OP}.
Arguments EvTracked {P IP OP}.
Arguments EvMarg {P IP OP}.
Arguments EvDestructed {P IP OP}.
Arguments st_inited {P IP OP} _.
Arguments st_first {P IP OP} _.
Arguments st_skipped {P IP OP} _.
Arguments st_kfs {P IP OP} _.
Arguments st_nums {P IP OP} _.
Arguments st_size {P IP OP} _.
Arguments st_tbl {P IP OP} _.
Arguments st_ftobs {P IP OP} _.
Arguments st_tracker {P IP OP} _.
Arguments st_log {P IP OP} _.
Arguments fi_num {P IP OP} _.
Arguments fi_init {P IP OP} _.
Arguments fi_track {P IP OP} _.
Arguments fi_trace {P IP OP} _.
Arguments fi_select {P IP OP} _.
Arguments fi_choose {P IP OP} _.
Arguments fi_sort {P IP OP} _.
Arguments fi_ba_pose {P IP OP} _.
Arguments fi_ba_opt {P IP OP} _.
Arguments set_kfs {P IP OP} _ _.
Arguments set_tbl {P IP OP} _ _.
Arguments set_tracker {P IP OP} _ _.
Arguments emit {P IP OP} _ _.
Arguments init {P IP OP} _ _ _.
Arguments add_ft_observer {P IP OP} _ _.
Arguments last_kf {P IP OP} _.
Arguments lbo_kf {P IP OP} _.
Arguments base_kf {P IP OP} _ _.
Arguments insert_kf {P IP OP} _ _.
Arguments upd_kf {P IP OP} _ _ _.
Arguments tbl_set {P} _ _ _ _.
Arguments begin_frame {P IP OP} _ _ _.
Arguments finish_init {P} _ _ {IP OP} _ _ _.
Arguments marginalize {P IP OP} _ _.
Arguments ready_positions {P IP OP} _ _.
Arguments activate_one {P IP OP} _ _ _ _.
Arguments opt_count {P IP OP} _.
Arguments activate {P IP OP} _ _ _ _ _.
Arguments rewrite_kf {P} _ _ {IP OP} _ _ _.
Arguments adjust {P} _ _ {IP OP} _ _ _.
Arguments promote_kf {P} _ _ {IP OP} _ _ _ _ _ _ _.
Arguments track_frame {P} _ _ {IP OP} _ _ _ _ _.
Arguments add_frame {P} _ _ _ {IP OP} _ _ _ _ _.
Arguments AddFrame {P IP OP} _.
Arguments AddObserver {P IP OP} _.
Arguments do_call {P} _ _ _ {IP OP} _ _ _ _ _.
Arguments run {P} _ _ _ {IP OP} _ _ _ _ _.
Arguments destroy {P IP OP} _.
Arguments restore_kf {P} _ _ {IP OP} _ _ _.
Arguments restore {P} _ _ {IP OP} _ _ _ _ _.
