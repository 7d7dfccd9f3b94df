(** Models of the motion prediction of source/system/DsoSystem.cpp (214-266) and of
    source/util/Sim3Aligner.cpp in real arithmetic. *)
From Coq Require Import Reals ZArith List.
From Verif Require Import Outcome Pose.
Import ListNotations.
Open Scope R_scope.
Open Scope outcome_scope.

(** DsoSystem.cpp 214-218 *)
Definition predict_screw (timeLastByLbo : R) (baseToLbo baseToLast : se3) : se3 :=
  let lboToLast := smul baseToLast (sinv baseToLbo) in
  smul (se3_exp (tscale timeLastByLbo (se3_log lboToLast))) baseToLast.

(** DsoSystem.cpp 220-229 *)
Definition predict_simple (timeLastByLbo : R) (baseToLbo baseToLast : se3) : se3 :=
  let lboToLast := smul baseToLast (sinv baseToLbo) in
  let lastToCurRot := so3_exp (vscale timeLastByLbo (so3_log (so3 lboToLast))) in
  let lastToCurTrans :=
    vscale timeLastByLbo (rot (qmul lastToCurRot (qconj (so3 lboToLast))) (tr lboToLast)) in
  smul (SE lastToCurRot lastToCurTrans) baseToLast.

(** DsoSystem.cpp 242-247 *)
Definition predict_internal (predictUsingScrew : bool) (t : R) (baseToLbo baseToLast : se3) : se3 :=
  if predictUsingScrew then predict_screw t baseToLbo baseToLast
  else predict_simple t baseToLbo baseToLast.

(** DsoSystem.cpp 231-240: frameNumbers from its end (current, last, last but one, ...).  [None]:
    a division by zero, the result is infinite or not a number. *)
Definition time_last_by_lbo (numbers_rev : list Z) : outcome (option R) :=
  match numbers_rev with
  | cur :: last :: lbo :: _ =>
      let prevFramesSkipped := (lbo - last)%Z in
      let lastFramesSkipped := (last - cur)%Z in
      Ok (if Z.eq_dec prevFramesSkipped 0 then None
          else Some (IZR lastFramesSkipped / IZR prevFramesSkipped))
  | _ => Abort
  end.

(** DsoSystem.cpp 249-258 and 260-266 (the same with worldToFramePredict): [table] is
    std::map::operator[], which gives the identity for a missing frame. *)
Definition predict_base_to_cur (predictUsingScrew : bool) (table : Z -> se3) (baseToWorld : se3)
           (numbers_rev : list Z) : outcome (option se3) :=
  let* t := time_last_by_lbo numbers_rev in
  match t, numbers_rev with
  | Some r, _ :: last :: lbo :: _ =>
      Ok (Some (predict_internal predictUsingScrew r (smul (table lbo) baseToWorld)
                  (smul (table last) baseToWorld)))
  | _, _ => Ok None
  end.

(** Sim3Aligner.h 22-24: the members; the scale is indeterminate ([None]) until assigned. *)
Record aligner := { scaleGTToDso : option R; gtToDso : se3 }.

Definition scale_tr (k : R) (g : se3) : se3 := SE (so3 g) (vscale k (tr g)).

(** Sim3Aligner.cpp 6-21 *)
Definition aligner_new (worldToFirst worldToSecond worldToFirstGT worldToSecondGT : se3) : aligner :=
  let fToL := smul worldToSecond (sinv worldToFirst) in
  let fToLGT := smul worldToSecondGT (sinv worldToFirstGT) in
  if Rlt_dec (vnorm (tr fToLGT)) (1 / 1000) then {| scaleGTToDso := None; gtToDso := sid |}
  else if Rlt_dec (vnorm (tr fToL)) (1 / 1000) then {| scaleGTToDso := None; gtToDso := sid |}
  else
    let s := vnorm (tr fToL) / vnorm (tr fToLGT) in
    {| scaleGTToDso := Some s;
       gtToDso := smul (sinv (scale_tr s worldToFirstGT)) worldToFirst |}.

(** Sim3Aligner.cpp 23-28; reading the indeterminate scale is undefined behaviour. *)
Definition align_world_to_frame (a : aligner) (g : se3) : outcome se3 :=
  match scaleGTToDso a with
  | None => UB
  | Some s => Ok (smul (scale_tr s g) (gtToDso a))
  end.

(** Sim3Aligner.cpp 30-32 *)
Definition align_scale (a : aligner) (p : vec) : outcome vec :=
  match scaleGTToDso a with None => UB | Some s => Ok (vscale s p) end.
