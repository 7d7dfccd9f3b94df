(** Tracing of an immature point along the epipolar curve: source/system/ImmaturePoint.cpp.
    Positions are exact rational pairs; camera, triangulation, interpolation and the predicted
    deviation of one call are oracles collected in [env]. *)
From Coq Require Import List ZArith QArith Bool.
From Verif Require Import Outcome Dbl DblArith.
Import ListNotations.
Open Scope outcome_scope.
Open Scope Z_scope.

Definition pos : Type := Q * Q.
Definition pos_add (a b : pos) : pos := (fst a + fst b, snd a + snd b)%Q.
Definition pos_sub (a b : pos) : pos := (fst a - fst b, snd a - snd b)%Q.
Definition pos_scale (k : Q) (a : pos) : pos := (k * fst a, k * snd a)%Q.

(** settings.h: the fields of PointTracerSettings used by traceOn; [t_ps] is PS, [t_th] is TH,
    [t_levels] is PL (ImmaturePoint.cpp 13-16). *)
Record tsettings := {
  t_full : bool; t_gn : Z; t_levels : Z; t_impr : Q; t_opt_dev : Q; t_search_rel : Q; t_tests : Z;
  t_second_dist : Q; t_second_factor : Q; t_energy_factor : Q; t_quality : Q; t_th : Q; t_ps : Z }.

(** ImmaturePoint.h: enum State *)
Inductive pstate := ACTIVE | OOB | OUTLIER.

(** ImmaturePoint.h: enum TracingStatus *)
Inductive tstatus :=
| OK | WAS_OOB | BIG_PREDICTED_ERROR | EPIPOLAR_OOB | TOO_COARSE_PYR_LEVEL | INF_DEPTH | INF_ENERGY
| BIG_ENERGY | SMALL_ABS_SECOND_BEST | LOW_QUALITY.

(** ImmaturePoint.h: the fields that change during tracing.  [i_depth] is None while the field is
    not initialised.  lastGeomVar, lastFullVar and depthBeforeSubpixel (only written) are left out. *)
Record ipoint := {
  i_state : pstate; i_min : dbl; i_max : dbl; i_depth : option dbl; i_quality : dbl;
  i_energy : dbl; i_dev : dbl; i_traced : bool; i_num : Z; i_level : Z; i_changed : option bool;
  i_before : option dbl; i_after : option dbl }.

(** ImmaturePoint.cpp 18-39; [on] is cam->isOnImage(p, PH) *)
Definition new_ipoint (on : bool) : ipoint :=
  {| i_state := if on then ACTIVE else OOB; i_min := Fin 0; i_max := PInf; i_depth := None;
     i_quality := Fin (-1); i_energy := PInf; i_dev := PInf; i_traced := false; i_num := 0;
     i_level := 0; i_changed := None; i_before := None; i_after := None |}.

Definition is_pinf (d : dbl) : bool := match d with PInf => true | _ => false end.

(** ImmaturePoint.cpp 53-75 with serialization.cpp 31-51: the point that is read back after [p] was
    written.  Text conversion of the doubles is exact here (SnapshotModel has the text format);
    writing an uninitialised depth is not modelled. *)
Definition restored (p : ipoint) : ipoint :=
  let t := negb (is_pinf (i_max p)) in
  {| i_state := i_state p; i_min := i_min p; i_max := i_max p; i_depth := i_depth p;
     i_quality := i_quality p; i_energy := i_energy p; i_dev := i_dev p; i_traced := t;
     i_num := if t then 1 else 0; i_level := 0; i_changed := Some false;
     i_before := None; i_after := None |}.

Definition pstate_eqb (a b : pstate) : bool :=
  match a, b with ACTIVE, ACTIVE | OOB, OOB | OUTLIER, OUTLIER => true | _, _ => false end.

(** ImmaturePoint.cpp 77-79 *)
Definition isReady (s : tsettings) (p : ipoint) : bool :=
  pstate_eqb (i_state p) ACTIVE && dlt (i_dev p) (Fin (t_opt_dev s)).

(** What one call of traceOn sees.
    [e_dev]: std::sqrt(estVariance(searchDirection)), lines 224-233;
    [e_opposite]: the test of line 87; [e_meets]: intersectOnSphere, line 98;
    [e_wh]: width + height; [e_point a]: cam->map (or the point of cam->diffMap) of
    (1 - a) * dirMax + a * dirMin; [e_delta a]: 1 / norm of lines 131-132;
    [e_on]: cam->isOnImage(_, PH); [e_depth a]: triangulated depth, line 270;
    [e_level inf a]: the double of line 281 before the conversion to int, [inf] telling the two
    branches of line 265 apart; [e_energy inf a l]: lines 295-302 on level l;
    [e_dir from to]: normalised difference; [e_eval l p]: (newEnergy, H, b) of lines 162-181;
    [e_triang p]: depth of a ray through a position, None being a position that is not finite. *)
Record env := {
  e_dev : dbl; e_opposite : bool; e_meets : bool; e_wh : Z;
  e_point : dbl -> pos; e_delta : dbl -> dbl; e_on : pos -> bool;
  e_depth : dbl -> dbl; e_level : bool -> dbl -> dbl; e_energy : bool -> dbl -> Z -> dbl;
  e_dir : pos -> pos -> pos; e_eval : Z -> pos -> dbl * dbl * dbl; e_triang : option pos -> dbl }.

Definition sample : Type := pos * dbl.

(** ImmaturePoint.cpp 120-139: one do-while pass; the alpha after the pass is returned too. *)
Fixpoint sweep (fuel : nat) (s : tsettings) (e : env) (maxc : Z) (alpha : dbl) (cnt : Z)
  : outcome (list sample * dbl) :=
  match fuel with
  | O => NoFuel
  | S f =>
      let point := e_point e alpha in
      let alpha' := dadd alpha (e_delta e alpha) in
      let cnt' := cnt + 1 in
      if negb (t_full s) && (maxc <=? cnt') then Ok ([(point, alpha)], alpha')
      else if dle (Fin 0) alpha' && dle alpha' (Fin 1) && e_on e point then
        let* r := sweep f s e maxc alpha' cnt' in
        Ok ((point, alpha) :: fst r, snd r)
      else Ok ([(point, alpha)], alpha')
  end.

(** ImmaturePoint.cpp 108-146 *)
Fixpoint scan (fuel : nat) (s : tsettings) (e : env) (maxc : Z) (step alpha0 : dbl)
         (points : list sample) : outcome (list sample) :=
  match fuel with
  | O => NoFuel
  | S f =>
      if dle alpha0 (Fin 1) then
        if negb (e_on e (e_point e alpha0)) then
          if negb (t_full s) then Ok points
          else scan f s e maxc step (dadd alpha0 step) points
        else
          let* r1 := sweep f s e maxc alpha0 0 in
          let* r2 := sweep f s e maxc alpha0 0 in
          let points := points ++ fst r1 ++ fst r2 in
          if negb (t_full s) then Ok points
          else scan f s e maxc step (dadd (snd r2) step) points
      else Ok points
  end.

(** ImmaturePoint.cpp 81-149; None is the return value false. *)
Definition points_to_trace (fuel : nat) (s : tsettings) (e : env) : outcome (option (list sample)) :=
  if e_opposite e then Ok None
  else if t_full s && negb (e_meets e) then Ok None
  else
    let* maxc := to_int (dmul (Fin (t_search_rel s)) (of_int (e_wh e))) in
    let step := ddiv (Fin 1) (of_int (t_tests s - 1)) in
    let* pts := scan fuel s e maxc step (Fin 0) [] in
    Ok (if (2 <=? length pts)%nat then Some pts else None).

(** ImmaturePoint.cpp 250-256: the local variables of the search loop *)
Record best := { b_energy : dbl; b_point : pos; b_depth : dbl; b_ind : nat; b_level : Z }.
Record search := {
  r_best : option best; r_changed : bool; r_last : Z; r_found : list (pos * dbl) }.
Definition search0 : search := {| r_best := None; r_changed := false; r_last := -1; r_found := [] |}.

Definition best_energy (b : option best) : dbl := match b with Some b => b_energy b | None => PInf end.
Definition best_level (b : option best) : Z := match b with Some b => b_level b | None => -1 end.

(** ImmaturePoint.cpp 281-285 *)
Definition pyr_level (s : tsettings) (raw : dbl) : outcome Z :=
  let* l := to_int raw in
  let l := if l <? 0 then 0 else l in
  Ok (if t_levels s <=? l then t_levels s - 1 else l).

(** ImmaturePoint.cpp 258-313: one turn of the loop *)
Definition visit (s : tsettings) (e : env) (maxd : dbl) (r : search) (i : nat) (sm : sample) : outcome search :=
  let '(point, alpha) := sm in
  let inf := is_pinf maxd && (i =? 0)%nat in
  let curDepth := if inf then PInf else e_depth e alpha in
  let* l := pyr_level s (e_level e inf alpha) in
  let changed := if negb (r_last r =? -1) && negb (r_last r =? l) then true else r_changed r in
  let en := e_energy e inf alpha l in
  Ok {| r_best := if dlt en (best_energy (r_best r))
                  then Some {| b_energy := en; b_point := point; b_depth := curDepth; b_ind := i; b_level := l |}
                  else r_best r;
        r_changed := changed; r_last := l; r_found := r_found r ++ [(point, en)] |}.

Fixpoint visit_all (s : tsettings) (e : env) (maxd : dbl) (r : search) (i : nat) (l : list sample) : outcome search :=
  match l with
  | [] => Ok r
  | sm :: l' => let* r' := visit s e maxd r i sm in visit_all s e maxd r' (S i) l'
  end.

(** ImmaturePoint.cpp 328-330: norm() < minSecondBestDistance, compared squared *)
Definition closer (a b : pos) (m : Q) : bool :=
  let d := pos_sub a b in
  negb (Qle_bool m 0) && negb (Qle_bool (m * m) (fst d * fst d + snd d * snd d)).

(** ImmaturePoint.cpp 326-333 *)
Definition second_best (m : Q) (bp : pos) (found : list (pos * dbl)) : dbl :=
  fold_left (fun acc pe =>
    if closer (fst pe) bp m then acc else if dlt (snd pe) acc then snd pe else acc) found PInf.

(** ImmaturePoint.cpp 161-194: the loop; [n] turns are left.  Evaluating the interpolator at a
    position that is not finite converts it to int: undefined. *)
Fixpoint gauss_newton (n : nat) (ev : pos -> dbl * dbl * dbl) (dir : pos) (bp : pos) (be bd step : dbl)
  : outcome (pos * dbl * dbl) :=
  match n with
  | O => Ok (bp, bd, be)
  | S n' =>
      match step with
      | Fin k =>
          let cur := pos_add bp (pos_scale k dir) in
          let '(ne, h, b) := ev cur in
          if dlt ne be then
            let bd := dadd bd step in
            let step := ddiv (dopp b) h in
            let step := if dlt (Fin 1) (dadd bd step) then dmul (dsub (Fin 1) bd) (Fin (1 # 2))
                        else if dlt (dadd bd step) (Fin (-1)) then dmul (dsub (Fin (-1)) bd) (Fin (1 # 2))
                        else step in
            gauss_newton n' ev dir cur ne bd step
          else gauss_newton n' ev dir bp be bd (dmul step (Fin (1 # 2)))
      | _ => UB
      end
  end.

(** ImmaturePoint.cpp 151-197: (bestPoint, bestDispl, bestEnergy) *)
Definition tracePrecise (gn : Z) (ev : pos -> dbl * dbl * dbl) (dirf : pos -> pos -> pos) (from to : pos)
  : outcome (pos * dbl * dbl) :=
  gauss_newton (Z.to_nat (gn + 1)) ev (dirf from to) (pos_scale (1 # 2) (pos_add from to)) PInf (Fin 0) (Fin 0).

Definition at_pos (l : list pos) (i : Z) : outcome pos :=
  if i <? 0 then UB else match nth_error l (Z.to_nat i) with Some p => Ok p | None => UB end.

(** geometry.cpp 91-105 on finite and other arguments: infinite ones give a position that is not
    finite (None), NaN is converted to int. *)
Definition on_curve (l : list pos) (displ : dbl) : outcome (option pos) :=
  let n := Z.of_nat (length l) in
  if n <? 2 then Abort
  else match displ with
  | NaN => UB
  | Fin d =>
      if Qle_bool d 0 then
        let* p0 := at_pos l 0 in let* p1 := at_pos l 1 in
        Ok (Some (pos_sub p0 (pos_scale d (pos_sub p0 p1))))
      else if Qle_bool (inject_Z n) (d + 1) then
        let* last := at_pos l (n - 1) in let* lbo := at_pos l (n - 2) in
        Ok (Some (pos_add last (pos_scale (d - inject_Z n + 1) (pos_sub last lbo))))
      else
        let* k := to_int displ in
        let* p := at_pos l k in let* q := at_pos l (k + 1) in
        Ok (Some (pos_add p (pos_scale (d - inject_Z k) (pos_sub q p))))
  | _ => Ok None
  end.

(** 1 << level as a rational *)
Definition pow2 (l : Z) : Q := inject_Z (2 ^ l).

(** ImmaturePoint.cpp 364-383: depth and energy after the refinement *)
Definition refine (s : tsettings) (e : env) (pts : list pos) (b : best) : outcome (dbl * dbl) :=
  if 0 <? t_gn s then
    let bi := Z.of_nat (b_ind b) in
    let* from := at_pos pts (Z.max 0 (bi - 1)) in
    let* to := at_pos pts (Z.min (Z.of_nat (length pts) - 1) (bi + 1)) in
    let* r := tracePrecise (t_gn s) (e_eval e (b_level b)) (e_dir e) from to in
    let '(bp, bd, be) := r in
    Ok (e_triang e (Some (pos_scale (pow2 (b_level b)) bp)), be)
  else Ok (b_depth b, b_energy b).

(** ImmaturePoint.cpp 387-400: the depth bounds *)
Definition bounds (e : env) (pts : list pos) (bi : nat) : outcome (dbl * dbl) :=
  let displ := dmul (Fin 2) (e_dev e) in
  let bi := of_int (Z.of_nat bi) in
  let* minPos := on_curve pts (dadd bi displ) in
  let maxDispl := dsub bi displ in
  if dle maxDispl (Fin 0) then Ok (e_triang e minPos, PInf)
  else
    let* maxPos := on_curve pts maxDispl in
    Ok (e_triang e minPos, e_triang e maxPos).

(** the fields after the search loop, ImmaturePoint.cpp 254, 315-317 *)
Definition searched (p : ipoint) (r : search) : ipoint :=
  {| i_state := i_state p; i_min := i_min p; i_max := i_max p; i_depth := i_depth p;
     i_quality := i_quality p; i_energy := best_energy (r_best r); i_dev := i_dev p; i_traced := false;
     i_num := i_num p; i_level := i_level p; i_changed := Some (r_changed r);
     i_before := i_before p; i_after := i_after p |}.

Definition dmul3 (s : tsettings) (factor : Q) : dbl :=
  Fin (factor * inject_Z (t_ps s) * t_th s * t_th s).

(** ImmaturePoint.cpp 211-431; the debug drawing of lines 406-428 is in EpiModel. *)
Definition traceOn (fuel : nat) (s : tsettings) (e : env) (p : ipoint) : outcome (tstatus * ipoint) :=
  if pstate_eqb (i_state p) OOB then Ok (WAS_OOB, p)
  else if negb (t_full s) && (0 <? i_num p) && dlt (i_dev p) (dmul (e_dev e) (Fin (t_impr s)))
  then Ok (BIG_PREDICTED_ERROR, p)
  else
    let* sampled := points_to_trace fuel s e in
    match sampled with
    | None => Ok (EPIPOLAR_OOB, p)
    | Some pts =>
        let* r := visit_all s e (i_max p) search0 0 pts in
        let p' := searched p r in
        if best_level (r_best r) =? t_levels s - 1 then Ok (TOO_COARSE_PYR_LEVEL, p')
        else match r_best r with
        | None => UB (* bestDepth is read uninitialised *)
        | Some b =>
            if is_pinf (b_depth b) then Ok (INF_DEPTH, p')
            else
              let second := second_best (t_second_dist s) (b_point b) (r_found r) in
              if is_pinf (b_energy b) || is_pinf second then Ok (INF_ENERGY, p')
              else if dle second (dmul3 s (t_second_factor s)) then Ok (SMALL_ABS_SECOND_BEST, p')
              else if dlt (dmul3 s (t_energy_factor s)) (i_energy p') then Ok (BIG_ENERGY, p')
              else
                let q := ddiv second (b_energy b) in
                if dlt q (Fin (t_quality s)) then Ok (LOW_QUALITY, p')
                else
                  let quality := if dlt (i_quality p) q then q else i_quality p in
                  let* de := refine s e (map fst pts) b in
                  let* mm := bounds e (map fst pts) (b_ind b) in
                  Ok (OK, {| i_state := i_state p; i_min := fst mm; i_max := snd mm; i_depth := Some (fst de);
                             i_quality := quality; i_energy := b_energy b; i_dev := e_dev e; i_traced := true;
                             i_num := i_num p + 1; i_level := b_level b; i_changed := Some (r_changed r);
                             i_before := Some (b_energy b); i_after := Some (snd de) |})
        end
    end.

(** A life: the point is traced on one frame after another. *)
Fixpoint trace_all (fuel : nat) (s : tsettings) (es : list env) (p : ipoint) : outcome (list tstatus * ipoint) :=
  match es with
  | [] => Ok ([], p)
  | e :: es' =>
      let* r := traceOn fuel s e p in
      let* q := trace_all fuel s es' (snd r) in
      Ok (fst r :: fst q, snd q)
  end.
