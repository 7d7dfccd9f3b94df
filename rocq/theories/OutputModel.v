(** Models of source/output/TrajectoryWriter.cpp and source/output/CloudWriter.cpp as observers of
    the event log of DsoModel.  Not modelled: the text of the trajectory files (the written list
    stands for it).  TrajectoryWriterGT and CloudWriterGT are in GtModel. *)
From Coq Require Import List ZArith Bool Ascii String.
From Verif Require Import Outcome Dbl DsoModel PlyModel.
Import ListNotations.
Open Scope Z_scope.
Open Scope outcome_scope.

Section Output.
Variable P : Type.
Variable pmul : P -> P -> P.
Variable pinv : P -> P.
Variable IP OP : Type.
Notation kf := (kf P IP OP).
Notation event := (event P IP OP).

(** TrajectoryWriter.h:22-25: curKfNums (std::set), frameToWorldPool (std::map, sorted by key) and
    what has been written. *)
Record tw := { tw_cur : list Z; tw_pool : list (Z * P); tw_written : list (Z * P) }.
Definition tw_new : tw := {| tw_cur := []; tw_pool := []; tw_written := [] |}.

(** std::set::insert and erase. *)
Fixpoint set_insert (x : Z) (l : list Z) : list Z :=
  match l with
  | [] => [x]
  | a :: l' => if x <? a then x :: l else if x =? a then l else a :: set_insert x l'
  end.
Definition set_erase (x : Z) (l : list Z) : list Z := filter (fun a => negb (a =? x)) l.

(** std::map::insert: no effect if the key is present. *)
Fixpoint map_insert (n : Z) (p : P) (l : list (Z * P)) : list (Z * P) :=
  match l with
  | [] => [(n, p)]
  | a :: l' => if n <? fst a then (n, p) :: l else if n =? fst a then l else a :: map_insert n p l'
  end.

(** TrajectoryWriter.cpp:12-14 *)
Definition tw_new_kf (w : tw) (k : kf) : tw :=
  {| tw_cur := set_insert (kf_num k) (tw_cur w); tw_pool := tw_pool w; tw_written := tw_written w |}.

(** TrajectoryWriter.cpp:21-28: a keyframe and its tracked frames go to the pool. *)
Definition pool_kf (pool : list (Z * P)) (k : kf) : list (Z * P) :=
  fold_left (fun pool e => map_insert (fst e) (pmul (kf_pose k) (pinv (snd e))) pool)
            (kf_tracked k) (map_insert (kf_num k) (kf_pose k) pool).

(** TrajectoryWriter.cpp:33-44: writes the beginning of the pool. *)
Fixpoint take_below (t : Z) (pool : list (Z * P)) : list (Z * P) * list (Z * P) :=
  match pool with
  | [] => ([], [])
  | e :: r => if fst e <? t then let '(a, b) := take_below t r in (e :: a, b) else ([], pool)
  end.

(** TrajectoryWriter.cpp:16-45.  [conv] is the result of converting the double INF to int (32): the
    conversion is undefined behaviour ([conv] = UB); [conv] = Ok v describes an implementation that
    delivers [v]. *)
Definition tw_marg (conv : outcome Z) (w : tw) (l : list kf) : outcome tw :=
  let cur := fold_left (fun c k => set_erase (kf_num k) c) l (tw_cur w) in
  let pool := fold_left pool_kf l (tw_pool w) in
  let* t := match cur with [] => conv | x :: _ => Ok x end in
  let '(a, b) := take_below t pool in
  Ok {| tw_cur := cur; tw_pool := b; tw_written := tw_written w ++ a |}.

Definition tw_event (conv : outcome Z) (w : tw) (e : event) : outcome tw :=
  match e with
  | EvNewKf k => Ok (tw_new_kf w k)
  | EvMarg l => tw_marg conv w l
  | EvDestructed l => tw_marg conv w l    (* 47-50 *)
  | _ => Ok w
  end.

Definition tw_run (conv : outcome Z) (log : list event) : outcome tw := ofold (tw_event conv) log tw_new.

(** The conversion of the code: INF is not representable. *)
Definition inf_to_int : outcome Z := to_int PInf.

(** CloudWriter.cpp.  [opt_point], [imm_point]: position in the world and colour of a point
    (17-20, 23-28), [imm_traced]: numTraced > 0 (23). *)
Variable fmt : Z -> dbl -> bytes.
Variable opt_point : P -> OP -> point * color.
Variable imm_point : P -> IP -> point * color.
Variable imm_traced : IP -> bool.

(** CloudWriter.h:18-20.  [cw_dir] is the member outputDirectory; [cw_files] are the files written
    besides the cloud, oldest first. *)
Record cw := { cw_dir : bytes; cw_holder : holder; cw_files : list (bytes * bytes) }.

(** CloudWriter.cpp:5-8: the constructor does not initialise outputDirectory from its argument; the
    member is the empty string. *)
Definition cw_new : cw := {| cw_dir := []; cw_holder := ply_open; cw_files := [] |}.

(** CloudWriter.cpp:12-28 *)
Definition exported (k : kf) : list (point * color) :=
  map (opt_point (kf_pose k)) (kf_opt k) ++
  map (imm_point (kf_pose k)) (filter imm_traced (kf_imm k)).

(** CloudWriter.cpp:30-35 *)
Definition cw_kf (w : cw) (k : kf) : outcome cw :=
  let ps := map fst (exported k) in
  let cs := map snd (exported k) in
  let* f := print_in_ply fmt ps cs in
  let* h := put_points fmt (cw_holder w) ps cs in
  Ok {| cw_dir := cw_dir w; cw_holder := h;
        cw_files := cw_files w ++ [(cw_dir w ++ lit "/kf" ++ dec (kf_num k) ++ lit ".ply", f)] |}.

(** CloudWriter.cpp:10-39 *)
Definition cw_marg (w : cw) (l : list kf) : outcome cw :=
  let* w1 := ofold cw_kf l w in
  let* h := update_count (cw_holder w1) in
  Ok {| cw_dir := cw_dir w1; cw_holder := h; cw_files := cw_files w1 |}.

Definition cw_event (w : cw) (e : event) : outcome cw :=
  match e with
  | EvMarg l => cw_marg w l
  | EvDestructed l => cw_marg w l         (* 41-44 *)
  | _ => Ok w
  end.
Definition cw_run (log : list event) : outcome cw := ofold cw_event log cw_new.
End Output.

Arguments tw_cur {P} _.
Arguments tw_pool {P} _.
Arguments tw_written {P} _.
Arguments tw_run {P} pmul pinv {IP OP} conv log.
Arguments cw_run {P IP OP} fmt opt_point imm_point imm_traced log.
Arguments exported {P IP OP} opt_point imm_point imm_traced k.
