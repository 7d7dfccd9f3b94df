(** Model of source/system/serialization.cpp and include/system/serialization.h.
    Files are byte lists.  Reading with [>>] is modelled on the list of whitespace-separated words
    of the file; a failed extraction leaves an indeterminate value behind, which every caller uses:
    [UB].  Images are read again from the dataset when loading and are left out. *)
From Coq Require Import Ascii String ZArith List Bool.
From Verif Require Import Outcome Dbl PlyModel.
Import ListNotations.
Open Scope Z_scope.
Open Scope outcome_scope.

(** Words of a file: what successive [>>] extract. *)
Definition is_space (c : ascii) : bool := Ascii.eqb c " " || Ascii.eqb c "010".
Fixpoint tokens (cur : bytes) (l : bytes) : list bytes :=
  match l with
  | [] => match cur with [] => [] | _ => [rev cur] end
  | c :: l' => if is_space c then match cur with [] => tokens [] l' | _ => rev cur :: tokens [] l' end
               else tokens (c :: cur) l'
  end.

(** A decimal integer; the value must fit int (otherwise the stream fails). *)
Definition digit_of (c : ascii) : option Z :=
  let n := Z.of_nat (nat_of_ascii c) in if (48 <=? n) && (n <=? 57) then Some (n - 48) else None.
Fixpoint undec (acc : Z) (l : bytes) : option Z :=
  match l with
  | [] => Some acc
  | c :: l' => match digit_of c with Some d => undec (10 * acc + d) l' | None => None end
  end.
Definition parse_int (w : bytes) : option Z :=
  let r := match w with
           | [] => None
           | c :: w' => if Ascii.eqb c "-" then match w' with [] => None | _ => option_map Z.opp (undec 0 w') end
                        else undec 0 w
           end in
  match r with Some z => if in_int z then Some z else None | None => None end.

(** [int(size_t)], two's complement. *)
Definition int_of_size (n : nat) : Z := (Z.of_nat n + 2^31) mod 2^32 - 2^31.

Section Snapshot.
(** double, its text form (stream precision 18 with the non-finite facets, serialization.cpp:7-23),
    negation, exponential, and the test against INF. *)
Variable D : Type.
Variable dprint : D -> bytes.
Variable dparse : bytes -> option D.
Variable dneg : D -> D.
Variable dexp : D -> D.
Variable dzero : D.
Variable is_inf : D -> bool.
(** Sophus SO3::setQuaternion normalises its argument. *)
Variable qnormalize : (D * D * D * D) -> (D * D * D * D).

Notation vec2 := (D * D)%type.
Notation vec3 := (D * D * D)%type.
Notation quat := (D * D * D * D)%type.
Notation pose := (quat * vec3)%type.
Notation light := (D * D)%type.

(** include/system/ImmaturePoint.h:50-72 (without camera, settings and the values that are only
    output of the last trace). *)
Record ipt := {
  i_p : vec2; i_dirs : list vec3; i_int : list D; i_grad : list vec2; i_gradn : list vec2;
  i_min : D; i_max : D; i_depth : D; i_quality : D; i_energy : D; i_stddev : D; i_state : Z;
  i_lastTraced : bool; i_numTraced : Z; i_before : D; i_level : Z; i_pyrChanged : option bool }.

(** include/system/OptimizedPoint.h:40-43; [None]: indeterminate. *)
Record opt := { o_p : vec2; o_logInv : D; o_stddev : D; o_state : option Z }.

(** include/system/PreKeyFrame.h:31-35, the saved part. *)
Record pkf := { p_num : Z; p_pose : pose; p_light : light }.

(** include/system/KeyFrame.h:43-51. *)
Record skf := { k_pre : pkf; k_pose : pose; k_light : light; k_imm : list ipt; k_opt : list opt;
                k_tracked : list pkf }.

(** ** Writing: DataSerializer<STORE>, serialization.h:28-52 *)
Definition put_d (x : D) : bytes := dprint x ++ [nl].
Definition put_z (z : Z) : bytes := dec z ++ [nl].
Definition put_vec (l : list D) : bytes := flat_map (fun x => dprint x ++ [sp]) l ++ [nl].
Definition put_v2 (v : vec2) : bytes := let '(x, y) := v in put_vec [x; y].
Definition put_v3 (v : vec3) : bytes := let '(x, y, z) := v in put_vec [x; y; z].
Definition put_q (v : quat) : bytes := let '(x, y, z, w) := v in put_vec [x; y; z; w].
Definition put_light (l : light) : bytes := dprint (fst l) ++ sp :: dprint (snd l) ++ [nl].
Definition put_pose (p : pose) : bytes := put_q (fst p) ++ put_v3 (snd p).

(** [for (i < PS) process(v[i])]: reading past the end of the vector is undefined. *)
Fixpoint put_all {A} (put : A -> bytes) (n : nat) (l : list A) : outcome bytes :=
  match n with
  | O => Ok []
  | S n' => match l with
            | [] => UB
            | a :: l' => let* r := put_all put n' l' in Ok (put a ++ r)
            end
  end.

(** serialization.cpp:31-51 with mode = STORE *)
Definition store_imm (ps : nat) (p : ipt) : outcome bytes :=
  let* dirs := put_all put_v3 ps (i_dirs p) in
  let* d0 := match i_dirs p with [] => UB | d :: _ => Ok (put_v3 d) end in
  let* ints := put_all put_d ps (i_int p) in
  let* grads := put_all put_v2 ps (i_grad p) in
  let* norms := put_all put_v2 ps (i_gradn p) in
  Ok (put_v2 (i_p p) ++ dirs ++ d0 ++ ints ++ grads ++ norms ++
      put_d (i_min p) ++ put_d (i_max p) ++ put_d (i_depth p) ++ put_d (i_quality p) ++
      put_d (i_energy p) ++ put_d (i_stddev p) ++ put_z (i_state p)).

(** serialization.cpp:53-75 with mode = STORE; OptimizedPoint.h:38 *)
Definition store_opt (p : opt) : outcome bytes :=
  let depth := dexp (dneg (o_logInv p)) in
  Ok (put_v2 (o_p p) ++ put_v3 (dzero, dzero, dzero) ++ put_d (dneg (o_logInv p)) ++ put_d (o_stddev p) ++
      put_d depth ++ put_d depth).

(** serialization.cpp:106-112 *)
Definition store_pkf (f : pkf) : bytes := put_pose (p_pose f) ++ put_z (p_num f) ++ put_light (p_light f).

(** serialization.cpp:212-220: the count goes to the keyframe's file, the points to theirs. *)
Definition store_points {A} (st : A -> outcome bytes) (l : list A) : outcome (bytes * bytes) :=
  let* body := ofold (fun acc a => let* b := st a in Ok (acc ++ b)) l [] in
  Ok (put_z (int_of_size (length l)), body).

(** ** The snapshot directory: directories in it with their files, and files directly in it *)
Record fs := { fs_dirs : list bytes; fs_in : bytes -> bytes -> option bytes; fs_root : bytes -> option bytes }.
Definition beq (a b : bytes) : bool := if list_eq_dec ascii_dec a b then true else false.
Definition fs_empty : fs := {| fs_dirs := []; fs_in := fun _ _ => None; fs_root := fun _ => None |}.
(** fs::create_directories *)
Definition mkdir (d : bytes) (f : fs) : fs :=
  {| fs_dirs := if existsb (beq d) (fs_dirs f) then fs_dirs f else fs_dirs f ++ [d];
     fs_in := fs_in f; fs_root := fs_root f |}.
(** An ofstream opened on the file (truncating it) and written. *)
Definition write_in (d n c : bytes) (f : fs) : fs :=
  {| fs_dirs := fs_dirs f;
     fs_in := fun d' n' => if beq d' d && beq n' n then Some c else fs_in f d' n';
     fs_root := fs_root f |}.
Definition write_root (n c : bytes) (f : fs) : fs :=
  {| fs_dirs := fs_dirs f; fs_in := fs_in f;
     fs_root := fun n' => if beq n' n then Some c else fs_root f n' |}.

Definition kf_dir (n : Z) : bytes := lit "kf" ++ dec n.
Definition pkf_name (n : Z) : bytes := lit "pkf" ++ dec n ++ lit ".txt".

(** serialization.cpp:190-210, 222-232: [KeyFrameSaver::store].  The order of writing different
    files is not observable afterwards. *)
Definition store_kf (ps : nat) (f : fs) (k : skf) : outcome fs :=
  let n := p_num (k_pre k) in
  let d := kf_dir n in
  let f := mkdir d f in
  let f := write_in d (lit "pkf.txt") (store_pkf (k_pre k)) f in
  let* ic := store_points (store_imm ps) (k_imm k) in
  let f := write_in d (lit "immaturePoints.txt") (snd ic) f in
  let* oc := store_points store_opt (k_opt k) in
  let f := write_in d (lit "optimizedPoints.txt") (snd oc) f in
  let own := fst ic ++ fst oc ++ put_z n ++ put_pose (k_pose k) ++ put_light (k_light k) ++
             put_z (int_of_size (length (k_tracked k))) ++ flat_map (fun t => put_z (p_num t)) (k_tracked k) in
  let f := fold_left (fun f t => write_root (pkf_name (p_num t)) (store_pkf t) f) (k_tracked k) f in
  Ok (write_in d (lit "kf.txt") own f).

(** serialization.cpp:273-281: [SnapshotSaver::save]; [cols] is the content of depth_col.txt. *)
Definition save (ps : nat) (cols : bytes) (ks : list skf) (f : fs) : outcome fs :=
  let* f := ofold (store_kf ps) ks f in
  Ok (write_root (lit "depth_col.txt") cols f).

(** ** Reading: DataSerializer<LOAD>, serialization.h:54-85 *)
Notation reader A := (list bytes -> outcome (A * list bytes)).
Definition get_d : reader D := fun s =>
  match s with [] => UB | w :: r => match dparse w with Some x => Ok (x, r) | None => UB end end.
Definition get_z : reader Z := fun s =>
  match s with [] => UB | w :: r => match parse_int w with Some x => Ok (x, r) | None => UB end end.
Definition get_v2 : reader vec2 := fun s =>
  let* (x, s) := get_d s in let* (y, s) := get_d s in Ok ((x, y), s).
Definition get_v3 : reader vec3 := fun s =>
  let* (x, s) := get_d s in let* (y, s) := get_d s in let* (z, s) := get_d s in Ok ((x, y, z), s).
Definition get_q : reader quat := fun s =>
  let* (v, s) := get_v3 s in let* (w, s) := get_d s in Ok ((v, w), s).
Definition get_pose : reader pose := fun s =>
  let* (q, s) := get_q s in let* (t, s) := get_v3 s in Ok ((qnormalize q, t), s).
Fixpoint get_all {A} (get : reader A) (n : nat) : reader (list A) := fun s =>
  match n with
  | O => Ok ([], s)
  | S n' => let* (a, s) := get s in let* (l, s) := get_all get n' s in Ok (a :: l, s)
  end.

(** serialization.cpp:31-51 with mode = LOAD, then ImmaturePoint.cpp:65-74 *)
Definition load_imm (ps : nat) : reader ipt := fun s =>
  let* (p, s) := get_v2 s in
  let* (dirs, s) := get_all get_v3 ps s in
  let* (d0, s) := get_v3 s in
  let* dirs := match dirs with [] => UB | _ :: ds => Ok (d0 :: ds) end in
  let* (ints, s) := get_all get_d ps s in
  let* (grads, s) := get_all get_v2 ps s in
  let* (norms, s) := get_all get_v2 ps s in
  let* (mn, s) := get_d s in
  let* (mx, s) := get_d s in
  let* (dep, s) := get_d s in
  let* (qua, s) := get_d s in
  let* (ene, s) := get_d s in
  let* (sd, s) := get_d s in
  let* (st, s) := get_z s in
  Ok ({| i_p := p; i_dirs := dirs; i_int := ints; i_grad := grads; i_gradn := norms;
         i_min := mn; i_max := mx; i_depth := dep; i_quality := qua; i_energy := ene; i_stddev := sd;
         i_state := st;
         i_lastTraced := negb (is_inf mx); i_numTraced := if is_inf mx then 0 else 1;
         i_before := dep; i_level := 0; i_pyrChanged := Some false |}, s).

(** serialization.cpp:53-67 with mode = LOAD, OptimizedPoint.h:29-31 ([state] is not set) *)
Definition load_opt : reader opt := fun s =>
  let* (p, s) := get_v2 s in
  let* (_, s) := get_v3 s in
  let* (logDepth, s) := get_d s in
  let* (sd, s) := get_d s in
  let* (_, s) := get_d s in
  let* (_, s) := get_d s in
  Ok ({| o_p := p; o_logInv := dneg logDepth; o_stddev := sd; o_state := None |}, s).

(** serialization.cpp:87-104; an absent file cannot be read. *)
Definition load_pkf (file : option bytes) : outcome pkf :=
  match file with
  | None => UB
  | Some c =>
      let s := tokens [] c in
      let* (p, s) := get_pose s in
      let* (n, s) := get_z s in
      let* (l, s) := get_v2 s in
      Ok {| p_num := n; p_pose := p; p_light := l |}
  end.

(** serialization.cpp:157-168: [reserve] of a negative size throws. *)
Definition load_points {A} (get : reader A) (size : Z) (file : option bytes) : outcome (list A) :=
  if size <? 0 then Throw else
  match file with
  | None => if size =? 0 then Ok [] else UB
  | Some c => let* (l, _) := get_all get (Z.to_nat size) (tokens [] c) in Ok l
  end.

(** serialization.cpp:170-184 *)
Definition load_tracked (f : fs) : reader (list pkf) := fun s =>
  let* (size, s) := get_z s in
  if size <? 0 then Throw else
  get_all (fun s => let* (n, s) := get_z s in let* p := load_pkf (fs_root f (pkf_name n)) in Ok (p, s))
          (Z.to_nat size) s.

(** StdMap<int, KeyFrame>: the entries in increasing order of the key. *)
Notation kmap := (list (Z * skf)).
Fixpoint kinsert (n : Z) (k : skf) (m : kmap) : kmap :=
  match m with
  | [] => [(n, k)]
  | (n', k') :: r => if n <? n' then (n, k) :: m
                     else if n =? n' then m
                     else (n', k') :: kinsert n k r
  end.
Definition kmem (n : Z) (m : kmap) : bool := existsb (fun e => fst e =? n) m.

(** serialization.cpp:138-154: the keyframe's own data. *)
Definition load_own (ps : nat) (f : fs) (d : bytes) (pre : pkf) : outcome skf :=
  match fs_in f d (lit "kf.txt") with
  | None => UB
  | Some own =>
      let s := tokens [] own in
      let* (ni, s) := get_z s in
      let* imm := load_points (load_imm ps) ni (fs_in f d (lit "immaturePoints.txt")) in
      let* (no, s) := get_z s in
      let* opts := load_points load_opt no (fs_in f d (lit "optimizedPoints.txt")) in
      let* (n, s) := get_z s in
      if negb (n =? p_num pre) then Abort else
      let* (p, s) := get_pose s in
      let* (l, s) := get_v2 s in
      let* (tr, s) := load_tracked f s in
      Ok {| k_pre := pre; k_pose := p; k_light := l; k_imm := imm; k_opt := opts; k_tracked := tr |}
  end.

(** serialization.cpp:124-155: [KeyFrameLoader::load].  The entry is made before the other files
    are read and filled in afterwards; an intermediate map is never observed. *)
Definition load_kf (ps : nat) (f : fs) (m : kmap) (d : bytes) : outcome kmap :=
  let* pre := load_pkf (fs_in f d (lit "pkf.txt")) in
  if kmem (p_num pre) m then Abort else
  let* k := load_own ps f d pre in
  Ok (kinsert (p_num pre) k m).

(** serialization.cpp:254-258: a directory whose stem starts with "kf" (equivalently, whose name
    does: a dot in a name starting with "kf" comes later). *)
Definition kf_prefix (d : bytes) : bool := beq (firstn 2 d) (lit "kf").

(** serialization.cpp:248-261: [SnapshotLoader::load], [order] being the order of enumeration.  The
    depth colour bounds are left out. *)
Definition load (ps : nat) (f : fs) (order : list bytes) : outcome kmap :=
  ofold (load_kf ps f) (filter kf_prefix order) [].
End Snapshot.
Arguments i_p {D}. Arguments i_dirs {D}. Arguments i_int {D}. Arguments i_grad {D}. Arguments i_gradn {D}.
Arguments i_min {D}. Arguments i_max {D}. Arguments i_depth {D}. Arguments i_quality {D}. Arguments i_energy {D}.
Arguments i_stddev {D}. Arguments i_state {D}. Arguments i_lastTraced {D}. Arguments i_numTraced {D}.
Arguments i_before {D}. Arguments i_level {D}. Arguments i_pyrChanged {D}.
Arguments o_p {D}. Arguments o_logInv {D}. Arguments o_stddev {D}. Arguments o_state {D}.
Arguments p_num {D}. Arguments p_pose {D}. Arguments p_light {D}.
Arguments k_pre {D}. Arguments k_pose {D}. Arguments k_light {D}. Arguments k_imm {D}. Arguments k_opt {D}.
Arguments k_tracked {D}.
Arguments save {D} dprint dneg dexp dzero ps cols ks f.
Arguments load {D} dparse dneg is_inf qnormalize ps f order.
