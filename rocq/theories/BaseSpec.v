(** Specifications for the points projected onto the base keyframe and for the keyframes made by the
    initializer. *)
From Coq Require Import ZArith QArith Reals List.
From Verif Require Import Outcome Pose PyramidModel PyramidSpec BaseModel.
Import ListNotations.
Open Scope Z_scope.

(** The keys of a std::map. *)
Fixpoint ascending (l : list Z) : Prop :=
  match l with
  | a :: ((b :: _) as l') => a < b /\ ascending l'
  | _ => True
  end.
Definition well_keyed (kfs : frames) : Prop := ascending (map fst kfs).

(** [v] is the point at signed distance [d] from the camera on the line of the pixel [x]. *)
Definition sighted (unmap : Q * Q -> vec) (x : Q * Q) (d : R) (v : vec) : Prop :=
  vscale (vnorm (unmap x)) v = vscale d (unmap x).

(** A camera has a direction for every pixel. *)
Definition directed (unmap : Q * Q -> vec) : Prop := forall x, vnorm (unmap x) <> 0%R.

(** [v] in the camera of [f] and [v'] in the camera of [g] are one place of the world. *)
Definition same_place (f : bframe) (v : vec) (g : bframe) (v' : vec) : Prop :=
  act (f_pose f) v = act (f_pose g) v'.

(** The image with its right and lower border. *)
Definition on_image (w h : Z) (x : Q * Q) : Prop :=
  (0 <= fst x <= inject_Z w /\ 0 <= snd x <= inject_Z h)%Q.

(** The base keyframe: the last one or the one before it. *)
Definition is_base (fromLast : bool) (kfs : frames) (n : Z) (f : bframe) : Prop :=
  if fromLast then exists l, kfs = l ++ [(n, f)]
  else exists l x, kfs = l ++ [(n, f); x].

(** The point [r] appears at [x] with depth [d] on the base keyframe [(bn, bf)]. *)
Definition appears (cmap : vec -> Q * Q) (unmap : Q * Q -> vec) (w h : Z) (k : kind) (kfs : frames)
  (bn : Z) (bf : bframe) (r : ref) (x : Q * Q) (d : R) : Prop :=
  exists f p, In (fst r, f) kfs /\ nth_error (getPoints k f) (snd r) = Some p /\
    ((fst r = bn /\ b_state p = ACTIVE /\ x = b_pos p /\ b_depth p = Some d) \/
     (fst r <> bn /\ exists dp v v', b_depth p = Some dp /\ sighted unmap (b_pos p) dp v /\
        same_place f v bf v' /\ x = cmap v' /\ d = vnorm v' /\ on_image w h x)).

(** Keyframe by keyframe, each in the order of its list. *)
Definition ref_before (a b : ref) : Prop := fst a < fst b \/ (fst a = fst b /\ (snd a < snd b)%nat).
Fixpoint in_order (l : list ref) : Prop :=
  match l with
  | a :: l' => Forall (ref_before a) l' /\ in_order l'
  | [] => True
  end.

(** One line of the output, and the four columns. *)
Record line := { l_pos : Q * Q; l_depth : R; l_ref : ref }.
Definition columns (ls : list line) : outs :=
  {| o_points := Some (map l_pos ls); o_depths := Some (map l_depth ls);
     o_ptrs := Some (map l_ref ls); o_kfs := Some (map (fun l => fst (l_ref l)) ls) |}.

(** All outputs are asked for; what they held before does not matter. *)
Definition all_asked (o : outs) : Prop :=
  o_points o <> None /\ o_depths o <> None /\ o_ptrs o <> None /\ o_kfs o <> None.

(** The outputs of [full] that [asked] asks for. *)
Definition only {A} (asked full : option A) : option A := match asked with Some _ => full | None => None end.
Definition restricted (asked full : outs) : outs :=
  {| o_points := only (o_points asked) (o_points full); o_depths := only (o_depths asked) (o_depths full);
     o_ptrs := only (o_ptrs asked) (o_ptrs full); o_kfs := only (o_kfs asked) (o_kfs full) |}.

(** Every point whose depth is needed has one. *)
Definition depths_known (k : kind) (kfs : frames) (bn : Z) : Prop :=
  forall n f p, In (n, f) kfs -> In p (getPoints k f) -> (n = bn -> b_state p = ACTIVE) -> b_depth p <> None.

(** The pixel that contains a position. *)
Definition falls (x : Q * Q) (px py : Z) : Prop := in_pixel (fst x) px /\ in_pixel (snd x) py.

(** [ls] lists the points that appear on the base keyframe. *)
Definition listing cmap unmap w h k kfs bn bf (ls : list line) : Prop :=
  in_order (map l_ref ls) /\
  forall r x d, In {| l_pos := x; l_depth := d; l_ref := r |} ls <-> appears cmap unmap w h k kfs bn bf r x d.

(** The point behind a reference has deviation [d]. *)
Definition has_dev (k : kind) (kfs : frames) (r : ref) (d : dev) : Prop :=
  exists f p, In (fst r, f) kfs /\ nth_error (getPoints k f) (snd r) = Some p /\ b_dev p = d.

(** The pixels that are selected, in the image at a distance of at least [ph] from its border. *)
Definition well_inside (w h ph : Z) (p : Z * Z) : Prop :=
  ph <= fst p <= w - ph /\ ph <= snd p <= h - ph.

(** [keep] tells which elements of [l] stay in [l']. *)
Inductive sublist_by {A B} (keep : A -> B -> Prop) (drop : A -> Prop) : list A -> list B -> Prop :=
| sub_nil : sublist_by keep drop [] []
| sub_keep a b l l' : keep a b -> sublist_by keep drop l l' -> sublist_by keep drop (a :: l) (b :: l')
| sub_drop a l l' : drop a -> sublist_by keep drop l l' -> sublist_by keep drop (a :: l) l'.

(** The point that the initializer makes from a selected pixel with a depth. *)
Definition made_from (depth : option R) (d : dev) (p : Z * Z) (q : bpoint) : Prop :=
  b_pos q = (inject_Z (fst p), inject_Z (snd p)) /\ b_depth q = depth /\ depth <> None /\
  b_state q = ACTIVE /\ b_dev q = d.

(** The weight of a point in the reference of the tracker: 1 at initialisation, the inverse of the
    deviation otherwise. *)
Definition weighted (oc : occasion) (k : kind) (kfs : frames) (r : ref) (x : R) : Prop :=
  match oc with
  | Initialized => x = 1%R
  | _ => exists d, has_dev k kfs r d /\ match d with Dev s => (s <> 0 -> x * s = 1)%R | DevInf => x = 0%R end
  end.

(** Everything that appears on the base keyframe is strictly inside its image. *)
Definition all_inside cmap unmap w h k kfs bn bf : Prop :=
  forall r x d, appears cmap unmap w h k kfs bn bf r x d -> inside (gcols (f_image bf)) (grows (f_image bf)) x.

Definition no_deviation (k : kind) (kfs : frames) : Prop :=
  forall n f p, In (n, f) kfs -> In p (getPoints k f) -> b_dev p = DevInf.

(** * The initializer *)

(** A selected pixel that keeps its distance from the border and whose direction meets the terrain. *)
Definition hits (unmap : Q * Q -> vec) (w h ph : Z) (terrain : vec -> option R) (p : Z * Z) (d : R) : Prop :=
  well_inside w h ph p /\ terrain (unmap (inject_Z (fst p), inject_Z (snd p))) = Some d.

(** [inTriang] of the pixels [sel] hit the terrain. *)
Definition hit_count unmap w h ph terrain (sel : list (Z * Z)) (inTriang : Z) : Prop :=
  exists kept, sublist_by (fun p q => p = q /\ exists d, hits unmap w h ph terrain p d)
                          (fun p => ~ exists d, hits unmap w h ph terrain p d) sel kept /\
    Z.of_nat (length kept) = inTriang.

(** The points of a keyframe made in the spherical mode: the hits of the second selection, for which
    as many pixels were asked for as would have given [needed] hits in the first. *)
Definition initial_points unmap w h ph (needed : Z) (s : source) (f : bframe) : Prop :=
  exists inTriang n, hit_count unmap w h ph (c_spherical s) (c_first s) inTriang /\ 0 < inTriang /\
    n * inTriang <= needed * Z.of_nat (length (c_first s)) < (n + 1) * inTriang /\
    sublist_by (fun p q => exists d, hits unmap w h ph (c_spherical s) p d /\ made_from (Some d) DevInf p q)
               (fun p => ~ exists d, hits unmap w h ph (c_spherical s) p d) (c_again s n) (f_imm f) /\
    f_imm f <> [].

(** The point made in the plain mode. *)
Definition plain_point (terrain : Q * Q -> option R) (p : Z * Z) (q : bpoint) : Prop :=
  b_pos q = (inject_Z (fst p), inject_Z (snd p)) /\ b_dev q = Dev 1 /\
  b_depth q = terrain (b_pos q) /\ (b_state q = ACTIVE <-> b_depth q <> None) /\ b_state q <> OUTLIER.

(** * Activating and deactivating *)

Definition positive_depth (p : bpoint) : Prop := exists d, b_depth p = Some d /\ (0 < d)%R.

(** the activated point *)
Definition activated (p q : bpoint) : Prop :=
  b_pos q = b_pos p /\ b_depth q = b_depth p /\ b_dev q = b_dev p /\ b_state q = ACTIVE.

(** the point after deactivation *)
Definition demoted (w h ph : Z) (p q : bpoint) : Prop :=
  b_pos q = b_pos p /\ b_depth q = b_depth p /\ b_dev q = DevInf /\ b_state q <> OUTLIER /\
  (b_state q = ACTIVE <-> (inject_Z ph <= fst (b_pos p) <= inject_Z (w - ph) /\
                           inject_Z ph <= snd (b_pos p) <= inject_Z (h - ph))%Q).
