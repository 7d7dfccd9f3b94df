(** Proofs about the points projected onto the base keyframe. *)
From Coq Require Import ZArith QArith Reals List Bool Lia Lra Sorted.
From Verif Require Import Outcome Pose PoseProofs PyramidModel PyramidSpec PyramidProofs BorderModel BaseModel BaseSpec.
Import ListNotations.
Open Scope Z_scope.
Open Scope outcome_scope.

Definition append (o : outs) (ls : list line) : outs :=
  {| o_points := option_map (fun l => l ++ map l_pos ls) (o_points o);
     o_depths := option_map (fun l => l ++ map l_depth ls) (o_depths o);
     o_ptrs := option_map (fun l => l ++ map l_ref ls) (o_ptrs o);
     o_kfs := option_map (fun l => l ++ map (fun l => fst (l_ref l)) ls) (o_kfs o) |}.

Lemma append_nil o : append o [] = o.
Proof. destruct o as [[]  [] [] []]; unfold append; cbn; rewrite ?app_nil_r; reflexivity. Qed.

Lemma append_app o a b : append (append o a) b = append o (a ++ b).
Proof.
  destruct o as [[]  [] [] []]; unfold append; cbn; rewrite ?map_app, ?app_assoc; reflexivity.
Qed.

Lemma push_append o x d n i : push o x d (n, i) n = append o [{| l_pos := x; l_depth := d; l_ref := (n, i) |}].
Proof. destruct o as [[]  [] [] []]; reflexivity. Qed.

Lemma append_asked o ls : o_depths (append o ls) = None <-> o_depths o = None.
Proof. cbn. destruct (o_depths o); cbn; split; congruence. Qed.

(** the value of a depth that is known *)
Definition dval (p : bpoint) : R := match b_depth p with Some d => d | None => 0%R end.

Section Projection.
Variables (cmap : vec -> Q * Q) (unmap : Q * Q -> vec) (w h : Z).

Fixpoint own_lines (n : Z) (i : nat) (ps : list bpoint) : list line :=
  match ps with
  | [] => []
  | p :: ps' =>
      if active (b_state p) then {| l_pos := b_pos p; l_depth := dval p; l_ref := (n, i) |} :: own_lines n (S i) ps'
      else own_lines n (S i) ps'
  end.

Definition base_dir (g : se3) (p : bpoint) : vec := act g (vscale (dval p) (normalized (unmap (b_pos p)))).

Fixpoint other_lines (g : se3) (n : Z) (i : nat) (ps : list bpoint) : list line :=
  match ps with
  | [] => []
  | p :: ps' =>
      if isOnImage w h (cmap (base_dir g p)) 0
      then {| l_pos := cmap (base_dir g p); l_depth := vnorm (base_dir g p); l_ref := (n, i) |}
             :: other_lines g n (S i) ps'
      else other_lines g n (S i) ps'
  end.

Definition to_base (bf f : bframe) : se3 := smul (sinv (f_pose bf)) (f_pose f).

Fixpoint all_lines (k : kind) (bn : Z) (bf : bframe) (kfs : frames) : list line :=
  match kfs with
  | [] => []
  | (n, f) :: kfs' =>
      (if n =? bn then own_lines n 0 (getPoints k f) else other_lines (to_base bf f) n 0 (getPoints k f))
        ++ all_lines k bn bf kfs'
  end.

Lemma own_points_ok n ps : forall i o,
  (forall p, In p ps -> b_state p = ACTIVE -> b_depth p <> None) \/ o_depths o = None ->
  own_points n i ps o = Ok (append o (own_lines n i ps)).
Proof.
  induction ps as [|p ps IH]; intros i o H; cbn [own_points own_lines].
  - now rewrite append_nil.
  - destruct (active (b_state p)) eqn:A.
    + assert (AP : b_state p = ACTIVE) by (destruct (b_state p); [reflexivity|discriminate|discriminate]).
      destruct (o_depths o) as [l|] eqn:EO.
      * destruct H as [H|H]; [|discriminate].
        assert (D := H p (or_introl eq_refl) AP). unfold read_depth, dval.
        destruct (b_depth p) as [d|]; [|contradiction]. cbn [bind].
        rewrite IH by (left; intros q Q; apply H; now right).
        rewrite (push_append o (b_pos p) d n i), append_app. reflexivity.
      * cbn [bind]. rewrite IH by (right; cbn; now rewrite EO).
        assert (E : push o (b_pos p) 0 (n, i) n =
                    append o [{| l_pos := b_pos p; l_depth := dval p; l_ref := (n, i) |}]).
        { destruct o as [[] [] [] []]; try discriminate; reflexivity. }
        rewrite E, append_app. reflexivity.
    + apply IH. destruct H as [H|H]; [left; intros q Q; apply H; now right|now right].
Qed.

Lemma own_points_ub n ps : forall i o, o_depths o <> None ->
  (exists p, In p ps /\ b_state p = ACTIVE /\ b_depth p = None) -> own_points n i ps o = UB.
Proof.
  induction ps as [|p ps IH]; intros i o N (q & Q & A & D); [destruct Q|]. cbn [own_points].
  destruct (active (b_state p)) eqn:AP.
  - destruct (o_depths o) as [l|] eqn:EO; [|contradiction]. unfold read_depth.
    destruct (b_depth p) as [d|] eqn:DP; cbn [bind]; [|reflexivity].
    apply IH; [cbn; rewrite EO; discriminate|]. destruct Q as [-> |Q]; [congruence|]. eauto.
  - apply IH; [assumption|]. destruct Q as [-> |Q]; [rewrite A in AP; discriminate|]. eauto.
Qed.

Lemma other_points_ok g n ps : forall i o, (forall p, In p ps -> b_depth p <> None) ->
  other_points cmap unmap w h g n i ps o = Ok (append o (other_lines g n i ps)).
Proof.
  induction ps as [|p ps IH]; intros i o H; cbn [other_points other_lines].
  - now rewrite append_nil.
  - assert (D := H p (or_introl eq_refl)). unfold read_depth, base_dir, dval.
    destruct (b_depth p) as [d|] eqn:DP; [|contradiction]. cbn [bind].
    destruct (isOnImage w h _ 0); cbn [negb].
    + rewrite IH by (intros q Q; apply H; now right).
      rewrite (push_append o _ _ n i), append_app. reflexivity.
    + apply IH. intros q Q; apply H; now right.
Qed.

Lemma other_points_ub g n ps : forall i o, (exists p, In p ps /\ b_depth p = None) ->
  other_points cmap unmap w h g n i ps o = UB.
Proof.
  induction ps as [|p ps IH]; intros i o (q & Q & D); [destruct Q|]. cbn [other_points]. unfold read_depth.
  destruct (b_depth p) as [d|] eqn:DP; cbn [bind]; [|reflexivity].
  destruct Q as [-> |Q]; [congruence|].
  destruct (isOnImage w h _ 0); cbn [negb]; apply IH; eauto.
Qed.

(** what is needed of a list of keyframes *)
Definition known_in (k : kind) (bn : Z) (asked : bool) (kfs : frames) : Prop :=
  forall n f p, In (n, f) kfs -> In p (getPoints k f) ->
    (n = bn -> asked = true /\ b_state p = ACTIVE) -> b_depth p <> None.

Definition depths_asked (o : outs) : bool := match o_depths o with Some _ => true | None => false end.

Lemma depths_asked_append o ls : depths_asked (append o ls) = depths_asked o.
Proof. unfold depths_asked. cbn. now destruct (o_depths o). Qed.

Lemma all_points_ok k bn bf kfs : forall o, known_in k bn (depths_asked o) kfs ->
  all_points cmap unmap w h k (bn, bf) kfs o = Ok (append o (all_lines k bn bf kfs)).
Proof.
  induction kfs as [|[n f] kfs IH]; intros o H; cbn [all_points all_lines fst snd].
  - now rewrite append_nil.
  - assert (H' : known_in k bn (depths_asked o) kfs) by (intros m g p I; apply (H m g p); now right).
    destruct (n =? bn) eqn:E.
    + rewrite own_points_ok.
      * cbn [bind]. rewrite IH by now rewrite depths_asked_append. now rewrite append_app.
      * unfold depths_asked in H. destruct (o_depths o) as [l|] eqn:EO; [left|now right].
        intros p P A. apply (H n f p); [now left|assumption|auto].
    + rewrite other_points_ok.
      * cbn [bind]. rewrite IH by now rewrite depths_asked_append. now rewrite append_app.
      * intros p P. apply (H n f p); [now left|assumption|]. intros ->. rewrite Z.eqb_refl in E. discriminate.
Qed.

Lemma all_points_ub k bn bf kfs : forall o, ~ known_in k bn (depths_asked o) kfs ->
  all_points cmap unmap w h k (bn, bf) kfs o = UB.
Proof.
  induction kfs as [|[n f] kfs IH]; intros o H; cbn [all_points fst snd].
  - elim H. intros n f p [].
  - destruct (n =? bn) eqn:E.
    + destruct (depths_asked o) eqn:DA.
      * destruct (Exists_dec (fun p => b_state p = ACTIVE /\ b_depth p = None) (getPoints k f)) as [X|X].
        { intros p. destruct (b_state p), (b_depth p); (left; split; reflexivity) || (right; intros [? ?]; discriminate). }
        -- rewrite own_points_ub; [reflexivity| |].
           ++ unfold depths_asked in DA. destruct (o_depths o); discriminate.
           ++ apply Exists_exists in X. destruct X as (p & P & A & D). eauto.
        -- assert (G : forall p, In p (getPoints k f) -> b_state p = ACTIVE -> b_depth p <> None).
           { intros p P A D. apply X. apply Exists_exists. eauto. }
           rewrite own_points_ok by now left. cbn [bind]. apply IH.
           rewrite depths_asked_append, DA. intros K. apply H. intros m g p [I|I] P C.
           ++ injection I as <- <-. apply G; [assumption|]. apply C. lia.
           ++ eapply K; eauto.
      * rewrite own_points_ok.
        -- cbn [bind]. apply IH. rewrite depths_asked_append, DA. intros K. apply H.
           intros m g p [I|I] P C.
           ++ injection I as <- <-. destruct C as [C _]; [lia|discriminate].
           ++ eapply K; eauto.
        -- right. unfold depths_asked in DA. now destruct (o_depths o).
    + destruct (Exists_dec (fun p => b_depth p = None) (getPoints k f)) as [X|X].
      { intros p. destruct (b_depth p); [now right|now left]. }
      * rewrite other_points_ub; [reflexivity|]. apply Exists_exists in X. exact X.
      * assert (G : forall p, In p (getPoints k f) -> b_depth p <> None).
        { intros p P D. apply X. apply Exists_exists. eauto. }
        rewrite other_points_ok by assumption. cbn [bind]. apply IH.
        rewrite depths_asked_append. intros K. apply H. intros m g p [I|I] P C.
        -- injection I as <- <-. now apply G.
        -- eapply K; eauto.
Qed.

(** ** The base keyframe *)

Lemma base_of fromLast kfs n f : is_base fromLast kfs n f -> baseKeyFrame fromLast kfs = Ok (n, f).
Proof.
  unfold baseKeyFrame, is_base. destruct fromLast.
  - intros (l & ->). rewrite rev_app_distr. reflexivity.
  - intros (l & x & ->). rewrite rev_app_distr. reflexivity.
Qed.

Lemma base_inv fromLast kfs b : baseKeyFrame fromLast kfs = Ok b -> is_base fromLast kfs (fst b) (snd b).
Proof.
  unfold baseKeyFrame, is_base. destruct (rev kfs) as [|a [|c l]] eqn:E; destruct fromLast; try discriminate;
    intros H; injection H as <-; apply (f_equal (@rev _)) in E; rewrite rev_involutive in E; cbn [rev] in E.
  - exists []. destruct a. exact E.
  - exists (rev (c :: l)). destruct a. cbn. exact E.
  - exists (rev l), a. destruct c. rewrite E, <- app_assoc. reflexivity.
Qed.

Lemma base_in fromLast kfs n f : is_base fromLast kfs n f -> In (n, f) kfs.
Proof.
  unfold is_base. destruct fromLast.
  - intros (l & ->). apply in_or_app. right. now left.
  - intros (l & x & ->). apply in_or_app. right. now left.
Qed.

Lemma base_cases fromLast kfs : (exists n f, is_base fromLast kfs n f) \/ baseKeyFrame fromLast kfs = UB.
Proof.
  destruct (baseKeyFrame fromLast kfs) as [b| | | |] eqn:E; try (right; reflexivity);
    try (left; exists (fst b), (snd b); now apply base_inv);
    exfalso; unfold baseKeyFrame in E; destruct (rev kfs) as [|a [|c l]], fromLast; discriminate.
Qed.

(** ** The keys *)

Lemma ascending_cons a l : ascending (a :: l) -> ascending l /\ Forall (fun b => a < b) l.
Proof.
  revert a. induction l as [|b l IH]; intros a H; [now split|].
  destruct H as [H1 H2]. split; [exact H2|]. destruct (IH b H2) as [_ F].
  constructor; [exact H1|]. eapply Forall_impl; [|exact F]. cbn. intros; lia.
Qed.

Lemma keyed_cons n f kfs : well_keyed ((n, f) :: kfs) ->
  well_keyed kfs /\ forall m g, In (m, g) kfs -> n < m.
Proof.
  unfold well_keyed. cbn [map fst]. intros H. apply ascending_cons in H. destruct H as [A F].
  split; [exact A|]. intros m g I. rewrite Forall_forall in F. apply F. now apply (in_map fst) in I.
Qed.

Lemma keyed_unique kfs : well_keyed kfs -> forall n f g, In (n, f) kfs -> In (n, g) kfs -> f = g.
Proof.
  induction kfs as [|[m e] kfs IH]; intros K n f g F G; [destruct F|].
  apply keyed_cons in K. destruct K as [K L].
  destruct F as [F|F], G as [G|G].
  - congruence.
  - injection F as -> ->. specialize (L n g G). lia.
  - injection G as -> ->. specialize (L n f F). lia.
  - eapply IH; eauto.
Qed.

(** ** Geometry *)

Lemma sighted_norm x d v : vnorm (unmap x) <> 0%R ->
  (sighted unmap x d v <-> v = vscale d (normalized (unmap x))).
Proof.
  intros N. unfold sighted, normalized. destruct (unmap x) as [a b c] eqn:E. destruct v as [p q r].
  set (m := vnorm (V3 a b c)) in *. clearbody m. unfold vscale; cbn. split; intros H.
  - injection H as H1 H2 H3. f_equal.
    + apply Rmult_eq_reg_l with m; [|exact N]. rewrite H1. field. exact N.
    + apply Rmult_eq_reg_l with m; [|exact N]. rewrite H2. field. exact N.
    + apply Rmult_eq_reg_l with m; [|exact N]. rewrite H3. field. exact N.
  - injection H as -> -> ->. f_equal; field; exact N.
Qed.

Lemma to_base_place bf f v v' : rigid (f_pose bf) ->
  (same_place f v bf v' <-> v' = act (to_base bf f) v).
Proof.
  intros R. unfold same_place, to_base. split; intros H.
  - rewrite act_mul, H, <- act_mul, sinv_l, act_id by assumption. reflexivity.
  - subst v'. rewrite act_mul, <- (act_mul (f_pose bf)), sinv_r, act_id by assumption. reflexivity.
Qed.

Lemma on_image_iff x : isOnImage w h x 0 = true <-> on_image w h x.
Proof.
  unfold isOnImage, on_image. rewrite !andb_true_iff, !Qle_bool_iff, !Z.sub_0_r. tauto.
Qed.

(** ** Membership and order *)

Lemma own_in n ps : forall i l, In l (own_lines n i ps) <->
  exists j p, nth_error ps j = Some p /\ b_state p = ACTIVE /\
    l = {| l_pos := b_pos p; l_depth := dval p; l_ref := (n, (i + j)%nat) |}.
Proof.
  induction ps as [|p ps IH]; intros i l; cbn [own_lines].
  - split; [intros []|]. intros (j & p & E & _). destruct j; discriminate.
  - assert (T : In l (own_lines n (S i) ps) <-> exists j q, nth_error (p :: ps) (S j) = Some q /\ b_state q = ACTIVE /\
        l = {| l_pos := b_pos q; l_depth := dval q; l_ref := (n, (i + S j)%nat) |}).
    { rewrite IH. split; intros (j & q & E & A & L); exists j, q; repeat split; auto; rewrite L; do 2 f_equal; lia. }
    destruct (active (b_state p)) eqn:A.
    + assert (AP : b_state p = ACTIVE) by (destruct (b_state p); [reflexivity|discriminate|discriminate]).
      cbn [In]. rewrite T. split.
      * intros [<- |(j & q & E)]; [|eauto]. exists 0%nat, p. repeat split; auto. do 2 f_equal. lia.
      * intros ([|j] & q & E & AQ & L); [left|right; eauto].
        injection E as <-. rewrite L. do 2 f_equal. lia.
    + rewrite T. split; intros (j & q & E & AQ & L); [eauto|]. destruct j as [|j]; [|eauto].
      injection E as <-. rewrite AQ in A. discriminate.
Qed.

Lemma other_in g n ps : forall i l, In l (other_lines g n i ps) <->
  exists j p, nth_error ps j = Some p /\ on_image w h (cmap (base_dir g p)) /\
    l = {| l_pos := cmap (base_dir g p); l_depth := vnorm (base_dir g p); l_ref := (n, (i + j)%nat) |}.
Proof.
  induction ps as [|p ps IH]; intros i l; cbn [other_lines].
  - split; [intros []|]. intros (j & p & E & _). destruct j; discriminate.
  - assert (T : In l (other_lines g n (S i) ps) <-> exists j q, nth_error (p :: ps) (S j) = Some q /\
        on_image w h (cmap (base_dir g q)) /\
        l = {| l_pos := cmap (base_dir g q); l_depth := vnorm (base_dir g q); l_ref := (n, (i + S j)%nat) |}).
    { rewrite IH. split; intros (j & q & E & A & L); exists j, q; repeat split; auto; try apply A; rewrite L; do 2 f_equal; lia. }
    destruct (isOnImage w h (cmap (base_dir g p)) 0) eqn:A.
    + apply on_image_iff in A. cbn [In]. rewrite T. split.
      * intros [<- |(j & q & E)]; [|eauto]. exists 0%nat, p. repeat split; auto; try apply A. do 2 f_equal. lia.
      * intros ([|j] & q & E & AQ & L); [left|right; eauto].
        injection E as <-. rewrite L. do 2 f_equal. lia.
    + rewrite T. split; intros (j & q & E & AQ & L); [eauto|]. destruct j as [|j]; [|eauto].
      injection E as <-. apply on_image_iff in AQ. congruence.
Qed.

Lemma all_in k bn bf kfs l : In l (all_lines k bn bf kfs) <->
  exists n f, In (n, f) kfs /\
    ((n = bn /\ In l (own_lines n 0 (getPoints k f))) \/
     (n <> bn /\ In l (other_lines (to_base bf f) n 0 (getPoints k f)))).
Proof.
  induction kfs as [|[n f] kfs IH]; cbn [all_lines].
  - split; [intros []|]. intros (n & f & [] & _).
  - rewrite in_app_iff, IH. split.
    + intros [H|(m & g & I & H)]; [|exists m, g; split; [now right|exact H]].
      exists n, f. split; [now left|]. destruct (n =? bn) eqn:E; [left|right]; split; auto; lia.
    + intros (m & g & [I|I] & H); [left|right; eauto]. injection I as <- <-.
      destruct (n =? bn) eqn:E; destruct H as [[X H]|[X H]]; auto; lia.
Qed.

Lemma own_order n ps : forall i, in_order (map l_ref (own_lines n i ps)).
Proof.
  induction ps as [|p ps IH]; intros i; cbn [own_lines]; [exact I|].
  destruct (active (b_state p)); [|apply IH]. cbn [map in_order l_ref]. split; [|apply IH].
  apply Forall_forall. intros r R. apply in_map_iff in R. destruct R as (l & <- & L).
  apply own_in in L. destruct L as (j & q & _ & _ & ->). right. cbn. split; [reflexivity|lia].
Qed.

Lemma other_order g n ps : forall i, in_order (map l_ref (other_lines g n i ps)).
Proof.
  induction ps as [|p ps IH]; intros i; cbn [other_lines]; [exact I|].
  destruct (isOnImage w h _ 0); [|apply IH]. cbn [map in_order l_ref]. split; [|apply IH].
  apply Forall_forall. intros r R. apply in_map_iff in R. destruct R as (l & <- & L).
  apply other_in in L. destruct L as (j & q & _ & _ & ->). right. cbn. split; [reflexivity|lia].
Qed.

Lemma in_order_app a b : in_order a -> in_order b ->
  (forall x y, In x a -> In y b -> ref_before x y) -> in_order (a ++ b).
Proof.
  induction a as [|x a IH]; intros A B C; [exact B|]. destruct A as [F A]. cbn [app in_order]. split.
  - apply Forall_app. split; [exact F|]. apply Forall_forall. intros y Y. apply C; [now left|exact Y].
  - apply IH; auto. intros u y U Y. apply C; [now right|exact Y].
Qed.

Lemma own_ref n i ps l : In l (own_lines n i ps) -> fst (l_ref l) = n.
Proof. intros L. apply own_in in L. destruct L as (j & q & _ & _ & ->). reflexivity. Qed.
Lemma other_ref g n i ps l : In l (other_lines g n i ps) -> fst (l_ref l) = n.
Proof. intros L. apply other_in in L. destruct L as (j & q & _ & _ & ->). reflexivity. Qed.

Lemma all_ref k bn bf kfs l : In l (all_lines k bn bf kfs) -> exists f, In (fst (l_ref l), f) kfs.
Proof.
  intros L. apply all_in in L. destruct L as (n & f & I & [[_ L]|[_ L]]).
  - apply own_ref in L. subst. eauto.
  - apply other_ref in L. subst. eauto.
Qed.

Lemma all_order k bn bf kfs : well_keyed kfs -> in_order (map l_ref (all_lines k bn bf kfs)).
Proof.
  induction kfs as [|[n f] kfs IH]; intros K; cbn [all_lines]; [exact I|].
  apply keyed_cons in K. destruct K as [K L]. rewrite map_app. apply in_order_app.
  - destruct (n =? bn); [apply own_order|apply other_order].
  - now apply IH.
  - intros x y X Y. apply in_map_iff in X, Y. destruct X as (a & <- & A), Y as (b & <- & B).
    apply all_ref in B. destruct B as (g & B). left.
    replace (fst (l_ref a)) with n; [eapply L; eauto|].
    destruct (n =? bn); symmetry; [eapply own_ref|eapply other_ref]; eauto.
Qed.

Lemma all_listing k kfs bn bf : well_keyed kfs -> rigid (f_pose bf) -> directed unmap ->
  known_in k bn true kfs ->
  listing cmap unmap w h k kfs bn bf (all_lines k bn bf kfs).
Proof.
  intros K R D N. split; [now apply all_order|]. intros [n i] x d. rewrite all_in. split.
  - intros (m & f & I & [[E L]|[E L]]).
    + apply own_in in L. destruct L as (j & p & J & A & L). injection L as -> -> -> ->.
      exists f, p. cbn [fst snd]. split; [exact I|]. split; [exact J|]. left. repeat split; auto.
      assert (X := N m f p I (nth_error_In _ _ J) (fun _ => conj eq_refl A)).
      unfold dval. destruct (b_depth p); [reflexivity|contradiction].
    + apply other_in in L. destruct L as (j & p & J & A & L). injection L as -> -> -> ->.
      exists f, p. cbn [fst snd]. split; [exact I|]. split; [exact J|]. right. split; [exact E|].
      assert (X := N m f p I (nth_error_In _ _ J) (fun Y => False_ind _ (E Y))).
      unfold base_dir, dval in *. destruct (b_depth p) as [dp|]; [|contradiction].
      exists dp. eexists. eexists. split; [reflexivity|]. split; [now apply sighted_norm|].
      split; [now apply to_base_place|]. auto.
  - intros (f & p & I & J & [(E & A & -> & DP)|(E & dp & v & v' & DP & S & P & -> & -> & O)]); cbn [fst snd] in *.
    + exists n, f. split; [exact I|]. left. split; [exact E|]. apply own_in. exists i, p. repeat split; auto.
      unfold dval. rewrite DP. reflexivity.
    + exists n, f. split; [exact I|]. right. split; [exact E|]. apply other_in. exists i, p. split; [exact J|].
      apply sighted_norm in S; [|apply D]. apply to_base_place in P; [|exact R].
      unfold base_dir, dval. rewrite DP. subst v v'. split; [exact O|reflexivity].
Qed.

(** ** The theorems *)

Lemma cleared_append o ls : append (cleared o) ls = restricted o (columns ls).
Proof. destruct o as [[] [] [] []]; reflexivity. Qed.

Lemma known_true k bn kfs : known_in k bn true kfs <-> depths_known k kfs bn.
Proof.
  split; intros H n f p I P E; apply (H n f p I P); intros X; specialize (E X); tauto.
Qed.

Lemma asked_cleared o : depths_asked (cleared o) = depths_asked o.
Proof. destruct o as [[] [] [] []]; reflexivity. Qed.

Lemma project_ok k fromLast kfs o bn bf : is_base fromLast kfs bn bf ->
  known_in k bn (depths_asked o) kfs ->
  projectOntoBaseKf cmap unmap w h k fromLast kfs o = Ok (restricted o (columns (all_lines k bn bf kfs))).
Proof.
  intros B K. unfold projectOntoBaseKf. rewrite (base_of _ _ _ _ B). cbn [bind].
  rewrite all_points_ok by now rewrite asked_cleared. now rewrite cleared_append.
Qed.

Lemma projected k fromLast kfs o bn bf : well_keyed kfs -> is_base fromLast kfs bn bf ->
  rigid (f_pose bf) -> directed unmap -> depths_known k kfs bn ->
  exists ls, listing cmap unmap w h k kfs bn bf ls /\
    projectOntoBaseKf cmap unmap w h k fromLast kfs o = Ok (restricted o (columns ls)).
Proof.
  intros K B R D N. apply known_true in N. exists (all_lines k bn bf kfs). split; [now apply all_listing|].
  apply project_ok; [exact B|]. destruct (depths_asked o); [exact N|].
  intros n f p I P E. apply (N n f p I P). intros X. specialize (E X). tauto.
Qed.

Lemma projected_all k fromLast kfs bn bf : well_keyed kfs -> is_base fromLast kfs bn bf ->
  rigid (f_pose bf) -> directed unmap -> depths_known k kfs bn ->
  exists ls, listing cmap unmap w h k kfs bn bf ls /\
    forall o, projectOntoBaseKf cmap unmap w h k fromLast kfs o = Ok (restricted o (columns ls)).
Proof.
  intros K B R D N. apply known_true in N. exists (all_lines k bn bf kfs). split; [now apply all_listing|].
  intros o. apply project_ok; [exact B|]. destruct (depths_asked o); [exact N|].
  intros n f p I P E. apply (N n f p I P). intros X. specialize (E X). tauto.
Qed.

Lemma project_defined k fromLast kfs o bn bf : is_base fromLast kfs bn bf -> o_depths o <> None ->
  (exists r, projectOntoBaseKf cmap unmap w h k fromLast kfs o = Ok r) <-> depths_known k kfs bn.
Proof.
  intros B A. rewrite <- known_true.
  assert (DA : depths_asked o = true) by (unfold depths_asked; destruct (o_depths o); [reflexivity|contradiction]).
  split.
  - intros (r & H). unfold known_in. intros n f p I P E D.
    unfold projectOntoBaseKf in H. rewrite (base_of _ _ _ _ B) in H. cbn [bind] in H.
    rewrite all_points_ub in H; [discriminate|]. rewrite asked_cleared, DA. intros K. now apply (K n f p I P E).
  - intros K. eexists. apply project_ok; [exact B|]. now rewrite DA.
Qed.

Lemma project_undefined k fromLast kfs o bn bf : is_base fromLast kfs bn bf -> o_depths o <> None ->
  ~ depths_known k kfs bn -> projectOntoBaseKf cmap unmap w h k fromLast kfs o = UB.
Proof.
  intros B A N.
  assert (DA : depths_asked o = true) by (unfold depths_asked; destruct (o_depths o); [reflexivity|contradiction]).
  unfold projectOntoBaseKf. rewrite (base_of _ _ _ _ B). cbn [bind]. apply all_points_ub.
  rewrite asked_cleared, DA, known_true. exact N.
Qed.

End Projection.
