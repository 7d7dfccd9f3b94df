From Coq Require Import List ZArith QArith Qround Bool Lia Lqa Permutation.
From Verif Require Import Outcome Dbl DelModel DelSpec DelPlaneSpec DelGen DelThm DelExact DelFinal DrawModel DrawSpec.
Import ListNotations.
Open Scope nat_scope.

(** ** Which edges are drawn *)
Section Edges.
Context {P : Type} (m : mesh P).

Lemma existsb_in e l : existsb (Nat.eqb e) l = true <-> In e l.
Proof.
  rewrite existsb_exists. split; [intros (x & I & E); apply Nat.eqb_eq in E; subst; exact I|].
  intro I. exists e. split; [exact I|apply Nat.eqb_refl].
Qed.

Lemma scaled_in l : forall drawn e, In e (edges_scaled m l drawn) <-> In e l /\ shown m e = true /\ ~ In e drawn.
Proof.
  induction l as [|x l IH]; intros drawn e; cbn [edges_scaled]; [cbn; tauto|].
  destruct (shown m x) eqn:S.
  - destruct (existsb (Nat.eqb x) drawn) eqn:D.
    + apply existsb_in in D. rewrite IH. cbn. split; [tauto|]. intros [[->|I] H]; tauto.
    + assert (~ In x drawn) by (intro I; apply existsb_in in I; congruence).
      cbn [In]. rewrite IH. cbn [In]. split.
      * intros [->|H1]; [tauto|]. intuition.
      * intros ([->|I] & H1 & H2); [left; reflexivity|]. destruct (Nat.eq_dec x e); [left; assumption|right; intuition].
  - rewrite IH. cbn. split; [tauto|]. intros ([->|I] & H1 & H2); [congruence|tauto].
Qed.

Lemma scaled_nodup l : forall drawn, NoDup (edges_scaled m l drawn).
Proof.
  induction l as [|x l IH]; intro drawn; cbn [edges_scaled]; [constructor|].
  destruct (shown m x); [|apply IH]. destruct (existsb (Nat.eqb x) drawn); [apply IH|].
  constructor; [|apply IH]. intro I. apply scaled_in in I. apply I. left. reflexivity.
Qed.

Lemma curved_filter l : edges_curved m l [] = filter (shown m) l.
Proof. induction l as [|x l IH]; [reflexivity|]. cbn. destruct (shown m x); rewrite IH; reflexivity. Qed.

Lemma met_in e : In e (met m) <-> edge_of m e.
Proof.
  unfold met, edge_of. rewrite in_flat_map. split; intros (v & A & B); exists v; rewrite in_seq in *; intuition lia.
Qed.

Lemma shown_iff e : shown m e = true <-> (3 <= EV m e 0)%nat /\ (3 <= EV m e 1)%nat.
Proof.
  unfold shown, isFromBoundingTri. rewrite andb_true_iff, !negb_true_iff, !Nat.ltb_ge. tauto.
Qed.

Lemma draw_once : NoDup (scaled_order m) /\ forall e, In e (scaled_order m) <-> inner_edge m e.
Proof.
  split; [apply scaled_nodup|]. intro e. unfold scaled_order. rewrite scaled_in, met_in, shown_iff. unfold inner_edge.
  cbn. tauto.
Qed.

Lemma times_app e a b : times e (a ++ b) = (times e a + times e b)%nat.
Proof. unfold times. rewrite filter_app, app_length. reflexivity. Qed.
Lemma times_nodup e l : NoDup l -> times e l = if existsb (Nat.eqb e) l then 1 else 0.
Proof.
  unfold times. induction 1 as [|x l N H IH]; [reflexivity|]. cbn. destruct (Nat.eqb_spec e x) as [->|NE]; cbn.
  - rewrite IH. destruct (existsb (Nat.eqb x) l) eqn:E; [apply existsb_in in E; contradiction|reflexivity].
  - exact IH.
Qed.
Lemma times_filter e f l : times e (filter f l) = if f e then times e l else 0.
Proof.
  unfold times. induction l as [|x l IH]; cbn; [destruct (f e); reflexivity|].
  destruct (Nat.eqb_spec e x) as [->|NE].
  - destruct (f x) eqn:F; cbn; [rewrite Nat.eqb_refl; cbn; rewrite IH; reflexivity|rewrite IH; reflexivity].
  - destruct (f x); cbn; [destruct (Nat.eqb_spec e x); [contradiction|]|]; exact IH.
Qed.

Lemma times_vertices e k n : (forall v, (k <= v < k + n)%nat -> NoDup (VE m v)) ->
  times e (flat_map (VE m) (seq k n)) = length (filter (fun v => existsb (Nat.eqb e) (VE m v)) (seq k n)).
Proof.
  revert k. induction n as [|n IH]; intros k H; [reflexivity|]. cbn [seq flat_map]. rewrite times_app, IH by (intros v Hv; apply H; lia).
  rewrite times_nodup by (apply H; lia). cbn [filter]. destruct (existsb (Nat.eqb e) (VE m k)); cbn [length]; lia.
Qed.

Lemma filter_pair n a b (f : nat -> bool) : (a < n)%nat -> (b < n)%nat -> a <> b -> (forall v, (v < n)%nat -> (f v = true <-> v = a \/ v = b)) ->
  length (filter f (seq 0 n)) = 2.
Proof.
  intros A B D F.
  assert (Pm : Permutation (filter f (seq 0 n)) [a; b]).
  { apply NoDup_Permutation; [apply NoDup_filter, seq_NoDup| |].
    - constructor; [intros [X|[]]; congruence|constructor; [intros []|constructor]].
    - intro v. rewrite filter_In, in_seq. cbn. split; [intros (H & Q); apply F in Q; [intuition|lia]|].
      intros [<-|[<-|[]]]; (split; [lia|]); apply F; auto. }
  rewrite (Permutation_length Pm). reflexivity.
Qed.

Lemma draw_twice : consistent m ->
  (forall e, inner_edge m e -> times e (curved_order m) = 2) /\ forall e, ~ inner_edge m e -> times e (curved_order m) = 0.
Proof.
  intro C. unfold curved_order. rewrite curved_filter. split; intros e H; rewrite times_filter.
  - destruct H as [E S]. rewrite (proj2 (shown_iff e) S). unfold met.
    rewrite times_vertices by (intros v Hv; apply (c_setE _ C); lia).
    apply (filter_pair _ (EV m e 0) (EV m e 1)).
    + apply (c_ends _ C e); [exact E|left; reflexivity].
    + apply (c_ends _ C e); [exact E|right; reflexivity].
    + apply (c_edge _ C), E.
    + intros v Hv. rewrite existsb_in, (c_vertE _ C v e Hv E). unfold end_of. intuition.
  - destruct (shown m e) eqn:S; [|reflexivity]. apply shown_iff in S.
    unfold times. destruct (filter (Nat.eqb e) (met m)) as [|x l] eqn:F; [reflexivity|exfalso].
    assert (I : In x (filter (Nat.eqb e) (met m))) by (rewrite F; left; reflexivity).
    apply filter_In in I. destruct I as [I Q]. apply Nat.eqb_eq in Q. subst x. apply met_in in I. apply H. split; assumption.
Qed.
End Edges.

(** ** Where they are drawn *)
Open Scope Q_scope.

Lemma qtrunc_floor x : 0 <= x -> qtrunc x = Qfloor x.
Proof.
  intro H. unfold qtrunc, Qfloor. destruct x as [n d]. unfold Qle in H. cbn in *. apply Z.quot_div_nonneg; lia.
Qed.
Lemma qtrunc_whole x : qtrunc x = whole x.
Proof.
  unfold whole. destruct (Qlt_le_dec x 0) as [L|L]; [|apply qtrunc_floor, L].
  unfold Qceiling. rewrite <- qtrunc_floor by lra. unfold qtrunc, Qopp. cbn [Qnum Qden].
  destruct x as [n d]. cbn. rewrite Z.quot_opp_l by lia. lia.
Qed.

Lemma qtrunc_comp x y : x == y -> qtrunc x = qtrunc y.
Proof.
  intro E. rewrite !qtrunc_whole. unfold whole.
  destruct (Qlt_le_dec x 0), (Qlt_le_dec y 0); try lra; [apply Qceiling_comp|apply Qfloor_comp]; exact E.
Qed.

Lemma floor_bounds x : inject_Z (Qfloor x) <= x /\ x < inject_Z (Qfloor x) + 1.
Proof.
  split; [apply Qfloor_le|]. pose proof (Qlt_floor x) as H. rewrite inject_Z_plus in H. exact H.
Qed.

Lemma floor_ge n x : inject_Z n <= x -> (n <= Qfloor x)%Z.
Proof. intro H. rewrite <- (Qfloor_Z n). apply Qfloor_resp_le. exact H. Qed.

Lemma in_int_iff z : in_int z = true <-> (INT_MIN <= z <= INT_MAX)%Z.
Proof. unfold in_int. rewrite andb_true_iff, !Z.leb_le. tauto. Qed.

Lemma conv_ok x : (INT_MIN <= qtrunc x <= INT_MAX)%Z -> conv x = Ok (qtrunc x).
Proof. intro H. unfold conv, to_int. rewrite (proj2 (in_int_iff _) H). reflexivity. Qed.

Lemma lines_map ul sx sy sh m px es :
  (forall e, In e es -> forall v, end_of m e v -> pixel_at ul sx sy sh (POS m v) = Ok (px (POS m v))) ->
  lines ul sx sy sh m es = Ok (map (line_of px m) es).
Proof.
  induction es as [|e es IH]; intro H; [reflexivity|]. cbn [lines].
  rewrite (H e (or_introl eq_refl) (EV m e 0)) by (left; reflexivity). cbn [bind].
  rewrite (H e (or_introl eq_refl) (EV m e 1)) by (right; reflexivity). cbn [bind].
  rewrite IH by (intros f If; apply H; right; exact If). reflexivity.
Qed.

Lemma in_box4 p l q : In q (p :: l) -> minx p l <= fst q <= maxx p l /\ miny p l <= snd q <= maxy p l.
Proof.
  intros I. destruct (fold_min fst l (fst p)) as [A1 A2]. destruct (fold_min snd l (snd p)) as [B1 B2].
  destruct (fold_max fst l (fst p)) as [C1 C2]. destruct (fold_max snd l (snd p)) as [D1 D2].
  fold (minx p l) in A1, A2. fold (miny p l) in B1, B2. fold (maxx p l) in C1, C2. fold (maxy p l) in D1, D2.
  destruct I as [<-|I]; [auto|]. repeat split; [apply A2, I|apply C2, I|apply B2, I|apply D2, I].
Qed.

Section Run.
Variables (es em : Q) (p : point) (l : list point) (order : list Z) (ch : choices) (fuel : nat) (T : @triangulation point).
Hypothesis FS : forall i (s : list nat), s <> [] -> (fst (ch i) s < length s)%nat.
Hypothesis PM : Permutation order (map Z.of_nat (seq 0 (S (length l)))).
Let d := maxDim p l.
Hypothesis GP :
  general_position place (exact (es * d) (em * d)) (corner0 p l :: corner1 p l :: corner2 p l :: p :: l).
Hypothesis RUN : triangulate es em p l order ch fuel = Ok T.
Let m := t_mesh T.

Lemma run_consistent : consistent m.
Proof using All.
  destruct (triangulate_ok es em p l order ch fuel FS PM GP) as [H|(T' & H & C & _)]; [congruence|].
  assert (T' = T) by congruence. subst T'. exact C.
Qed.

Lemma run_edges : NoDup (t_edges T) /\ forall e, In e (t_edges T) <-> inner_edge m e.
Proof using All.
  pose proof run_consistent as C. unfold triangulate in RUN. cbv zeta in RUN.
  destruct (public_edges _ _ _ _ _ _ _ T RUN C) as [N I]. split; [exact N|]. intro e. rewrite I. unfold inner_edge, end_of. fold m.
  split; intros [E K]; (split; [exact E|]); [split; apply K; auto|]. intros v [<-|<-]; apply K.
Qed.

Lemma run_drawn : Permutation (scaled_order m) (t_edges T).
Proof using All.
  destruct (draw_once m) as [N I]. destruct run_edges as [N' I']. apply NoDup_Permutation; [exact N|exact N'|].
  intro e. rewrite I, I'. reflexivity.
Qed.

Lemma run_end e v : In e (scaled_order m) -> end_of m e v -> In (POS m v) (p :: l).
Proof using All.
  intros I V. apply (proj2 (draw_once m)) in I. destruct I as (E & A & B).
  destruct (run_vertices es em p l order ch fuel T FS PM GP RUN) as (_ & VP & _). fold m in VP.
  destruct (VP v) as (i & Q & _).
  - split; [destruct V as [<-|<-]; assumption|]. apply (c_ends _ run_consistent e v E V).
  - exact (nth_error_In _ _ Q).
Qed.

Lemma twice_run : (forall e, In e (t_edges T) -> times e (curved_order m) = 2%nat) /\
  forall e, ~ In e (t_edges T) -> times e (curved_order m) = 0%nat.
Proof using All.
  destruct (draw_twice m run_consistent) as [A B]. destruct run_edges as [_ I].
  split; intros e H; [apply A|apply B]; rewrite <- I; exact H.
Qed.

(** *** On a given image *)
Definition px_on (q : point) : Z * Z :=
  (whole (fst q - minx p l) + whole (minx p l), whole (snd q - miny p l) + whole (miny p l))%Z.

Hypothesis MINX : 0 <= minx p l.
Hypothesis MINY : 0 <= miny p l.

Lemma whole_pos x : 0 <= x -> whole x = Qfloor x.
Proof using. intro H. rewrite <- qtrunc_whole. apply qtrunc_floor, H. Qed.

Lemma sum_floor x y : (Qfloor (x - y) + Qfloor y <= Qfloor x)%Z.
Proof using.
  apply floor_ge. rewrite inject_Z_plus. pose proof (floor_bounds (x - y)). pose proof (floor_bounds y). lra.
Qed.

Lemma floor_nonneg x : 0 <= x -> (0 <= Qfloor x)%Z.
Proof using. intro H. apply floor_ge. exact H. Qed.

Lemma floor_le_int x n : x <= inject_Z n -> (Qfloor x <= n)%Z.
Proof using. intro H. rewrite <- (Qfloor_Z n). apply Qfloor_resp_le. exact H. Qed.

Lemma conv_range x : 0 <= x -> x <= inject_Z INT_MAX -> conv x = Ok (whole x).
Proof using.
  intros A B. rewrite <- qtrunc_whole. apply conv_ok. rewrite qtrunc_floor by exact A.
  pose proof (floor_nonneg x A). pose proof (floor_le_int x INT_MAX B). unfold INT_MIN, INT_MAX in *. lia.
Qed.

Hypothesis MAXX : maxx p l <= inject_Z INT_MAX.
Hypothesis MAXY : maxy p l <= inject_Z INT_MAX.

Lemma pixel_on q : In q (p :: l) ->
  pixel_at (upper_left p l) 1 1 (whole (minx p l), whole (miny p l)) q = Ok (px_on q).
Proof using MINX MINY MAXX MAXY.
  intro I. destruct (in_box4 p l q I) as [[A1 A2] [B1 B2]]. unfold pixel_at, upper_left. cbn [fst snd].
  assert (E1 : conv ((fst q - minx p l) * 1) = Ok (whole (fst q - minx p l))).
  { rewrite conv_range by lra. f_equal. rewrite <- !qtrunc_whole. apply qtrunc_comp. ring. }
  assert (E2 : conv ((snd q - miny p l) * 1) = Ok (whole (snd q - miny p l))).
  { rewrite conv_range by lra. f_equal. rewrite <- !qtrunc_whole. apply qtrunc_comp. ring. }
  rewrite E1. cbn [bind]. rewrite E2. cbn [bind].
  assert (D : forall x y, 0 <= y -> y <= x -> x <= inject_Z INT_MAX -> in_int (whole (x - y) + whole y) = true).
  { intros x y H1 H2 H3. apply in_int_iff. rewrite !whole_pos by lra. pose proof (sum_floor x y). pose proof (floor_le_int x _ H3).
    pose proof (floor_nonneg (x - y)). pose proof (floor_nonneg y). assert (0 <= x - y) by lra. unfold INT_MIN, INT_MAX in *. intuition lia. }
  rewrite !D by lra. reflexivity.
Qed.

Lemma draw_on_lines : draw_on p l m = Ok (map (line_of px_on m) (scaled_order m)).
Proof using All.
  unfold draw_on, upper_left. cbn [fst snd]. destruct (in_box4 p l p (or_introl eq_refl)) as [[A1 A2] [B1 B2]].
  rewrite !conv_range by lra. cbn [bind]. apply lines_map. intros e I v V. apply pixel_on, (run_end e v I V).
Qed.

Lemma px_near q : In q (p :: l) ->
  (inject_Z (fst (px_on q)) <= fst q < inject_Z (fst (px_on q)) + 2) /\
  (inject_Z (snd (px_on q)) <= snd q < inject_Z (snd (px_on q)) + 2).
Proof using MINX MINY.
  intro I. destruct (in_box4 p l q I) as [[A1 A2] [B1 B2]]. unfold px_on. cbn [fst snd]. rewrite !inject_Z_plus.
  rewrite !whole_pos by lra.
  pose proof (floor_bounds (fst q - minx p l)). pose proof (floor_bounds (minx p l)).
  pose proof (floor_bounds (snd q - miny p l)). pose proof (floor_bounds (miny p l)). lra.
Qed.

Lemma floor_shift x (n : Z) : Qfloor (x - inject_Z n) = (Qfloor x - n)%Z.
Proof using.
  destruct (floor_bounds x) as [A B]. destruct (floor_bounds (x - inject_Z n)) as [C D].
  assert (H1 : inject_Z (Qfloor (x - inject_Z n) + n) < inject_Z (Qfloor x + 1)) by (rewrite !inject_Z_plus; change (inject_Z 1) with 1; lra).
  assert (H2 : inject_Z (Qfloor x) < inject_Z (Qfloor (x - inject_Z n) + n + 1)) by (rewrite !inject_Z_plus; change (inject_Z 1) with 1; lra).
  rewrite <- Zlt_Qlt in H1, H2. lia.
Qed.

Lemma px_exact q : In q (p :: l) -> minx p l == inject_Z (whole (minx p l)) -> miny p l == inject_Z (whole (miny p l)) ->
  px_on q = (whole (fst q), whole (snd q)).
Proof using MINX MINY.
  intros I EX EY. destruct (in_box4 p l q I) as [[A1 A2] [B1 B2]]. unfold px_on.
  rewrite !whole_pos in * by lra.
  rewrite (Qfloor_comp (fst q - minx p l) (fst q - inject_Z (Qfloor (minx p l)))) by (rewrite <- EX; reflexivity).
  rewrite (Qfloor_comp (snd q - miny p l) (snd q - inject_Z (Qfloor (miny p l)))) by (rewrite <- EY; reflexivity).
  rewrite !floor_shift. f_equal; lia.
Qed.
End Run.

(** *** Into a new image *)
Section New.
Variables (es em : Q) (p : point) (l : list point) (order : list Z) (ch : choices) (fuel : nat) (T : @triangulation point).
Let d := maxDim p l.
Hypothesis FS : forall i (s : list nat), s <> [] -> (fst (ch i) s < length s)%nat.
Hypothesis PM : Permutation order (map Z.of_nat (seq 0 (S (length l)))).
Hypothesis GP :
  general_position place (exact (es * d) (em * d)) (corner0 p l :: corner1 p l :: corner2 p l :: p :: l).
Hypothesis RUN : triangulate es em p l order ch fuel = Ok T.
Let m := t_mesh T.
Variables (pad : Q) (w h : Z).
Hypothesis PAD : 0 <= pad.
Hypothesis W : (0 < w <= INT_MAX)%Z.
Hypothesis H : (0 < h <= INT_MAX)%Z.

Definition px_new (q : point) : Z * Z :=
  (whole ((fst q - minx p l) * (inject_Z w / (box_height p l * (1 + 2 * pad)))) + whole (pad * inject_Z w),
   whole ((snd q - miny p l) * (inject_Z h / (box_width p l * (1 + 2 * pad)))) + whole (pad * inject_Z h))%Z.

(** The two coordinates are treated alike: offset [a] of at most [a'] in a box whose other side is [b]. *)
Lemma scale_id a b k : 0 < b -> a * (k / (b * (1 + 2 * pad))) == (a / b) * (k / (1 + 2 * pad)).
Proof using PAD. intro B. field. split; lra. Qed.

Lemma frac_bounds a b : 0 <= a -> a <= b -> 0 < b -> 0 <= a / b <= 1.
Proof using.
  intros A B C. split; [apply Qle_shift_div_l; [exact C|lra]|apply Qle_shift_div_r; [exact C|lra]].
Qed.

Lemma frac_ge a b : 0 < b -> (1 + 2 * pad) * b <= a -> 1 + 2 * pad <= a / b.
Proof using. intros B A. apply Qle_shift_div_l; [exact B|exact A]. Qed.

Lemma share k : 0 < k -> 0 < k / (1 + 2 * pad) /\ k / (1 + 2 * pad) * (1 + 2 * pad) == k.
Proof using PAD.
  intro K. split; [apply Qlt_shift_div_l; lra|]. field. lra.
Qed.

(** With a square box every offset is kept within the image. *)
Lemma coord_in a b k : (0 < k)%Z -> pad < 1 # 2 -> 0 <= a -> a <= b -> 0 < b ->
  let c := a * (inject_Z k / (b * (1 + 2 * pad))) in
  0 <= c /\ c + pad * inject_Z k <= inject_Z k /\ (0 < pad -> c + pad * inject_Z k < inject_Z k).
Proof using PAD.
  intros K P A B C c. assert (KQ : 0 < inject_Z k) by (change 0 with (inject_Z 0); rewrite <- Zlt_Qlt; exact K).
  assert (E : c == (a / b) * (inject_Z k / (1 + 2 * pad))) by (apply scale_id, C). rewrite E.
  destruct (frac_bounds a b A B C) as [F1 F2]. destruct (share (inject_Z k) KQ) as [S1 S2].
  set (f := a / b) in *. set (s := inject_Z k / (1 + 2 * pad)) in *. rewrite <- S2.
  assert (0 <= f * s) by (apply Qmult_le_0_compat; lra).
  assert (f * s <= s) by nra.
  assert (0 <= pad * s) by nra. assert (0 <= (1 - 2 * pad) * (pad * s)) by (apply Qmult_le_0_compat; lra).
  split; [assumption|]. split; [nra|]. intro P0. assert (0 < pad * s) by nra.
  assert (0 < (1 - 2 * pad) * (pad * s)) by nra. nra.
Qed.

Lemma floor_lt_int x n : x < inject_Z n -> (Qfloor x < n)%Z.
Proof using.
  intro L. pose proof (Qfloor_le x). rewrite Zlt_Qlt. lra.
Qed.

Lemma coord_pixel a b k : (0 < k)%Z -> pad < 1 # 2 -> 0 <= a -> a <= b -> 0 < b ->
  let c := a * (inject_Z k / (b * (1 + 2 * pad))) in
  let x := (whole c + whole (pad * inject_Z k))%Z in
  (whole (pad * inject_Z k) <= x <= k)%Z /\ (0 <= whole c <= k)%Z /\ (0 < pad -> (x < k)%Z).
Proof using PAD.
  intros K P A B C c x. destruct (coord_in a b k K P A B C) as (H1 & H2 & H3). fold c in H1, H2, H3.
  assert (KQ : 0 < inject_Z k) by (change 0 with (inject_Z 0); rewrite <- Zlt_Qlt; exact K).
  assert (PK : 0 <= pad * inject_Z k) by nra.
  unfold x. rewrite !whole_pos by assumption.
  pose proof (floor_nonneg c H1). pose proof (floor_nonneg _ PK).
  pose proof (sum_floor (c + pad * inject_Z k) (pad * inject_Z k)) as SF.
  rewrite (Qfloor_comp (c + pad * inject_Z k - pad * inject_Z k) c) in SF by ring.
  pose proof (floor_le_int _ _ H2). repeat split; try lia. intro P0. specialize (H3 P0). pose proof (floor_lt_int _ _ H3). lia.
Qed.

Lemma conv_near x n : 0 <= x -> whole x = n -> (n <= INT_MAX)%Z -> conv x = Ok n.
Proof using.
  intros A B C. rewrite <- B in *. rewrite <- qtrunc_whole in *. apply conv_ok. rewrite qtrunc_floor in * by exact A.
  pose proof (floor_nonneg x A). unfold INT_MIN, INT_MAX in *. lia.
Qed.

Lemma qeq_false x : ~ x == 0 -> Qeq_bool x 0 = false.
Proof using. intro N. destruct (Qeq_bool x 0) eqn:E; [|reflexivity]. apply Qeq_bool_iff in E. contradiction. Qed.

Lemma diag_nonzero : 0 < box_width p l -> 0 < box_height p l ->
  Qeq_bool ((maxx p l - minx p l) * (1 + 2 * pad)) 0 || Qeq_bool ((maxy p l - miny p l) * (1 + 2 * pad)) 0 = false.
Proof using PAD.
  unfold box_width, box_height. intros A B. rewrite !qeq_false; [reflexivity| |]; nra.
Qed.

Lemma pad_conv k : (0 < k <= INT_MAX)%Z -> pad <= 1 -> conv (pad * inject_Z k) = Ok (whole (pad * inject_Z k)).
Proof using PAD.
  intros K P. assert (KQ : 0 < inject_Z k) by (change 0 with (inject_Z 0); rewrite <- Zlt_Qlt; lia).
  apply conv_range; [nra|]. assert (inject_Z k <= inject_Z INT_MAX) by (rewrite <- Zle_Qle; lia). nra.
Qed.

Lemma square_pixel q : In q (p :: l) -> 0 < box_width p l -> box_width p l == box_height p l -> pad < 1 # 2 ->
  pixel_at (upper_left p l) (inject_Z w / ((maxy p l - miny p l) * (1 + 2 * pad))) (inject_Z h / ((maxx p l - minx p l) * (1 + 2 * pad)))
    (whole (pad * inject_Z w), whole (pad * inject_Z h)) q = Ok (px_new q) /\
  (whole (pad * inject_Z w) <= fst (px_new q) <= w)%Z /\ (whole (pad * inject_Z h) <= snd (px_new q) <= h)%Z /\
  (0 < pad -> on_image w h (px_new q)).
Proof using PAD W H.
  intros I B0 SQ P. destruct (in_box4 p l q I) as [[A1 A2] [B1 B2]]. unfold box_width, box_height in *.
  destruct (coord_pixel (fst q - minx p l) (maxy p l - miny p l) w) as (X1 & X2 & X3); try lra; [lia|].
  destruct (coord_pixel (snd q - miny p l) (maxx p l - minx p l) h) as (Y1 & Y2 & Y3); try lra; [lia|].
  destruct (coord_in (fst q - minx p l) (maxy p l - miny p l) w) as (X0 & _); try lra; [lia|].
  destruct (coord_in (snd q - miny p l) (maxx p l - minx p l) h) as (Y0 & _); try lra; [lia|].
  cbv zeta in *.
  assert (PW : (0 <= whole (pad * inject_Z w))%Z).
  { assert (KQ : 0 < inject_Z w) by (change 0 with (inject_Z 0); rewrite <- Zlt_Qlt; lia). rewrite whole_pos by nra. apply floor_nonneg. nra. }
  assert (PH : (0 <= whole (pad * inject_Z h))%Z).
  { assert (KQ : 0 < inject_Z h) by (change 0 with (inject_Z 0); rewrite <- Zlt_Qlt; lia). rewrite whole_pos by nra. apply floor_nonneg. nra. }
  split.
  - unfold pixel_at, upper_left, px_new, box_width, box_height. cbn [fst snd].
    rewrite (conv_near ((fst q - minx p l) * _) _ X0 eq_refl) by lia. cbn [bind].
    rewrite (conv_near ((snd q - miny p l) * _) _ Y0 eq_refl) by lia. cbn [bind].
    rewrite (proj2 (in_int_iff (_ + whole (pad * inject_Z w)))) by (unfold INT_MIN, INT_MAX in *; lia).
    rewrite (proj2 (in_int_iff (_ + whole (pad * inject_Z h)))) by (unfold INT_MIN, INT_MAX in *; lia).
    reflexivity.
  - unfold px_new, on_image, box_width, box_height. cbn [fst snd]. split; [exact X1|]. split; [exact Y1|]. intro P0. specialize (X3 P0). specialize (Y3 P0). lia.
Qed.

Lemma draw_new_square : 0 < box_width p l -> box_width p l == box_height p l -> pad < 1 # 2 ->
  draw_new pad p l w h m = Ok (map (line_of px_new m) (scaled_order m)) /\
  forall q, In q (p :: l) ->
    (whole (pad * inject_Z w) <= fst (px_new q) <= w)%Z /\ (whole (pad * inject_Z h) <= snd (px_new q) <= h)%Z /\
    (0 < pad -> on_image w h (px_new q)).
Proof using All.
  intros B0 SQ P. split; [|intros q I; apply square_pixel; assumption].
  unfold draw_new. cbv zeta. rewrite !pad_conv by (assumption || lra). cbn [bind upper_left bottom_right fst snd].
  rewrite diag_nonzero by lra.
  apply lines_map. intros e I v V. apply square_pixel; [|assumption..].
  apply (run_end es em p l order ch fuel T FS PM GP RUN e v I V).
Qed.

(** The scales are exchanged: in a box much wider than high the rightmost point leaves the image. *)
Lemma coord_out a b k : (0 < k)%Z -> 0 < b -> (1 + 2 * pad) * b <= a ->
  (k <= whole (a * (inject_Z k / (b * (1 + 2 * pad)))) + whole (pad * inject_Z k))%Z.
Proof using PAD.
  intros K B A. assert (KQ : 0 < inject_Z k) by (change 0 with (inject_Z 0); rewrite <- Zlt_Qlt; exact K).
  assert (E := scale_id a b (inject_Z k) B). destruct (share (inject_Z k) KQ) as [S1 S2].
  pose proof (frac_ge a b B A) as F. set (f := a / b) in *. set (s := inject_Z k / (1 + 2 * pad)) in *.
  assert (G : inject_Z k <= f * s) by nra.
  assert (PK : 0 <= pad * inject_Z k) by nra.
  rewrite !whole_pos by (try rewrite E; nra). pose proof (floor_nonneg _ PK).
  rewrite (Qfloor_comp _ _ E). pose proof (floor_ge _ _ G). lia.
Qed.

Lemma pixel_value ul sx sy sh q x : pixel_at ul sx sy sh q = Ok x ->
  x = (whole ((fst q - fst ul) * sx) + fst sh, whole ((snd q - snd ul) * sy) + snd sh)%Z.
Proof using.
  unfold pixel_at, conv, to_int. destruct (in_int (qtrunc _)) eqn:A; [|discriminate]. cbn [bind].
  destruct (in_int (qtrunc ((snd q - snd ul) * sy))) eqn:B; [|discriminate]. cbn [bind].
  destruct (in_int _ && in_int _); [|discriminate]. intro E. injection E as <-. rewrite !qtrunc_whole. reflexivity.
Qed.

Lemma lines_value ul sx sy sh mm es' r : lines ul sx sy sh mm es' = Ok r ->
  r = map (line_of (fun q => (whole ((fst q - fst ul) * sx) + fst sh, whole ((snd q - snd ul) * sy) + snd sh)%Z) mm) es'.
Proof using.
  revert r. induction es' as [|e es' IH]; intros r E; cbn [lines] in E; [injection E as <-; reflexivity|].
  destruct (pixel_at ul sx sy sh (POS mm (EV mm e 0))) as [a| | | |] eqn:A; cbn [bind] in E; try discriminate.
  destruct (pixel_at ul sx sy sh (POS mm (EV mm e 1))) as [b| | | |] eqn:B; cbn [bind] in E; try discriminate.
  destruct (lines ul sx sy sh mm es') as [r'| | | |] eqn:R; cbn [bind] in E; try discriminate.
  injection E as <-. cbn [map]. rewrite (IH r' eq_refl). f_equal. unfold line_of.
  rewrite (pixel_value _ _ _ _ _ _ A), (pixel_value _ _ _ _ _ _ B). reflexivity.
Qed.
End New.

Lemma conv_value x n : conv x = Ok n -> n = whole x.
Proof. unfold conv, to_int. destruct (in_int _); [|discriminate]. intro E. injection E as <-. apply qtrunc_whole. Qed.

(** Whatever the mesh: if drawing succeeds, these are the pixels. *)
Lemma draw_new_value pad p l w h m r : draw_new pad p l w h m = Ok r -> r <> [] -> 
  ~ (box_width p l * (1 + 2 * pad) == 0) /\ ~ (box_height p l * (1 + 2 * pad) == 0) /\
  r = map (line_of (px_new p l pad w h) m) (scaled_order m).
Proof.
  unfold draw_new. cbv zeta. intros E N.
  destruct (conv (pad * inject_Z w)) as [a| | | |] eqn:A; cbn [bind] in E; try discriminate.
  destruct (conv (pad * inject_Z h)) as [b| | | |] eqn:B; cbn [bind] in E; try discriminate.
  cbn [upper_left bottom_right fst snd] in E.
  destruct (Qeq_bool ((maxx p l - minx p l) * (1 + 2 * pad)) 0) eqn:Z1; cbn [orb] in E.
  { destruct (scaled_order m); [injection E as <-; contradiction|discriminate]. }
  destruct (Qeq_bool ((maxy p l - miny p l) * (1 + 2 * pad)) 0) eqn:Z2.
  { destruct (scaled_order m); [injection E as <-; contradiction|discriminate]. }
  split; [apply Qeq_bool_neq, Z1|]. split; [apply Qeq_bool_neq, Z2|].
  apply lines_value in E. cbn [fst snd] in E. rewrite (conv_value _ _ A), (conv_value _ _ B) in E. exact E.
Qed.

Lemma draw_new_wide pad p l w h m r : 0 <= pad -> (0 < w)%Z -> draw_new pad p l w h m = Ok r ->
  0 < box_height p l -> (1 + 2 * pad) * box_height p l <= box_width p l ->
  forall e v, In e (scaled_order m) -> end_of m e v -> fst (POS m v) == maxx p l ->
  exists a b, In (a, b) r /\ ((w <= fst a)%Z \/ (w <= fst b)%Z).
Proof.
  intros PAD W E B0 WD e v I V RM.
  assert (N : r <> []).
  { intros ->. unfold draw_new in E. cbv zeta in E. destruct (conv (pad * inject_Z w)); cbn [bind] in E; try discriminate.
    destruct (conv (pad * inject_Z h)); cbn [bind] in E; try discriminate. destruct (_ || _).
    - destruct (scaled_order m); [contradiction|discriminate].
    - apply lines_value in E. destruct (scaled_order m); [contradiction|discriminate]. }
  destruct (draw_new_value _ _ _ _ _ _ _ E N) as (_ & _ & ->).
  assert (O : (w <= fst (px_new p l pad w h (POS m v)))%Z).
  { unfold px_new. cbn [fst]. apply coord_out; [exact PAD|exact W|exact B0|]. rewrite RM. exact WD. }
  exists (px_new p l pad w h (POS m (EV m e 0))), (px_new p l pad w h (POS m (EV m e 1))).
  split; [apply in_map_iff; exists e; split; [reflexivity|exact I]|]. destruct V as [<-|<-]; [left|right]; exact O.
Qed.

Lemma draw_new_tall pad p l w h m r : 0 <= pad -> (0 < h)%Z -> draw_new pad p l w h m = Ok r ->
  0 < box_width p l -> (1 + 2 * pad) * box_width p l <= box_height p l ->
  forall e v, In e (scaled_order m) -> end_of m e v -> snd (POS m v) == maxy p l ->
  exists a b, In (a, b) r /\ ((h <= snd a)%Z \/ (h <= snd b)%Z).
Proof.
  intros PAD W E B0 WD e v I V RM.
  assert (N : r <> []).
  { intros ->. unfold draw_new in E. cbv zeta in E. destruct (conv (pad * inject_Z w)); cbn [bind] in E; try discriminate.
    destruct (conv (pad * inject_Z h)); cbn [bind] in E; try discriminate. destruct (_ || _).
    - destruct (scaled_order m); [contradiction|discriminate].
    - apply lines_value in E. destruct (scaled_order m); [contradiction|discriminate]. }
  destruct (draw_new_value _ _ _ _ _ _ _ E N) as (_ & _ & ->).
  assert (O : (h <= snd (px_new p l pad w h (POS m v)))%Z).
  { unfold px_new. cbn [snd]. apply coord_out; [exact PAD|exact W|exact B0|]. rewrite RM. exact WD. }
  exists (px_new p l pad w h (POS m (EV m e 0))), (px_new p l pad w h (POS m (EV m e 1))).
  split; [apply in_map_iff; exists e; split; [reflexivity|exact I]|]. destruct V as [<-|<-]; [left|right]; exact O.
Qed.

Lemma draw_new_flat pad p l w h m e : box_width p l == 0 \/ box_height p l == 0 -> In e (scaled_order m) ->
  draw_new pad p l w h m = UB.
Proof.
  intros Z I. unfold draw_new. cbv zeta.
  unfold conv at 1, to_int. destruct (in_int _); [|reflexivity]. cbn [bind].
  unfold conv, to_int. destruct (in_int _); [|reflexivity]. cbn [bind upper_left bottom_right fst snd].
  assert (Qeq_bool ((maxx p l - minx p l) * (1 + 2 * pad)) 0 || Qeq_bool ((maxy p l - miny p l) * (1 + 2 * pad)) 0 = true) as ->.
  { apply orb_true_iff. rewrite !Qeq_bool_iff. unfold box_width, box_height in Z. destruct Z as [Z|Z]; [left|right]; rewrite Z; ring. }
  destruct (scaled_order m); [contradiction|reflexivity].
Qed.

(** ** As stated *)
Theorem draw_on_ok es em p l order ch fuel T :
  (forall i (s : list nat), s <> [] -> (fst (ch i) s < length s)%nat) ->
  Permutation order (map Z.of_nat (seq 0 (S (length l)))) ->
  general_position place (exact (es * maxDim p l) (em * maxDim p l)) (corner0 p l :: corner1 p l :: corner2 p l :: p :: l) ->
  triangulate es em p l order ch fuel = Ok T ->
  0 <= minx p l -> 0 <= miny p l -> maxx p l <= inject_Z INT_MAX -> maxy p l <= inject_Z INT_MAX ->
  exists es px, Permutation es (t_edges T) /\ draw_on p l (t_mesh T) = Ok (map (line_of px (t_mesh T)) es) /\
    forall q, In q (p :: l) ->
      (inject_Z (fst (px q)) <= fst q < inject_Z (fst (px q)) + 2) /\
      (inject_Z (snd (px q)) <= snd q < inject_Z (snd (px q)) + 2) /\
      (minx p l == inject_Z (whole (minx p l)) -> miny p l == inject_Z (whole (miny p l)) ->
       px q = (whole (fst q), whole (snd q))).
Proof.
  intros FS PM GP RUN X Y MX MY. exists (scaled_order (t_mesh T)), (px_on p l).
  split; [eapply run_drawn; eassumption|]. split; [eapply draw_on_lines; eassumption|].
  intros q I. destruct (px_near p l X Y q I) as [A B]. split; [exact A|]. split; [exact B|]. apply px_exact; assumption.
Qed.

Theorem draw_new_ok es em p l order ch fuel T pad w h :
  (forall i (s : list nat), s <> [] -> (fst (ch i) s < length s)%nat) ->
  Permutation order (map Z.of_nat (seq 0 (S (length l)))) ->
  general_position place (exact (es * maxDim p l) (em * maxDim p l)) (corner0 p l :: corner1 p l :: corner2 p l :: p :: l) ->
  triangulate es em p l order ch fuel = Ok T ->
  0 < pad < 1 # 2 -> (0 < w <= INT_MAX)%Z -> (0 < h <= INT_MAX)%Z -> 0 < box_width p l -> box_width p l == box_height p l ->
  exists es px, Permutation es (t_edges T) /\ draw_new pad p l w h (t_mesh T) = Ok (map (line_of px (t_mesh T)) es) /\
    (forall q, In q (p :: l) -> on_image w h (px q) /\
      (whole (pad * inject_Z w) <= fst (px q))%Z /\ (whole (pad * inject_Z h) <= snd (px q))%Z) /\
    (forall q q', In q (p :: l) -> In q' (p :: l) ->
      (fst q <= fst q' -> (fst (px q) <= fst (px q'))%Z) /\ (snd q <= snd q' -> (snd (px q) <= snd (px q'))%Z)).
Proof.
  intros FS PM GP RUN [P0 P1] W H B0 SQ. exists (scaled_order (t_mesh T)), (px_new p l pad w h).
  split; [eapply run_drawn; eassumption|].
  destruct (draw_new_square es em p l order ch fuel T FS PM GP RUN pad w h (Qlt_le_weak _ _ P0) W H B0 SQ P1) as [A B].
  split; [exact A|]. split.
  - intros q I. destruct (B q I) as (B1 & B2 & B3). split; [apply B3, P0|]. split; [apply B1|apply B2].
  - assert (MONO : forall k b a a', (0 < k)%Z -> 0 < b -> 0 <= a -> a <= a' ->
      (whole (a * (inject_Z k / (b * (1 + 2 * pad)))) <= whole (a' * (inject_Z k / (b * (1 + 2 * pad)))))%Z).
    { intros k b a a' K Bb A0 AA. assert (KQ : 0 < inject_Z k) by (change 0 with (inject_Z 0); rewrite <- Zlt_Qlt; exact K).
      assert (S : 0 <= inject_Z k / (b * (1 + 2 * pad))) by (apply Qle_shift_div_l; nra).
      assert (0 <= a * (inject_Z k / (b * (1 + 2 * pad)))) by (apply Qmult_le_0_compat; assumption).
      assert (a * (inject_Z k / (b * (1 + 2 * pad))) <= a' * (inject_Z k / (b * (1 + 2 * pad)))) by (apply Qmult_le_compat_r; assumption).
      rewrite !whole_pos by lra. apply Qfloor_resp_le. assumption. }
    intros q q' I I'. destruct (in_box4 p l q I) as [[A1 A2] [A3 A4]]. unfold px_new. cbn [fst snd].
    split; intro L; apply Z.add_le_mono_r, MONO; (lia || lra).
Qed.
