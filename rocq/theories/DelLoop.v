(** Draws under which the search never ends, and more rounds never change a result. *)
From Coq Require Import ZArith QArith List Bool Arith Lia Reals Lra Permutation.
From Verif Require Import Outcome DelModel DelSpec DelRun DelRun3 DelPlaneSpec DelThm DelExact DelExamples DelDiscSpec DelFinal DelEnds2.
Import ListNotations.
Open Scope nat_scope.

Theorem triangulate_ends (es em : Q) p l order (first : nat -> list nat -> nat) fuel :
  let d := maxDim p l in
  (forall i (s : list nat), s <> [] -> first i s < length s) ->
  Permutation order (map Z.of_nat (seq 0 (S (length l)))) ->
  general_position place (exact (es * d) (em * d)) (corner0 p l :: corner1 p l :: corner2 p l :: p :: l) ->
  2 * length l + 13 < fuel ->
  exists coins T, triangulate es em p l order (fun i => (first i, coins i)) fuel = Ok T.
Proof.
  intros d FS PM GP FU. unfold triangulate. cbv zeta. fold d.
  set (pts := map (fun i => (i, nth (Z.to_nat i) (p :: l) p)) order).
  change (minx p l - d, miny p l - d)%Q with (corner0 p l). change (minx p l + 4 * d, miny p l - d)%Q with (corner1 p l). change (minx p l - d, miny p l + 4 * d)%Q with (corner2 p l).
  assert (LN : length pts = S (length l)).
  { unfold pts. rewrite map_length, (Permutation_length PM), map_length, seq_length. reflexivity. }
  assert (MF : map fst pts = order) by (unfold pts; rewrite map_map; cbn [fst]; apply map_id).
  assert (MS : Permutation (p :: l) (map snd pts)).
  { unfold pts. rewrite map_map. cbn [snd]. apply Permutation_sym. eapply perm_trans; [apply Permutation_map, PM|]. rewrite map_map.
    erewrite map_ext; [|intros a; rewrite Nat2Z.id; reflexivity]. change (S (length l)) with (length (p :: l)). rewrite nth_map_id. apply Permutation_refl. }
  assert (GP' : general_position place (exact (es * d) (em * d)) (corner0 p l :: corner1 p l :: corner2 p l :: map snd pts)).
  { apply (gp_perm _ _ (corner0 p l :: corner1 p l :: corner2 p l :: p :: l)); [|exact GP]. apply (Permutation_app_head [corner0 p l; corner1 p l; corner2 p l]), MS. }
  assert (D : (0 < maxDim p l)%Q) by (apply (gp_dim (es * d) (em * d)), (gp_prefix _ _ [corner0 p l; corner1 p l; corner2 p l] (p :: l)), GP).
  assert (IN : Forall (fun q => inside (place (corner0 p l)) (place (corner1 p l)) (place (corner2 p l)) (place q)) (map snd pts)).
  { apply Forall_forall. intros q Q. apply box_inside; [exact D|]. apply (Permutation_in _ (Permutation_sym MS)), Q. }
  assert (PF : Permutation (map fst pts) (map Z.of_nat (seq 0 (length pts)))) by (rewrite MF, LN; exact PM).
  apply (construct_ends place (exact (es * d) (em * d)) (exact_ok _ _) (exact_circle _ _)); try assumption. rewrite LN. lia.
Qed.

Section Loop.
Context {P : Type}.
Variable g : geometry P.
Implicit Types m : mesh P.

(** one round: the triangle found or the next edge *)
Definition round m (p : P) (c : bool) (cur : nat) : outcome (nat + nat) :=
  match DelModel.walk g m p (fun _ => c) 1 cur with
  | Ok t => Ok (inl t)
  | NoFuel =>
      let* tri :=
        (match ET m cur 0, ET m cur 1 with
         | None, t => Ok t
         | t, None => Ok t
         | Some t0, Some t1 =>
             let* c := findThirdVert m (Some t0) cur in
             Ok (if g_sameSide g (POS m (EV m cur 0)) (POS m (EV m cur 1)) (POS m c) p then Some t0 else Some t1)
         end) in
      match tri with
      | None => UB
      | Some t =>
          match filter (fun c => negb (c =? cur)) [TE m t 0; TE m t 1; TE m t 2] with
          | [s0; s1] =>
              let* c0 := findThirdVert m (Some t) s0 in
              let* c1 := findThirdVert m (Some t) s1 in
              let w0 := negb (g_sameSide g (POS m (EV m s0 0)) (POS m (EV m s0 1)) (POS m c0) p) in
              let w1 := negb (g_sameSide g (POS m (EV m s1 0)) (POS m (EV m s1 1)) (POS m c1) p) in
              Ok (inr (if w0 && w1 then (if c then s0 else s1) else if w0 then s0 else if w1 then s1 else cur))
          | _ => UB
          end
      end
  | UB => UB | Abort => Abort | Throw => Throw
  end.

Lemma walk_round m p c fuel cur e : round m p c cur = Ok (inr e) -> DelModel.walk g m p (fun _ => c) (S fuel) cur = DelModel.walk g m p (fun _ => c) fuel e.
Proof.
  unfold round. cbn [DelModel.walk].
  destruct (match ET m cur 0, ET m cur 1 with None, t => Ok t | t, None => Ok t | Some t0, Some t1 => _ end) as [[t|]| | | |]; cbn [bind]; try discriminate.
  destruct (filter _ _) as [|s0 [|s1 [|? ?]]]; try discriminate.
  destruct (findThirdVert m (Some t) s0); cbn [bind]; try discriminate. destruct (findThirdVert m (Some t) s1); cbn [bind]; try discriminate.
  destruct (containsT g m t p); try discriminate. intros H. injection H as <-. reflexivity.
Qed.

Lemma walk_circles m p c (L : list nat) : forallb (fun cur => match round m p c cur with Ok (inr e) => existsb (Nat.eqb e) L | _ => false end) L = true ->
  forall fuel cur, In cur L -> DelModel.walk g m p (fun _ => c) fuel cur = NoFuel.
Proof.
  intros H. rewrite forallb_forall in H. induction fuel as [|fuel IH]; intros cur I; [reflexivity|].
  specialize (H cur I). destruct (round m p c cur) as [[?|e]| | | |] eqn:R; try discriminate. rewrite (walk_round _ _ _ _ _ _ R).
  apply IH. apply existsb_exists in H. destruct H as (x & X & E). apply Nat.eqb_eq in E. subst x. exact X.
Qed.

(** more rounds *)
Lemma walk_more m p c : forall f f' cur, f <= f' -> DelModel.walk g m p (fun _ => c) f cur <> NoFuel -> DelModel.walk g m p (fun _ => c) f' cur = DelModel.walk g m p (fun _ => c) f cur.
Proof.
  induction f as [|f IH]; intros f' cur L N; [cbn in N; congruence|]. destruct f' as [|f']; [lia|]. cbn [DelModel.walk] in *.
  destruct (match ET m cur 0, ET m cur 1 with None, t => Ok t | t, None => Ok t | Some t0, Some t1 => _ end) as [[t|]| | | |]; cbn [bind] in *; try reflexivity.
  destruct (filter _ _) as [|s0 [|s1 [|? ?]]]; try reflexivity.
  destruct (findThirdVert m (Some t) s0); cbn [bind] in *; try reflexivity. destruct (findThirdVert m (Some t) s1); cbn [bind] in *; try reflexivity.
  destruct (containsT g m t p); [reflexivity|]. apply IH; [lia|exact N].
Qed.

Lemma locate_more m p fs c f f' : f <= f' -> enclosingTriangle g m p fs (fun _ => c) f <> NoFuel -> enclosingTriangle g m p fs (fun _ => c) f' = enclosingTriangle g m p fs (fun _ => c) f.
Proof.
  intros L. unfold enclosingTriangle. destruct (negb _); [reflexivity|]. destruct (nth_error _ _) as [cur|]; [|reflexivity].
  assert (W : (let* t := DelModel.walk g m p (fun _ => c) f cur in Ok (Some t)) <> NoFuel -> (let* t := DelModel.walk g m p (fun _ => c) f' cur in Ok (Some t)) = (let* t := DelModel.walk g m p (fun _ => c) f cur in Ok (Some t))).
  { intros N. rewrite (walk_more m p c f f' cur L); [reflexivity|]. intros E. rewrite E in N. apply N. reflexivity. }
  destruct (ET m cur 0) as [t0|], (ET m cur 1) as [t1|]; repeat match goal with |- context [containsT g m ?t p] => destruct (containsT g m t p) end; auto.
Qed.

Lemma legal_more v : forall f f' m queue, f <= f' -> legalize g v f m queue <> NoFuel -> legalize g v f' m queue = legalize g v f m queue.
Proof.
  induction f as [|f IH]; intros f' m queue L N; [cbn in N; congruence|]. destruct f' as [|f']; [lia|]. cbn [legalize] in *. destruct queue as [|e queue]; [reflexivity|].
  destruct (isEdgeLegal g m e) as [b| | | |]; cbn [bind] in *; try reflexivity. destruct b; [apply IH; [lia|exact N]|].
  destruct (ET m e 0) as [t0|]; [|reflexivity]. destruct (if isIncidentT m v t0 then ET m e 1 else Some t0) as [o|]; [|reflexivity].
  destruct (performFlip m e) as [m'| | | |]; cbn [bind] in *; try reflexivity. apply IH; [lia|exact N].
Qed.

Lemma add_more m v fs c f f' : f <= f' -> addPoint g m v fs (fun _ => c) f <> NoFuel -> addPoint g m v fs (fun _ => c) f' = addPoint g m v fs (fun _ => c) f.
Proof.
  intros L N. unfold addPoint in *. rewrite (locate_more m (POS m v) fs c f f' L).
  2: { intros E. rewrite E in N. apply N. reflexivity. }
  destruct (enclosingTriangle g m (POS m v) fs (fun _ => c) f) as [[t|]| | | |]; cbn [bind] in *; try reflexivity.
  destruct (find _ _); [reflexivity|]. destruct (insertPoint g m t v) as [[k queue]| | | |]; cbn [bind fst snd] in *; try reflexivity.
  rewrite (legal_more v f f' k queue L); [reflexivity|]. intros E. rewrite E in N. apply N. reflexivity.
Qed.

Lemma all_more fs (c : bool) f f' n : f <= f' -> forall order i m inv, insert_all g (fun _ => (fs, fun _ => c)) f order i m inv n <> NoFuel ->
  insert_all g (fun _ => (fs, fun _ => c)) f' order i m inv n = insert_all g (fun _ => (fs, fun _ => c)) f order i m inv n.
Proof.
  intros L. induction order as [|[ind p] order IH]; intros i m inv N; [reflexivity|]. cbn [insert_all fst snd] in *.
  rewrite (add_more _ _ fs c f f' L).
  2: { intros E. rewrite E in N. apply N. reflexivity. }
  destruct (addPoint g (makeVertex m p ind) (nv m) fs (fun _ => c) f) as [[m' u]| | | |]; cbn [bind] in *; try reflexivity.
  destruct (u =? nv m); [apply IH, N|]. cbv zeta in *. destruct (_ && _)%bool; [apply IH, N|reflexivity].
Qed.
End Loop.

(** six points; the last one is looked for in a circle of triangles *)
Definition pc : list point := [q 2 0; q 4 9; q 3 7; q 8 0; q 5 1].
Definition pc_order : list Z := [2; 4; 0; 1; 3; 5]%Z.
Definition pc_first : list (Z * point) := map (fun i => (i, nth (Z.to_nat i) (q 4 7 :: pc) (q 4 7))) [2; 4; 0; 1; 3]%Z.
Definition pc_g : geometry point := exact (eps * maxDim (q 4 7) pc) (eps * maxDim (q 4 7) pc).
Definition pc_box : mesh point := bounding (corner0 (q 4 7) pc) (corner1 (q 4 7) pc) (corner2 (q 4 7) pc).
Definition tails : choices := fun _ => (fun _ => 0, fun _ => false).

Lemma pc_position : general_position place (exact (eps * maxDim (q 4 7) pc) (eps * maxDim (q 4 7) pc))
  (corner0 (q 4 7) pc :: corner1 (q 4 7) pc :: corner2 (q 4 7) pc :: q 4 7 :: pc).
Proof. apply gpb_ok. vm_compute. reflexivity. Qed.

Definition pc_circle (f : nat) : bool :=
  match insert_all pc_g tails f pc_first 0 pc_box (fun _ => 0%Z) 6 with
  | Ok (m, _) =>
      let k := makeVertex m (q 5 1) 5 in
      match nth_error (VE k 0) 0 with
      | Some cur =>
          let fix go j cur := match j with O => [] | S j => cur :: match round pc_g k (q 5 1) false cur with Ok (inr e) => go j e | _ => [] end end in
          let L := go 12 cur in
          isInsideBound pc_g k (q 5 1) && negb match ET k cur 0 with Some t => containsT pc_g k t (q 5 1) | None => false end &&
          negb match ET k cur 1 with Some t => containsT pc_g k t (q 5 1) | None => false end &&
          existsb (Nat.eqb cur) L &&
          forallb (fun cur => match round pc_g k (q 5 1) false cur with Ok (inr e) => existsb (Nat.eqb e) L | _ => false end) L
      | None => false
      end
  | _ => false
  end.

Lemma pc_circles : pc_circle 30 = true.
Proof. vm_compute. reflexivity. Qed.

Lemma pc_late f : 30 <= f -> insert_all pc_g tails f (pc_first ++ [(5%Z, q 5 1)]) 0 pc_box (fun _ => 0%Z) 6 = NoFuel.
Proof.
  intros F. rewrite insert_app. pose proof pc_circles as H. unfold pc_circle in H.
  assert (A : insert_all pc_g tails f pc_first 0 pc_box (fun _ => 0%Z) 6 = insert_all pc_g tails 30 pc_first 0 pc_box (fun _ => 0%Z) 6).
  { apply (all_more pc_g (fun _ => 0) false 30 f 6 F pc_first 0 pc_box (fun _ => 0%Z)). fold tails. intros E. rewrite E in H. discriminate H. }
  rewrite A. clear A. destruct (insert_all pc_g tails 30 pc_first 0 pc_box (fun _ => 0%Z) 6) as [[m inv]| | | |]; try discriminate H.
  cbn [bind fst snd insert_all tails]. unfold addPoint, enclosingTriangle. rewrite new_pos.
  set (k := makeVertex m (q 5 1) 5) in *. cbv zeta in H. destruct (nth_error (VE k 0) 0) as [cur|]; [|discriminate H].
  set (L := (fix go j cur := match j with O => [] | S j => cur :: match round pc_g k (q 5 1) false cur with Ok (inr e) => go j e | _ => [] end end) 12 cur) in *. clearbody L.
  apply andb_prop in H. destruct H as [H HL]. apply andb_prop in H. destruct H as [H HC]. apply andb_prop in H. destruct H as [H H1]. apply andb_prop in H. destruct H as [HI H0].
  rewrite HI. cbn [negb]. apply existsb_exists in HC. destruct HC as (x & X & E). apply Nat.eqb_eq in E. subst x.
  rewrite (walk_circles pc_g k (q 5 1) false L HL f cur X).
  destruct (ET k cur 0) as [t0|], (ET k cur 1) as [t1|]; repeat match goal with H : negb (containsT ?a ?b ?c ?d) = true |- _ => apply negb_true_iff in H; rewrite H end; reflexivity.
Qed.

Lemma build_stuck {P} (g : geometry P) b0 b1 b2 ch fuel order n : n = Z.of_nat (length order) -> insert_all g ch fuel order 0 (bounding b0 b1 b2) (fun _ => 0%Z) n = NoFuel -> construct g b0 b1 b2 ch fuel order = NoFuel.
Proof. intros -> H. unfold construct. rewrite H. reflexivity. Qed.

Lemma pc_never f : insert_all pc_g tails f (pc_first ++ [(5%Z, q 5 1)]) 0 pc_box (fun _ => 0%Z) 6 = NoFuel.
Proof.
  destruct (Nat.le_gt_cases 30 f) as [F|F]; [apply pc_late, F|].
  pose proof (all_more pc_g (fun _ => 0) false f 30 6 (Nat.lt_le_incl _ _ F) (pc_first ++ [(5%Z, q 5 1)]) 0 pc_box (fun _ => 0%Z)) as A. fold tails in A. rewrite (pc_late 30 (le_n 30)) in A.
  destruct (insert_all pc_g tails f (pc_first ++ [(5%Z, q 5 1)]) 0 pc_box (fun _ => 0%Z) 6); try reflexivity; (specialize (A ltac:(discriminate)); discriminate A).
Qed.

Lemma pc_list : map (fun i => (i, nth (Z.to_nat i) (q 4 7 :: pc) (q 4 7))) pc_order = pc_first ++ [(5%Z, q 5 1)].
Proof. reflexivity. Qed.

Theorem search_circles : forall fuel, triangulate eps eps (q 4 7) pc pc_order tails fuel = NoFuel.
Proof.
  intros fuel. unfold triangulate. cbv zeta. rewrite pc_list. apply (build_stuck _ _ _ _ _ _ _ 6); [reflexivity|]. pose proof (pc_never fuel) as N. unfold pc_g, pc_box, corner0, corner1, corner2 in N. exact N.
Qed.

Lemma pc_perm : Permutation pc_order (map Z.of_nat (seq 0 (S (length pc)))).
Proof.
  apply NoDup_Permutation.
  - repeat constructor; cbn; intuition discriminate.
  - cbn. repeat constructor; cbn; intuition discriminate.
  - intros x. cbn. intuition.
Qed.
Lemma tails_ok : forall i (s : list nat), s <> [] -> fst (tails i) s < length s.
Proof. intros i s N. destruct s; [congruence|cbn; lia]. Qed.
