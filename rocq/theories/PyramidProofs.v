(** Proofs for the pyramids. *)
From Coq Require Import ZArith QArith Reals List Bool Lia Lra Psatz ZifyBool.
From Verif Require Import Outcome PyramidModel PyramidSpec.
Import ListNotations.
Open Scope Z_scope.

(** * The image pyramid *)
Definition bytes (g : gray) : Prop := forall x y, 0 <= gat g x y <= 255.

Lemma down_bytes g : bytes (boxFilterPyrDown g).
Proof. intros x y. unfold boxFilterPyrDown. cbn [gat]. pose proof (Z.mod_pos_bound). specialize (H (Z.quot (gat g (2 * x) (2 * y) + gat g (2 * x + 1) (2 * y) + gat g (2 * x) (2 * y + 1) + gat g (2 * x + 1) (2 * y + 1)) 4) 256). lia. Qed.

Lemma down_pixel g x y : bytes g ->
  gat (boxFilterPyrDown g) x y =
  (gat g (2 * x) (2 * y) + gat g (2 * x + 1) (2 * y) + gat g (2 * x) (2 * y + 1) + gat g (2 * x + 1) (2 * y + 1)) / 4.
Proof.
  intros B. unfold boxFilterPyrDown. cbn [gat].
  pose proof (B (2 * x) (2 * y)). pose proof (B (2 * x + 1) (2 * y)).
  pose proof (B (2 * x) (2 * y + 1)). pose proof (B (2 * x + 1) (2 * y + 1)).
  set (s := _ + _ + _ + _) in *. rewrite Z.quot_div_nonneg by lia.
  apply Z.mod_small. split; [apply Z.div_pos; lia|apply Z.div_lt_upper_bound; lia].
Qed.

Lemma levels_nth n : forall img l g, nth_error (pyr_levels n img) l = Some g ->
  (l < n)%nat /\ g = Nat.iter l boxFilterPyrDown img.
Proof.
  induction n as [|n IH]; intros img l g H.
  - destruct l; discriminate.
  - destruct l as [|l]; cbn in H.
    + injection H as <-. split; [lia|reflexivity].
    + apply IH in H. destruct H as [L ->]. split; [lia|].
      clear. induction l as [|l IH]; [reflexivity|]. cbn. f_equal. exact IH.
Qed.

Lemma levels_nth' n : forall img l, (l < n)%nat ->
  nth_error (pyr_levels n img) l = Some (Nat.iter l boxFilterPyrDown img).
Proof.
  intros img l H. destruct (nth_error (pyr_levels n img) l) as [g|] eqn:E.
  - apply levels_nth in E. destruct E as [_ ->]. reflexivity.
  - exfalso. apply nth_error_None in E. revert img l H E. induction n as [|n IH]; intros img l H E; [lia|].
    destruct l; cbn in E; [lia|]. apply (IH (boxFilterPyrDown img) l); lia.
Qed.

Lemma levels_length n : forall img, length (pyr_levels n img) = n.
Proof. induction n as [|n IH]; intros img; cbn; [reflexivity|f_equal; apply IH]. Qed.

Lemma iter_bytes l img : bytes img -> bytes (Nat.iter l boxFilterPyrDown img).
Proof. intros B. destruct l as [|l]; [exact B|]. cbn. apply down_bytes. Qed.

Lemma iter_size l img : 0 <= grows img -> 0 <= gcols img ->
  grows (Nat.iter l boxFilterPyrDown img) = grows img / 2 ^ Z.of_nat l /\
  gcols (Nat.iter l boxFilterPyrDown img) = gcols img / 2 ^ Z.of_nat l.
Proof.
  intros R C. induction l as [|l [IR IC]].
  - cbn. rewrite !Z.div_1_r. split; reflexivity.
  - assert (P : 0 < 2 ^ Z.of_nat l) by (apply Z.pow_pos_nonneg; lia).
    rewrite Nat2Z.inj_succ, Z.pow_succ_r by lia. cbn [Nat.iter nat_rect]. unfold boxFilterPyrDown at 1 3. cbn [grows gcols].
    change (nat_rect (fun _ => gray) img (fun _ => boxFilterPyrDown) l) with (Nat.iter l boxFilterPyrDown img).
    rewrite IR, IC, !Z.quot_div_nonneg, !Z.div_div, (Z.mul_comm 2) by (try lia; apply Z.div_pos; lia). split; reflexivity.
Qed.

Lemma block_split l x y bx by_ : in_block (Z.succ l) x y bx by_ -> 0 <= l ->
  exists dx dy, 0 <= dx <= 1 /\ 0 <= dy <= 1 /\ in_block l (2 * x + dx) (2 * y + dy) bx by_.
Proof.
  intros [X Y] L. rewrite Z.pow_succ_r in * by exact L. assert (0 < 2 ^ l) by (apply Z.pow_pos_nonneg; lia).
  exists (if bx <? 2 ^ l * (2 * x + 1) then 0 else 1), (if by_ <? 2 ^ l * (2 * y + 1) then 0 else 1).
  unfold in_block. destruct (Z.ltb_spec bx (2 ^ l * (2 * x + 1))), (Z.ltb_spec by_ (2 ^ l * (2 * y + 1))); repeat split; nia.
Qed.

Lemma block_join l x y dx dy bx by_ : 0 <= l -> 0 <= dx <= 1 -> 0 <= dy <= 1 ->
  in_block l (2 * x + dx) (2 * y + dy) bx by_ -> in_block (Z.succ l) x y bx by_.
Proof.
  intros L X Y [A B]. unfold in_block. rewrite Z.pow_succ_r by exact L.
  assert (0 < 2 ^ l) by (apply Z.pow_pos_nonneg; lia). repeat split; nia.
Qed.

Lemma iter_range img lo hi : bytes img -> forall l x y,
  (forall bx by_, in_block (Z.of_nat l) x y bx by_ -> lo <= gat img bx by_ <= hi) ->
  lo <= gat (Nat.iter l boxFilterPyrDown img) x y <= hi.
Proof.
  intros B. induction l as [|l IH]; intros x y H.
  - cbn. apply H. unfold in_block. change (2 ^ Z.of_nat 0) with 1. lia.
  - cbn [Nat.iter nat_rect]. change (nat_rect (fun _ => gray) img (fun _ => boxFilterPyrDown) l) with (Nat.iter l boxFilterPyrDown img).
    rewrite down_pixel by (apply iter_bytes, B).
    assert (K : forall dx dy, 0 <= dx <= 1 -> 0 <= dy <= 1 ->
              lo <= gat (Nat.iter l boxFilterPyrDown img) (2 * x + dx) (2 * y + dy) <= hi).
    { intros dx dy X Y. apply IH. intros bx by_ I. apply H. rewrite Nat2Z.inj_succ.
      apply (block_join (Z.of_nat l) x y dx dy); try assumption; lia. }
    pose proof (K 0 0 ltac:(lia) ltac:(lia)) as K1. pose proof (K 1 0 ltac:(lia) ltac:(lia)) as K2.
    pose proof (K 0 1 ltac:(lia) ltac:(lia)) as K3. pose proof (K 1 1 ltac:(lia) ltac:(lia)) as K4.
    rewrite ?Z.add_0_r in *. split; [apply Z.div_le_lower_bound; lia|].
    apply Z.lt_succ_r, Z.div_lt_upper_bound; lia.
Qed.

Lemma zsum_add n m : forall a f, zsum (n + m) a f = zsum n a f + zsum m (a + Z.of_nat n) f.
Proof.
  induction n as [|n IH]; intros a f; cbn [zsum Nat.add].
  - rewrite Z.add_0_r. reflexivity.
  - rewrite IH. replace (a + 1 + Z.of_nat n) with (a + Z.of_nat (S n)) by lia. ring.
Qed.
Lemma zsum_plus n : forall a f g, zsum n a (fun k => f k + g k) = zsum n a f + zsum n a g.
Proof. induction n as [|n IH]; intros; cbn [zsum]; [reflexivity|rewrite IH; ring]. Qed.
Lemma zsum_ext n : forall a f g, (forall k, f k = g k) -> zsum n a f = zsum n a g.
Proof. induction n as [|n IH]; intros a f g H; cbn [zsum]; [reflexivity|rewrite H; f_equal; apply IH, H]. Qed.

Lemma pow2_nat l : Z.of_nat (Nat.pow 2 l) = 2 ^ Z.of_nat l.
Proof. rewrite Nat2Z.inj_pow. reflexivity. Qed.

Lemma total_split l x y f :
  block_total (S l) x y f = block_total l (2 * x) (2 * y) f + block_total l (2 * x + 1) (2 * y) f
                            + block_total l (2 * x) (2 * y + 1) f + block_total l (2 * x + 1) (2 * y + 1) f.
Proof.
  unfold block_total. rewrite Nat2Z.inj_succ, Z.pow_succ_r by lia.
  cbn [Nat.pow]. rewrite Nat.mul_comm. cbn [Nat.mul]. rewrite Nat.mul_succ_r, Nat.mul_succ_r, Nat.mul_0_r, Nat.add_0_l.
  set (n := Nat.pow 2 l). set (p := 2 ^ Z.of_nat l). assert (N : Z.of_nat n = p) by apply pow2_nat.
  rewrite zsum_add.
  rewrite (zsum_ext n (2 * p * y) _ (fun j => zsum n (p * (2 * x)) (fun i => f i j) + zsum n (p * (2 * x + 1)) (fun i => f i j))).
  2:{ intros j. rewrite zsum_add. f_equal; f_equal; lia. }
  rewrite (zsum_ext n (2 * p * y + Z.of_nat n) _ (fun j => zsum n (p * (2 * x)) (fun i => f i j) + zsum n (p * (2 * x + 1)) (fun i => f i j))).
  2:{ intros j. rewrite zsum_add. f_equal; f_equal; lia. }
  rewrite !zsum_plus. replace (2 * p * y) with (p * (2 * y)) by ring.
  replace (p * (2 * y) + Z.of_nat n) with (p * (2 * y + 1)) by lia. ring.
Qed.

(** Rounding down at each level costs at most three quarters of a grey value per level. *)
Lemma iter_mean img : bytes img -> forall l x y,
  4 ^ Z.of_nat l * gat (Nat.iter l boxFilterPyrDown img) x y <= block_total l x y (gat img) /\
  4 * block_total l x y (gat img) <= 4 ^ Z.of_nat l * (4 * gat (Nat.iter l boxFilterPyrDown img) x y + 3 * Z.of_nat l).
Proof.
  intros B. induction l as [|l IH]; intros x y.
  - unfold block_total. cbn [Nat.pow zsum Nat.iter nat_rect]. change (2 ^ Z.of_nat 0) with 1. change (4 ^ Z.of_nat 0) with 1.
    rewrite !Z.mul_1_l, !Z.add_0_r. lia.
  - rewrite total_split, Nat2Z.inj_succ, Z.pow_succ_r by lia. cbn [Nat.iter nat_rect].
    change (nat_rect (fun _ => gray) img (fun _ => boxFilterPyrDown) l) with (Nat.iter l boxFilterPyrDown img).
    rewrite down_pixel by (apply iter_bytes, B).
    pose proof (IH (2 * x) (2 * y)) as H1. pose proof (IH (2 * x + 1) (2 * y)) as H2.
    pose proof (IH (2 * x) (2 * y + 1)) as H3. pose proof (IH (2 * x + 1) (2 * y + 1)) as H4.
    set (g := Nat.iter l boxFilterPyrDown img) in *. set (p := 4 ^ Z.of_nat l) in *.
    assert (P : 0 < p) by (apply Z.pow_pos_nonneg; lia).
    set (s := gat g (2 * x) (2 * y) + gat g (2 * x + 1) (2 * y) + gat g (2 * x) (2 * y + 1) + gat g (2 * x + 1) (2 * y + 1)).
    pose proof (Z.div_mod s 4 ltac:(lia)) as D. pose proof (Z.mod_pos_bound s 4 ltac:(lia)) as M.
    set (q := s / 4) in *. set (r := s mod 4) in *.
    assert (S1 : p * s <= block_total l (2 * x) (2 * y) (gat img) + block_total l (2 * x + 1) (2 * y) (gat img)
                 + block_total l (2 * x) (2 * y + 1) (gat img) + block_total l (2 * x + 1) (2 * y + 1) (gat img)) by (unfold s; lia).
    assert (S2 : 4 * (block_total l (2 * x) (2 * y) (gat img) + block_total l (2 * x + 1) (2 * y) (gat img)
                 + block_total l (2 * x) (2 * y + 1) (gat img) + block_total l (2 * x + 1) (2 * y + 1) (gat img))
                 <= p * (4 * s + 12 * Z.of_nat l)) by (unfold s; lia).
    clearbody q r s. split; nia.
Qed.

(** * The depth pyramid *)
Lemma qtrunc_pixel q x : (0 <= q)%Q -> (qtrunc q = x <-> in_pixel q x).
Proof.
  intros H. destruct q as [n d]. unfold Qle in H. cbn in H. assert (N : 0 <= n) by lia.
  unfold qtrunc, in_pixel, Qle, Qlt, inject_Z. cbn [Qnum Qden]. rewrite Z.quot_div_nonneg by lia.
  pose proof (Z.div_mod n (Zpos d) ltac:(lia)) as D. pose proof (Z.mod_pos_bound n (Zpos d) ltac:(lia)) as M.
  split; [intros <-; split; nia|]. intros [A B]. nia.
Qed.

Lemma qtrunc_range q w : (0 <= q)%Q -> (q < inject_Z w)%Q -> 0 <= qtrunc q < w.
Proof.
  intros A B. assert (P : in_pixel q (qtrunc q)) by (apply qtrunc_pixel; [exact A|reflexivity]).
  destruct P as [P1 P2]. destruct q as [n d]. unfold Qle, Qlt, inject_Z in *. cbn [Qnum Qden] in *.
  set (t := qtrunc _) in *. clearbody t. nia.
Qed.

Lemma inside_pixel w h p x y : inside w h p ->
  (toCvPoint p = (x, y) <-> in_pixel (fst p) x /\ in_pixel (snd p) y).
Proof.
  intros (A & B & C & D). unfold toCvPoint. split.
  - intros H. injection H as <- <-. split; apply qtrunc_pixel; try assumption; reflexivity.
  - intros [X Y]. apply qtrunc_pixel in X; [|exact A]. apply qtrunc_pixel in Y; [|exact C]. congruence.
Qed.

Lemma dset_ok m p v w h : inside w h p -> dcols m = w -> drows m = h ->
  exists m', dset m (toCvPoint p) v = Ok m' /\ dcols m' = w /\ drows m' = h /\
    forall x y, dat m' x y = if (x =? fst (toCvPoint p)) && (y =? snd (toCvPoint p)) then v else dat m x y.
Proof.
  intros (A & B & C & D) <- <-. unfold dset, toCvPoint. cbn [fst snd].
  pose proof (qtrunc_range _ _ A B). pose proof (qtrunc_range _ _ C D).
  destruct ((0 <=? _) && _ && _ && _) eqn:E; [|lia].
  eexists. split; [reflexivity|]. cbn. repeat split.
Qed.

Definition hit (p : Q * Q) (x y : Z) : bool := (x =? fst (toCvPoint p)) && (y =? snd (toCvPoint p)).

Lemma insert_ok w h pts : Forall (fun t => inside w h (fst (fst t))) pts -> forall de we,
  dcols de = w -> drows de = h -> dcols we = w -> drows we = h ->
  exists de' we', insert_points pts de we = Ok (de', we') /\
    dcols de' = w /\ drows de' = h /\ dcols we' = w /\ drows we' = h /\
    forall x y,
      ((forall t, In t pts -> hit (fst (fst t)) x y = false) -> dat de' x y = dat de x y /\ dat we' x y = dat we x y) /\
      (forall i t, nth_error pts i = Some t -> hit (fst (fst t)) x y = true ->
        (forall j u, (i < j)%nat -> nth_error pts j = Some u -> hit (fst (fst u)) x y = false) ->
        dat de' x y = snd (fst t) /\ dat we' x y = snd t).
Proof.
  induction pts as [|[[p d] v] pts IH]; intros F de we E1 E2 E3 E4.
  - exists de, we. cbn. repeat (split; [first [reflexivity|assumption]|]). intros x y.
    split; [intros _; split; reflexivity|]. intros i t H. destruct i; discriminate.
  - inversion F as [|? ? I F']; subst. cbn [fst] in I. cbn [insert_points].
    destruct (dset_ok de p d (dcols de) (drows de) I eq_refl eq_refl) as (de1 & S1 & A1 & A2 & A3).
    destruct (dset_ok we p v (dcols de) (drows de) I E3 E4) as (we1 & S2 & B1 & B2 & B3).
    rewrite S1, S2. cbn [bind].
    destruct (IH F' de1 we1 A1 A2 B1 B2) as (de' & we' & R & C1 & C2 & C3 & C4 & C5).
    exists de', we'. split; [exact R|]. repeat (split; [assumption|]). intros x y. destruct (C5 x y) as [N L].
    split.
    + intros H. assert (H0 : hit p x y = false) by (apply (H (p, d, v)); left; reflexivity). unfold hit in H0.
      destruct N as [N1 N2]; [intros t T; apply H; right; exact T|].
      rewrite N1, N2, A3, B3, H0. split; reflexivity.
    + intros i t T Hit Later. destruct i as [|i]; cbn in T.
      * injection T as <-. cbn [fst snd] in *. destruct N as [N1 N2].
        { intros u U. apply In_nth_error in U. destruct U as [j U]. apply (Later (S j) u); [lia|exact U]. }
        unfold hit in Hit. rewrite N1, N2, A3, B3, Hit. split; reflexivity.
      * apply (L i t T Hit). intros j u J U. apply (Later (S j) u); [lia|exact U].
Qed.

Open Scope R_scope.
Lemma xsum_last n : forall a f, xsum (S n) a f = xsum n a f + f (a + Z.of_nat n)%Z.
Proof.
  induction n as [|n IH]; intros a f.
  - cbn [xsum]. rewrite Z.add_0_r. ring.
  - change (xsum (S (S n)) a f) with (f a + xsum (S n) (a + 1) f). rewrite IH.
    change (xsum (S n) a f) with (f a + xsum n (a + 1) f).
    replace (a + 1 + Z.of_nat n)%Z with (a + Z.of_nat (S n))%Z by lia. ring.
Qed.
Lemma rsum_xsum n f : rsum n (fun i => f (Z.of_nat i)) = xsum n 0 f.
Proof. induction n as [|n IH]; [reflexivity|]. rewrite xsum_last. cbn [rsum]. rewrite IH. reflexivity. Qed.
Lemma xsum_add n m : forall a f, xsum (n + m) a f = xsum n a f + xsum m (a + Z.of_nat n) f.
Proof.
  induction n as [|n IH]; intros a f; cbn [xsum Nat.add].
  - rewrite Z.add_0_r. ring.
  - rewrite IH. replace (a + 1 + Z.of_nat n)%Z with (a + Z.of_nat (S n))%Z by lia. ring.
Qed.
Lemma xsum_ext n : forall a f g, (forall k, (a <= k < a + Z.of_nat n)%Z -> f k = g k) -> xsum n a f = xsum n a g.
Proof.
  induction n as [|n IH]; intros a f g H; cbn [xsum]; [reflexivity|]. rewrite (H a) by lia. f_equal.
  apply IH. intros k K. apply H. lia.
Qed.
Lemma xsum_minus n : forall a f g, xsum n a (fun k => f k - g k) = xsum n a f - xsum n a g.
Proof. induction n as [|n IH]; intros; cbn [xsum]; [ring|rewrite IH; ring]. Qed.
Lemma xsum_le n : forall a f g, (forall k, (a <= k < a + Z.of_nat n)%Z -> f k <= g k) -> xsum n a f <= xsum n a g.
Proof.
  induction n as [|n IH]; intros a f g H; cbn [xsum]; [lra|]. pose proof (H a ltac:(lia)).
  assert (xsum n (a + 1) f <= xsum n (a + 1) g) by (apply IH; intros k K; apply H; lia). lra.
Qed.
Lemma xsum_scale c n : forall a f, xsum n a (fun k => c * f k) = c * xsum n a f.
Proof. induction n as [|n IH]; intros; cbn [xsum]; [ring|rewrite IH; ring]. Qed.

Lemma integral_at m x y : (0 <= x)%Z -> (0 <= y)%Z ->
  dat (integral m) x y = xsum (Z.to_nat y) 0 (fun j => xsum (Z.to_nat x) 0 (fun i => dat m i j)).
Proof.
  intros X Y. unfold integral. cbn [dat].
  rewrite <- (rsum_xsum (Z.to_nat y) (fun j => xsum (Z.to_nat x) 0 (fun i => dat m i j))).
  assert (E : forall n f g, (forall k, f k = g k) -> rsum n f = rsum n g).
  { induction n as [|n IH]; intros f g H; cbn; [reflexivity|]. rewrite H, (IH f g H). reflexivity. }
  apply E. intros j. apply (rsum_xsum (Z.to_nat x) (fun i => dat m i (Z.of_nat j))).
Qed.

Lemma box_total m (l : nat) x y : (0 <= x)%Z -> (0 <= y)%Z ->
  let p := (2 ^ Z.of_nat l)%Z in
  dat (integral m) (p * x + p) (p * y + p) - dat (integral m) (p * x + p) (p * y)
  - dat (integral m) (p * x) (p * y + p) + dat (integral m) (p * x) (p * y)
  = block_rtotal l x y (dat m).
Proof.
  intros X Y p. assert (P : (0 < p)%Z) by (apply Z.pow_pos_nonneg; lia).
  rewrite !integral_at by nia. unfold block_rtotal. fold p.
  assert (N : Z.to_nat p = Nat.pow 2 l) by (unfold p; rewrite <- pow2_nat, Nat2Z.id; reflexivity).
  rewrite (Z2Nat.inj_add (p * x) p), (Z2Nat.inj_add (p * y) p), N by nia.
  rewrite !xsum_add. rewrite !Z2Nat.id by nia. rewrite !Z.add_0_l.
  set (n := Nat.pow 2 l). set (ny := Z.to_nat (p * y)). set (nx := Z.to_nat (p * x)).
  assert (A : forall c b, xsum c b (fun j => xsum (nx + n) 0 (fun i => dat m i j)) - xsum c b (fun j => xsum nx 0 (fun i => dat m i j))
                = xsum c b (fun j => xsum n (p * x) (fun i => dat m i j))).
  { intros c b. rewrite <- xsum_minus. apply xsum_ext. intros j _. rewrite xsum_add, Z.add_0_l. unfold nx.
    rewrite Z2Nat.id by nia. ring. }
  pose proof (A n (p * y)%Z) as A2. lra.
Qed.

Lemma shift_mul x l : (0 <= l)%Z -> Z.shiftl x l = (2 ^ l * x)%Z.
Proof. intros L. rewrite Z.shiftl_mul_pow2 by exact L. ring. Qed.

Lemma up_cell wd we (l : nat) x y : (0 <= x)%Z -> (0 <= y)%Z ->
  let m := pyrNUpDepth (integral wd) (integral we) (Z.of_nat l) in
  dat m x y = if Rlt_dec (1 / 100000000) (Rabs (block_rtotal l x y (dat we)))
              then block_rtotal l x y (dat wd) / block_rtotal l x y (dat we) else -1.
Proof.
  intros X Y m. unfold m, pyrNUpDepth. cbn [dat]. rewrite !shift_mul, Z.mul_1_r by lia.
  rewrite !(box_total _ l x y X Y). reflexivity.
Qed.

Lemma up_size wd we (l : nat) :
  let m := pyrNUpDepth (integral wd) (integral we) (Z.of_nat l) in
  dcols m = (dcols wd / 2 ^ Z.of_nat l)%Z /\ drows m = (drows wd / 2 ^ Z.of_nat l)%Z.
Proof.
  cbn. rewrite !Z.shiftr_div_pow2 by lia. split; f_equal; lia.
Qed.

Lemma rtotal_ext l x y f g : (forall bx by_, in_block (Z.of_nat l) x y bx by_ -> f bx by_ = g bx by_) ->
  block_rtotal l x y f = block_rtotal l x y g.
Proof.
  intros H. unfold block_rtotal. apply xsum_ext. intros j J. apply xsum_ext. intros i I.
  rewrite pow2_nat in *. apply H. unfold in_block. lia.
Qed.
Lemma rtotal_le l x y f g : (forall bx by_, in_block (Z.of_nat l) x y bx by_ -> f bx by_ <= g bx by_) ->
  block_rtotal l x y f <= block_rtotal l x y g.
Proof.
  intros H. unfold block_rtotal. apply xsum_le. intros j J. apply xsum_le. intros i I.
  rewrite pow2_nat in *. apply H. unfold in_block. lia.
Qed.
Lemma rtotal_scale c l x y f : block_rtotal l x y (fun i j => c * f i j) = c * block_rtotal l x y f.
Proof.
  unfold block_rtotal. rewrite <- xsum_scale. apply xsum_ext. intros j _. apply xsum_scale.
Qed.

(** A weighted mean lies between the bounds of the values with positive weight. *)
Lemma mean_between l x y D W lo hi :
  (forall bx by_, in_block (Z.of_nat l) x y bx by_ -> 0 <= W bx by_ /\ (0 < W bx by_ -> lo <= D bx by_ <= hi)) ->
  0 < block_rtotal l x y W ->
  lo <= block_rtotal l x y (fun i j => D i j * W i j) / block_rtotal l x y W <= hi.
Proof.
  intros H P. set (s := block_rtotal l x y W) in *.
  assert (A : lo * s <= block_rtotal l x y (fun i j => D i j * W i j)).
  { unfold s. rewrite <- rtotal_scale. apply rtotal_le. intros bx by_ I. destruct (H bx by_ I) as [W0 B].
    destruct (Rle_lt_or_eq_dec _ _ W0) as [W1|W1]; [specialize (B W1); nra|rewrite <- W1; lra]. }
  assert (B : block_rtotal l x y (fun i j => D i j * W i j) <= hi * s).
  { unfold s. rewrite <- rtotal_scale. apply rtotal_le. intros bx by_ I. destruct (H bx by_ I) as [W0 B].
    destruct (Rle_lt_or_eq_dec _ _ W0) as [W1|W1]; [specialize (B W1); nra|rewrite <- W1; lra]. }
  set (t := block_rtotal l x y (fun i j => D i j * W i j)) in *.
  assert (E : t = t / s * s) by (field; lra). split; apply Rmult_le_reg_r with s; lra.
Qed.

Lemma combine_nth {A B} (l : list A) (l' : list B) i a b :
  nth_error l i = Some a -> nth_error l' i = Some b -> nth_error (combine l l') i = Some (a, b).
Proof.
  revert l' i. induction l as [|x l IH]; intros [|y l'] [|i] H1 H2; cbn in *; try discriminate.
  - congruence.
  - apply IH; assumption.
Qed.
Lemma combine_nth_inv {A B} (l : list A) (l' : list B) i a b :
  nth_error (combine l l') i = Some (a, b) -> nth_error l i = Some a /\ nth_error l' i = Some b.
Proof.
  revert l' i. induction l as [|x l IH]; intros [|y l'] [|i] H; cbn in *; try discriminate.
  - injection H as <- <-. split; reflexivity.
  - apply IH, H.
Qed.

Lemma depth_pyramid base L points ds ws :
  (1 <= L)%Z -> length points = length ds -> length ds = length ws ->
  Forall (inside (gcols base) (grows base)) points ->
  exists images depths D W,
    depthedImagePyramid base L points ds ws = Ok (images, depths) /\
    imagePyramid base L = Ok images /\ length depths = Z.to_nat L /\
    deposited points ds ws D W /\
    (exists m, nth_error depths 0 = Some m /\ dcols m = gcols base /\ drows m = grows base /\
      forall x y, dat m x y = D x y /\ (none_in points x y -> D x y = -1)) /\
    (forall l m, (1 <= l)%nat -> nth_error depths l = Some m ->
      dcols m = (gcols base / 2 ^ Z.of_nat l)%Z /\ drows m = (grows base / 2 ^ Z.of_nat l)%Z /\
      forall x y, (0 <= x)%Z -> (0 <= y)%Z -> cell_value l x y D W (dat m x y)).
Proof.
  intros HL E1 E2 F. unfold depthedImagePyramid.
  assert (IP : imagePyramid base L = Ok (pyr_levels (Z.to_nat L) base)).
  { unfold imagePyramid. destruct (L <? 0)%Z eqn:A; [lia|]. destruct (L =? 0)%Z eqn:B; [lia|]. reflexivity. }
  rewrite IP. cbn [bind]. rewrite E1, E2, !Nat.eqb_refl. cbn [andb].
  set (pts := combine (combine points ds) ws).
  assert (F' : Forall (fun t => inside (gcols base) (grows base) (fst (fst t))) pts).
  { apply Forall_forall. intros [[p d] w] I. unfold pts in I. apply in_combine_l, in_combine_l in I.
    rewrite Forall_forall in F. apply F, I. }
  edestruct (insert_ok (gcols base) (grows base) pts F'
    {| drows := grows base; dcols := gcols base; dat := fun _ _ => -1 |}
    {| drows := grows base; dcols := gcols base; dat := fun _ _ => 0 |} eq_refl eq_refl eq_refl eq_refl)
    as (de & we & R & C1 & C2 & C3 & C4 & C5).
  rewrite R. cbn [bind].
  assert (HIT : forall i p x y, nth_error points i = Some p -> (hit p x y = true <-> in_pixel (fst p) x /\ in_pixel (snd p) y)).
  { intros i p x y N. rewrite <- (inside_pixel (gcols base) (grows base)).
    - unfold hit. destruct (toCvPoint p) as [a b]. cbn [fst snd]. rewrite andb_true_iff, !Z.eqb_eq. split.
      + intros [-> ->]. reflexivity.
      + intros Q. injection Q as -> ->. split; reflexivity.
    - rewrite Forall_forall in F. apply F. eapply nth_error_In, N. }
  assert (NONE : forall x y, none_in points x y -> forall t, In t pts -> hit (fst (fst t)) x y = false).
  { intros x y N t T. apply In_nth_error in T. destruct T as [i T]. destruct t as [[p d] w]. cbn [fst].
    apply combine_nth_inv in T. destruct T as [T _]. apply combine_nth_inv in T. destruct T as [T _].
    apply not_true_is_false. rewrite (HIT i p x y T). apply (N i p T). }
  eexists _, _, (dat de), (dat we). split; [reflexivity|]. split; [reflexivity|].
  split; [cbn [length]; rewrite map_length, seq_length; lia|].
  split; [|split].
  - intros x y. destruct (C5 x y) as [N S]. split.
    + intros H. apply (N (NONE x y H)).
    + intros i [[p (P & PX)] LATER].
      assert (LI : (i < length points)%nat) by (apply nth_error_Some; rewrite P; discriminate).
      destruct (nth_error ds i) as [d|] eqn:D; [|apply nth_error_None in D; lia].
      destruct (nth_error ws i) as [w|] eqn:W; [|apply nth_error_None in W; lia].
      assert (T : nth_error pts i = Some (p, d, w)) by (apply combine_nth; [apply combine_nth|]; assumption).
      destruct (S i (p, d, w) T) as [A B].
      * apply (HIT i p x y P), PX.
      * intros j [[q d'] w'] J U. cbn [fst]. apply combine_nth_inv in U. destruct U as [U _].
        apply combine_nth_inv in U. destruct U as [U _]. apply not_true_is_false. rewrite (HIT j q x y U). apply (LATER j q J U).
      * cbn [fst snd] in *. rewrite A, B. split; reflexivity.
  - exists de. split; [reflexivity|]. split; [exact C1|]. split; [exact C2|]. intros x y. split; [reflexivity|].
    intros H. apply (C5 x y), NONE, H.
  - intros l m L1 N. destruct l as [|l]; [lia|]. cbn [nth_error] in N.
    rewrite nth_error_map in N. destruct (nth_error (seq 1 (Z.to_nat L - 1)) l) as [k|] eqn:K; [|discriminate].
    assert (KL : k = S l).
    { assert (LL : (l < Z.to_nat L - 1)%nat) by (rewrite <- (seq_length (Z.to_nat L - 1) 1); apply nth_error_Some; rewrite K; discriminate).
      pose proof (nth_error_nth _ _ 0%nat K) as Q. rewrite seq_nth in Q by exact LL. lia. }
    subst k. assert (M : m = pyrNUpDepth (integral {| drows := drows de; dcols := dcols de; dat := fun x y => dat de x y * dat we x y |})
      (integral we) (Z.of_nat (S l))) by (cbn [option_map] in N; congruence). rewrite M. clear M N.
    destruct (up_size {| drows := drows de; dcols := dcols de; dat := fun x y => dat de x y * dat we x y |} we (S l)) as [S1 S2].
    rewrite S1, S2. cbn [dcols drows]. rewrite C1, C2. split; [reflexivity|]. split; [reflexivity|].
    intros x y X Y. rewrite (up_cell _ we (S l) x y X Y). cbn [dat]. unfold cell_value.
    destruct (Rlt_dec _ _) as [LT|LT]; split; intros H; try reflexivity; lra.
Qed.

(** ... and the mean is between the extreme depths of the points of the block. *)
Lemma in_pixel_unique q x x' : in_pixel q x -> in_pixel q x' -> x = x'.
Proof.
  intros [A B] [C D]. destruct q as [n d]. unfold Qle, Qlt, inject_Z in *. cbn [Qnum Qden] in *. nia.
Qed.

Lemma last_or_none points x y : (exists i, last_in points x y i) \/ none_in points x y.
Proof.
  assert (DEC : forall q z, {in_pixel q z} + {~ in_pixel q z}).
  { intros q z. unfold in_pixel. destruct (Qlt_le_dec q (inject_Z z)) as [A|A].
    - right. intros [C _]. apply (Qlt_not_le _ _ A C).
    - destruct (Qlt_le_dec q (inject_Z (z + 1))) as [B|B]; [left; split; assumption|right]. intros [_ C]. apply (Qle_not_lt _ _ B C). }
  assert (G : forall n, (exists i, (i < n)%nat /\ (exists p, nth_error points i = Some p /\ in_pixel (fst p) x /\ in_pixel (snd p) y) /\
      forall j p, (i < j < n)%nat -> nth_error points j = Some p -> ~ (in_pixel (fst p) x /\ in_pixel (snd p) y)) \/
      (forall j p, (j < n)%nat -> nth_error points j = Some p -> ~ (in_pixel (fst p) x /\ in_pixel (snd p) y))).
  { induction n as [|n IH]; [right; intros; lia|].
    destruct (nth_error points n) as [p|] eqn:E.
    - destruct (DEC (fst p) x) as [X|X]; [destruct (DEC (snd p) y) as [Y|Y]|].
      + left. exists n. split; [lia|]. split; [exists p; auto|]. intros; lia.
      + destruct IH as [(i & I & P & Q)|IH].
        * left. exists i. split; [lia|]. split; [exact P|]. intros j q J N. destruct (Nat.eq_dec j n) as [->|]; [rewrite E in N; injection N as <-; tauto|apply (Q j q); [lia|exact N]].
        * right. intros j q J N. destruct (Nat.eq_dec j n) as [->|]; [rewrite E in N; injection N as <-; tauto|apply (IH j q); [lia|exact N]].
      + destruct IH as [(i & I & P & Q)|IH].
        * left. exists i. split; [lia|]. split; [exact P|]. intros j q J N. destruct (Nat.eq_dec j n) as [->|]; [rewrite E in N; injection N as <-; tauto|apply (Q j q); [lia|exact N]].
        * right. intros j q J N. destruct (Nat.eq_dec j n) as [->|]; [rewrite E in N; injection N as <-; tauto|apply (IH j q); [lia|exact N]].
    - destruct IH as [(i & I & P & Q)|IH].
      + left. exists i. split; [lia|]. split; [exact P|]. intros j q J N. destruct (Nat.eq_dec j n) as [->|]; [congruence|apply (Q j q); [lia|exact N]].
      + right. intros j q J N. destruct (Nat.eq_dec j n) as [->|]; [congruence|apply (IH j q); [lia|exact N]]. }
  destruct (G (length points)) as [(i & I & P & Q)|H].
  - left. exists i. split; [exact P|]. intros j p J N. apply (Q j p); [|exact N].
    split; [exact J|]. apply nth_error_Some. rewrite N. discriminate.
  - right. intros j p N. apply (H j p); [|exact N]. apply nth_error_Some. rewrite N. discriminate.
Qed.

Lemma depth_between points ds ws D W l x y v lo hi :
  deposited points ds ws D W -> cell_value l x y D W v -> Forall (fun w => 0 <= w) ws ->
  1 / 100000000 < block_rtotal l x y W ->
  (forall i p d, nth_error points i = Some p -> nth_error ds i = Some d ->
    (exists bx by_, in_block (Z.of_nat l) x y bx by_ /\ in_pixel (fst p) bx /\ in_pixel (snd p) by_) -> lo <= d <= hi) ->
  lo <= v <= hi.
Proof.
  intros DEP [C _] NN P H. rewrite C by (rewrite Rabs_right; lra).
  apply mean_between; [|lra]. intros bx by_ I. destruct (DEP bx by_) as [N S].
  destruct (last_or_none points bx by_) as [[i LI]|NI].
  - destruct (S i LI) as [SD SW]. split.
    + rewrite Forall_forall in NN. apply NN. eapply nth_error_In, SW.
    + intros _. destruct LI as [[p (NP & PX & PY)] _]. apply (H i p); [exact NP|exact SD|]. exists bx, by_. auto.
  - rewrite (N NI). split; [lra|]. intros; lra.
Qed.

(** A point on the right or lower border of the image is written outside the matrix. *)
Lemma border_point base y d w : (0 < gcols base)%Z -> (0 <= y < grows base)%Z ->
  depthedImagePyramid base 1 [(inject_Z (gcols base), inject_Z y)] [d] [w] = UB.
Proof.
  intros C Y. unfold depthedImagePyramid, imagePyramid. cbn [Z.ltb Z.eqb Z.compare bind length Nat.eqb andb combine insert_points].
  unfold dset, toCvPoint, qtrunc. cbn [fst snd inject_Z Qnum Qden]. rewrite !Z.quot_1_r. cbn [dcols drows].
  rewrite Z.ltb_irrefl, andb_false_r. reflexivity.
Qed.

(** ** Forms for the theorems *)
Open Scope Z_scope.
Lemma pyramid_nth base L images l img : imagePyramid base L = Ok images -> nth_error images l = Some img ->
  img = Nat.iter l boxFilterPyrDown base.
Proof.
  unfold imagePyramid. destruct (L <? 0); [discriminate|]. destruct (L =? 0); [discriminate|].
  intros H N. injection H as <-. apply levels_nth in N. tauto.
Qed.

Lemma pyramid_sizes base L images l img : 0 <= grows base -> 0 <= gcols base ->
  imagePyramid base L = Ok images -> nth_error images l = Some img ->
  grows img = grows base / 2 ^ Z.of_nat l /\ gcols img = gcols base / 2 ^ Z.of_nat l.
Proof. intros R C H N. rewrite (pyramid_nth _ _ _ _ _ H N). apply iter_size; assumption. Qed.

Lemma pyramid_levels base L : 1 <= L ->
  exists images, imagePyramid base L = Ok images /\ length images = Z.to_nat L /\ nth_error images 0 = Some base.
Proof.
  intros H. exists (pyr_levels (Z.to_nat L) base). unfold imagePyramid.
  destruct (L <? 0) eqn:A; [lia|]. destruct (L =? 0) eqn:B; [lia|]. split; [reflexivity|].
  split; [apply levels_length|]. rewrite levels_nth' by lia. reflexivity.
Qed.

Lemma pyramid_mean4 base L images l img img' x y : (forall x y, 0 <= gat base x y <= 255) ->
  imagePyramid base L = Ok images -> nth_error images l = Some img -> nth_error images (S l) = Some img' ->
  let s := gat img (2 * x) (2 * y) + gat img (2 * x + 1) (2 * y)
           + gat img (2 * x) (2 * y + 1) + gat img (2 * x + 1) (2 * y + 1) in
  4 * gat img' x y <= s < 4 * gat img' x y + 4.
Proof.
  intros B H N N' s. pose proof (pyramid_nth _ _ _ _ _ H N) as E. pose proof (pyramid_nth _ _ _ _ _ H N') as E'.
  cbn in E'. change (nat_rect (fun _ => gray) base (fun _ => boxFilterPyrDown) l) with (Nat.iter l boxFilterPyrDown base) in E'.
  rewrite <- E in E'. rewrite E', down_pixel by (rewrite E; exact (iter_bytes l base B)). fold s.
  pose proof (Z.div_mod s 4 ltac:(lia)). pose proof (Z.mod_pos_bound s 4 ltac:(lia)). lia.
Qed.

Lemma pyramid_between base L images l img x y lo hi : (forall x y, 0 <= gat base x y <= 255) ->
  imagePyramid base L = Ok images -> nth_error images l = Some img ->
  (forall bx by_, in_block (Z.of_nat l) x y bx by_ -> lo <= gat base bx by_ <= hi) ->
  lo <= gat img x y <= hi.
Proof. intros B H N. rewrite (pyramid_nth _ _ _ _ _ H N). exact (iter_range base lo hi B l x y). Qed.

Lemma pyramid_constant base L images l img x y c : (forall x y, 0 <= gat base x y <= 255) ->
  imagePyramid base L = Ok images -> nth_error images l = Some img ->
  (forall bx by_, in_block (Z.of_nat l) x y bx by_ -> gat base bx by_ = c) ->
  gat img x y = c.
Proof.
  intros B H N C. assert (c <= gat img x y <= c); [|lia].
  apply (pyramid_between base L images l img x y c c B H N). intros bx by_ I. rewrite (C bx by_ I). lia.
Qed.

Lemma pyramid_darkening base L images l img x y : (forall x y, 0 <= gat base x y <= 255) ->
  imagePyramid base L = Ok images -> nth_error images l = Some img ->
  4 ^ Z.of_nat l * gat img x y <= block_total l x y (gat base) /\
  4 * block_total l x y (gat base) <= 4 ^ Z.of_nat l * (4 * gat img x y + 3 * Z.of_nat l).
Proof. intros B H N. rewrite (pyramid_nth _ _ _ _ _ H N). exact (iter_mean base B l x y). Qed.

(** Number of ones among the lowest [n] bits. *)
Fixpoint ones (n : nat) (z : Z) : Z :=
  match n with O => 0 | S m => z mod 2 + ones m (z / 2) end.
Lemma ones_range n : forall z, 0 <= ones n z <= Z.of_nat n.
Proof.
  induction n as [|n IH]; intros z; cbn [ones]; [lia|]. pose proof (Z.mod_pos_bound z 2 ltac:(lia)).
  pose proof (IH (z / 2)). lia.
Qed.
Lemma ones_double n z : ones (S n) (2 * z) = ones n z.
Proof. cbn [ones]. rewrite Z.mul_comm, Z.mod_mul, Z.div_mul by lia. lia. Qed.
Lemma ones_double1 n z : ones (S n) (2 * z + 1) = 1 + ones n z.
Proof.
  cbn [ones]. replace (2 * z + 1) with (1 + z * 2) by ring. rewrite Z.mod_add, Z.div_add by lia. reflexivity.
Qed.
Lemma lor00 x y : Z.lor (2 * x) (2 * y) = 2 * Z.lor x y.
Proof.
  apply Z.bits_inj'. intros n N. rewrite Z.lor_spec.
  destruct (Z.eq_dec n 0) as [->|Z0]; [rewrite ?Z.testbit_even_0; reflexivity|].
  replace n with (Z.succ (n - 1)) by lia. rewrite !Z.testbit_even_succ by lia. symmetry. apply Z.lor_spec.
Qed.
Lemma bit_ext a b : (forall n, 0 <= n -> Z.testbit a n = Z.testbit b n) -> a = b.
Proof. apply Z.bits_inj'. Qed.
Lemma lor_odd x y : Z.lor (2 * x + 1) (2 * y) = 2 * Z.lor x y + 1 /\
  Z.lor (2 * x) (2 * y + 1) = 2 * Z.lor x y + 1 /\ Z.lor (2 * x + 1) (2 * y + 1) = 2 * Z.lor x y + 1.
Proof.
  repeat split; apply bit_ext; intros n N; rewrite Z.lor_spec;
    (destruct (Z.eq_dec n 0) as [->|Z0];
      [rewrite ?Z.testbit_odd_0, ?Z.testbit_even_0; reflexivity
      |replace n with (Z.succ (n - 1)) by lia; rewrite ?Z.testbit_odd_succ, ?Z.testbit_even_succ by lia; rewrite Z.lor_spec; reflexivity]).
Qed.

Definition dark (n : nat) : gray := {| grows := 2 ^ Z.of_nat n; gcols := 2 ^ Z.of_nat n; gat := fun x y => ones n (Z.lor x y) |}.
Lemma dark_bytes n : (n <= 255)%nat -> bytes (dark n).
Proof. intros H x y. cbn. pose proof (ones_range n (Z.lor x y)). lia. Qed.

Lemma dark_levels n : (n <= 255)%nat -> forall m k, (m + k = n)%nat -> forall x y,
  gat (Nat.iter m boxFilterPyrDown (dark n)) x y = ones k (Z.lor x y) /\
  4 * block_total m x y (gat (dark n)) = 4 ^ Z.of_nat m * (4 * ones k (Z.lor x y) + 3 * Z.of_nat m).
Proof.
  intros N. induction m as [|m IH]; intros k E x y.
  - cbn in E. subst k. split; [reflexivity|]. unfold block_total. cbn [Nat.pow zsum]. change (2 ^ Z.of_nat 0) with 1.
    change (4 ^ Z.of_nat 0) with 1. rewrite !Z.mul_1_l. cbn [gat dark]. lia.
  - assert (IH' : forall x y, _) by (exact (IH (S k) ltac:(lia))). clear IH.
    destruct (lor_odd x y) as (O1 & O2 & O3).
    destruct (IH' (2 * x) (2 * y)) as [A1 B1]. destruct (IH' (2 * x + 1) (2 * y)) as [A2 B2].
    destruct (IH' (2 * x) (2 * y + 1)) as [A3 B3]. destruct (IH' (2 * x + 1) (2 * y + 1)) as [A4 B4].
    rewrite lor00, ones_double in A1, B1. rewrite O1, ones_double1 in A2, B2.
    rewrite O2, ones_double1 in A3, B3. rewrite O3, ones_double1 in A4, B4.
    split.
    + cbn [Nat.iter nat_rect]. change (nat_rect (fun _ => gray) (dark n) (fun _ => boxFilterPyrDown) m) with (Nat.iter m boxFilterPyrDown (dark n)).
      rewrite down_pixel by (apply iter_bytes, dark_bytes, N). rewrite A1, A2, A3, A4.
      replace (_ + _ + _ + _) with (3 + ones k (Z.lor x y) * 4) by ring. rewrite Z.div_add by lia. reflexivity.
    + rewrite total_split, Nat2Z.inj_succ, Z.pow_succ_r by lia. set (p := 4 ^ Z.of_nat m) in *. nia.
Qed.

Lemma darkening_tight l : (l <= 255)%nat -> exists base,
  (forall x y, 0 <= gat base x y <= 255) /\
  forall images img, imagePyramid base (Z.of_nat l + 1) = Ok images -> nth_error images l = Some img ->
  4 * block_total l 0 0 (gat base) = 4 ^ Z.of_nat l * (4 * gat img 0 0 + 3 * Z.of_nat l).
Proof.
  intros N. exists (dark l). split; [exact (dark_bytes l N)|]. intros images img H I.
  rewrite (pyramid_nth _ _ _ _ _ H I). destruct (dark_levels l N l 0 ltac:(lia) 0 0) as [A B]. rewrite A, B. reflexivity.
Qed.
