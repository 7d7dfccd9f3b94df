(** The Jacobian of diffMap is the derivative of map. *)
From Coq Require Import Reals List Lra Lia.
From Verif Require Import Pose GeomModel CamModel CamProofs JetModel.
Import ListNotations.
Open Scope R_scope.

Lemma lim_local f g x l d : derivable_pt_lim f x l -> 0 < d -> (forall t, Rabs (t - x) < d -> f t = g t) -> derivable_pt_lim g x l.
Proof.
  intros H D E eps EP. destruct (H eps EP) as [del HD]. assert (M : 0 < Rmin del d) by (apply Rmin_pos; [apply cond_pos|exact D]).
  exists (mkposreal _ M). intros h H0 HH. cbn in HH. rewrite <- !E.
  - apply HD; [exact H0|]. eapply Rlt_le_trans; [exact HH|apply Rmin_l].
  - replace (x - x) with 0 by ring. rewrite Rabs_R0. exact D.
  - replace (x + h - x) with h by ring. eapply Rlt_le_trans; [exact HH|apply Rmin_r].
Qed.

Lemma lim_eq f x l l' : derivable_pt_lim f x l -> l = l' -> derivable_pt_lim f x l'.
Proof. intros H <-. exact H. Qed.

Section Along.
Variable (x0 : R) (d : vec).
(** [j] carries the value and the derivative along [d] of [f] *)
Definition carries (f : R -> R) (j : jet) : Prop :=
  f x0 = ja j /\ exists v, jv j = Some v /\ derivable_pt_lim f x0 (dot3 v d).

Lemma carries_const a : carries (fun _ => a) (jconst a).
Proof. split; [reflexivity|]. eexists. split; [reflexivity|]. eapply lim_eq; [apply derivable_pt_lim_const|]. unfold dot3. cbn. ring. Qed.

Lemma dot_comb k u m v : dot3 (summed (scaled k u) (scaled m v)) d = k * dot3 u d + m * dot3 v d.
Proof. unfold dot3, summed, scaled. cbn. ring. Qed.

Lemma carries_add f g i j : carries f i -> carries g j -> carries (fun t => f t + g t) (jadd i j).
Proof.
  intros (F & u & U & DU) (G & v & V & DV). split; [cbn; congruence|]. unfold jadd. cbn [jv]. rewrite U, V. eexists. split; [reflexivity|].
  eapply lim_eq; [apply (derivable_pt_lim_plus f g); eassumption|]. rewrite dot_comb. ring.
Qed.
Lemma carries_mul f g i j : carries f i -> carries g j -> carries (fun t => f t * g t) (jmul i j).
Proof.
  intros (F & u & U & DU) (G & v & V & DV). split; [cbn; congruence|]. unfold jmul. cbn [jv]. rewrite U, V. eexists. split; [reflexivity|].
  eapply lim_eq; [apply (derivable_pt_lim_mult f g); eassumption|]. rewrite dot_comb, F, G. ring.
Qed.
Lemma carries_div f g i j : carries f i -> carries g j -> ja j <> 0 -> carries (fun t => f t / g t) (jdiv i j).
Proof.
  intros (F & u & U & DU) (G & v & V & DV) N. split; [cbn; congruence|]. unfold jdiv. cbn [jv]. destruct (Req_EM_T (ja j) 0); [contradiction|]. rewrite U, V. eexists. split; [reflexivity|].
  eapply lim_eq; [apply (derivable_pt_lim_div f g); try eassumption; congruence|]. rewrite dot_comb, F, G. unfold Rsqr. field. exact N.
Qed.
Lemma carries_sqrt f i : carries f i -> 0 < ja i -> carries (fun t => sqrt (f t)) (jsqrt i).
Proof.
  intros (F & u & U & DU) P. assert (S : 0 < sqrt (ja i)) by (apply sqrt_lt_R0; exact P). split; [cbn; congruence|]. unfold jsqrt. cbn [jv]. destruct (Req_EM_T (sqrt (ja i)) 0); [lra|]. rewrite U. eexists. split; [reflexivity|].
  eapply lim_eq; [apply (derivable_pt_lim_comp f sqrt); [exact DU|apply derivable_pt_lim_sqrt; rewrite F; exact P]|]. rewrite dot_comb, F. field. lra.
Qed.

Lemma atan2_upper y x : 0 < y -> atan2 y x = PI / 2 - atan (x / y).
Proof.
  intros Y. apply atan2_unique; [lra|left; lra| |].
  - pose proof (atan_bound (x / y)). lra.
  - rewrite cos_minus, cos_PI2, sin_PI2, sin_atan. set (u := x / y).
    assert (E : y * y + x * x = (y * y) * (1 + Rsqr u)) by (unfold u, Rsqr; field; lra). rewrite E, sqrt_mult by (unfold Rsqr; nra). rewrite sqrt_square by lra.
    assert (0 < sqrt (1 + Rsqr u)) by (apply sqrt_lt_R0; unfold Rsqr; nra). replace x with (u * y) by (unfold u; field; lra). field. lra.
Qed.

Lemma lim_pos f l : derivable_pt_lim f x0 l -> 0 < f x0 -> exists e, 0 < e /\ forall t, Rabs (t - x0) < e -> 0 < f t.
Proof.
  intros D P. assert (C : continuity_pt f x0) by (apply derivable_continuous_pt; exists l; exact D).
  destruct (C (f x0) P) as (e & E & H). exists e. split; [exact E|]. intros t T. destruct (Req_dec t x0) as [->|N]; [exact P|].
  specialize (H t). cbn in H. unfold R_dist in H. assert (A : Rabs (f t - f x0) < f x0) by (apply H; split; [split; [exact I|congruence]|exact T]). apply Rabs_def2 in A. lra.
Qed.

Lemma carries_atan2 g f j i : carries g j -> carries f i -> 0 < ja j -> carries (fun t => atan2 (g t) (f t)) (jatan2 j i).
Proof.
  intros (G & v & V & DV) (F & u & U & DU) P. split; [cbn; congruence|]. unfold jatan2. cbn [jv].
  assert (N : 0 < ja i * ja i + ja j * ja j) by nra. destruct (Req_EM_T _ 0); [lra|]. rewrite U, V. eexists. split; [reflexivity|].
  destruct (lim_pos g _ DV) as (e & E & GP); [congruence|].
  apply (lim_local (fun t => PI / 2 - atan (f t / g t)) _ _ _ e); [|exact E|intros t T; symmetry; apply atan2_upper, GP, T].
  eapply lim_eq.
  - apply (derivable_pt_lim_minus (fun _ => PI / 2) (fun t => atan (f t / g t))); [apply derivable_pt_lim_const|].
    apply (derivable_pt_lim_comp (fun t => f t / g t) atan); [apply (derivable_pt_lim_div f g); try eassumption; rewrite G; lra|apply derivable_pt_lim_atan].
  - rewrite dot_comb, F, G. unfold Rsqr. field. split; nra.
Qed.

Lemma carries_loop p n a ja0 : carries a ja0 -> forall i r jr m jm, carries r jr -> carries m jm ->
  carries (fun t => calc_loop n p (a t) i (r t) (m t)) (jloop n p ja0 i jr jm).
Proof.
  intros A. induction n as [|n IH]; intros i r jr m jm R0 M; [exact R0|]. cbn [calc_loop jloop].
  apply (IH (i + 1)%nat (fun t => r t + coeff p i * m t) _ (fun t => m t * a t)); [apply carries_add; [exact R0|apply (carries_mul (fun _ => coeff p i)); [apply carries_const|exact M]]|apply carries_mul; assumption].
Qed.

Lemma carries_ext f g j : (forall t, f t = g t) -> carries f j -> carries g j.
Proof. intros E (F & v & V & D). split; [rewrite <- E; exact F|]. exists v. split; [exact V|]. apply (lim_local f g _ _ 1 D); [lra|]. intros; apply E. Qed.

Theorem map_carries c x y z jx jy jz : carries x jx -> carries y jy -> carries z jz -> 0 < ja jx * ja jx + ja jy * ja jy ->
  carries (fun t => px (map_ray c (V3 (x t) (y t) (z t)))) (fst (map_jet c jx jy jz)) /\
  carries (fun t => py (map_ray c (V3 (x t) (y t) (z t)))) (snd (map_jet c jx jy jz)).
Proof.
  intros X Y Z P. set (n2 := fun t => x t * x t + y t * y t).
  assert (N2 : carries n2 (jadd (jmul jx jx) (jmul jy jy))) by (apply carries_add; apply carries_mul; assumption).
  assert (HN : carries (fun t => sqrt (n2 t)) (jsqrt (jadd (jmul jx jx) (jmul jy jy)))) by (apply carries_sqrt; [exact N2|exact P]).
  assert (S : 0 < ja (jsqrt (jadd (jmul jx jx) (jmul jy jy)))) by (cbn; apply sqrt_lt_R0; exact P).
  pose proof (carries_atan2 _ _ _ _ HN Z S) as A.
  pose proof (carries_loop (mapPolyCoeffs c) (length (mapPolyCoeffs c) - 1) _ _ A 1%nat _ _ _ _ (carries_const (coeff (mapPolyCoeffs c) 0)) A) as R0.
  assert (K : forall w jw o, carries w jw -> (forall t, n2 t = 0 -> w t = 0) ->
    carries (fun t => ((if Rlt_dec 0 (sqrt (n2 t)) then w t / sqrt (n2 t) else w t) * calcMapPoly (mapPolyCoeffs c) (atan2 (sqrt (n2 t)) (z t)) + o) * scale c)
      (jmul (jadd (jmul (if Rlt_dec 0 (ja (jadd (jmul jx jx) (jmul jy jy))) then jdiv jw (jsqrt (jadd (jmul jx jx) (jmul jy jy))) else jw)
        (jloop (length (mapPolyCoeffs c) - 1) (mapPolyCoeffs c) (jatan2 (jsqrt (jadd (jmul jx jx) (jmul jy jy))) jz) 1 (jconst (coeff (mapPolyCoeffs c) 0)) (jatan2 (jsqrt (jadd (jmul jx jx) (jmul jy jy))) jz))) (jconst o)) (jconst (scale c)))).
  { intros w jw o W W0. destruct (Rlt_dec 0 (ja (jadd (jmul jx jx) (jmul jy jy)))) as [_|F]; [|exfalso; apply F; exact P].
    apply (carries_mul (fun t => (if Rlt_dec 0 (sqrt (n2 t)) then w t / sqrt (n2 t) else w t) * calcMapPoly (mapPolyCoeffs c) (atan2 (sqrt (n2 t)) (z t)) + o) (fun _ => scale c)); [|apply carries_const].
    apply (carries_add (fun t => (if Rlt_dec 0 (sqrt (n2 t)) then w t / sqrt (n2 t) else w t) * calcMapPoly (mapPolyCoeffs c) (atan2 (sqrt (n2 t)) (z t))) (fun _ => o)); [|apply carries_const].
    apply (carries_mul (fun t => if Rlt_dec 0 (sqrt (n2 t)) then w t / sqrt (n2 t) else w t)); [|exact R0].
    apply (carries_ext (fun t => w t / sqrt (n2 t))); [|apply carries_div; [exact W|exact HN|lra]].
    intros t. destruct (Rlt_dec 0 (sqrt (n2 t))) as [|F]; [reflexivity|]. assert (n2 t = 0) as E. { assert (Q : 0 <= n2 t) by (unfold n2; nra). destruct Q as [Q|Q]; [exfalso; apply F, sqrt_lt_R0, Q|auto]. }
    rewrite (W0 t E). unfold Rdiv. ring. }
  split; [apply (K x jx)|apply (K y jy)]; try assumption; intros t E; unfold n2 in E; nra.
Qed.
End Along.

(** Straight lines through a ray. *)
Definition shifted (ray d : vec) (t : R) : vec := V3 (vx ray + t * vx d) (vy ray + t * vy d) (vz ray + t * vz d).

Lemma carries_line x0 d (f : R -> R) a v : (forall t, f t = a + (t - x0) * dot3 v d) -> carries x0 d f (J a (Some v)).
Proof.
  intros E. split; [rewrite E; cbn; ring|]. exists v. split; [reflexivity|]. apply (lim_local (fun t => a + (t - x0) * dot3 v d) _ _ _ 1); [|lra|intros; symmetry; apply E].
  eapply lim_eq; [apply (derivable_pt_lim_plus (fun _ => a) (fun t => (t - x0) * dot3 v d)); [apply derivable_pt_lim_const|]|].
  - apply (derivable_pt_lim_mult (fun t => t - x0) (fun _ => dot3 v d)); [|apply derivable_pt_lim_const]. apply (derivable_pt_lim_minus (fun t => t) (fun _ => x0)); [apply derivable_pt_lim_id|apply derivable_pt_lim_const].
  - cbn. ring.
Qed.

Theorem diff_line c ray g x0 d : (forall t, g t = shifted ray d (t - x0)) -> vx ray <> 0 \/ vy ray <> 0 ->
  exists u v, diffMap c ray = (map_ray c ray, (Some u, Some v)) /\
    derivable_pt_lim (fun t => px (map_ray c (g t))) x0 (dot3 u d) /\ derivable_pt_lim (fun t => py (map_ray c (g t))) x0 (dot3 v d).
Proof.
  intros E N.
  assert (P : 0 < vx ray * vx ray + vy ray * vy ray) by (destruct N as [N|N]; apply Rsqr_pos_lt in N; unfold Rsqr in N; nra).
  assert (L : forall (pr : vec -> R) a v, (forall t, pr (g t) = a + (t - x0) * dot3 v d) -> carries x0 d (fun t => pr (g t)) (J a (Some v))) by (intros; apply carries_line; assumption).
  destruct (map_carries x0 d c _ _ _ _ _ _ (L vx (vx ray) (V3 1 0 0) ltac:(intros t; rewrite E; unfold dot3; cbn; ring))
    (L vy (vy ray) (V3 0 1 0) ltac:(intros t; rewrite E; unfold dot3; cbn; ring)) (L vz (vz ray) (V3 0 0 1) ltac:(intros t; rewrite E; unfold dot3; cbn; ring)) P) as [(A1 & u & U & DU) (A2 & v & V & DV)].
  assert (G : forall t, V3 (vx (g t)) (vy (g t)) (vz (g t)) = g t) by (intros t; destruct (g t); reflexivity).
  assert (G0 : g x0 = ray) by (rewrite E; destruct ray; unfold shifted; cbn; f_equal; ring).
  exists u, v. unfold diffMap. destruct (map_jet c _ _ _) as [ju jw] eqn:M. cbn [fst snd] in *. rewrite U, V. split; [|split].
  - rewrite <- A1, <- A2, G, G0. destruct (map_ray c ray); reflexivity.
  - apply (lim_local _ _ _ _ 1 DU); [lra|]. intros t _. rewrite G. reflexivity.
  - apply (lim_local _ _ _ _ 1 DV); [lra|]. intros t _. rewrite G. reflexivity.
Qed.

(** The point is that of map, on the axis too. *)
Lemma ja_loop p n a : forall i r m, ja (jloop n p a i r m) = calc_loop n p (ja a) i (ja r) (ja m).
Proof. induction n as [|n IH]; intros; [reflexivity|]. cbn [jloop calc_loop]. rewrite IH. reflexivity. Qed.

Theorem diff_point c ray : fst (diffMap c ray) = map_ray c ray.
Proof.
  unfold diffMap. cbn [map_jet fst]. unfold map_ray, calcMapPoly. cbn [ja jadd jmul].
  assert (S : 0 < vx ray * vx ray + vy ray * vy ray <-> 0 < sqrt (vx ray * vx ray + vy ray * vy ray)).
  { split; [apply sqrt_lt_R0|]. intros H. destruct (Rlt_dec 0 (vx ray * vx ray + vy ray * vy ray)) as [|F]; [assumption|]. rewrite sqrt_neg_0 in H; lra. }
  destruct (Rlt_dec 0 (vx ray * vx ray + vy ray * vy ray)) as [P|P]; destruct (Rlt_dec 0 (sqrt _)) as [Q|Q]; try tauto; cbn [ja jadd jmul jdiv jconst jsqrt]; rewrite !ja_loop; reflexivity.
Qed.

Lemma none_loop p n a : forall i r m, jv m = None -> (0 < n)%nat \/ jv r = None -> jv (jloop n p a i r m) = None.
Proof.
  induction n as [|n IH]; intros i r m M H; [destruct H; [lia|assumption]|]. cbn [jloop]. apply IH.
  - unfold jmul. cbn [jv]. rewrite M. destruct (jv a); reflexivity.
  - right. unfold jadd, jmul. cbn [jv]. rewrite M. destruct (jv r); reflexivity.
Qed.

Theorem diff_axis c z : (2 <= length (mapPolyCoeffs c))%nat -> snd (diffMap c (V3 0 0 z)) = (None, None).
Proof.
  intros L. unfold diffMap. cbn [map_jet snd vx vy vz].
  set (n2 := jadd (jmul (J 0 (Some (V3 1 0 0))) (J 0 (Some (V3 1 0 0)))) (jmul (J 0 (Some (V3 0 1 0))) (J 0 (Some (V3 0 1 0))))). assert (E : ja n2 = 0) by (cbn; ring). destruct (Rlt_dec 0 (ja n2)); [lra|].
  assert (S : jv (jsqrt n2) = None). { unfold jsqrt. cbn [jv]. rewrite E, sqrt_0. destruct (Req_EM_T 0 0); [reflexivity|congruence]. }
  set (an := jatan2 (jsqrt n2) _). assert (A : jv an = None). { unfold an, jatan2. cbn [jv]. rewrite S. destruct (Req_EM_T _ 0); reflexivity. }
  assert (R0 : jv (jloop (length (mapPolyCoeffs c) - 1) (mapPolyCoeffs c) an 1 (jconst (coeff (mapPolyCoeffs c) 0)) an) = None) by (apply none_loop; [exact A|left; lia]).
  set (r := jloop _ _ _ _ _ _) in *. unfold jmul, jadd, jconst. cbn [jv ja comb]. rewrite R0. reflexivity.
Qed.

(** ** Steps of the epipolar search *)
Theorem speed c dirMax dirMin a : vx (along dirMax dirMin a) <> 0 \/ vy (along dirMax dirMin a) <> 0 ->
  exists u v, derivable_pt_lim (fun t => px (map_ray c (along dirMax dirMin t))) a u /\ derivable_pt_lim (fun t => py (map_ray c (along dirMax dirMin t))) a v /\
    step_speed c dirMax dirMin a = Some (sqrt (u * u + v * v)).
Proof.
  intros N. destruct (diff_line c (along dirMax dirMin a) (along dirMax dirMin) a (V3 (vx dirMin - vx dirMax) (vy dirMin - vy dirMax) (vz dirMin - vz dirMax))) as (u & v & E & U & V); [|exact N|].
  - intros t. unfold along, shifted. cbn. f_equal; ring.
  - eexists _, _. split; [exact U|]. split; [exact V|]. unfold step_speed. rewrite E. cbn [snd]. f_equal. f_equal. unfold dot3. cbn. ring.
Qed.

(** ** Cases *)
(** the equidistant camera: the angle is the distance *)
Definition equidistant : camera :=
  {| width := 4; height := 4; unmapPolyDeg := 1; unmapPolyCoeffs := [1]; center := P2 0 0; scale := 1; maxRadius := 1; minZ := 0; maxAngle := 0; mapPolyCoeffs := [0; 1] |}.

Lemma equidistant_x t : px (map_ray equidistant (V3 t 0 1)) = atan t.
Proof.
  unfold map_ray, calcMapPoly. cbn. replace (t * t + 0 * 0) with (Rsqr t) by (unfold Rsqr; ring). rewrite sqrt_Rsqr_abs.
  destruct (Rlt_dec 0 (Rabs t)) as [P|P].
  - unfold atan2. destruct (Rlt_dec 0 1); [|lra]. replace (Rabs t / 1) with (Rabs t) by field.
    destruct (Rcase_abs t) as [L|L]; [rewrite (Rabs_left t L), atan_opp; field; lra|]. rewrite (Rabs_right t L). rewrite (Rabs_right t L) in P. field. lra.
  - assert (t = 0) as ->. { destruct (Req_dec t 0) as [|N]; [assumption|]. apply Rabs_pos_lt in N. contradiction. } rewrite atan_0. ring.
Qed.

Theorem axis_lost : exists c z, derivable_pt_lim (fun t => px (map_ray c (shifted (V3 0 0 z) (V3 1 0 0) t))) 0 1 /\ snd (diffMap c (V3 0 0 z)) = (None, None).
Proof.
  exists equidistant, 1. split; [|apply diff_axis; cbn; lia].
  apply (lim_local atan _ _ _ 1); [|lra|].
  - eapply lim_eq; [apply derivable_pt_lim_atan|]. unfold Rsqr. field.
  - intros t _. unfold shifted. cbn [vx vy vz]. replace (0 + t * 1) with t by ring. replace (0 + t * 0) with 0 by ring. replace (1 + t * 0) with 1 by ring. symmetry. apply equidistant_x.
Qed.

Lemma jet_case : snd (diffMap equidistant (V3 1 0 1)) = (Some (V3 (1 / 2) 0 (- (1 / 2))), Some (V3 0 (PI / 4) 0)).
Proof.
  unfold diffMap. cbn [map_jet snd vx vy vz].
  set (n2 := jadd (jmul (J 1 (Some (V3 1 0 0))) (J 1 (Some (V3 1 0 0)))) (jmul (J 0 (Some (V3 0 1 0))) (J 0 (Some (V3 0 1 0))))).
  assert (E : n2 = J 1 (Some (V3 2 0 0))) by (unfold n2, jadd, jmul, comb, summed, scaled; cbn; f_equal; [ring|f_equal; f_equal; ring]). rewrite E. clear n2 E.
  assert (S : jsqrt (J 1 (Some (V3 2 0 0))) = J 1 (Some (V3 1 0 0))).
  { unfold jsqrt. cbn [ja jv]. rewrite sqrt_1. destruct (Req_EM_T 1 0); [lra|]. unfold comb, summed, scaled. cbn. f_equal. f_equal. f_equal; field. }
  rewrite S. clear S. set (an := jatan2 _ _). assert (A : an = J (PI / 4) (Some (V3 (1 / 2) 0 (- (1 / 2))))).
  { unfold an, jatan2. cbn [ja jv]. destruct (Req_EM_T _ 0); [lra|]. unfold atan2. destruct (Rlt_dec 0 1); [|lra]. replace (1 / 1) with 1 by field. rewrite atan_1. unfold comb, summed, scaled. cbn. f_equal. f_equal. f_equal; field. }
  rewrite A. clear an A. cbn [ja]. destruct (Rlt_dec 0 1); [|lra].
  unfold jdiv. cbn [ja jv]. destruct (Req_EM_T 1 0); [lra|]. cbn. unfold summed, scaled. cbn. f_equal; f_equal; f_equal; field.
Qed.
