(* Lemmas about the rotation of spins. *)
From Verif Require Import Rot RotSpec RotProofs Spin SpinSpec.
Local Open Scope R_scope.

Lemma v3_eq a b : vx a = vx b -> vy a = vy b -> vz a = vz b -> a = b.
Proof. destruct a, b. cbn. intros -> -> ->. reflexivity. Qed.

(* a function with derivative zero *)
Lemma flat f : (forall t, derivable_pt_lim f t 0) -> forall a b, f a = f b.
Proof.
  intros H. pose (pr := fun t => exist _ 0 (H t) : derivable_pt f t).
  intros a b. apply (null_derivative_1 f pr). intros x. reflexivity.
Qed.

Lemma dot_deriv S T Om Om' t : 
  precesses Om S -> precesses Om' T ->
  derivable_pt_lim (fun u => vx (S u) * vx (T u) + vy (S u) * vy (T u) + vz (S u) * vz (T u)) t
   ((vy Om * vz (S t) - vz Om * vy (S t)) * vx (T t) + vx (S t) * (vy Om' * vz (T t) - vz Om' * vy (T t)) +
    ((vz Om * vx (S t) - vx Om * vz (S t)) * vy (T t) + vy (S t) * (vz Om' * vx (T t) - vx Om' * vz (T t))) +
    ((vx Om * vy (S t) - vy Om * vx (S t)) * vz (T t) + vz (S t) * (vx Om' * vy (T t) - vy Om' * vx (T t)))).
Proof.
  intros H1 H2. destruct (H1 t) as (A & B & C), (H2 t) as (A' & B' & C').
  refine (derivable_pt_lim_plus _ _ t _ _ (derivable_pt_lim_plus _ _ t _ _ _ _) _);
  apply derivable_pt_lim_mult; assumption.
Qed.

Lemma dot_kept Om S T : precesses Om S -> precesses Om T -> forall a b,
  vx (S a) * vx (T a) + vy (S a) * vy (T a) + vz (S a) * vz (T a) = vx (S b) * vx (T b) + vy (S b) * vy (T b) + vz (S b) * vz (T b).
Proof.
  intros H1 H2 a b. apply (flat (fun u => vx (S u) * vx (T u) + vy (S u) * vy (T u) + vz (S u) * vz (T u))).
  intros t. pose proof (dot_deriv S T Om Om t H1 H2) as D. eapply eq_rect; [exact D|]. cbn. ring.
Qed.

Lemma precesses_sub Om S T : precesses Om S -> precesses Om T -> precesses Om (fun u => mkv (vx (S u) - vx (T u)) (vy (S u) - vy (T u)) (vz (S u) - vz (T u))).
Proof.
  intros H1 H2 t. destruct (H1 t) as (A & B & C), (H2 t) as (A' & B' & C'). cbn [vx vy vz].
  split; [|split]; (eapply eq_rect; [apply derivable_pt_lim_minus; eassumption|]; cbn; ring).
Qed.

Lemma sq3_zero a b c : a * a + b * b + c * c = 0 -> a = 0 /\ b = 0 /\ c = 0.
Proof.
  intros H. pose proof (Rle_0_sqr a) as A. pose proof (Rle_0_sqr b) as B. pose proof (Rle_0_sqr c) as C. unfold Rsqr in *.
  repeat split; apply Rsqr_0_uniq; unfold Rsqr; lra.
Qed.

Lemma precess_unique Om S T t0 : precesses Om S -> precesses Om T -> S t0 = T t0 -> forall t, S t = T t.
Proof.
  intros H1 H2 E t. pose proof (precesses_sub _ _ _ H1 H2) as D. pose proof (dot_kept _ _ _ D D t t0) as K. cbn [vx vy vz] in K. rewrite E in K.
  destruct (sq3_zero (vx (S t) - vx (T t)) (vy (S t) - vy (T t)) (vz (S t) - vz (T t))) as (X & Y & Z); [rewrite K; ring|]. apply v3_eq; lra.
Qed.

(* the rotation in the code *)
Definition rodr (w s : vec3) (t : R) : vec3 :=
  let sp := vz w * vz s + vy w * vy s + vx w * vx s in
  let w2 := len2 w in
  let omega := sqrt w2 in
  let c := cos (t * omega) in
  let n := sin (t * omega) in
  mkv (vx s * c + vx w * sp * (1 - c) / w2 + (vy w * vz s - vz w * vy s) * n / omega)
      (vy s * c + vy w * sp * (1 - c) / w2 + (vz w * vx s - vx w * vz s) * n / omega)
      (vz s * c + vz w * sp * (1 - c) / w2 + (vx w * vy s - vy w * vx s) * n / omega).
Lemma rodr_0 w s : rodr w s 0 = s.
Proof. unfold rodr. cbv zeta. rewrite Rmult_0_l, cos_0, sin_0. apply v3_eq; cbn [vx vy vz]; unfold Rdiv; ring. Qed.

Lemma lim_trig a b d k t : derivable_pt_lim (fun u => a * cos (u * k) + b * (1 - cos (u * k)) + d * sin (u * k)) t (- a * k * sin (t * k) + b * k * sin (t * k) + d * k * cos (t * k)).
Proof.
  assert (L : derivable_pt_lim (fun u => u * k) t k).
  { eapply eq_rect; [apply (derivable_pt_lim_mult id (fct_cte k)); [apply derivable_pt_lim_id | apply derivable_pt_lim_const]|]. unfold id, fct_cte. ring. }
  assert (C : derivable_pt_lim (fun u => cos (u * k)) t (- sin (t * k) * k)) by (apply (derivable_pt_lim_comp (fun u => u * k) cos); [exact L | apply derivable_pt_lim_cos]).
  assert (N : derivable_pt_lim (fun u => sin (u * k)) t (cos (t * k) * k)) by (apply (derivable_pt_lim_comp (fun u => u * k) sin); [exact L | apply derivable_pt_lim_sin]).
  eapply eq_rect.
  - apply derivable_pt_lim_plus; [apply derivable_pt_lim_plus|].
    + apply (derivable_pt_lim_scal (fun u => cos (u * k))). exact C.
    + apply (derivable_pt_lim_scal (fun u => 1 - cos (u * k))). apply (derivable_pt_lim_minus (fct_cte 1) (fun u => cos (u * k))); [apply derivable_pt_lim_const | exact C].
    + apply (derivable_pt_lim_scal (fun u => sin (u * k))). exact N.
  - ring.
Qed.

Lemma lim_ext f g t l : (forall u, f u = g u) -> derivable_pt_lim f t l -> derivable_pt_lim g t l.
Proof. intros E H e He. destruct (H e He) as [d D]. exists d. intros h. rewrite <- !E. apply D. Qed.

Lemma len2_pos w : len2 w <> 0 -> 0 < len2 w.
Proof. intros N. unfold len2 in *. pose proof (Rle_0_sqr (vx w)). pose proof (Rle_0_sqr (vy w)). pose proof (Rle_0_sqr (vz w)). unfold Rsqr in *. lra. Qed.

Lemma rodr_precesses w s : len2 w <> 0 -> precesses w (rodr w s).
Proof.
  intros N t. pose proof (len2_pos w N) as P. pose proof (sqrt_lt_R0 _ P) as Q. pose proof (sqrt_sqrt (len2 w) (Rlt_le _ _ P)) as E.
  unfold rodr. cbv zeta. cbn [vx vy vz]. 
  set (k := sqrt (len2 w)) in *. set (W := len2 w) in *. 
  assert (D : W = vx w * vx w + vy w * vy w + vz w * vz w) by reflexivity. clearbody k. clearbody W.
  set (sp := vz w * vz s + vy w * vy s + vx w * vx s).
  repeat split.
  - eapply lim_ext; [|eapply eq_rect; [exact (lim_trig (vx s) (vx w * sp / W) ((vy w * vz s - vz w * vy s) / k) k t)|]]; [intros u; cbv beta; unfold Rdiv; ring|].
    unfold sp. rewrite <- E. set (n := sin (t * k)). set (c := cos (t * k)). rewrite <- E in D. clearbody n c. apply (Rmult_eq_reg_r (k * k)); [|nra]. field_simplify; [|lra|lra]. 
    assert (Z : k ^ 2 = vx w * vx w + vy w * vy w + vz w * vz w) by (rewrite <- D; ring).
    replace (k ^ 3) with (k * k ^ 2) by ring. rewrite Z. ring.
  - eapply lim_ext; [|eapply eq_rect; [exact (lim_trig (vy s) (vy w * sp / W) ((vz w * vx s - vx w * vz s) / k) k t)|]]; [intros u; cbv beta; unfold Rdiv; ring|].
    unfold sp. rewrite <- E. set (n := sin (t * k)). set (c := cos (t * k)). rewrite <- E in D. clearbody n c. apply (Rmult_eq_reg_r (k * k)); [|nra]. field_simplify; [|lra|lra]. 
    assert (Z : k ^ 2 = vx w * vx w + vy w * vy w + vz w * vz w) by (rewrite <- D; ring).
    replace (k ^ 3) with (k * k ^ 2) by ring. rewrite Z. ring.
  - eapply lim_ext; [|eapply eq_rect; [exact (lim_trig (vz s) (vz w * sp / W) ((vx w * vy s - vy w * vx s) / k) k t)|]]; [intros u; cbv beta; unfold Rdiv; ring|].
    unfold sp. rewrite <- E. set (n := sin (t * k)). set (c := cos (t * k)). rewrite <- E in D. clearbody n c. apply (Rmult_eq_reg_r (k * k)); [|nra]. field_simplify; [|lra|lra]. 
    assert (Z : k ^ 2 = vx w * vx w + vy w * vy w + vz w * vz w) by (rewrite <- D; ring).
    replace (k ^ 3) with (k * k ^ 2) by ring. rewrite Z. ring.
Qed.

Lemma lim_affine f a k t l : derivable_pt_lim f (a + k * t) l -> derivable_pt_lim (fun u => f (a + k * u)) t (l * k).
Proof.
  intros H. apply (derivable_pt_lim_comp (fun u => a + k * u) f); [|exact H].
  eapply eq_rect; [apply (derivable_pt_lim_plus (fct_cte a) (fun u => k * u)); [apply derivable_pt_lim_const|]|].
  - apply (derivable_pt_lim_scal id k). apply derivable_pt_lim_id.
  - ring.
Qed.
Lemma precess_affine Om S a k : precesses Om S -> precesses (mkv (k * vx Om) (k * vy Om) (k * vz Om)) (fun u => S (a + k * u)).
Proof.
  intros H t. destruct (H (a + k * t)) as (A & B & C). cbn [vx vy vz].
  split; [|split].
  - eapply eq_rect; [exact (lim_affine (fun u => vx (S u)) a k t _ A)|]. ring.
  - eapply eq_rect; [exact (lim_affine (fun u => vy (S u)) a k t _ B)|]. ring.
  - eapply eq_rect; [exact (lim_affine (fun u => vz (S u)) a k t _ C)|]. ring.
Qed.
Lemma v3_eta a : mkv (vx a) (vy a) (vz a) = a.
Proof. now destruct a. Qed.
Lemma precess_shift Om S a : precesses Om S -> precesses Om (fun u => S (a + u)).
Proof.
  intros H. pose proof (precess_affine Om S a 1 H) as K. intros t. specialize (K t). cbn [vx vy vz] in K. rewrite !Rmult_1_l in K.
  destruct K as (A & B & C). split; [|split]; (eapply lim_ext; [|eassumption]; intros u; cbv beta; rewrite Rmult_1_l; reflexivity).
Qed.

Lemma turned_fun Om d s a b : turned Om d s a -> turned Om d s b -> a = b.
Proof. intros (S & S0 & SP & <-) (T & T0 & TP & <-). apply (precess_unique Om S T 0 SP TP). congruence. Qed.
Lemma turned_zero d s Om : len2 Om = 0 -> turned Om d s s.
Proof.
  intros Z. unfold len2 in Z. apply sq3_zero in Z. destruct Z as (X & Y & Z). exists (fun _ => s). split; [reflexivity|]. split; [|reflexivity].
  intros t. rewrite X, Y, Z. split; [|split]; (eapply eq_rect; [apply derivable_pt_lim_const|]; cbn; ring).
Qed.
Lemma turned_rodr Om d s : len2 Om <> 0 -> turned Om d s (rodr Om s d).
Proof. intros N. exists (rodr Om s). split; [apply rodr_0|]. split; [now apply rodr_precesses | reflexivity]. Qed.
Lemma turned_exists Om d s : exists s', turned Om d s s'.
Proof. destruct (Req_dec (len2 Om) 0) as [Z|N]; [exists s; now apply turned_zero | exists (rodr Om s d); now apply turned_rodr]. Qed.
Lemma turned_nothing Om s : turned Om 0 s s.
Proof. destruct (turned_exists Om 0 s) as [s' H]. destruct H as (S & A & B & C). exists S. split; [exact A|]. split; [exact B | exact A]. Qed.
Lemma turned_nothing_inv Om s s' : turned Om 0 s s' -> s' = s.
Proof. intros H. exact (turned_fun _ _ _ _ _ H (turned_nothing Om s)). Qed.
Lemma turned_add Om d1 d2 s a b : turned Om d1 s a -> turned Om d2 a b -> turned Om (d1 + d2) s b.
Proof.
  intros (S & S0 & SP & SE) (T & T0 & TP & TE). exists S. split; [exact S0|]. split; [exact SP|].
  rewrite <- TE. apply (precess_unique Om (fun u => S (d1 + u)) T 0); [now apply precess_shift | exact TP|]. rewrite Rplus_0_r. congruence.
Qed.
Lemma turned_len Om d s s' : turned Om d s s' -> len2 s' = len2 s.
Proof. intros (S & <- & SP & <-). unfold len2. apply (dot_kept Om S S SP SP). Qed.
Lemma turned_axis Om d s s' : turned Om d s s' -> vx Om * vx s' + vy Om * vy s' + vz Om * vz s' = vx Om * vx s + vy Om * vy s + vz Om * vz s.
Proof.
  intros (S & <- & SP & <-). assert (OP : precesses Om (fun _ => Om)) by (intros t; split; [|split]; (eapply eq_rect; [apply derivable_pt_lim_const|]; cbn; ring)).
  exact (dot_kept Om (fun _ => Om) S OP SP d 0).
Qed.
Lemma turned_scale k Om d s s' : turned Om (k * d) s s' -> turned (mkv (k * vx Om) (k * vy Om) (k * vz Om)) d s s'.
Proof.
  intros (S & <- & SP & <-). exists (fun u => S (0 + k * u)). split; [f_equal; ring|]. split; [now apply precess_affine|]. f_equal; ring.
Qed.
Lemma turned_back Om d s s' : turned Om d s s' -> turned (mkv (- vx Om) (- vy Om) (- vz Om)) d s' s.
Proof.
  intros (S & S0 & SP & SE). exists (fun u => S (d + (-1) * u)). split; [rewrite <- SE; f_equal; ring|].
  split; [|rewrite <- S0; f_equal; ring]. pose proof (precess_affine Om S d (-1) SP) as K. 
  replace (- vx Om) with (-1 * vx Om) by ring. replace (- vy Om) with (-1 * vy Om) by ring. replace (- vz Om) with (-1 * vz Om) by ring. exact K.
Qed.
Lemma turned_dot Om d s s' u u' : turned Om d s s' -> turned Om d u u' -> vx s' * vx u' + vy s' * vy u' + vz s' * vz u' = vx s * vx u + vy s * vy u + vz s * vz u.
Proof. intros (S & <- & SP & <-) (U & <- & UP & <-). apply (dot_kept Om S U SP UP). Qed.

Lemma lim_sin h t : derivable_pt_lim (fun u => sin (h * u)) t (h * cos (h * t)).
Proof.
  eapply lim_ext; [|eapply eq_rect; [exact (lim_trig 0 0 1 h t)|]]; [intros u; cbv beta; rewrite (Rmult_comm u h); ring|]. rewrite (Rmult_comm t h). ring.
Qed.
Lemma lim_cos h t : derivable_pt_lim (fun u => cos (h * u)) t (- (h * sin (h * t))).
Proof.
  eapply lim_ext; [|eapply eq_rect; [exact (lim_trig 1 0 0 h t)|]]; [intros u; cbv beta; rewrite (Rmult_comm u h); ring|]. rewrite (Rmult_comm t h). ring.
Qed.
Lemma turned_y h d : turned (mkv 0 h 0) d (mkv 0 0 1) (mkv (sin (h * d)) 0 (cos (h * d))).
Proof.
  exists (fun u => mkv (sin (h * u)) 0 (cos (h * u))). split; [now rewrite Rmult_0_r, sin_0, cos_0|]. split; [|reflexivity].
  intros t. cbn [vx vy vz]. split; [|split].
  - eapply eq_rect; [apply lim_sin|]. ring.
  - eapply eq_rect; [apply derivable_pt_lim_const|]. ring.
  - eapply eq_rect; [apply lim_cos|]. ring.
Qed.
Lemma turned_x h d : turned (mkv h 0 0) d (mkv 0 0 1) (mkv 0 (- sin (h * d)) (cos (h * d))).
Proof.
  exists (fun u => mkv 0 (- sin (h * u)) (cos (h * u))). split; [rewrite Rmult_0_r, sin_0, cos_0; f_equal; ring|]. split; [|reflexivity].
  intros t. cbn [vx vy vz]. split; [|split].
  - eapply eq_rect; [apply derivable_pt_lim_const|]. ring.
  - eapply eq_rect; [apply (derivable_pt_lim_opp (fun u => sin (h * u))); apply lim_sin|]. ring.
  - eapply eq_rect; [apply lim_cos|]. ring.
Qed.
Lemma turned_z h d : turned (mkv 0 0 h) d (mkv 1 0 0) (mkv (cos (h * d)) (sin (h * d)) 0).
Proof.
  exists (fun u => mkv (cos (h * u)) (sin (h * u)) 0). split; [now rewrite Rmult_0_r, sin_0, cos_0|]. split; [|reflexivity].
  intros t. cbn [vx vy vz]. split; [|split].
  - eapply eq_rect; [apply lim_cos|]. ring.
  - eapply eq_rect; [apply lim_sin|]. ring.
  - eapply eq_rect; [apply derivable_pt_lim_const|]. ring.
Qed.
Lemma angles a b : sin a = sin b -> cos a = cos b -> cos (a - b) = 1.
Proof. intros S C. rewrite cos_minus, S, C. pose proof (sin2_cos2 b) as H. unfold Rsqr in H. lra. Qed.

(* the code in these terms *)
Lemma light_pos : 0 < light. Proof. unfold light. lra. Qed.
Definition rate (bend : bool) (b : vec3) (gamma : R) : vec3 :=
  mkv (- (1 + ge * gamma) * vx b) ((if bend then - (ge * gamma) else - (1 + ge * gamma)) * vy b) (- (1 + ge) * vz b).
Lemma rotate_spin_eq bend b ds s gamma :
  rotate_spin bend b ds s gamma = if Reqb (len2 (rate bend b gamma)) 0 then None else Some (rodr (rate bend b gamma) s (ds / light)).
Proof. unfold rotate_spin, rate, rodr, len2, light, light_speed. destruct bend; cbn [vx vy vz]; reflexivity. Qed.
Definition per_c (w : vec3) : vec3 := mkv (/ light * vx w) (/ light * vy w) (/ light * vz w).
Lemma rotate_spin_some bend b ds s gamma s' : rotate_spin bend b ds s gamma = Some s' -> turned (per_c (rate bend b gamma)) ds s s'.
Proof.
  rewrite rotate_spin_eq. destruct (Reqb_spec (len2 (rate bend b gamma)) 0) as [|N]; [discriminate|]. intros E. injection E as <-.
  apply turned_scale. replace (/ light * ds) with (ds / light) by (unfold Rdiv; ring). now apply turned_rodr.
Qed.
Lemma rotate_spin_none bend b ds s gamma : rotate_spin bend b ds s gamma = None <-> len2 (rate bend b gamma) = 0.
Proof. rewrite rotate_spin_eq. destruct (Reqb_spec (len2 (rate bend b gamma)) 0); split; intros; try reflexivity; try discriminate; tauto. Qed.

Lemma brho_eq P0 : P0 / unit_ev / light_speed = rigidity P0.
Proof. unfold unit_ev, light_speed, rigidity, light. field. Qed.
Lemma ge_eq : ge = anomaly.
Proof. unfold ge, anomaly. replace (10 ^ 12) with 1000000000000 by ring. reflexivity. Qed.
Lemma gamma_eq P dp : spin_gamma P dp = lorentz (P * (1 + dp)).
Proof. unfold spin_gamma, lorentz, electron_mev, unit_mev, unit_ev, electron_gev. field. Qed.
Lemma rigidity_zero P0 : rigidity P0 = 0 <-> P0 = 0.
Proof.
  unfold rigidity, light. split; intros H.
  - apply (Rmult_eq_reg_r (10 ^ 9 / 299792458)); [|lra]. rewrite Rmult_0_l. rewrite <- H. field.
  - rewrite H. field.
Qed.
Lemma field_norm_eq P0 dp : P0 <> 0 -> 1 + dp <> 0 -> field_norm (P0 / unit_ev / light_speed) dp = Some (light / (rigidity P0 * (1 + dp))).
Proof.
  intros N D. rewrite brho_eq. unfold field_norm. rewrite Reqb_false by (rewrite rigidity_zero; assumption). rewrite Reqb_false by assumption. cbn [orb]. f_equal.
  unfold light_speed, light. field. split; [assumption|]. rewrite rigidity_zero. assumption.
Qed.
Lemma rate_bmt rig gamma B : rig <> 0 -> per_c (rate false (mkv (vx B * (light / rig)) (vy B * (light / rig)) (vz B * (light / rig))) gamma) = bmt rig gamma B.
Proof. intros N. pose proof light_pos. unfold per_c, rate, bmt. rewrite ge_eq. cbn [vx vy vz]. apply v3_eq; cbn [vx vy vz]; field; lra. Qed.
Lemma rate_own rig gamma B : rig <> 0 -> per_c (rate true (mkv (vx B * (light / rig)) (vy B * (light / rig)) (vz B * (light / rig))) gamma) = bmt_own rig gamma B.
Proof. intros N. pose proof light_pos. unfold per_c, rate, bmt_own, bmt_frame, bmt. rewrite ge_eq. cbn [vx vy vz]. apply v3_eq; cbn [vx vy vz]; field; lra. Qed.
Lemma rate_light gamma B : per_c (rate false B gamma) = bmt light gamma B.
Proof. pose proof light_pos. unfold per_c, rate, bmt. rewrite ge_eq. cbn [vx vy vz]. apply v3_eq; cbn [vx vy vz]; field; lra. Qed.

Lemma bmt_zero rig gamma : len2 (bmt rig gamma (mkv 0 0 0)) = 0.
Proof. unfold len2, bmt. cbn [vx vy vz]. unfold Rdiv. ring. Qed.
Lemma bmt_own_zero rig gamma : len2 (bmt_own rig gamma (mkv 0 0 0)) = 0.
Proof. unfold len2, bmt_own, bmt_frame, bmt. cbn [vx vy vz]. unfold Rdiv. ring. Qed.

Lemma bend_edge_turned B0 e sz rig p s gamma s' : rig <> 0 ->
  bend_edge B0 e sz (Some (light / rig)) p s gamma = Some s' ->
  turned (bmt rig gamma (dipole_end sz B0 (face e) (psy p))) 1 s s'.
Proof.
  intros N. unfold bend_edge. cbv zeta. fold (face e). cbn [vx vz].
  assert (G : per_c (rate true (mkv (sin (face e) * (1 / 2 * B0 * psy p * (light / rig))) 0 (sz * cos (face e) * (1 / 2 * B0 * psy p * (light / rig)))) gamma) = bmt rig gamma (dipole_end sz B0 (face e) (psy p))).
  { pose proof light_pos. unfold per_c, rate, bmt, dipole_end. rewrite ge_eq. cbn [vx vy vz]. apply v3_eq; cbn [vx vy vz]; field; lra. }
  destruct (Reqb_spec (sin (face e) * (1 / 2 * B0 * psy p * (light / rig))) 0) as [X|X]; cbn [negb orb].
  - destruct (Reqb_spec (sz * cos (face e) * (1 / 2 * B0 * psy p * (light / rig))) 0) as [Z|Z]; cbn [negb].
    + intros E. injection E as <-. apply turned_zero. rewrite <- G. rewrite X, Z. unfold len2, per_c, rate. cbn [vx vy vz]. ring.
    + intros E. apply rotate_spin_some in E. rewrite G in E. exact E.
  - intros E. apply rotate_spin_some in E. rewrite G in E. exact E.
Qed.
Lemma solen_edge_turned Bz sr p s gamma s' : solen_edge Bz sr p s gamma = Some s' -> turned (bmt light gamma (solenoid_end sr Bz (psx p) (psy p))) 1 s s'.
Proof.
  unfold solen_edge. cbv zeta. cbn [vx vy]. fold (solenoid_end sr Bz (psx p) (psy p)).
  destruct (Reqb_spec (sr * Bz * psx p) 0) as [X|X]; cbn [negb orb].
  - destruct (Reqb_spec (sr * Bz * psy p) 0) as [Y|Y]; cbn [negb].
    + intros E. injection E as <-. apply turned_zero. unfold solenoid_end. rewrite X, Y. apply bmt_zero.
    + intros E. apply rotate_spin_some in E. rewrite rate_light in E. exact E.
  - intros E. apply rotate_spin_some in E. rewrite rate_light in E. exact E.
Qed.
Lemma entrance_turned m rig p s gamma s' : rig <> 0 -> entrance_edge m (Some (light / rig)) p s gamma = Some s' -> turned (entrance_rate m rig gamma (psx p) (psy p)) 1 s s'.
Proof.
  intros N. destruct m as [|B0 e x|Bz]; cbn [entrance_edge entrance_rate].
  - intros E. injection E as <-. apply turned_zero. unfold len2. cbn. ring.
  - now apply bend_edge_turned.
  - apply solen_edge_turned.
Qed.
Lemma exit_turned m rig p s gamma s' : rig <> 0 -> exit_edge m (Some (light / rig)) p s gamma = Some s' -> turned (exit_rate m rig gamma (psx p) (psy p)) 1 s s'.
Proof.
  intros N. destruct m as [|B0 e x|Bz]; cbn [exit_edge exit_rate].
  - intros E. injection E as <-. apply turned_zero. unfold len2. cbn. ring.
  - now apply bend_edge_turned.
  - apply solen_edge_turned.
Qed.
Lemma body_turned m f ds rig p s gamma s' : rig <> 0 -> body m f ds (Some (light / rig)) p s gamma = Some s' -> turned (body_rate m rig gamma (f (psx p) (psy p))) ds s s'.
Proof.
  intros N. unfold body. set (B := f (psx p) (psy p)). 
  assert (G : per_c (rate (is_bend m) (mkv (vx B * (light / rig)) (vy B * (light / rig)) (vz B * (light / rig))) gamma) = body_rate m rig gamma B).
  { unfold body_rate. destruct (is_bend m); [now apply rate_own | now apply rate_bmt]. }
  destruct (Reqb_spec (vx B) 0) as [X|X]; cbn [negb orb]; [|intros E; apply rotate_spin_some in E; rewrite G in E; exact E].
  destruct (Reqb_spec (vy B) 0) as [Y|Y]; cbn [negb orb]; [|intros E; apply rotate_spin_some in E; rewrite G in E; exact E].
  destruct (Reqb_spec (vz B) 0) as [Z|Z]; cbn [negb orb]; [|intros E; apply rotate_spin_some in E; rewrite G in E; exact E].
  intros E. injection E as <-. apply turned_zero. assert (Q : B = mkv 0 0 0) by now apply v3_eq. rewrite Q. unfold body_rate. destruct (is_bend m); [apply bmt_own_zero | apply bmt_zero].
Qed.

Lemma one_spin_stepped st f P0 ds p s s' : P0 <> 0 -> 1 + psdp p <> 0 -> one_spin st f P0 ds p s = Some s' -> stepped st f P0 ds p s s'.
Proof.
  intros N D. unfold one_spin, stepped. cbv zeta. rewrite (field_norm_eq P0 (psdp p) N D). fold (own_rigidity P0 p).
  assert (RN : own_rigidity P0 p <> 0) by (unfold own_rigidity; apply Rmult_integral_contrapositive_currified; [rewrite rigidity_zero; assumption | assumption]).
  rewrite gamma_eq. replace (if Reqb (pspin st) 0 then P0 else pspin st) with (if Req_EM_T (pspin st) 0 then P0 else pspin st) by (unfold Reqb; destruct (Req_EM_T (pspin st) 0); reflexivity).
  fold (own_gamma st P0 p). set (g := own_gamma st P0 p). set (rig := own_rigidity P0 p) in *.
  destruct (if Reqb (intS st) 0 then entrance_edge (mag st) (Some (light / rig)) p s g else Some s) as [s1|] eqn:E1; [|discriminate]. cbn [obind].
  destruct (body (mag st) f ds (Some (light / rig)) p s1 g) as [s2|] eqn:E2; [|discriminate]. cbn [obind].
  intros E3. exists s1, s2. split; [|split; [|split; [|split]]].
  - intros Z. rewrite Reqb_true in E1 by assumption. now apply entrance_turned in E1.
  - intros Z. rewrite Reqb_false in E1 by assumption. congruence.
  - now apply body_turned in E2.
  - intros Z. destruct (fequal_spec (intS st + ds) (clength st)); [|tauto]. now apply exit_turned in E3.
  - intros Z. destruct (fequal_spec (intS st + ds) (clength st)); [lra|]. congruence.
Qed.
Lemma stepped_fun st f P0 ds p s a b : stepped st f P0 ds p s a -> stepped st f P0 ds p s b -> a = b.
Proof.
  intros (s1 & s2 & A & B & C & D & E) (u1 & u2 & A' & B' & C' & D' & E').
  assert (Q1 : s1 = u1) by (destruct (Req_dec (intS st) 0) as [Z|Z]; [exact (turned_fun _ _ _ _ _ (A Z) (A' Z)) | rewrite (B Z), (B' Z); reflexivity]). subst u1.
  assert (Q2 : s2 = u2) by exact (turned_fun _ _ _ _ _ C C'). subst u2.
  destruct (Rle_lt_dec (Rabs (intS st + ds - clength st)) eps) as [Z|Z]; [exact (turned_fun _ _ _ _ _ (D Z) (D' Z)) | rewrite (E Z), (E' Z); reflexivity].
Qed.
Lemma stepped_len st f P0 ds p s s' : stepped st f P0 ds p s s' -> len2 s' = len2 s.
Proof.
  intros (s1 & s2 & A & B & C & D & E). transitivity (len2 s2); [|transitivity (len2 s1)].
  - destruct (Rle_lt_dec (Rabs (intS st + ds - clength st)) eps) as [Z|Z]; [exact (turned_len _ _ _ _ (D Z)) | now rewrite (E Z)].
  - exact (turned_len _ _ _ _ C).
  - destruct (Req_dec (intS st) 0) as [Z|Z]; [exact (turned_len _ _ _ _ (A Z)) | now rewrite (B Z)].
Qed.

(* the length is kept whatever the momentum *)
Lemma rotate_spin_len bend b ds s gamma s' : rotate_spin bend b ds s gamma = Some s' -> len2 s' = len2 s.
Proof. intros E. apply rotate_spin_some in E. exact (turned_len _ _ _ _ E). Qed.
Lemma bend_edge_len B0 e sz n p s gamma s' : bend_edge B0 e sz n p s gamma = Some s' -> len2 s' = len2 s.
Proof. unfold bend_edge. destruct n as [n|]; [|discriminate]. cbv zeta. match goal with |- context [if ?c then _ else _] => destruct c end; intros E; [exact (rotate_spin_len _ _ _ _ _ _ E) | congruence]. Qed.
Lemma solen_edge_len Bz sr p s gamma s' : solen_edge Bz sr p s gamma = Some s' -> len2 s' = len2 s.
Proof. unfold solen_edge. cbv zeta. match goal with |- context [if ?c then _ else _] => destruct c end; intros E; [exact (rotate_spin_len _ _ _ _ _ _ E) | congruence]. Qed.
Lemma one_spin_len st f P0 ds p s s' : one_spin st f P0 ds p s = Some s' -> len2 s' = len2 s.
Proof.
  unfold one_spin. cbv zeta. set (n := field_norm _ _). set (g := spin_gamma _ _).
  destruct (if Reqb (intS st) 0 then entrance_edge (mag st) n p s g else Some s) as [s1|] eqn:E1; [|discriminate]. cbn [obind].
  destruct (body (mag st) f ds n p s1 g) as [s2|] eqn:E2; [|discriminate]. cbn [obind]. intros E3.
  transitivity (len2 s2); [|transitivity (len2 s1)].
  - destruct (fequal (intS st + ds) (clength st)); [|congruence]. destruct (mag st); cbn [exit_edge] in E3; [congruence | exact (bend_edge_len _ _ _ _ _ _ _ _ E3) | exact (solen_edge_len _ _ _ _ _ _ E3)].
  - unfold body in E2. match type of E2 with (if ?c then _ else _) = _ => destruct c end; [|congruence]. destruct n as [n0|]; [|discriminate]. exact (rotate_spin_len _ _ _ _ _ _ E2).
  - destruct (Reqb (intS st) 0); [|congruence]. destruct (mag st); cbn [entrance_edge] in E1; [congruence | exact (bend_edge_len _ _ _ _ _ _ _ _ E1) | exact (solen_edge_len _ _ _ _ _ _ E1)].
Qed.

(* the loop *)
Lemma spin_all_nth g l ss rs : spin_all g l ss = Ok rs ->
  length rs = length ss /\ (length l <= length ss)%nat /\
  (forall i p s, nth_error l i = Some p -> nth_error ss i = Some s -> exists s', g p s = Some s' /\ nth_error rs i = Some s') /\
  (forall i, (length l <= i)%nat -> nth_error rs i = nth_error ss i).
Proof.
  revert ss rs. induction l as [|p l IH]; intros ss rs E.
  - cbn in E. injection E as <-. repeat split; auto; [cbn; lia|]. intros i q s H. destruct i; discriminate.
  - destruct ss as [|s ss]; [discriminate|]. cbn [spin_all] in E. destruct (spin_all g l ss) as [r|e|] eqn:Q; try discriminate. cbn [bind] in E.
    destruct (g p s) as [s'|] eqn:G; [|discriminate]. injection E as <-. destruct (IH ss r Q) as (A & B & C & D). cbn [length]. split; [lia|]. split; [lia|]. split.
    + intros [|i] q u H1 H2; cbn in *; [|eauto]. injection H1 as <-. injection H2 as <-. eauto.
    + intros [|i] Hi; [lia|]. cbn. apply D. lia.
Qed.
Lemma spin_all_len2 g l ss rs : (forall p s s', g p s = Some s' -> len2 s' = len2 s) -> spin_all g l ss = Ok rs -> map len2 rs = map len2 ss.
Proof.
  intros H. revert ss rs. induction l as [|p l IH]; intros ss rs E.
  - cbn in E. now injection E as <-.
  - destruct ss as [|s ss]; [discriminate|]. cbn [spin_all] in E. destruct (spin_all g l ss) as [r|e|] eqn:Q; try discriminate. cbn [bind] in E.
    destruct (g p s) as [s'|] eqn:G; [|discriminate]. injection E as <-. cbn [map]. rewrite (IH _ _ Q), (H _ _ _ G). reflexivity.
Qed.
Lemma spin_all_ok g l ss : (length l <= length ss)%nat -> (forall p s, In p l -> g p s <> None) -> exists rs, spin_all g l ss = Ok rs.
Proof.
  revert ss. induction l as [|p l IH]; intros ss L H; [now exists ss|]. destruct ss as [|s ss]; [cbn in L; lia|].
  destruct (IH ss) as [r Q]; [cbn in L; lia | intros q u Hq; apply H; now right|]. cbn [spin_all]. rewrite Q. cbn [bind].
  destruct (g p s) as [s'|] eqn:G; [now exists (s' :: r) | exfalso; eapply H; [now left | exact G]].
Qed.
