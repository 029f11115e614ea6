(* C200: a rotated magnet against the field it was given *)
From Coq Require Import ZArith FunctionalExtensionality.
From Verif Require Import RBase Rot Cplx CplxFacts Field FieldProps Cov Bunch BunchSpec Optics OpticsSpec OpticsProofs Chromatic ChromaticProps SparseMap SparseMapSpec SparseMapProps BendMap SympInt SympIntSpec SympIntProofs SympIntProps SympRectProps SympStepProps TransInt TransSpec TransIntProps.
Local Open Scope R_scope.

(* a skew gradient moves the particles as its mirror image would *)
Theorem C200_quadrupole_refuted P0 q L f v : let K := kn P0 q f 1 in P0 <> 0 -> kn P0 q f 0 = c0 -> (highest f <= 1)%Z -> im K <> 0 -> eps < Rabs (carg K / 2) -> vdp v = 0 ->
  exists c, c 0 = v /\ (forall s, s <> 0 -> particle_of (tr_rect_step P0 q L s f v) = Ok (c s)) /\ gradient_motion (conj K) c /\ (vx v <> 0 \/ vy v <> 0 -> ~ gradient_motion K c).
Proof.
  intros K N E0 H NI A D. set (a := carg K / 2) in *. set (k := cabs K).
  assert (NK : k <> 0). { unfold k, cabs, csq. apply Rgt_not_eq. apply sqrt_lt_R0. nra. }
  set (c := fun s => turn a (quad2 k s (turn (- a) v))).
  destruct (half_angle K) as [RK IK]. fold a k in RK, IK. pose proof (sin2_cos2 a) as CS. unfold Rsqr in CS.
  assert (EC : c = fun s => turn a (let w := turn (- a) v in V6 (Cf k s * vx w + Sf k s * vxp w) (- k * Sf k s * vx w + Cf k s * vxp w) (Cf (- k) s * vy w + Sf (- k) s * vyp w) (k * Sf (- k) s * vy w + Cf (- k) s * vyp w) (vct (quad2 k s w)) 0)).
  { apply functional_extensionality. intros s. unfold c. f_equal. unfold quad2. cbv zeta. replace (vdp (turn (- a) v)) with 0 by (symmetry; exact D). apply v6_eq; try reflexivity; field. }
  assert (C0 : c 0 = v).
  { unfold c, quad2, turn. cbv zeta. cbn [vx vxp vy vyp vct vdp]. rewrite D, !Cf_0, !Sf_0, cos_neg, sin_neg. rewrite ?Rmult_0_r, ?sin_0, ?sinh_0. destruct v as [x px y py z d]. cbn [vx vxp vy vyp vct vdp] in *. subst d.
    assert (CC : cos a * cos a = 1 - sin a * sin a) by lra. apply v6_eq; try reflexivity; field [CC]. }
  assert (G : gradient_motion (conj K) c).
  { intros s. rewrite EC. cbv zeta. unfold conj. cbn [re im]. unfold turn. cbn [vx vxp vy vyp vct vdp]. cbn [cmul re im]. rewrite RK, IK, cos_neg, sin_neg.
    set (C := cos a) in *. set (Sn := sin a) in *. pose proof (Cf_deriv k s) as D1. pose proof (Sf_deriv k s) as D2. pose proof (Cf_deriv (- k) s) as D3. pose proof (Sf_deriv (- k) s) as D4. 
    assert (CC : C * C = 1 - Sn * Sn) by lra.
    repeat split.
    all: eapply dlim_eq; [|dt]; cbv beta; ring [CC]. }
  exists c. split; [exact C0|]. split; [|split; [exact G|]].
  - intros s NS. apply C199_quadrupole; assumption.
  - intros Z G'. specialize (G 0). specialize (G' 0). cbv zeta in G, G'. rewrite C0 in G, G'. destruct G as (_ & G1 & _ & G2), G' as (_ & G1' & _ & G2').
    destruct (gradient_sign K v NI Z) as [E|E]; apply E; eapply uniqueness_limite; eassumption.
Qed.
Print Assumptions C200_quadrupole_refuted.

(* the push at the start of a sextupole of strength K *)
Definition sextupole_push (K : cx) (c : R -> vec6) : Prop :=
  let F := cscale (/ 2) (cmul K (cmul (place (c 0)) (place (c 0)))) in
  derivable_pt_lim (fun t => vxp (c t)) 0 (- re F) /\ derivable_pt_lim (fun t => vyp (c t)) 0 (im F).
Lemma third_angle K : let a := carg K / 3 in re K = cabs K * (cos a * cos a * cos a - 3 * cos a * sin a * sin a) /\ im K = cabs K * (3 * cos a * cos a * sin a - sin a * sin a * sin a).
Proof.
  intros a. pose proof (polar_form K) as P. unfold polar in P. assert (E : carg K = 2 * a + a) by (unfold a; field). split.
  - rewrite <- P at 1. cbn. f_equal. rewrite E, cos_plus, cos_2a, sin_2a. ring.
  - rewrite <- P at 1. cbn. f_equal. rewrite E, sin_plus, cos_2a, sin_2a. ring.
Qed.
Theorem C200_sextupole_refuted P0 q L f v : let K := kn P0 q f 2 in P0 <> 0 -> kn P0 q f 0 = c0 -> kn P0 q f 1 = c0 -> (highest f <= 2)%Z -> im K <> 0 -> eps < Rabs (carg K / 3) ->
  exists c, c 0 = v /\ (forall s, s <> 0 -> particle_of (tr_rect_step P0 q L s f v) = Ok (c s)) /\ sextupole_push (conj K) c /\ (vx v <> 0 \/ vy v <> 0 -> ~ sextupole_push K c).
Proof.
  intros K N E0 E1 H NI A. set (a := carg K / 3) in *. set (k := cabs K).
  set (c := fun s => turn a (sext2 k s (turn (- a) v))).
  destruct (third_angle K) as [RK IK]. fold a k in RK, IK. pose proof (sin2_cos2 a) as CS. unfold Rsqr in CS. assert (CC : cos a * cos a = 1 - sin a * sin a) by lra.
  assert (C0 : c 0 = v).
  { unfold c, sext2, turn, path_term. cbn [vx vxp vy vyp vct vdp]. rewrite cos_neg, sin_neg. destruct v as [x px y py z d]. cbn [vx vxp vy vyp vct vdp] in *. apply v6_eq; try reflexivity; field [CC]. }
  assert (G : sextupole_push (conj K) c).
  { unfold sextupole_push. rewrite C0. cbv zeta. unfold c, sext2, turn, place, conj. cbn [vx vxp vy vyp vct vdp cmul cscale re im pow]. rewrite RK, IK, cos_neg, sin_neg. set (C := cos a) in *. set (Sn := sin a) in *. split.
    all: eapply dlim_eq; [|OpticsProofs.dl]; cbv beta; cbn [INR pow]; field [CC]. }
  exists c. split; [exact C0|]. split; [|split; [exact G|]].
  - intros s NS. now apply C199_sextupole.
  - intros Z G'. unfold sextupole_push in G, G'. rewrite C0 in G, G'. cbv zeta in G, G'. destruct G as (G1 & G2), G' as (G1' & G2').
    pose proof (uniqueness_limite _ _ _ _ G1 G1') as U1. pose proof (uniqueness_limite _ _ _ _ G2 G2') as U2. clear - U1 U2 NI Z. clearbody K. unfold place, conj in U1, U2. cbn in U1, U2.
    set (x := vx v) in *. set (y := vy v) in *. assert (P1 : im K * (x * y) = 0) by lra. assert (P2 : im K * (x * x - y * y) = 0) by lra.
    apply Rmult_integral in P1, P2. destruct P1 as [P1|P1]; [contradiction|]. destruct P2 as [P2|P2]; [contradiction|]. apply Rmult_integral in P1. destruct P1 as [P1|P1]; rewrite P1 in *; destruct Z as [Z|Z]; apply Z; nra.
Qed.
Print Assumptions C200_sextupole_refuted.

(* ---- the other multipoles of a rotated magnet ---- *)
Theorem C199_kick P0 q ds g a v : P0 <> 0 -> 1 + vdp v <> 0 ->
  (do w <- kick_dp g ds P0 q (- a) (turn (- a) v); Ok (turn a w)) = Ok (pushed (deflection P0 q ds v (cmul (phase (- (2 * a))) (field_at g (cmul (phase (- a)) (place v))))) v).
Proof.
  intros N M. rewrite kick_dp_ok by assumption. cbn [bind]. f_equal.
  assert (EP : place (turn (- a) v) = cmul (phase (- a)) (place v)) by (unfold place, turn, phase; apply cx_eq; cbn; ring). rewrite EP. set (B := field_at g _). clearbody B.
  unfold pushed, deflection, turn, phase. cbn [vx vxp vy vyp vct vdp cmul cscale re im]. rewrite !cos_neg, !sin_neg, cos_2a, sin_2a. pose proof (sin2_cos2 a) as CS. unfold Rsqr in CS. assert (CC : cos a * cos a = 1 - sin a * sin a) by lra.
  destruct v as [x px y py z d]. cbn [vx vxp vy vyp vct vdp] in *. apply v6_eq; try reflexivity; try ring [CC].
Qed.
Print Assumptions C199_kick.
Definition on_axis : vec6 := V6 0 0 0 0 0 0.
Lemma turn_back a v : turn (- a) (turn a v) = v.
Proof.
  pose proof (sin2_cos2 a) as CS. unfold Rsqr in CS. assert (CC : cos a * cos a = 1 - sin a * sin a) by lra. unfold turn. cbn [vx vxp vy vyp vct vdp]. rewrite cos_neg, sin_neg. destruct v as [x px y py z d]. apply v6_eq; cbn [vx vxp vy vyp vct vdp]; try reflexivity; ring [CC].
Qed.
Lemma turn_back' a v : turn a (turn (- a) v) = v.
Proof. rewrite <- (Ropp_involutive a) at 1. apply turn_back. Qed.
Lemma quad2_inj K s v w : vdp v = 0 -> vdp w = 0 -> quad2 K s v = quad2 K s w -> vxp v = vxp w /\ vyp v = vyp w.
Proof.
  intros Dv Dw E. assert (X : forall u, vdp u = 0 -> Cf K s * vxp (quad2 K s u) + K * Sf K s * vx (quad2 K s u) = (Cf K s * Cf K s + K * (Sf K s * Sf K s)) * vxp u) by (intros u D; unfold quad2; cbv zeta; cbn [vx vxp]; rewrite D; field).
  assert (Y : forall u, vdp u = 0 -> Cf (- K) s * vyp (quad2 K s u) + - K * Sf (- K) s * vy (quad2 K s u) = (Cf (- K) s * Cf (- K) s + - K * (Sf (- K) s * Sf (- K) s)) * vyp u) by (intros u D; unfold quad2; cbv zeta; cbn [vy vyp]; rewrite D; field).
  pose proof (X v Dv) as X1. pose proof (X w Dw) as X2. pose proof (Y v Dv) as Y1. pose proof (Y w Dw) as Y2. rewrite E in X1, Y1. rewrite X1 in X2. rewrite Y1 in Y2.
  pose proof (pyth K s) as I1. pose proof (pyth (- K) s) as I2. split; nra.
Qed.
(* A dipole field in a magnet with a skew gradient: a particle on the axis leaves it in the wrong
   direction.  H is half of the magnet without the dipole. *)
Theorem C200_kick_refuted P0 q L ds f : let K := kn P0 q f 1 in let B := cscale (b0 f) (coef f 0) in
  P0 <> 0 -> q <> 0 -> ds <> 0 -> is_null f = false -> highest f = 1%Z -> im K <> 0 -> eps < Rabs (carg K / 2) -> coef f 0 <> c0 ->
  exists H, (forall g w, lacks 0 f g -> (highest g <= 1)%Z -> particle_of (tr_rect_step P0 q L (ds / 2) g w) = Ok (H w)) /\
    particle_of (tr_rect_step P0 q L ds f on_axis) = Ok (H (pushed (deflection P0 q ds on_axis (cmul (phase (- carg K)) B)) on_axis)) /\
    particle_of (tr_rect_step P0 q L ds f on_axis) <> Ok (H (pushed (deflection P0 q ds on_axis B) on_axis)).
Proof.
  intros K B N Q D NN Hi NI A NB. set (a := carg K / 2) in *. set (k := cabs K).
  assert (NK : k <> 0). { unfold k, cabs, csq. apply Rgt_not_eq. apply sqrt_lt_R0. nra. }
  assert (NbB : b0 f <> 0). { intros Z. unfold is_null, fequal, fequal_tol in NN. rewrite Z in NN. rewrite Rminus_0_r, Rabs_R0 in NN. pose proof eps_pos. rewrite Rleb_true in NN by lra. discriminate. }
  exists (fun w => turn a (quad2 k (ds / 2) (turn (- a) w))).
  assert (S1 : particle_of (tr_rect_step P0 q L ds f on_axis) = Ok (turn a (quad2 k (ds / 2) (turn (- a) (pushed (deflection P0 q ds on_axis (cmul (phase (- carg K)) B)) on_axis))))).
  { rewrite rect_eq by assumption. cbv zeta. fold K. assert (X : K <> c0) by (intros Z; apply NI; now rewrite Z). pose proof (proj2 (cnz K) X) as X'.
    assert (N0 : kn P0 q f 0 <> c0).
    { intros Z. apply NB. unfold kn in Z. set (t := q * _ * _) in Z. assert (T : t <> 0). { unfold t. cbn [fact INR]. rewrite Rmult_1_r. apply Rmult_integral_contrapositive_currified; [exact Q|]. unfold Rdiv at 1. apply Rmult_integral_contrapositive_currified; [|now apply Rinv_neq_0_compat]. apply Rmult_integral_contrapositive_currified; [exact NbB | lra]. }
      unfold cscale in Z. injection Z as Z1 Z2. apply Rmult_integral in Z1, Z2. apply cx_eq; cbn; tauto. }
    assert (Sp : halved P0 q f = true) by (unfold halved; apply cnz in N0; now rewrite N0). rewrite Sp, X'. unfold size_of, angle_of. rewrite !(Reqb_false (im K) 0) by exact NI. fold a k.
    destruct (apply_quad (ds / 2) k NK) as (m & -> & Am). cbn [lift_map bind]. set (g := set_coefficient 1 c0 1 f).
    assert (G : lacks 1 f g) by (split; [reflexivity|]; split; [unfold g; now rewrite set_coef|]; intros n Hn; unfold g; rewrite set_coef; destruct (Nat.eqb_spec n 1); [contradiction|reflexivity]).
    rewrite (mapped_split _ _ _ _ _ _ _ g _ (quad2 k (ds / 2))) by assumption. unfold turned. rewrite !Rleb_false by exact A.
    assert (Q0 : quad2 k (ds / 2) (turn (- a) on_axis) = on_axis) by (unfold quad2, turn, on_axis; cbv zeta; cbn [vx vxp vy vyp vct vdp]; apply v6_eq; unfold path_term; cbn; field). rewrite Q0.
    pose proof (C199_kick P0 q ds g a on_axis N ltac:(cbn; lra)) as CK. assert (T0 : turn (- a) on_axis = on_axis) by (unfold turn, on_axis; apply v6_eq; cbn; ring). rewrite T0 in CK.
    destruct (kick_dp g ds P0 q (- a) on_axis) as [w| |]; cbn [bind] in *; try discriminate. apply (f_equal (fun r => match r with Ok x => x | _ => on_axis end)) in CK; cbv beta iota in CK. do 3 f_equal. rewrite <- (turn_back a w), CK. do 4 f_equal; [|].
    all: cycle 1. 2: { unfold a. do 2 f_equal. field. }
    unfold field_at. replace (is_null g) with (is_null f) by reflexivity. rewrite NN. unfold B. replace (b0 g) with (b0 f) by reflexivity. f_equal.
    destruct G as (_ & G1 & G2). specialize (G2 0%nat ltac:(lia)). unfold coef in *. assert (Lg : ex g <> []). { intros Z. rewrite Z in G2. cbn in G2. congruence. }
    destruct (ex g) as [|u l]; [congruence|]. cbn [nth] in G2. rewrite <- G2. cbn [peval]. unfold place, on_axis. apply cx_eq; cbn; ring. }
  split; [|split; [exact S1|]].
  - intros g w (Gb & G0 & G1) Hg. assert (EK : kn P0 q g 1 = K) by (unfold K, kn; rewrite Gb, G1 by lia; reflexivity).
    pose proof (C199_quadrupole P0 q L (ds / 2) g w) as T. cbv zeta in T. rewrite EK in T. apply T; try assumption; try lra. unfold kn. rewrite G0. apply cx_eq; cbn; ring.
  - rewrite S1. intros Z. apply (f_equal (fun r => match r with Ok x => x | _ => on_axis end)) in Z; cbv beta iota in Z. apply (f_equal (turn (- a))) in Z. rewrite !turn_back in Z. apply quad2_inj in Z; [|reflexivity|reflexivity]. destruct Z as [Z1 Z2].
    assert (E : pushed (deflection P0 q ds on_axis (cmul (phase (- carg K)) B)) on_axis = pushed (deflection P0 q ds on_axis B) on_axis).
    { assert (R : forall u w, vx u = vx w -> vy u = vy w -> vct u = vct w -> vdp u = vdp w -> vxp (turn (- a) u) = vxp (turn (- a) w) -> vyp (turn (- a) u) = vyp (turn (- a) w) -> u = w).
      { intros u w E1 E2 E3 E4 E5 E6. rewrite <- (turn_back' a u), <- (turn_back' a w). f_equal. apply v6_eq; try assumption; unfold turn; cbn; congruence. }
      apply R; try reflexivity; assumption. }
    unfold pushed, deflection in E. injection E as E1 E2. cbn [vdp on_axis vxp vyp] in E1, E2. set (t := q * ds * _ / _) in *.
    assert (T : t <> 0). { unfold t. unfold Rdiv at 1. apply Rmult_integral_contrapositive_currified; [|apply Rinv_neq_0_compat; lra]. apply Rmult_integral_contrapositive_currified; [|lra]. now apply Rmult_integral_contrapositive_currified. }
    assert (R1 : re (cmul (phase (- carg K)) B) = re B) by (apply (Rmult_eq_reg_l t); [cbn in *; lra | exact T]). assert (R2 : im (cmul (phase (- carg K)) B) = im B) by (apply (Rmult_eq_reg_l t); [cbn in *; lra | exact T]).
    assert (S0 : sin (carg K) <> 0). { intros Z. apply NI. pose proof (polar_form K) as P. unfold polar in P. rewrite <- P. cbn. rewrite Z. ring. }
    unfold phase in R1, R2. cbn [re im cmul] in R1, R2. rewrite cos_neg, sin_neg in R1, R2. set (x := re B) in *. set (y := im B) in *. set (cc := cos (carg K)) in *. set (ss := sin (carg K)) in *.
    assert (XY : ss * (x * x + y * y) = 0) by (replace (ss * (x * x + y * y)) with (y * (cc * x - - ss * y) - x * (cc * y + - ss * x)) by ring; rewrite R1, R2; ring). apply Rmult_integral in XY. destruct XY as [XY|XY]; [contradiction|]. assert (X0 : x = 0) by nra. assert (Y0 : y = 0) by nra.
    apply NB. unfold x, y, B in X0, Y0. cbn in X0, Y0. apply Rmult_integral in X0, Y0. apply cx_eq; cbn; tauto.
Qed.
Print Assumptions C200_kick_refuted.
Example C200_ex : let f := mkF 1 [c1; mkCx 0 1] in let K := kn eVc 1 f 1 in is_null f = false /\ highest f = 1%Z /\ im K <> 0 /\ eps < Rabs (carg K / 2) /\ coef f 0 <> c0.
Proof.
  intros f K. pose proof eVc_pos as V. pose proof eps_small as ES. assert (EK : K = mkCx 0 1) by (unfold K; rewrite kn_strength; unfold strength; apply cx_eq; cbn; field; lra).
  split; [unfold is_null, fequal, fequal_tol, f; cbn; rewrite Rleb_false; [reflexivity|]; rewrite Rminus_0_r, Rabs_R1; lra|]. split; [reflexivity|]. rewrite EK. split; [cbn; lra|]. split; [|unfold coef, f; cbn; intros H; injection H; lra].
  unfold carg, atan2. cbn [re im]. rewrite !(Rltb_false 0 0) by lra. rewrite Rltb_true by lra. rewrite Rabs_pos_eq; pose proof PI2_1; lra.
Qed.
Example C198_ex : let f := mkF 1 [c1; mkCx 2 0; mkCx 0 1] in kn eVc 1 f 1 = mkCx 2 0 /\ kn eVc 1 f 0 <> c0 /\ kn eVc 1 f 2 = mkCx 0 2 /\ lacks 1 f (mkF 1 [c1; c0; mkCx 0 1]).
Proof.
  intros f. pose proof eVc_pos as V. unfold kn. rewrite <- eVc_val. repeat split; try (apply cx_eq; cbn; field; lra).
  - intros H. unfold cscale in H. injection H as H _. cbn in H. unfold Rdiv in H. rewrite !Rmult_1_l, !Rmult_1_r, Rinv_r in H by lra. lra.
  - intros [|[|k]] H; [reflexivity|congruence|reflexivity].
Qed.
