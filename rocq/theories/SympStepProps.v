(* C188-C190: rotated gradients, and what a step through a sector bend is made of *)
From Coq Require Import ZArith FunctionalExtensionality.
From Verif Require Import RBase Rot Cplx CplxFacts Field FieldProps Cov Bunch BunchSpec Optics OpticsSpec OpticsProofs Chromatic ChromaticProps SympInt SympIntSpec SympIntProofs SympIntProps SympRectProps.
Local Open Scope R_scope.

(* ================= C189: rotated gradients ================= *)
Lemma far_angle a : eps < Rabs a -> fequal a 0 = false.
Proof. intros H. unfold fequal, fequal_tol. replace (a - 0) with a by ring. now rewrite Rleb_false. Qed.
Lemma rotated_apply l K : l <> 0 -> im K <> 0 -> eps < Rabs (carg K / 2) -> exists M T, quad_matrices l K = Ok (M, T) /\
  forall v, apply_dp 4 M T v = turn (carg K / 2) (quad_apply l (cabs K) (turn (- (carg K / 2)) v)).
Proof.
  intros NL NI A. unfold quad_matrices. rewrite (Reqb_false (im K) 0) by exact NI. set (a := carg K / 2) in *.
  assert (NK : cabs K <> 0). { unfold cabs, csq. apply Rgt_not_eq. apply sqrt_lt_R0. nra. }
  set (k := cabs K) in *. clearbody k. unfold quadrupole. destruct (sbr_form 4 l 0 k (or_introl eq_refl)) as (M & -> & EM). destruct (quad_t_ok 4 l k ltac:(lia) NL NK) as (T & -> & ET). cbn [lift bind].
  unfold srot. rewrite far_angle by exact A. unfold srot_cs. cbn [Nat.leb lift bind]. eexists _, _. split; [reflexivity|]. intros v.
  assert (K0 : k + 0 * 0 = k) by ring.
  set (c := cos a). set (s := sin a).
  set (S4 := mset 3 1 s _). assert (ES : forall i j, (i < 4)%nat -> (j < 4)%nat -> S4 i j = nth j (nth i [[c; 0; - s; 0]; [0; c; 0; - s]; [s; 0; c; 0]; [0; s; 0; c]] []) 0).
  { intros i j I J. unfold S4. do 4 (destruct i as [|i]; [do 4 (destruct j as [|j]; [reflexivity|]); lia|]). lia. }
  clearbody S4. unfold apply_dp, vof, msum, mmul, transpose. cbn [Nat.ltb Nat.leb fold_right seq map coord]. unfold msum. cbn [fold_right seq map].
  rewrite !EM, !ET by lia. rewrite !ES by lia. unfold bend_form, quad_t_form, tbl. cbv zeta. rewrite K0. cbn [nth]. unfold turn, quad_apply. cbv zeta. cbn [vx vxp vy vyp vct vdp]. rewrite cos_neg, sin_neg. fold c s.
  apply v6_eq; try reflexivity; ring.
Qed.
(* a gradient that is not upright: the upright quadrupole of the same size, seen from axes turned
   by half the phase of the gradient *)
Theorem C189_rotated P0 q L ds f v : let K := strength P0 q f in P0 <> 0 -> ds <> 0 -> short_field f = true -> im K <> 0 -> eps < Rabs (carg K / 2) ->
  particle_of (rect_step P0 q L ds f v) = Ok (turn (carg K / 2) (quad_apply ds (cabs K) (turn (- (carg K / 2)) v))).
Proof.
  intros K N D Sh NI A. unfold rect_step. rewrite (Reqb_false ds 0) by exact D. rewrite andb_false_r. cbn [andb]. destruct (strength_kn P0 q f N) as (k & -> & E). cbn [lift_u bind]. cbv zeta. rewrite E. fold K.
  assert (C : cnonzero K = true) by (unfold cnonzero, nonzero; rewrite (Reqb_false (im K)) by exact NI; apply orb_true_r). rewrite C. rewrite split_short, Sh. cbn [negb].
  destruct (rotated_apply ds K D NI A) as (M & T & -> & H). cbn [bind fst snd]. rewrite H. reflexivity.
Qed.
Print Assumptions C189_rotated.
(* ================= C188: the sign of a skew gradient ================= *)
(* the motion of a particle with the reference momentum in a gradient K = k1 + i k1s: By + i Bx = K (x + i y) *)
Definition gradient_motion (K : cx) (c : R -> vec6) : Prop := forall s,
  let F := cmul K (mkCx (vx (c s)) (vy (c s))) in
  derivable_pt_lim (fun t => vx (c t)) s (vxp (c s)) /\ derivable_pt_lim (fun t => vxp (c t)) s (- re F) /\
  derivable_pt_lim (fun t => vy (c t)) s (vyp (c s)) /\ derivable_pt_lim (fun t => vyp (c t)) s (im F).
Lemma half_angle K : let a := carg K / 2 in re K = cabs K * (cos a * cos a - sin a * sin a) /\ im K = cabs K * (2 * sin a * cos a).
Proof.
  intros a. pose proof (polar_form K) as P. unfold polar in P. split.
  - rewrite <- P at 1. cbn. f_equal. replace (carg K) with (2 * a) by (unfold a; field). apply cos_2a.
  - rewrite <- P at 1. cbn. f_equal. replace (carg K) with (2 * a) by (unfold a; field). apply sin_2a.
Qed.
Lemma quad_apply_on l K v : vdp v = 0 -> quad_apply l K v = V6 (Cf K l * vx v + Sf K l * vxp v) (- K * Sf K l * vx v + Cf K l * vxp v) (Cf (- K) l * vy v + Sf (- K) l * vyp v) (K * Sf (- K) l * vy v + Cf (- K) l * vyp v) (vct v) 0.
Proof. intros D. unfold quad_apply. cbv zeta. rewrite D. apply v6_eq; try reflexivity; ring. Qed.
Lemma gradient_sign K v : im K <> 0 -> vx v <> 0 \/ vy v <> 0 -> let z := mkCx (vx v) (vy v) in - re (cmul (conj K) z) <> - re (cmul K z) \/ im (cmul (conj K) z) <> im (cmul K z).
Proof.
  intros NI Z. cbn. assert (P : forall a, im K * a = 0 -> a = 0) by (intros a H; apply Rmult_integral in H; tauto).
  destruct Z as [Z|Z]; [right|left]; intros E; apply Z, P; lra.
Qed.
(* ... moves them as the opposite skew part would *)
Theorem C188_skew_refuted P0 q L f v : let K := strength P0 q f in P0 <> 0 -> short_field f = true -> im K <> 0 -> eps < Rabs (carg K / 2) -> vdp v = 0 ->
  exists c, c 0 = v /\ (forall s, s <> 0 -> particle_of (rect_step P0 q L s f v) = Ok (c s)) /\ gradient_motion (conj K) c /\ (vx v <> 0 \/ vy v <> 0 -> ~ gradient_motion K c).
Proof.
  intros K N Sh NI A D. set (a := carg K / 2) in *. set (k := cabs K).
  assert (NK : k <> 0). { unfold k, cabs, csq. apply Rgt_not_eq. apply sqrt_lt_R0. nra. }
  set (c := fun s => turn a (quad_apply s k (turn (- a) v))).
  assert (EC : forall s, c s = turn a (let w := turn (- a) v in V6 (Cf k s * vx w + Sf k s * vxp w) (- k * Sf k s * vx w + Cf k s * vxp w) (Cf (- k) s * vy w + Sf (- k) s * vyp w) (k * Sf (- k) s * vy w + Cf (- k) s * vyp w) (vct w) 0)).
  { intros s. unfold c. rewrite quad_apply_on by exact D. reflexivity. }
  destruct (half_angle K) as [RK IK]. fold a k in RK, IK. pose proof (sin2_cos2 a) as CS. unfold Rsqr in CS.
  assert (C0 : c 0 = v).
  { unfold c, quad_apply, turn. cbv zeta. cbn [vx vxp vy vyp vct vdp]. rewrite D, !Cf_0, !Sf_0, cos_neg, sin_neg. destruct v as [x px y py z d]. cbn [vx vxp vy vyp vct vdp] in *. subst d.
    assert (CC : cos a * cos a = 1 - sin a * sin a) by lra. apply v6_eq; try reflexivity; ring [CC]. }
  assert (G : gradient_motion (conj K) c).
  { intros s. apply functional_extensionality in EC. rewrite EC. cbv zeta. unfold conj. cbn [re im]. unfold turn. cbn [vx vxp vy vyp vct vdp]. cbn [cmul re im]. rewrite RK, IK, cos_neg, sin_neg.
    set (C := cos a) in *. set (Sn := sin a) in *. pose proof (Cf_deriv k s) as D1. pose proof (Sf_deriv k s) as D2. pose proof (Cf_deriv (- k) s) as D3. pose proof (Sf_deriv (- k) s) as D4. 
    assert (CC : C * C = 1 - Sn * Sn) by lra.
    repeat split.
    all: eapply dlim_eq; [|dt]; cbv beta; ring [CC]. }
  exists c. split; [exact C0|]. split; [|split; [exact G|]].
  - intros s NS. apply C189_rotated; assumption.
  - intros Z G'. specialize (G 0). specialize (G' 0). cbv zeta in G, G'. rewrite C0 in G, G'. destruct G as (_ & G1 & _ & G2), G' as (_ & G1' & _ & G2').
    destruct (gradient_sign K v NI Z) as [E|E]; apply E; eapply uniqueness_limite; eassumption.
Qed.
Print Assumptions C188_skew_refuted.
(* a magnet of no length gives the kick of the gradient itself *)
Theorem C189_thin P0 q f v : let F := cmul (strength P0 q f) (mkCx (vx v) (vy v)) in P0 <> 0 -> short_field f = true -> is_null f = false ->
  particle_of (rect_step P0 q 0 0 f v) = Ok (V6 (vx v) (vxp v - re F) (vy v) (vyp v + im F) (vct v) (vdp v)).
Proof.
  intros F N Sh NN. destruct (C187_thin P0 q f v N NN) as (B & EB & ->). cbn [particle_of bind fst].
  assert (EF : B = cscale (b0 f) (cmul (coef f 1) (mkCx (vx v) (vy v)))).
  { rewrite field_eval, NN in EB. injection EB as <-. unfold short_field, highest, coef, cnonzero, nonzero in Sh. destruct f as [bb l]. cbn [ex b0] in *. destruct l as [|u [|w [|x l]]]; cbn [nth length] in *.
    - apply cx_eq; cbn; ring.
    - destruct (Reqb_spec (re u) 0), (Reqb_spec (im u) 0); try discriminate Sh. apply cx_eq; cbn; rewrite ?e, ?e0; ring.
    - destruct (Reqb_spec (re u) 0), (Reqb_spec (im u) 0); try discriminate Sh. apply cx_eq; cbn; rewrite ?e, ?e0; ring.
    - apply andb_prop in Sh. destruct Sh as [_ Sh]. apply Z.leb_le in Sh. lia. }
  rewrite EF. unfold F, strength. f_equal. apply v6_eq; cbn; try reflexivity; field; exact N.
Qed.
Print Assumptions C189_thin.
(* a gradient all but upright: the magnet takes every particle to the axis *)
Theorem C188_tiny_skew_refuted P0 q L ds f v : let K := strength P0 q f in P0 <> 0 -> ds <> 0 -> short_field f = true -> im K <> 0 -> Rabs (carg K / 2) <= eps ->
  particle_of (rect_step P0 q L ds f v) = Ok (V6 0 0 0 0 (vct v) (vdp v)).
Proof.
  intros K N D Sh NI A. unfold rect_step. rewrite (Reqb_false ds 0) by exact D. rewrite andb_false_r. cbn [andb]. destruct (strength_kn P0 q f N) as (k & -> & E). cbn [lift_u bind]. cbv zeta. rewrite E. fold K.
  assert (C : cnonzero K = true) by (unfold cnonzero, nonzero; rewrite (Reqb_false (im K)) by exact NI; apply orb_true_r). rewrite C. rewrite split_short, Sh. cbn [negb].
  assert (NK : cabs K <> 0). { unfold cabs, csq. apply Rgt_not_eq. apply sqrt_lt_R0. nra. }
  unfold quad_matrices. rewrite (Reqb_false (im K) 0) by exact NI. unfold quadrupole. destruct (sbr_form 4 ds 0 (cabs K) (or_introl eq_refl)) as (M & -> & EM). destruct (quad_t_ok 4 ds (cabs K) ltac:(lia) D NK) as (T & -> & ET). cbn [lift bind].
  unfold srot, fequal, fequal_tol. replace (carg K / 2 - 0) with (carg K / 2) by ring. rewrite Rleb_true by exact A. cbn [lift bind fst snd particle_of]. f_equal.
  unfold apply_dp, vof, msum, mmul, transpose, msum. cbn. apply v6_eq; try reflexivity; ring.
Qed.
Print Assumptions C188_tiny_skew_refuted.
Example C188_ex : let f := mkF 1 [c0; mkCx 0 1] in let K := strength eVc 1 f in short_field f = true /\ K = mkCx 0 1 /\ eps < Rabs (carg K / 2).
Proof.
  intros f K. assert (V : 0 < eVc) by (unfold eVc; lra). assert (EK : K = mkCx 0 1) by (unfold K, strength; apply cx_eq; cbn; field; lra). split; [unfold short_field, cnonzero, nonzero, f, highest; cbn; now rewrite (Reqb_true 0 0)|]. split; [exact EK|]. rewrite EK.
  unfold carg, atan2. cbn [re im]. rewrite !(Rltb_false 0 0) by lra. rewrite Rltb_true by lra. rewrite Rabs_pos_eq; pose proof PI2_1; pose proof eps_small; lra.
Qed.
Example C188_tiny_ex : exists K, im K <> 0 /\ Rabs (carg K / 2) <= eps.
Proof.
  exists (mkCx (cos eps) (sin eps)). pose proof eps_pos as P. pose proof eps_small as Q. pose proof PI2_1. assert (0 < sin eps) by (apply sin_gt_0; lra). split; [cbn; lra|]. unfold carg. cbn [re im]. 
  assert (E : atan2 (sin eps) (cos eps) = eps) by (unfold atan2; rewrite Rltb_true by (apply cos_gt_0; lra); apply atan_tan; lra). rewrite E, Rabs_pos_eq; lra.
Qed.

(* a gradient with other multipoles: what a step does, twice the kick and half a drift too much *)
Definition no_gradient (f g : field) : Prop := b0 g = b0 f /\ coef g 1 = c0 /\ forall n, n <> 1%nat -> coef g n = coef f n.
Theorem C189_split P0 q L ds f g v M T : let K := strength P0 q f in P0 <> 0 -> ds <> 0 -> short_field f = false -> K <> c0 -> no_gradient f g -> quad_matrices (ds / 2) K = Ok (M, T) ->
  particle_of (rect_step P0 q L ds f v) =
  (do v1 <- multipole_kick g ds P0 q (- (carg K / 2)) (apply_dp 4 M T v); do v2 <- multipole_kick g ds P0 q 0 (apply_dp 4 M T v1); drift_map (ds / 2) v2).
Proof.
  intros K N D Sh NK (G0 & G1 & G2) EM. unfold rect_step. rewrite (Reqb_false ds 0) by exact D. rewrite andb_false_r. cbn [andb]. destruct (strength_kn P0 q f N) as (k & -> & E). cbn [lift_u bind]. cbv zeta. rewrite E. fold K.
  assert (C : cnonzero K = true). { unfold cnonzero, nonzero. destruct (Reqb_spec (re K) 0) as [A|]; [|reflexivity]. destruct (Reqb_spec (im K) 0) as [B|]; [|reflexivity]. exfalso. apply NK. now apply cx_eq. } rewrite C. rewrite split_short, Sh. cbn [negb]. rewrite EM. cbn [bind fst snd].
  assert (SG : forall h, same_field h f -> same_field (without_gradient h) g).
  { intros h [H0 H]. unfold without_gradient. split; [rewrite b0_set; unfold get_coefficient; cbn; congruence|]. intros n. rewrite set_coef. destruct (Nat.eqb_spec n 1) as [->|Q]; [symmetry; exact G1|]. destruct (same_read 1 h) as [_ ->]. rewrite H. symmetry. now apply G2. }
  assert (S1 : same_field (fst (get_coefficient 0 1 f)) f) by apply same_read.
  rewrite (same_kick _ g _ _ _ _ _ (SG _ S1)). destruct (multipole_kick g ds P0 q (- (carg K / 2)) (apply_dp 4 M T v)) as [v1| |]; cbn [bind fst snd particle_of]; try reflexivity.
  rewrite get_coef. rewrite (same_kick _ g) by (apply SG; eapply same_trans; [apply gradient_back | exact S1]).
  destruct (multipole_kick g ds P0 q 0 (apply_dp 4 M T v1)) as [v2| |]; cbn [bind]; try reflexivity. unfold over. rewrite Reqb_false by lra. destruct (drift_map (ds / 2) v2); reflexivity.
Qed.
Print Assumptions C189_split.
Example C189_split_ex : let f := mkF 1 [c1; mkCx 0 1] in short_field f = false /\ no_gradient f (mkF 1 [c1]) /\ exists M T, quad_matrices (1/2) (strength eVc 1 f) = Ok (M, T).
Proof.
  intros f. split; [unfold short_field, cnonzero, nonzero, f; cbn; rewrite (Reqb_false 1 0) by lra; reflexivity|]. split.
  - split; [reflexivity|]. split; [reflexivity|]. intros [|[|n]] H; [reflexivity | congruence | destruct n; reflexivity].
  - assert (V : 0 < eVc) by (unfold eVc; lra). assert (EK : strength eVc 1 f = mkCx 0 1) by (unfold strength; apply cx_eq; cbn; field; lra). rewrite EK.
    destruct (rotated_apply (1/2) (mkCx 0 1)) as (M & T & E & _); [lra|cbn; lra| |eauto].
    unfold carg, atan2. cbn [re im]. rewrite !(Rltb_false 0 0) by lra. rewrite Rltb_true by lra. rewrite Rabs_pos_eq; pose proof PI2_1; pose proof eps_small; lra.
Qed.

(* ================= C190: a step through a sector bend ================= *)
(* the parts of the field that the linear map leaves out *)
Definition remainder (f g : field) : Prop :=
  b0 g = b0 f /\ coef g 0 = mkCx 0 (im (coef f 0)) /\ coef g 1 = mkCx 0 (im (coef f 1)) /\ forall n, (2 <= n)%nat -> coef g n = coef f n.
Lemma bend_strength P0 q f : P0 <> 0 -> let f1 := fst (get_coefficient 0 1 f) in
  (if Z.ltb 0 (highest f1) then do k <- lift_u (get_kn f1 1 (P0 / eVc)); Ok (cscale q k) else Ok Cplx.c0) = Ok (E := ierr) (strength P0 q f).
Proof.
  intros N f1. assert (S1 : same_field f1 f) by apply same_read. destruct (Z.ltb_spec 0 (highest f1)) as [H|H].
  - rewrite (same_kn f1 f _ S1). destruct (strength_kn P0 q f N) as (k & -> & E). cbn [lift_u bind]. now rewrite E.
  - f_equal. unfold strength. assert (C : coef f 1 = c0). { destruct S1 as [_ S1]. rewrite <- S1. unfold coef. apply nth_overflow. unfold highest in H. lia. } rewrite C. apply cx_eq; cbn; ring.
Qed.
Lemma matched_read h q f : matched h q (fst (get_coefficient 0 1 f)) = matched h q f.
Proof.
  unfold matched. rewrite !get_coef. assert (S1 : same_field (fst (get_coefficient 0 1 f)) f) by apply same_read. destruct S1 as [-> S1]. now rewrite S1.
Qed.
(* the wanted momentum is positive exactly when charge, field and curvature agree in sign *)
Theorem C190_matched h q f : h <> 0 -> q <> 0 -> (matched h q f = true <-> 0 < b0 f * re (coef f 0) * h * q).
Proof.
  intros H Q. unfold matched. rewrite get_coef, Reqb_false by exact H. set (a := re (coef f 0) * b0 f).
  assert (E : a / h / q = a * h * q * (/ (h * h) * / (q * q))) by (field; auto).
  assert (P : 0 < / (h * h) * / (q * q)) by (apply Rmult_lt_0_compat; apply Rinv_0_lt_compat; nra).
  rewrite E. replace (b0 f * re (coef f 0)) with a by (unfold a; ring). split.
  - intros L. destruct (Rltb_spec 0 (a * h * q * (/ (h * h) * / (q * q)))) as [L'|L']; [|discriminate]. apply Rmult_lt_reg_r with (/ (h * h) * / (q * q)); [exact P|]. now rewrite Rmult_0_l.
  - intros L. apply Rltb_true. now apply Rmult_lt_0_compat.
Qed.
Print Assumptions C190_matched.
Definition simple_bend (P0 q : R) (f : field) : bool := Reqb (im (coef f 0)) 0 && Reqb (im (strength P0 q f)) 0 && Z.leb (highest f) 1.
Lemma split_bend P0 q f : let f1 := fst (get_coefficient 0 1 f) in
  nonzero (im (snd (get_coefficient 0 1 f1))) || nonzero (im (strength P0 q f)) || Z.ltb 1 (highest f1) = negb (simple_bend P0 q f).
Proof.
  intros f1. rewrite get_coef. assert (S1 : same_field f1 f) by apply same_read. destruct S1 as [_ ->]. unfold simple_bend, f1. rewrite high_get. unfold nonzero. rewrite !negb_andb. f_equal.
  destruct (Z.ltb_spec 1 (Z.max (Z.of_nat 0) (highest f))), (Z.leb_spec (highest f) 1); cbn; try reflexivity; lia.
Qed.
(* upright dipole and gradient only: the linear map over the whole length *)
Theorem C190_plain ef P0 q ds b v : P0 <> 0 -> stilt b = 0 -> matched (sh b) q (sfield b) = true -> simple_bend P0 q (sfield b) = true ->
  particle_of (sbend_step ef P0 q ds b v) = straight_part ef (sh b) (re (strength P0 q (sfield b))) ds v.
Proof.
  intros N T M S. unfold sbend_step. rewrite T. unfold rolled at 1. rewrite (Reqb_true 0 0) by reflexivity. cbn [bind]. cbv zeta. rewrite matched_read, M. cbn [negb]. rewrite bend_strength by exact N. cbn [bind]. rewrite split_bend, S. cbn [negb].
  destruct (straight_part ef (sh b) (re (strength P0 q (sfield b))) ds v) as [w| |]; cbn [bind particle_of fst snd]; try reflexivity. unfold rolled. rewrite Reqb_true by ring. reflexivity.
Qed.
Print Assumptions C190_plain.
(* otherwise half of it, the kick of what is left out over the whole length, and the other half *)
Theorem C190_kicked ef P0 q ds b v g : P0 <> 0 -> stilt b = 0 -> matched (sh b) q (sfield b) = true -> simple_bend P0 q (sfield b) = false -> remainder (sfield b) g ->
  particle_of (sbend_step ef P0 q ds b v) =
  (let half := straight_part ef (sh b) (re (strength P0 q (sfield b))) (ds / 2) in do v1 <- half v; do v2 <- over ds (fun l => multipole_kick g l P0 q 0) v1; half v2).
Proof.
  intros N T M S G. unfold sbend_step. rewrite T. unfold rolled at 1. rewrite (Reqb_true 0 0) by reflexivity. cbn [bind]. cbv zeta. rewrite matched_read, M. cbn [negb]. rewrite bend_strength by exact N. cbn [bind]. rewrite split_bend, S. cbn [negb].
  set (h2 := straight_part ef (sh b) (re (strength P0 q (sfield b))) (ds / 2)). destruct (h2 v) as [w| |]; cbn [bind particle_of fst snd]; try reflexivity.
  set (f := sfield b) in *. set (f1 := fst (get_coefficient 0 1 f)). set (f2 := fst (get_coefficient 1 1 f1)). set (f3 := set_coefficient 1 _ 1 (set_coefficient 0 _ 1 f2)).
  assert (S1 : same_field f1 f) by apply same_read. assert (S2 : same_field f2 f) by (eapply same_trans; [apply same_read | exact S1]).
  assert (SG : same_field f3 g).
  { destruct G as (G0 & G1 & G2 & G3), S2 as [S20 S2], S1 as [S10 S1]. unfold f3. split; [rewrite !b0_set; congruence|]. intros n. rewrite !set_coef, !get_coef. destruct n as [|[|n]]; cbn [Nat.eqb]; [rewrite S1; congruence | rewrite S1; congruence | rewrite S2; symmetry; apply G3; lia]. }
  assert (EK : over ds (fun l => multipole_kick f3 l P0 q 0) w = over ds (fun l => multipole_kick g l P0 q 0) w) by (unfold over; destruct (Reqb ds 0); [reflexivity | now apply same_kick]). rewrite EK.
  destruct (over ds (fun l => multipole_kick g l P0 q 0) w) as [w2| |]; cbn [bind]; try reflexivity. destruct (h2 w2) as [w3| |]; cbn [bind fst snd]; try reflexivity. unfold rolled. rewrite Reqb_true by ring. reflexivity.
Qed.
Print Assumptions C190_kicked.
(* such a remainder exists *)
Lemma remainder_exists f : exists g, remainder f g.
Proof.
  exists (set_coefficient 1 (mkCx 0 (im (coef f 1))) 1 (set_coefficient 0 (mkCx 0 (im (coef f 0))) 1 f)). split; [now rewrite !b0_set|]. split; [rewrite !set_coef; reflexivity|]. split; [rewrite set_coef; reflexivity|]. intros [|[|n]] H; [lia|lia|]. now rewrite !set_coef.
Qed.
(* a tilted bend is the same bend seen from turned axes *)
Theorem C190_tilted ef P0 q ds b v : eps < Rabs (stilt b) ->
  particle_of (sbend_step ef P0 q ds b v) = (do w <- particle_of (sbend_step ef P0 q ds (mkSB (sh b) 0 (sfield b) (face_in b) (face_out b)) (turn (stilt b) v)); Ok (turn (- stilt b) w)).
Proof.
  intros T. unfold sbend_step. cbn [stilt sh sfield]. rewrite rolled_turn by exact T. assert (R0 : forall w, rolled 0 w = Ok w) by (intros w; unfold rolled; now rewrite Reqb_true). assert (R0' : forall w, rolled (-0) w = Ok w) by (intros w; rewrite Ropp_0; apply R0). rewrite R0. cbn [bind]. cbv zeta.
  destruct (negb _); [reflexivity|]. destruct (if Z.ltb 0 _ then _ else _) as [K| |]; cbn [bind]; try reflexivity. destruct (straight_part _ _ _ _ _) as [v2| |]; cbn [bind]; try reflexivity.
  match goal with |- particle_of (do r <- ?X; _) = _ => destruct X as [[v4 f4]| |]; cbn [bind particle_of fst snd]; try reflexivity end.
  rewrite rolled_turn by (rewrite Rabs_Ropp; exact T). rewrite R0'. reflexivity.
Qed.
Print Assumptions C190_tilted.
(* the pole faces act as the edge matrix does ... *)
Theorem C190_face h pf v : exists M, pole_face 6 h (frot pf) (fint pf) (hgap pf) = Ok M /\ at_face h (Some pf) v = apply_m 6 M v.
Proof.
  unfold pole_face. cbn [Nat.leb]. eexists. split; [reflexivity|]. unfold at_face, pole_face_map, apply_m, vof, msum. cbn. apply v6_eq; ring.
Qed.
Print Assumptions C190_face.
(* ... and without a gap focus one plane as much as they defocus the other *)
Theorem C190_hard_edge h pf v : fint pf = 0 \/ hgap pf = 0 -> at_face h (Some pf) v = V6 (vx v) (vxp v + h * tan (frot pf) * vx v) (vy v) (vyp v - h * tan (frot pf) * vy v) (vct v) (vdp v).
Proof.
  intros Z. unfold at_face, pole_face_map. replace (2 * fint pf * hgap pf * h * (1 + sin (frot pf) * sin (frot pf)) / cos (frot pf)) with 0 by (destruct Z as [-> | ->]; unfold Rdiv; ring). rewrite Rminus_0_r. apply v6_eq; try reflexivity; ring.
Qed.
Print Assumptions C190_hard_edge.
Example C190_ex : let f := mkF 1 [mkCx (1/10) 0; mkCx (1/100) (1/50)] in matched (1/10) 1 f = true /\ simple_bend eVc 1 f = false /\ simple_bend eVc 1 (mkF 1 [mkCx (1/10) 0; mkCx (1/100) 0]) = true.
Proof.
  intros f. assert (V : 0 < eVc) by (unfold eVc; lra). repeat split.
  - apply C190_matched; cbn; lra.
  - unfold simple_bend, strength, f. cbn. rewrite (Reqb_true 0 0) by reflexivity. rewrite (Reqb_false (1 * (1 * eVc / eVc) * (1/50))); [reflexivity|]. intros E. assert (1 * (1 * eVc / eVc) * (1/50) = 1/50) by (field; lra). lra.
  - unfold simple_bend, strength. cbn. rewrite (Reqb_true 0 0) by reflexivity. rewrite Reqb_true by ring. reflexivity.
Qed.
