(* C194-C195: the second-order map of a bend with gradient and sextupole component *)
From Coq Require Import ZArith Lia.
From Verif Require Import RBase Cov Bunch BunchSpec BunchProofs Optics OpticsSpec OpticsProofs SparseMap SparseMapSpec SparseMapProofs SparseMapProps SympIntSpec BendMap BendMapSpec BendMapProofs GenBendProofs GenBendDeriv.
Local Open Scope R_scope.

(* x with the missing term *)
Definition mended (L F : R -> vec6 -> vec6) (h s : R) (x : vec6) : vec6 :=
  V6 (vx (F s x) + h * vx (L s (V6 0 1 0 0 0 0)) * vx x * vxp x) (vxp (F s x)) (vy (F s x)) (vyp (F s x)) (vct (F s x)) (vdp (F s x)).
Lemma gen2_0 h K1 K2 x : regular h K1 -> gen2 h K1 K2 0 x = x.
Proof.
  intros (R1 & R2 & R3 & R4). unfold gen2, path2. open_coefs. cbn zeta. rewrite !Cf_0, !Sf_0. destruct x as [x0 x1 x2 x3 x4 x5]. cbn [vx vxp vy vyp vct vdp].
  assert (H5 : sqrt (Rabs (h * h + K1)) <> 0) by (apply not_eq_sym, Rlt_not_eq, sqrt_lt_R0, Rabs_pos_lt; lra).
  assert (H6 : sqrt (Rabs (- K1)) <> 0) by (apply not_eq_sym, Rlt_not_eq, sqrt_lt_R0, Rabs_pos_lt; lra).
  f_equal; try (field; auto; fail).
  unfold gen_bend_second. cbn -[pow]. rewrite !Rmult_0_r. replace (0 / 2) with 0 by field. rewrite cosh_0, sinh_0, cos_0, sin_0.
  set (a := sqrt (Rabs (h * h + K1))) in *. set (b := sqrt (Rabs (- K1))) in *. clearbody a b.
  destruct (Rltb (h * h + K1) 0), (Rltb (- K1) 0); field; repeat split; auto; lra.
Qed.
Lemma d_t112_raw h K1 K2 s : regular h K1 -> derivable_pt_lim (fun s => t112 h K1 K2 s) s
  (t212 h K1 K2 s + h * (Cf (K1 + h * h) s * Cf (K1 + h * h) s + Sf (K1 + h * h) s * (- (K1 + h * h) * Sf (K1 + h * h) s)) - h * Cf (K1 + h * h) s).
Proof.
  intros R. apply (dlim_ext (fun s => t112' h K1 K2 s - h * Sf (K1 + h * h) s)); [intros y; unfold t112'; ring|].
  eapply dlim_eq; [|apply (dlim_minus (fun s => t112' h K1 K2 s) (fun s => h * Sf (K1 + h * h) s)); [exact (d_t112 _ _ _ _ R)|dl]]. cbv beta. ring.
Qed.
Ltac dcoef R := first [ exact (d_t112_raw _ _ _ _ R) | exact (d_t111 _ _ _ _ R) | exact (d_t116 _ _ _ _ R) | exact (d_t122 _ _ _ _ R) | exact (d_t126 _ _ _ _ R) | exact (d_t166 _ _ _ _ R) | exact (d_t133 _ _ _ _ R) | exact (d_t134 _ _ _ _ R) | exact (d_t144 _ _ _ _ R) | exact (d_t211 _ _ _ _ R) | exact (d_t212 _ _ _ _ R) | exact (d_t216 _ _ _ _ R) | exact (d_t222 _ _ _ _ R) | exact (d_t226 _ _ _ _ R) | exact (d_t266 _ _ _ _ R) | exact (d_t233 _ _ _ _ R) | exact (d_t234 _ _ _ _ R) | exact (d_t244 _ _ _ _ R) | exact (d_t313 _ _ _ _ R) | exact (d_t314 _ _ _ _ R) | exact (d_t323 _ _ _ _ R) | exact (d_t324 _ _ _ _ R) | exact (d_t336 _ _ _ _ R) | exact (d_t346 _ _ _ _ R) | exact (d_t413 _ _ _ _ R) | exact (d_t414 _ _ _ _ R) | exact (d_t423 _ _ _ _ R) | exact (d_t424 _ _ _ _ R) | exact (d_t436 _ _ _ _ R) | exact (d_t446 _ _ _ _ R)].
Ltac dgen R := lazymatch goal with
  | |- derivable_pt_lim (fun l => @?f l + @?g l) _ _ => apply (dlim_plus f g); cbv beta; dgen R
  | |- derivable_pt_lim (fun l => ?f ?u ?v ?w l * ?b) _ _ => apply (dlim_mult (fun l => f u v w l) (fun _ => b)); [dcoef R | apply (derivable_pt_lim_const b)]
  | _ => dl
  end.
Lemma mended_solves h K1 K2 : regular h K1 -> solves2_for [0; 1; 2; 3; 5]%nat (bend_motion h K1) (bend_slopes h K1 K2) (gen1 h K1) (mended (gen1 h K1) (gen2 h K1 K2) h).
Proof.
  intros R. pose proof R as (R1 & R2 & R3 & R4). split.
  - intros x. unfold mended. rewrite gen2_0 by exact R. rewrite gen1_form by exact R3. rewrite Cf_0, Sf_0. destruct x as [x0 x1 x2 x3 x4 x5]. cbn. f_equal; field; assumption.
  - intros x i s Hi. unfold mended.
    replace (fun l => coord i (V6 (vx (gen2 h K1 K2 l x) + h * vx (gen1 h K1 l (V6 0 1 0 0 0 0)) * vx x * vxp x) (vxp (gen2 h K1 K2 l x)) (vy (gen2 h K1 K2 l x)) (vyp (gen2 h K1 K2 l x)) (vct (gen2 h K1 K2 l x)) (vdp (gen2 h K1 K2 l x))))
      with (fun l => coord i (V6 (vx (gen2 h K1 K2 l x) + h * Sf (K1 + h * h) l * vx x * vxp x) (vxp (gen2 h K1 K2 l x)) (vy (gen2 h K1 K2 l x)) (vyp (gen2 h K1 K2 l x)) (vct (gen2 h K1 K2 l x)) (vdp (gen2 h K1 K2 l x)))).
    2: { apply FunctionalExtensionality.functional_extensionality. intros l. f_equal. rewrite gen1_form by exact R3. cbn. f_equal. field. assumption. }
    rewrite !gen1_form by exact R3. 
    cbn [In] in Hi. destruct Hi as [<-|[<-|[<-|[<-|[<-|[]]]]]]; cbn [coord vx vxp vy vyp vct vdp seq sum bend_motion bend_slopes]; unfold gen2; cbn zeta; cbn [vx vxp vy vyp vct vdp].
    all: eapply dlim_eq; [|dgen R]; cbv beta.
    all: generalize dependent (Cf (K1 + h * h) s); generalize dependent (Sf (K1 + h * h) s); generalize dependent (Cf (- K1) s); generalize dependent (Sf (- K1) s); intros; unfold Rdiv; try ring.
    all: field; assumption.
Qed.

(* ---- C194: but for one coefficient and the path length, the map is the second-order solution ---- *)
Theorem C194_bend h K1 K2 : regular h K1 -> exists F L,
  (forall w s p, exists m, gen_bend_tm w s h K1 K2 = Ok m /\ rt_apply m p = Ok (mkP (F s (pv p)) (pid p))) /\
  (forall s, exists M, sector_bend 6 s h K1 = Ok M /\ forall x, L s x = apply_m 6 M x) /\
  solves2_for [0; 1; 2; 3; 5]%nat (bend_motion h K1) (bend_slopes h K1 K2) L (mended L F h).
Proof.
  intros R. exists (gen2 h K1 K2), (gen1 h K1). split; [intros; now apply gen_tm_ok|]. split; [|now apply mended_solves].
  intros s. destruct (sbr_form 6 s h K1 (or_intror eq_refl)) as (M & E & _). exists M. unfold gen1, sector_bend. rewrite E. auto.
Qed.
Print Assumptions C194_bend.
(* no map where one of the divisions is by zero *)
Theorem C194_domain w s h K1 K2 : ~ regular h K1 <-> gen_bend_tm w s h K1 K2 = UB.
Proof.
  unfold gen_bend_tm, regular. destruct (sbr_form 6 s h K1 (or_intror eq_refl)) as (M & E & _). unfold sector_bend. rewrite E. cbn [bind].
  destruct (Reqb_spec h 0); [split; [reflexivity|tauto]|]. destruct (Reqb_spec K1 0); [split; [reflexivity|tauto]|].
  destruct (Reqb_spec (K1 + h * h) 0); [split; [reflexivity|tauto]|]. destruct (Reqb_spec (K1 + h * h + 4 * K1) 0); [split; [reflexivity|tauto]|]. cbn [orb].
  split; [tauto|]. intros X. exfalso. assert (Rg : regular h K1) by (repeat split; assumption).
  destruct (gen_tm_ok w s h K1 K2 (mkP vzero 0%Z) Rg) as (m & Em & _). unfold gen_bend_tm, sector_bend in Em. rewrite E in Em. cbn [bind] in Em.
  destruct (Reqb_spec h 0); [contradiction|]. destruct (Reqb_spec K1 0); [contradiction|]. destruct (Reqb_spec (K1 + h * h) 0); [contradiction|]. destruct (Reqb_spec (K1 + h * h + 4 * K1) 0); [contradiction|].
  cbn [orb] in Em. rewrite X in Em. discriminate Em.
Qed.
Print Assumptions C194_domain.

(* ---- C195 ---- *)
(* a bend with field index 1/5 has no second-order map *)
Theorem C195_field_index_refuted w s h K2 : gen_bend_tm w s h (- (h * h) / 5) K2 = UB.
Proof. apply C194_domain. intros (_ & _ & _ & R). apply R. field. Qed.
Print Assumptions C195_field_index_refuted.
(* the horizontal position does not follow the equations *)
Theorem C195_position_refuted h K1 K2 F L : regular h K1 ->
  (forall w s p, exists m, gen_bend_tm w s h K1 K2 = Ok m /\ rt_apply m p = Ok (mkP (F s (pv p)) (pid p))) ->
  (forall s, exists M, sector_bend 6 s h K1 = Ok M /\ forall x, L s x = apply_m 6 M x) ->
  ~ solves2_for [0%nat] (bend_motion h K1) (bend_slopes h K1 K2) L F.
Proof.
  intros R HF HL [_ S2]. pose proof (mended_solves h K1 K2 R) as [_ M2]. pose proof R as (R1 & R2 & R3 & R4).
  assert (EF : F = gen2 h K1 K2).
  { apply FunctionalExtensionality.functional_extensionality. intros s. apply FunctionalExtensionality.functional_extensionality. intros x.
    destruct (HF 0%nat s (mkP x 0%Z)) as (m & E & A). destruct (gen_tm_ok 0 s h K1 K2 (mkP x 0%Z) R) as (m' & E' & A'). cbn [pv pid] in *. congruence. }
  assert (EL : L = gen1 h K1).
  { apply FunctionalExtensionality.functional_extensionality. intros s. apply FunctionalExtensionality.functional_extensionality. intros x.
    destruct (HL s) as (M & E & A). unfold gen1. rewrite E. apply A. }
  subst F L. specialize (S2 (V6 1 1 0 0 0 0) 0%nat 0 ltac:(now left)). specialize (M2 (V6 1 1 0 0 0 0) 0%nat 0 ltac:(now left)).
  assert (D : derivable_pt_lim (fun l => h * Sf (K1 + h * h) l) 0 h).
  { eapply dlim_eq; [|dl]. cbv beta. rewrite Cf_0. ring. }
  pose proof (dlim_plus _ _ _ _ _ S2 D) as S3. cbn [coord] in S3, M2.
  assert (E : (fun l => vx (mended (gen1 h K1) (gen2 h K1 K2) h l (V6 1 1 0 0 0 0))) = (fun l => vx (gen2 h K1 K2 l (V6 1 1 0 0 0 0)) + h * Sf (K1 + h * h) l)).
  { apply FunctionalExtensionality.functional_extensionality. intros l. unfold mended. cbn [vx]. rewrite gen1_form by exact R3. cbn. f_equal. field. assumption. }
  rewrite E in M2. pose proof (uniqueness_limite _ _ _ _ S3 M2) as Q. unfold mended in Q. rewrite !gen2_0 in Q by exact R. rewrite !gen1_form in Q by exact R3.
  rewrite !Cf_0, !Sf_0 in Q. cbn in Q. apply R1. unfold Rdiv in Q. lra.
Qed.
Print Assumptions C195_position_refuted.
(* the path length grows with the slope where it should shrink: its second-order part has the wrong sign *)
Lemma path2_slope h K1 K2 s : regular h K1 -> let k := K1 + h * h in
  path2 h K1 K2 s (V6 0 1 0 0 0 0) = / (6 * k) * ((k * h - 4 * (h * h * h) - 8 * K1 * h - 4 * K2) * h * (s - Sf k s) / k
    + (2 * K2 + 2 * (h * h * h) + 4 * K1 * h + k * h) * h * (s - Sf k s * Cf k s) / (2 * k) + 3 * k * s * (Cf k s * Cf k s)).
Proof.
  intros (R1 & R2 & R3 & R4). cbn zeta. unfold path2, gen_bend_second. cbn -[pow]. unfold Cf, Sf.
  destruct (Reqb_spec (K1 + h * h) 0) as [|_]; [contradiction|]. replace (h * h + K1) with (K1 + h * h) by ring.
  assert (H6 : sqrt (Rabs (- K1)) <> 0) by (apply not_eq_sym, Rlt_not_eq, sqrt_lt_R0, Rabs_pos_lt; lra). set (b := sqrt (Rabs (- K1))) in *. clearbody b.
  destruct (Rltb_spec 0 (K1 + h * h)) as [P|P].
  - destruct (Rltb_spec (K1 + h * h) 0); [lra|]. rewrite (Rabs_right (K1 + h * h)) by lra. assert (A : 0 < sqrt (K1 + h * h)) by now apply sqrt_lt_R0.
    pose proof (sqrt_sqrt (K1 + h * h) ltac:(lra)) as SS. set (a := sqrt (K1 + h * h)) in *.
    replace (2 * (a * s)) with (a * s + a * s) by ring. rewrite sin_plus. set (u := sin (a * s)). set (v := cos (a * s)). clearbody u v.
    assert (EK : K1 = a * a - h * h) by lra. clearbody a. destruct (Rltb (- K1) 0); subst K1; field; repeat split; auto; lra.
  - destruct (Rltb_spec (K1 + h * h) 0); [|lra]. rewrite (Rabs_left (K1 + h * h)) by lra. assert (A : 0 < sqrt (- (K1 + h * h))) by (apply sqrt_lt_R0; lra).
    pose proof (sqrt_sqrt (- (K1 + h * h)) ltac:(lra)) as SS. set (a := sqrt (- (K1 + h * h))) in *.
    replace (2 * (a * s)) with (a * s + a * s) by ring. rewrite sinh_plus. set (u := sinh (a * s)). set (v := cosh (a * s)). clearbody u v.
    assert (EK : K1 = - (a * a) - h * h) by lra. clearbody a. destruct (Rltb (- K1) 0); subst K1; field; repeat split; auto; lra.
Qed.
Theorem C195_path_refuted h K1 K2 F L : regular h K1 ->
  (forall w s p, exists m, gen_bend_tm w s h K1 K2 = Ok m /\ rt_apply m p = Ok (mkP (F s (pv p)) (pid p))) ->
  (forall s, exists M, sector_bend 6 s h K1 = Ok M /\ forall x, L s x = apply_m 6 M x) ->
  ~ solves2_for [4%nat] (bend_motion h K1) (bend_slopes h K1 K2) L F /\
  derivable_pt_lim (fun s => vct (F s (V6 0 1 0 0 0 0))) 0 (/ 2) /\ path_term (V6 0 1 0 0 0 0) = - / 2.
Proof.
  intros R HF HL. pose proof R as (R1 & R2 & R3 & R4).
  assert (EF : F = gen2 h K1 K2).
  { apply FunctionalExtensionality.functional_extensionality. intros s. apply FunctionalExtensionality.functional_extensionality. intros x.
    destruct (HF 0%nat s (mkP x 0%Z)) as (m & E & A). destruct (gen_tm_ok 0 s h K1 K2 (mkP x 0%Z) R) as (m' & E' & A'). cbn [pv pid] in *. congruence. }
  assert (EL : L = gen1 h K1).
  { apply FunctionalExtensionality.functional_extensionality. intros s. apply FunctionalExtensionality.functional_extensionality. intros x.
    destruct (HL s) as (M & E & A). unfold gen1. rewrite E. apply A. }
  subst F L. clear HF HL.
  assert (D : derivable_pt_lim (fun s => vct (gen2 h K1 K2 s (V6 0 1 0 0 0 0))) 0 (/ 2)).
  { set (k := K1 + h * h).
    apply (dlim_ext (fun s => - h * ((1 - Cf k s) / k) + / (6 * k) * ((k * h - 4 * (h * h * h) - 8 * K1 * h - 4 * K2) * h * (s - Sf k s) / k
      + (2 * K2 + 2 * (h * h * h) + 4 * K1 * h + k * h) * h * (s - Sf k s * Cf k s) / (2 * k) + 3 * k * s * (Cf k s * Cf k s)))).
    { intros s. unfold gen2. cbn [vct vx vxp vdp]. rewrite path2_slope by exact R. fold k. unfold Rdiv. ring. }
    assert (kz : k <> 0) by exact R3. clearbody k. eapply dlim_eq; [|dl]. cbv beta. rewrite !Cf_0, !Sf_0. field. assumption. }
  split; [|split; [exact D|unfold path_term; cbn; field]].
  intros [_ S2]. specialize (S2 (V6 0 1 0 0 0 0) 4%nat 0 ltac:(now left)). pose proof (uniqueness_limite _ _ _ _ S2 D) as Q.
  rewrite gen2_0 in Q by exact R. rewrite gen1_form in Q by exact R3. rewrite !Cf_0, !Sf_0 in Q. cbn in Q. unfold path_term in Q. cbn in Q. unfold Rdiv in Q. lra.
Qed.
Print Assumptions C195_path_refuted.
Example C194_ex : regular 1 1 /\ regular 1 (-2) /\ ~ regular 1 (-1) /\ mended (gen1 1 1) (gen2 1 1 0) 1 0 (V6 1 1 1 1 1 1) = V6 1 1 1 1 1 1.
Proof.
  assert (R : regular 1 1) by (unfold regular; repeat split; lra). split; [exact R|]. split; [unfold regular; repeat split; lra|]. split; [intros (_ & _ & X & _); lra|].
  exact (proj1 (mended_solves 1 1 0 R) _).
Qed.
