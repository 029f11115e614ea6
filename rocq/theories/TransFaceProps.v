(* C203-C205: pole faces and tilts of bends in the default integrators *)
From Coq Require Import ZArith.
From Verif Require Import RBase Rot Cplx CplxFacts Field FieldProps Cov Bunch BunchSpec Optics OpticsSpec OpticsProofs Chromatic SparseMap SparseMapSpec SparseMapProps BendMap BendMapSpec BendMapProofs BendMapProps GenBendProofs FaceProps SympInt SympIntSpec SympIntProofs SympIntProps SympRectProps SympStepProps TransInt TransSpec TransIntProps TransBendProps.
Local Open Scope R_scope.

Lemma face_strength P0 f : P0 <> 0 -> exists k, lift_u (get_kn f 1 (P0 / eVc)) = Ok (E := ierr) k /\ re k = re (kn P0 1 f 1).
Proof. intros N. destruct (kn_ok P0 1 f 1 N) as (k & -> & E). exists k. split; [reflexivity|]. rewrite <- E. cbn. ring. Qed.
(* ---- C203 ---- *)
(* a face is the map of C196 for the gradient that a charge of one sees; missing faces are
   upright and of the type of an exit *)
Theorem C203_face P0 h f pf v F : P0 <> 0 -> cos (frot (pf_face pf)) <> 0 ->
  (exists m, face_tm 0 h (re (kn P0 1 f 1)) (frot (pf_face pf)) 0 (fint (pf_face pf)) (hgap (pf_face pf)) (negb (Reqb (pf_type pf) 0)) = Ok m /\ forall p, rt_apply m p = Ok (mkP (F (pv p)) (pid p))) ->
  tr_face P0 h f (Some pf) v = Ok (F v).
Proof.
  intros N C (m & Em & A). unfold tr_face. destruct (face_strength P0 f N) as (k & -> & E). cbn [bind]. rewrite E. cbv zeta. unfold nonzero. rewrite Em. cbn [lift_map bind]. unfold apply_rt. now rewrite A.
Qed.
Print Assumptions C203_face.
Theorem C203_upright P0 h f pf v : P0 <> 0 -> frot (pf_face pf) = 0 -> let g := if Reqb (pf_type pf) 0 then - h else h in
  tr_face P0 h f (Some pf) v = Ok (V6 (vx v + g / 2 * (vy v * vy v)) (vxp v) (vy v) (vyp v + h * tan (2 * fint (pf_face pf) * hgap (pf_face pf) * h) * vy v - g * (vxp v * vy v)) (vct v) (vdp v)).
Proof.
  intros N B g. unfold tr_face. destruct (face_strength P0 f N) as (k & -> & E). cbn [bind]. cbv zeta. rewrite B.
  destruct (C196_upright 0 h (re k) (hgap (pf_face pf)) (fint (pf_face pf)) (nonzero (pf_type pf)) (mkP v 0)) as (m & Em & A). rewrite Em. cbn [lift_map bind]. unfold apply_rt. rewrite A. cbn [lift bind pv]. unfold g, nonzero. destruct (Reqb (pf_type pf) 0); reflexivity.
Qed.
Print Assumptions C203_upright.
Theorem C203_missing P0 h f v fi hg : P0 <> 0 -> fi = 0 \/ hg = 0 -> tr_face P0 h f None v = tr_face P0 h f (Some (mkPF (mkFace 0 fi hg) 0)) v.
Proof.
  intros N Z. rewrite C203_upright by auto. cbn [pf_face pf_type fint hgap]. rewrite (Reqb_true 0 0) by reflexivity. unfold tr_face. destruct (face_strength P0 f N) as (k & -> & E). cbn [bind]. cbv zeta.
  unfold nonzero. rewrite (Reqb_true 0 0) by reflexivity. cbn [negb]. destruct (C196_upright 0 h (re k) 0 0 false (mkP v 0)) as (m & Em & A). rewrite Em. cbn [lift_map bind]. unfold apply_rt. rewrite A. cbn [lift bind pv]. f_equal.
  replace (2 * 0 * 0 * h) with 0 by ring. replace (2 * fi * hg * h) with 0 by (destruct Z as [-> | ->]; ring). reflexivity.
Qed.
Print Assumptions C203_missing.
(* a face along the axis of the beam leaves no numbers; any other keeps ct and the momentum *)
Theorem C203_outcome P0 h f pf v : P0 <> 0 ->
  ((exists w, tr_face P0 h f (Some pf) v = Ok w /\ vct w = vct v /\ vdp w = vdp v) /\ cos (frot (pf_face pf)) <> 0) \/ (tr_face P0 h f (Some pf) v = Throw NaN /\ cos (frot (pf_face pf)) = 0).
Proof.
  intros N. unfold tr_face. destruct (face_strength P0 f N) as (k & -> & E). cbn [bind]. cbv zeta. destruct (Req_dec (cos (frot (pf_face pf))) 0) as [Z|Z].
  - right. split; [|exact Z]. pose proof (C196_domain 0 h (re k) (frot (pf_face pf)) 0 (fint (pf_face pf)) (hgap (pf_face pf)) (nonzero (pf_type pf))) as Q. rewrite (proj2 Q Z). reflexivity.
  - left. split; [|exact Z]. destruct (face_tm_ok 0 h (re k) (frot (pf_face pf)) 0 (fint (pf_face pf)) (hgap (pf_face pf)) (nonzero (pf_type pf)) (mkP v 0) Z) as (m & Em & A). rewrite Em. cbn [lift_map bind]. unfold apply_rt. rewrite A. cbn [lift bind pv]. eexists. split; [reflexivity|].
    unfold face2, quadmap. split; cbn; ring.
Qed.
Print Assumptions C203_outcome.
(* a tilted bend is passed in axes turned by the tilt *)
Theorem C203_tilted P0 h tilt f pf v : eps < Rabs tilt -> tr_entrance P0 h tilt f pf v = tr_entrance P0 h 0 f pf (turn (- tilt) v) /\ tr_exit P0 h tilt f pf v = (do w <- tr_exit P0 h 0 f pf v; Ok (turn tilt w)).
Proof.
  intros T. assert (N : tilt <> 0) by (intros ->; rewrite Rabs_R0 in T; pose proof eps_pos; lra). unfold tr_entrance, tr_exit. rewrite (Reqb_false tilt 0) by exact N. rewrite (Reqb_true 0 0) by reflexivity.
  rewrite about_turn by (rewrite Rabs_Ropp; exact T). cbn [bind]. split; [reflexivity|]. destruct (tr_face P0 h f pf v) as [w| |]; cbn [bind]; try reflexivity. now apply about_turn.
Qed.
Print Assumptions C203_tilted.
Theorem C203_level P0 h f pf v : tr_entrance P0 h 0 f pf v = tr_face P0 h f pf v /\ tr_exit P0 h 0 f pf v = tr_face P0 h f pf v.
Proof. unfold tr_entrance, tr_exit. rewrite (Reqb_true 0 0) by reflexivity. cbn [bind]. split; [reflexivity|]. destruct (tr_face P0 h f pf v); reflexivity. Qed.

Print Assumptions C203_level.

(* ---- C204 ---- *)
(* A bend for which no faces are given: both ends act as the exit, so their shifts of x add
   up instead of cancelling, even where the bend in between has no length. *)
Theorem C204_no_faces_refuted P0 h f v : P0 <> 0 -> (do w <- tr_entrance P0 h 0 f None v; tr_exit P0 h 0 f None w) =
  Ok (V6 (vx v - h * (vy v * vy v)) (vxp v) (vy v) (vyp v + 2 * h * (vxp v * vy v)) (vct v) (vdp v)).
Proof.
  intros N. destruct (C203_level P0 h f None v) as [-> _]. rewrite (C203_missing P0 h f v 0 0) by auto. rewrite C203_upright by auto. cbn [bind pf_face pf_type frot fint hgap]. destruct (C203_level P0 h f None (V6 0 0 0 0 0 0)) as [_ _].
  match goal with |- tr_exit P0 h 0 f None ?w = _ => destruct (C203_level P0 h f None w) as [_ ->] end. rewrite (C203_missing P0 h f _ 0 0) by auto. rewrite C203_upright by auto. cbn [pf_face pf_type fint hgap vx vxp vy vyp vct vdp].
  rewrite (Reqb_true 0 0) by reflexivity. replace (2 * 0 * 0 * h) with 0 by ring. rewrite tan_0. f_equal. apply v6_eq; cbn; try reflexivity; field.
Qed.
Print Assumptions C204_no_faces_refuted.
(* with upright faces of the right types they cancel *)
Theorem C203_pair P0 h f t v : P0 <> 0 -> t <> 0 -> (do w <- tr_entrance P0 h 0 f (Some (mkPF (mkFace 0 0 0) t)) v; tr_exit P0 h 0 f (Some (mkPF (mkFace 0 0 0) 0)) w) = Ok v.
Proof.
  intros N T. destruct (C203_level P0 h f (Some (mkPF (mkFace 0 0 0) t)) v) as [-> _]. rewrite C203_upright by auto. cbn [bind pf_face pf_type frot fint hgap].
  match goal with |- tr_exit P0 h 0 f ?pf ?w = _ => destruct (C203_level P0 h f pf w) as [_ ->] end. rewrite C203_upright by auto. cbn [pf_face pf_type fint hgap vx vxp vy vyp vct vdp].
  rewrite (Reqb_true 0 0) by reflexivity. rewrite (Reqb_false t 0) by exact T. replace (2 * 0 * 0 * h) with 0 by ring. rewrite tan_0. f_equal. destruct v as [x px y py z d]. apply v6_eq; cbn; try reflexivity; field.
Qed.
Print Assumptions C203_pair.
(* Steps treat the opposite charge in the opposite field alike; the faces of a bend with a
   gradient do not. *)
Theorem C204_charge_refuted P0 h f pf : P0 <> 0 -> cos (frot (pf_face pf)) <> 0 -> tan (frot (pf_face pf)) <> 0 -> re (kn P0 1 f 1) <> 0 ->
  exists v, tr_face P0 h (reversed f) (Some pf) v <> tr_face P0 h f (Some pf) v.
Proof.
  intros N C T K. exists (V6 1 0 0 0 0 0). set (fc := pf_face pf) in *.
  assert (E : forall g v, tr_face P0 h g (Some pf) v = Ok (face2 h (re (kn P0 1 g 1)) (frot fc) 0 (fint fc) (hgap fc) (negb (Reqb (pf_type pf) 0)) v)).
  { intros g v. apply C203_face; [exact N|exact C|]. fold fc. destruct (face_tm_ok 0 h (re (kn P0 1 g 1)) (frot fc) 0 (fint fc) (hgap fc) (negb (Reqb (pf_type pf) 0)) (mkP vzero 0) C) as (m & Em & _). exists m. split; [exact Em|].
    intros p. destruct (face_tm_ok 0 h (re (kn P0 1 g 1)) (frot fc) 0 (fint fc) (hgap fc) (negb (Reqb (pf_type pf) 0)) p C) as (m' & Em' & A). congruence. }
  rewrite !E. intros Q. apply (f_equal (fun r => match r with Ok x => vxp x | _ => 0 end)) in Q. cbv beta iota in Q.
  assert (KR : re (kn P0 1 (reversed f) 1) = - re (kn P0 1 f 1)) by (unfold kn, reversed, coef; cbn; unfold Rdiv; ring). rewrite KR in Q.
  set (k := re (kn P0 1 f 1)) in *. clearbody k. assert (TK : k * tan (frot fc) = 0).
  { unfold face2, quadmap in Q. cbn [vxp vof] in Q. unfold face_R, face_T in Q. destruct (Reqb (pf_type pf) 0); cbn in Q; lra. }
  apply Rmult_integral in TK. tauto.
Qed.
Print Assumptions C204_charge_refuted.
(* A tilt that is not zero but smaller than the tolerance of the rotation loses the position
   and direction of every particle. *)
Theorem C204_tiny_tilt_refuted P0 h tilt f pf v w : tilt <> 0 -> Rabs tilt <= eps -> vct v = vct w -> vdp v = vdp w -> tr_entrance P0 h tilt f pf v = tr_entrance P0 h tilt f pf w.
Proof. intros N T C D. unfold tr_entrance. rewrite (Reqb_false tilt 0) by exact N. rewrite !about_zero by (rewrite Rabs_Ropp; exact T). now rewrite C, D. Qed.
Print Assumptions C204_tiny_tilt_refuted.

(* ---- C205: the two sets of integrators tilt bends in opposite senses ---- *)
Definition transport_pass (P0 q mass ds : R) (b : sbend) (v : vec6) : out :=
  do v1 <- tr_entrance P0 (sh b) (stilt b) (sfield b) None v; do v2 <- particle_of (tr_bend_step P0 q mass ds b v1); tr_exit P0 (sh b) (stilt b) (sfield b) None v2.
Theorem C205_tilt_refuted P0 q ds b d : P0 = design_momentum (sh b) q (sfield b) -> 0 < P0 -> 0 < sh b -> sh b * ds = PI -> 0 < d <= 1 -> matched (sh b) q (sfield b) = true -> highest (sfield b) = 0%Z -> im (coef (sfield b) 0) = 0 ->
  eps < Rabs (stilt b) -> sin (stilt b) <> 0 -> let v := V6 0 0 0 0 0 d in
  exists w w', transport_pass P0 q 0 ds b v = Ok w /\ particle_of (sbend_step false P0 q ds b v) = Ok w' /\ 0 < vy w * sin (stilt b) /\ vy w' * sin (stilt b) < 0.
Proof.
  intros PD A H HS D M Hi I0 T ST v. assert (D0 : ds <> 0) by (intros ->; pose proof PI_RGT_0; lra). assert (S2 : 0 < sin (stilt b) * sin (stilt b)) by (change (0 < Rsqr (sin (stilt b))); now apply Rlt_0_sqr).
  assert (Z1 : coef (sfield b) 1 = c0) by (unfold coef, highest in *; apply nth_overflow; lia).
  assert (K0 : kn P0 q (sfield b) 1 = c0) by (unfold kn; rewrite Z1; apply cx_eq; cbn; ring).
  assert (SB : simple_bend P0 q (sfield b) = true) by (unfold simple_bend; rewrite <- kn_strength, K0, I0, Hi; cbn; now rewrite (Reqb_true 0 0)).
  assert (TV : forall a, turn a v = v) by (intros a; unfold v, turn; cbn; apply v6_eq; cbn; ring).
  exists (turn (stilt b) (bend2 (sh b) 1 0 ds v)), (turn (- stilt b) (V6 (d * (1 - cos (PI / sqrt (1 + d))) / sh b) (vxp (flow (sh b) 0 ds v)) (vy (flow (sh b) 0 ds v)) (vyp (flow (sh b) 0 ds v)) (vct (flow (sh b) 0 ds v)) d)).
  split; [|split; [|split]].
  - unfold transport_pass. destruct (C203_tilted P0 (sh b) (stilt b) (sfield b) None v T) as [-> _]. rewrite TV. destruct (C203_level P0 (sh b) (sfield b) None v) as [-> _]. rewrite (C203_missing P0 _ _ v 0 0) by (auto; lra). rewrite C203_upright by (auto; lra). cbn [bind pf_face pf_type frot fint hgap].
    match goal with |- context [tr_bend_step P0 q 0 ds b ?u] => replace u with v by (unfold v; apply v6_eq; cbn; ring) end.
    assert (PL : particle_of (tr_bend_step P0 q 0 ds b v) = Ok (bend2 (sh b) 1 0 ds v)).
    { rewrite (C201_plain P0 q 0 ds b (bend2 (sh b) 1 0 ds)); auto; [|lra|].
      - unfold at_design. rewrite <- PD. replace (P0 - P0) with 0 by ring. rewrite Rabs_R0, Rleb_true by lra. reflexivity.
      - rewrite K0. destruct (massless_ok 0 ds (sh b) (mkP vzero 0) ltac:(lra)) as (m & E & _). exists m. unfold bend_rt. rewrite cnonzero_0, (Reqb_true 0 0) by reflexivity. rewrite E. split; [reflexivity|].
        intros w. destruct (massless_ok 0 ds (sh b) (mkP w 0) ltac:(lra)) as (m' & E' & P). rewrite E in E'. injection E' as <-. unfold apply_rt. now rewrite P. }
    rewrite PL. cbn [bind]. set (u := bend2 (sh b) 1 0 ds v). destruct (C203_tilted P0 (sh b) (stilt b) (sfield b) None u T) as [_ ->]. destruct (C203_level P0 (sh b) (sfield b) None u) as [_ ->]. rewrite (C203_missing P0 _ _ u 0 0) by (auto; lra). rewrite C203_upright by (auto; lra). cbn [bind pf_face pf_type frot fint hgap].
    do 2 f_equal. assert (UY : vy u = 0) by (unfold u, bend2, v; cbn; ring). rewrite UY. destruct u as [x px y py z dd]. cbn in UY. subst y. apply v6_eq; cbn; ring.
  - rewrite C190_tilted by exact T. rewrite TV. rewrite C190_plain; [|lra|reflexivity|exact M|exact SB]. cbn [sh sfield]. rewrite <- kn_strength, K0. cbn [re Cplx.c0]. rewrite bent_part by (cbn; nra). rewrite (Reqb_false ds 0) by exact D0. cbn [bind]. do 2 f_equal.
    pose proof (bent_part (sh b) 0 ds v ltac:(lra) ltac:(nra) ltac:(cbn; lra)) as BP. rewrite (Reqb_false ds 0) in BP by exact D0. unfold straight_part, over in BP. rewrite (Reqb_false ds 0), (Reqb_false (sh b) 0), (Reqb_true 0 0) in BP by (auto; lra).
    assert (VX : vx (flow (sh b) 0 ds v) = d * (1 - cos (PI / sqrt (1 + d))) / sh b).
    { unfold bend_map in BP. cbn [vdp v] in BP. destruct (Rleb_spec (1 + d) 0); [lra|]. rewrite (Reqb_false (sh b) 0) in BP by lra. cbn [orb] in BP. cbv zeta in BP. apply (f_equal (fun r => match r with Ok x => vx x | _ => 0 end)) in BP. cbv beta iota in BP. rewrite <- BP. cbn [vx vxp v].
      assert (W : sqrt (sh b * sh b / (1 + d)) * ds = PI / sqrt (1 + d)). { rewrite sqrt_div_alt by lra. rewrite sqrt_square by lra. rewrite <- HS. field. assert (0 < sqrt (1 + d)) by (apply sqrt_lt_R0; lra). lra. }
      rewrite W. unfold Rdiv. ring. }
    rewrite <- VX. assert (VD : vdp (flow (sh b) 0 ds v) = d) by (rewrite flow_dp; reflexivity). rewrite <- VD. destruct (flow (sh b) 0 ds v). reflexivity.
  - unfold turn, bend2, v. cbn [vx vy vxp vyp vct vdp]. rewrite HS, cos_PI, sin_PI. replace (0 / sh b) with 0 by (field; lra).
    match goal with |- 0 < (sin _ * ?X + cos _ * ?Y) * _ => replace X with (2 * d / sh b) by (field; lra); replace Y with 0 by ring end. replace ((sin (stilt b) * (2 * d / sh b) + cos (stilt b) * 0) * sin (stilt b)) with (2 * d / sh b * (sin (stilt b) * sin (stilt b))) by ring.
    apply Rmult_lt_0_compat; [|exact S2]. unfold Rdiv. apply Rmult_lt_0_compat; [lra|]. now apply Rinv_0_lt_compat.
  - unfold turn. cbn [vx vy]. assert (FY : vy (flow (sh b) 0 ds v) = 0).
    { pose proof (bent_part (sh b) 0 ds v ltac:(lra) ltac:(nra) ltac:(cbn; lra)) as BP. rewrite (Reqb_false ds 0) in BP by exact D0. unfold straight_part, over in BP. rewrite (Reqb_false ds 0), (Reqb_false (sh b) 0), (Reqb_true 0 0) in BP by (auto; lra).
      unfold bend_map in BP. cbn [vdp v] in BP. destruct (Rleb_spec (1 + d) 0); [lra|]. rewrite (Reqb_false (sh b) 0) in BP by lra. cbn [orb] in BP. cbv zeta in BP. apply (f_equal (fun r => match r with Ok x => vy x | _ => 0 end)) in BP. cbv beta iota in BP. rewrite <- BP. cbn. unfold Rdiv. ring. }
    rewrite FY, sin_neg. set (c := cos (PI / sqrt (1 + d))).
    assert (C1 : c < 1).
    { unfold c. assert (Q1 : 1 < sqrt (1 + d)) by (pose proof (sqrt_lt_1 1 (1 + d) ltac:(lra) ltac:(lra) ltac:(lra)) as Q; rewrite sqrt_1 in Q; exact Q). pose proof PI_RGT_0 as PP. assert (Q2 : 0 < PI / sqrt (1 + d)) by (apply Rdiv_lt_0_compat; lra).
      assert (Q3 : PI / sqrt (1 + d) <= PI) by (unfold Rdiv; apply Rmult_le_reg_r with (sqrt (1 + d)); [lra|]; rewrite Rmult_assoc, Rinv_l by lra; apply Rle_trans with (PI * 1); [lra|]; apply Rmult_le_compat_l; lra).
      pose proof (cos_decreasing_1 0 (PI / sqrt (1 + d)) ltac:(lra) ltac:(lra) ltac:(lra) ltac:(lra) Q2) as X. rewrite cos_0 in X. exact X. }
    replace ((- sin (stilt b) * (d * (1 - c) / sh b) + cos (- stilt b) * 0) * sin (stilt b)) with (- (d * (1 - c) / sh b * (sin (stilt b) * sin (stilt b)))) by ring.
    assert (0 < d * (1 - c) / sh b * (sin (stilt b) * sin (stilt b))); [|lra]. apply Rmult_lt_0_compat; [|exact S2]. unfold Rdiv. apply Rmult_lt_0_compat; [|now apply Rinv_0_lt_compat]. apply Rmult_lt_0_compat; lra.
Qed.
Print Assumptions C205_tilt_refuted.
Definition unit_bend (tilt : R) (l : list cx) : sbend := mkSB 1 tilt (mkF (1000000000 / 299792458) l) None None.
Lemma unit_design tilt l : design_momentum 1 1 (sfield (unit_bend tilt (mkCx 1 0 :: l))) = 1.
Proof. unfold design_momentum, unit_bend, coef. cbn. field. Qed.
Example C205_ex : let b := unit_bend (PI / 2) [mkCx 1 0] in 1 = design_momentum (sh b) 1 (sfield b) /\ sh b * PI = PI /\ matched (sh b) 1 (sfield b) = true /\ highest (sfield b) = 0%Z /\ sin (stilt b) = 1 /\ eps < Rabs (stilt b).
Proof.
  intros b. split; [symmetry; apply unit_design|]. split; [cbn; ring|]. split; [apply C190_matched; cbn; lra|]. split; [reflexivity|]. split; [apply sin_PI2|]. cbn. pose proof PI_RGT_0. rewrite Rabs_pos_eq by lra. pose proof PI2_1. unfold eps. lra.
Qed.
Example C202_ex : let b := unit_bend 0 [mkCx 1 0; mkCx 4 0] in let K P := kn P 1 (sfield b) 1 in
  design_momentum (sh b) 1 (sfield b) = 1 /\ matched (sh b) 1 (sfield b) = true /\ (forall P, 0 < P -> simple_bend P 1 (sfield b) = true) /\ re (K 2) = 2 /\ re (K (1 / 2)) = 8 /\ regular (sh b) 2 /\ regular (sh b) 8.
Proof.
  intros b K. split; [apply unit_design|]. split; [apply C190_matched; cbn; lra|]. split.
  - intros P HP. unfold simple_bend, strength, b, unit_bend, coef. cbn. rewrite (Reqb_true 0 0) by reflexivity. rewrite Reqb_true by ring. reflexivity.
  - unfold K, kn, b, unit_bend, coef. cbn. split; [field|]. split; [field|]. unfold regular. split; repeat split; lra.
Qed.
Example C201_ex : let b := unit_bend 0 [mkCx 1 0] in let v := V6 0 0 0 0 0 (1 / 4) in
  (exists w, particle_of (tr_bend_step 1 1 0 PI b v) = Ok w /\ vx w = 1 / 2 /\ vxp w = 0) /\ tr_bend_step 1 (- 1) 0 PI b v = Throw Assertion.
Proof.
  intros b v. assert (M : matched (sh b) 1 (sfield b) = true) by (apply C190_matched; cbn; lra). split.
  - exists (bend2 1 1 0 PI v). rewrite (C201_plain 1 1 0 PI b (bend2 1 1 0 PI)); auto; try lra.
    + unfold at_design. unfold b at 1 2. rewrite unit_design. replace (1 - 1) with 0 by ring. rewrite Rabs_R0, Rleb_true by lra. split; [reflexivity|]. unfold bend2, v. cbn. rewrite Rmult_1_l, cos_PI, sin_PI. split; field.
    + pose proof PI_RGT_0. lra.
    + unfold simple_bend, strength, b, unit_bend, coef. cbn. rewrite (Reqb_true 0 0) by reflexivity. rewrite Reqb_true by ring. reflexivity.
    + assert (K0 : kn 1 1 (sfield b) 1 = c0) by (unfold kn, coef; apply cx_eq; cbn; ring). rewrite K0. destruct (massless_ok 0 PI 1 (mkP vzero 0) ltac:(lra)) as (m & E & _). exists m. unfold bend_rt. rewrite cnonzero_0, (Reqb_true 0 0) by reflexivity. cbn [sh b unit_bend]. rewrite E. split; [reflexivity|].
      intros w. destruct (massless_ok 0 PI 1 (mkP w 0) ltac:(lra)) as (m' & E' & P). rewrite E in E'. injection E' as <-. unfold apply_rt. now rewrite P.
  - apply C201_wrong_way; cbn; pose proof PI_RGT_0; lra.
Qed.
Example C203_ex : let f := mkF 1 [mkCx 1 0; mkCx 1 0] in re (kn (299792458 / 1000000000) 1 f 1) = 1 /\ tan (PI / 4) <> 0 /\ cos (PI / 4) <> 0 /\
  tr_face 1 2 f (Some (mkPF (mkFace 0 0 0) 1)) (V6 0 1 3 0 0 0) = Ok (V6 9 1 3 (-6) 0 0).
Proof.
  intros f. split; [unfold kn, coef; cbn; field|]. split; [rewrite tan_PI4; lra|]. split; [assert (0 < cos (PI / 4)) by (apply cos_gt_0; pose proof PI_RGT_0; lra); lra|].
  rewrite C203_upright by (auto; lra). cbn [pf_face pf_type fint hgap vx vxp vy vyp vct vdp]. rewrite (Reqb_false 1 0) by lra. replace (2 * 0 * 0 * 2) with 0 by ring. rewrite tan_0. f_equal. apply v6_eq; cbn; lra.
Qed.
