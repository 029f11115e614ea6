(* C201-C204: sector bends and pole faces in the default integrators *)
From Coq Require Import ZArith FunctionalExtensionality.
From Verif Require Import RBase Rot Cplx CplxFacts Field FieldProps Cov Bunch BunchSpec Optics OpticsSpec OpticsProofs Chromatic ChromaticProps SparseMap SparseMapSpec SparseMapProps BendMap BendMapSpec BendMapProofs BendMapProps GenBendProofs FaceProps SympInt SympIntSpec SympIntProofs SympIntProps SympRectProps SympStepProps TransInt TransSpec TransIntProps.
Local Open Scope R_scope.

Lemma massless_ok w s h p : h <> 0 -> exists m, sector_massless w s h = Ok m /\ rt_apply m p = Ok (mkP (bend2 h 1 0 s (pv p)) (pid p)).
Proof.
  intros NZ. unfold sector_massless. destruct (Reqb_spec h 0); [contradiction|].
  apply rt_result; [numbers|unfold sector_second_massless; numbers|]. intros i Hi. destruct i as [|i]; [lia|]. assert (Hi' : (i < 6)%nat) by lia.
  unfold bend2, sector_second_massless. cbn zeta.
  assert (H2 : sin (h * s / 2) ^ 2 = (1 - cos (h * s)) / 2).
  { pose proof (cos_2a_sin (h * s / 2)) as E. replace (2 * (h * s / 2)) with (h * s) in E by field. rewrite E. field. }
  pose proof (cos_sin (h * s)) as P.
  OpticsProofs.six i; cbn -[pow]; rewrite ?H2; generalize dependent (cos (h * s)); generalize dependent (sin (h * s)); intros; field; repeat split; lra.
Qed.
(* the maps used: without a gradient the exact second-order map, and for a particle with a
   mass the same but for the terms of C191; with a gradient that of C194 *)
Theorem C201_maps h : h <> 0 -> exists F L,
  (forall s, exists M, sector_bend 6 s h 0 = Ok M /\ forall x, L s x = apply_m 6 M x) /\ solves2 (bend_motion h 0) (bend_canonical h) L F /\ (forall s, symplectic2 (F s)) /\
  (forall P0 s v, exists m, bend_rt P0 0 h s c0 = Ok m /\ apply_rt m v = Ok (F s v)) /\
  (forall P0 mass s v, P0 <> 0 -> mass <> 0 -> exists m, bend_rt P0 mass h s c0 = Ok m /\ apply_rt m v = Ok (vsum (F s v) (slow_terms (sqrt (1 + (P0 / mass) ^ 2)) h s v))).
Proof.
  intros NZ. exists (bend2 h 1 0), (bend1 h). split; [|split; [|split; [|split]]].
  - intros s. destruct (sbr_form 6 s h 0 (or_intror eq_refl)) as (M & E & _). exists M. unfold bend1, sector_bend. rewrite E. auto.
  - now apply bend2_solves.
  - intros s. rewrite bend2_quadmap. apply symplectic2_iff. pose proof (cos_sin (h * s)) as P.
    unfold bend_R, bend_T; cbn zeta. set (c := cos (h * s)) in *. set (t := sin (h * s)) in *. clearbody c t. assert (CC : c * c = 1 - t * t) by lra. clear P. split.
    + intros i j Hi Hj. OpticsProofs.six i; OpticsProofs.six j; cbn; try ring; (field_simplify_eq; [ring [CC]|auto]).
    + intros i j m Hi Hj Hm. unfold balance. OpticsProofs.six i; OpticsProofs.six j; OpticsProofs.six m; cbn; try ring; (field_simplify_eq; [ring [CC]|auto]).
  - intros P0 s v. destruct (massless_ok 0 s h (mkP v 0) NZ) as (m & E & R). exists m. unfold bend_rt. rewrite cnonzero_0, (Reqb_true 0 0) by reflexivity. rewrite E. split; [reflexivity|]. unfold apply_rt. now rewrite R.
  - intros P0 mass s v NP NM. set (g := sqrt (1 + (P0 / mass) ^ 2)).
    assert (XP : P0 / mass <> 0) by (unfold Rdiv; apply Rmult_integral_contrapositive_currified; [exact NP|now apply Rinv_neq_0_compat]).
    assert (G : 1 < g * g) by (unfold g; rewrite sqrt_sqrt by nra; nra).
    destruct (sector_tm_ok 0 s h g (mkP v 0) NZ G) as (m & E & A). exists m. unfold bend_rt. rewrite cnonzero_0, (Reqb_false mass 0) by exact NM.
    replace (1 + P0 / mass * (P0 / mass)) with (1 + (P0 / mass) ^ 2) by ring. fold g. rewrite E. split; [reflexivity|]. unfold apply_rt. rewrite A. cbn [lift bind pv]. f_equal.
    destruct (beta_pos g G) as [B GZ]. unfold bend2, vsum, slow_terms, ibg, ib. cbn zeta. set (b := sqrt (1 - 1 / g / g)) in *. clearbody b. cbn.
    apply v6_eq; cbn; try reflexivity; field; repeat split; lra.
Qed.
Print Assumptions C201_maps.
Theorem C201_gradient_map P0 mass h K1 s v : regular h K1 -> exists m, gen_bend_tm 0 s h K1 0 = Ok m /\ bend_rt P0 mass h s (mkCx K1 0) = Ok m /\ apply_rt m v = Ok (gen2 h K1 0 s v).
Proof.
  intros R. destruct (gen_tm_ok 0 s h K1 0 (mkP v 0) R) as (m & E & A). exists m. split; [exact E|]. assert (X : cnonzero (mkCx K1 0) = true) by (apply cnz; intros Q; injection Q; apply R).
  unfold bend_rt. rewrite X. cbn [re]. rewrite E. split; [reflexivity|]. unfold apply_rt. now rewrite A.
Qed.
(* no curvature, no map *)
Theorem C201_straight P0 mass s K1 : bend_rt P0 mass 0 s K1 = Throw NaN.
Proof.
  unfold bend_rt. destruct (cnonzero K1); [|destruct (Reqb mass 0)].
  - unfold gen_bend_tm. destruct (sbr_form 6 s 0 (re K1) (or_intror eq_refl)) as (M & E & _). unfold sector_bend. rewrite E. cbn [bind]. now rewrite (Reqb_true 0 0).
  - unfold sector_massless. now rewrite (Reqb_true 0 0).
  - unfold sector_tm. now rewrite (Reqb_true 0 0).
Qed.
Print Assumptions C201_straight.

(* the momentum a bend is made for: q By / h over the magnetic rigidity *)
Definition design_momentum (h q : R) (f : field) : R := 299792458 / 1000000000 * (b0 f * re (coef f 0)) / h / q.
Lemma matched_momentum_read h q f : matched_momentum h q (fst (get_coefficient 0 1 f)) = design_momentum h q f.
Proof. unfold matched_momentum, design_momentum. rewrite get_coef. destruct (same_read 0 f) as [B ->]. rewrite B. unfold Rdiv. ring. Qed.
(* a map acts at the momentum of the particle relative to the design momentum *)
Definition at_design (P0 Pd : R) (F : vec6 -> vec6) (v : vec6) : vec6 :=
  if Rleb (Rabs (P0 - Pd)) (/ 1000000) then F v else with_dp (vdp v) (F (with_dp (P0 / Pd * (1 + vdp v) - 1) v)).
Lemma bend_apply_ok P0 Pd m F v : (forall w, apply_rt m w = Ok (F w)) -> bend_apply P0 Pd m v = Ok (at_design P0 Pd F v).
Proof. intros A. unfold bend_apply, at_design, fequal_tol. destruct (Rleb (Rabs (P0 - Pd)) (/ 1000000)); [apply A|]. unfold apply_rt_scaled. rewrite A. reflexivity. Qed.
Lemma at_design_dp P0 Pd F v : (forall w, vdp (F w) = vdp w) -> vdp (at_design P0 Pd F v) = vdp v.
Proof. intros H. unfold at_design. destruct (Rleb _ _); [apply H|reflexivity]. Qed.

Lemma simple_split P0 q f : let f1 := fst (get_coefficient 0 1 f) in nonzero (im (snd (get_coefficient 0 1 f1))) || nonzero (im (strength P0 q f)) || Z.ltb 1 (highest f1) = negb (simple_bend P0 q f).
Proof. apply split_bend. Qed.
Theorem C201_plain P0 q mass ds b F v : let K := kn P0 q (sfield b) 1 in P0 <> 0 -> ds <> 0 -> matched (sh b) q (sfield b) = true -> simple_bend P0 q (sfield b) = true ->
  (exists m, bend_rt P0 mass (sh b) ds K = Ok m /\ forall w, apply_rt m w = Ok (F w)) ->
  particle_of (tr_bend_step P0 q mass ds b v) = Ok (at_design P0 (design_momentum (sh b) q (sfield b)) F v).
Proof.
  intros K N D M S (m & Em & A). unfold tr_bend_step. rewrite (Reqb_false ds 0) by exact D. cbv zeta. rewrite matched_read, M. cbn [negb]. rewrite bend_strength by exact N. cbn [bind]. rewrite split_bend, S. cbn [negb].
  unfold K in Em. rewrite kn_strength in Em. rewrite Em. cbn [bind]. rewrite matched_momentum_read, (bend_apply_ok _ _ _ F) by exact A. reflexivity.
Qed.
Print Assumptions C201_plain.
Theorem C201_kicked P0 q mass ds b F g v : let K := kn P0 q (sfield b) 1 in let half := at_design P0 (design_momentum (sh b) q (sfield b)) F in
  P0 <> 0 -> ds <> 0 -> matched (sh b) q (sfield b) = true -> simple_bend P0 q (sfield b) = false -> remainder (sfield b) g -> (forall w, vdp (F w) = vdp w) -> 1 + vdp v <> 0 ->
  (exists m, bend_rt P0 mass (sh b) (ds / 2) K = Ok m /\ forall w, apply_rt m w = Ok (F w)) ->
  particle_of (tr_bend_step P0 q mass ds b v) = Ok (half (pushed (deflection P0 q ds v (field_at g (place (half v)))) (half v))).
Proof.
  intros K half N D M S G VD V1 (m & Em & A). unfold tr_bend_step. rewrite (Reqb_false ds 0) by exact D. cbv zeta. rewrite matched_read, M. cbn [negb]. rewrite bend_strength by exact N. cbn [bind]. rewrite split_bend, S. cbn [negb].
  unfold K in Em. rewrite kn_strength in Em. rewrite Em. cbn [bind]. rewrite matched_momentum_read, (bend_apply_ok _ _ _ F) by exact A. cbn [bind]. fold (half v).
  set (f := sfield b) in *. set (f1 := fst (get_coefficient 0 1 f)). set (f2 := fst (get_coefficient 1 1 f1)). set (f3 := set_coefficient 1 _ 1 (set_coefficient 0 _ 1 f2)).
  assert (S1 : same_field f1 f) by apply same_read. assert (S2 : same_field f2 f) by (eapply same_trans; [apply same_read | exact S1]).
  assert (SG : same_field f3 g).
  { destruct G as (G0 & G1 & G2 & G3), S2 as [S20 S2], S1 as [S10 S1]. unfold f3. split; [rewrite !b0_set; congruence|]. intros n. rewrite !set_coef, !get_coef. destruct n as [|[|n]]; cbn [Nat.eqb]; [rewrite S1; congruence | rewrite S1; congruence | rewrite S2; symmetry; apply G3; lia]. }
  assert (DH : vdp (half v) = vdp v) by now apply at_design_dp.
  rewrite (same_kick_dp f3 g) by exact SG. rewrite kick_dp_ok by (try assumption; rewrite DH; exact V1). rewrite phase_0. cbn [bind]. rewrite (bend_apply_ok _ _ _ F) by exact A. cbn [bind particle_of fst]. fold (half (pushed (deflection P0 q ds v (field_at g (place (half v)))) (half v))).
  unfold deflection at 1. rewrite DH. reflexivity.
Qed.
Print Assumptions C201_kicked.
(* a bend whose field does not bend the bunch the way of its geometry is rejected *)
Theorem C201_wrong_way P0 q mass ds b v : ds <> 0 -> sh b <> 0 -> q <> 0 -> b0 (sfield b) * re (coef (sfield b) 0) * sh b * q <= 0 -> tr_bend_step P0 q mass ds b v = Throw Assertion.
Proof.
  intros D H Q L. unfold tr_bend_step. rewrite (Reqb_false ds 0) by exact D. cbv zeta. rewrite matched_read. pose proof (C190_matched (sh b) q (sfield b) H Q) as M. destruct (matched (sh b) q (sfield b)); [|reflexivity]. exfalso. assert (0 < b0 (sfield b) * re (coef (sfield b) 0) * sh b * q) by now apply M. lra.
Qed.
Print Assumptions C201_wrong_way.
Theorem C201_field_kept P0 q mass ds b v v' f' : tr_bend_step P0 q mass ds b v = Ok (v', f') -> b0 f' = b0 (sfield b) /\ forall n, coef f' n = coef (sfield b) n.
Proof.
  intros H. change (same_field f' (sfield b)). revert H. unfold tr_bend_step. destruct (Reqb ds 0); [intros Q; injection Q as _ <-; apply same_refl|]. cbv zeta.
  set (f1 := fst (get_coefficient 0 1 (sfield b))). assert (S1 : same_field f1 (sfield b)) by apply same_read. clearbody f1. rewrite !get_coef. destruct (negb _); [discriminate|].
  match goal with |- context [bind ?X _] => destruct X as [K1| |]; try discriminate end. cbn [bind]. destruct (bend_rt _ _ _ _ _); try discriminate. cbn [bind]. destruct (bend_apply _ _ _ _); try discriminate. cbn [bind].
  destruct (_ || _ || _).
  - destruct (kick_dp _ _ _ _ _ _); try discriminate. cbn [bind]. destruct (bend_apply _ _ _ _); try discriminate. cbn [bind]. intros Q. injection Q as _ <-.
    eapply same_trans; [|exact S1]. split; [reflexivity|]. intros k. rewrite !set_coef. destruct (same_read 1 f1) as [_ R]. destruct (Nat.eqb_spec k 1) as [->|]; [reflexivity|]. destruct (Nat.eqb_spec k 0) as [->|]; [reflexivity|]. apply R.
  - intros Q. injection Q as _ <-. exact S1.
Qed.
Print Assumptions C201_field_kept.

(* For a pure bend of massless particles only the momentum of the particle itself counts,
   not how it is split into reference momentum and deviation. *)
Theorem C201_same_momentum P0 P0' q ds b v v' : let Pd := design_momentum (sh b) q (sfield b) in
  P0 <> 0 -> P0' <> 0 -> ds <> 0 -> sh b <> 0 -> matched (sh b) q (sfield b) = true -> highest (sfield b) = 0%Z -> im (coef (sfield b) 0) = 0 ->
  (P0 = Pd \/ / 1000000 < Rabs (P0 - Pd)) -> (P0' = Pd \/ / 1000000 < Rabs (P0' - Pd)) ->
  with_dp 0 v = with_dp 0 v' -> P0 * (1 + vdp v) = P0' * (1 + vdp v') ->
  exists w w', particle_of (tr_bend_step P0 q 0 ds b v) = Ok w /\ particle_of (tr_bend_step P0' q 0 ds b v') = Ok w' /\ with_dp 0 w = with_dp 0 w' /\ vdp w = vdp v /\ vdp w' = vdp v'.
Proof.
  intros Pd N N' D H M Hi I0 B B' Q E.
  assert (Z1 : coef (sfield b) 1 = c0) by (unfold coef, highest in *; apply nth_overflow; lia).
  assert (K0 : forall P, kn P q (sfield b) 1 = c0) by (intros P; unfold kn; rewrite Z1; apply cx_eq; cbn; ring).
  assert (SB : forall P, simple_bend P q (sfield b) = true) by (intros P; unfold simple_bend; rewrite <- kn_strength, K0, I0, Hi; cbn; now rewrite (Reqb_true 0 0)).
  destruct (C201_maps (sh b) H) as (F & L & _ & _ & _ & A & _).
  assert (FD : forall w, vdp (F ds w) = vdp w).
  { intros w. destruct (A 1 ds w) as (m & Em & Am). destruct (massless_ok 0 ds (sh b) (mkP w 0) H) as (m' & Em' & Am'). unfold bend_rt in Em. rewrite cnonzero_0, (Reqb_true 0 0) in Em by reflexivity. rewrite Em' in Em. injection Em as <-. unfold apply_rt in Am. rewrite Am' in Am. cbn [lift bind pv] in Am. injection Am as <-. reflexivity. }
  assert (PL : forall P w, P <> 0 -> particle_of (tr_bend_step P q 0 ds b w) = Ok (at_design P Pd (F ds) w)).
  { intros P w NP. apply C201_plain; auto. rewrite K0. destruct (A P ds w) as (m & Em & _). exists m. split; [exact Em|]. intros x. destruct (A P ds x) as (m2 & Em2 & Am). congruence. }
  do 2 eexists. split; [now apply PL|]. split; [now apply PL|].
  assert (U : forall P w, P <> 0 -> (P = Pd \/ / 1000000 < Rabs (P - Pd)) -> with_dp 0 (at_design P Pd (F ds) w) = with_dp 0 (F ds (with_dp (P * (1 + vdp w) / Pd - 1) (with_dp 0 w))) /\ vdp (at_design P Pd (F ds) w) = vdp w).
  { intros P w NP [->|C]; (split; [|now apply at_design_dp]); unfold at_design.
    - replace (Pd - Pd) with 0 by ring. rewrite Rabs_R0, Rleb_true by lra. f_equal. f_equal. destruct w as [x px y py z d]. unfold with_dp. cbn. f_equal. field. exact NP.
    - rewrite Rleb_false by exact C. unfold with_dp. cbn. replace (P / Pd * (1 + vdp w) - 1) with (P * (1 + vdp w) / Pd - 1) by (unfold Rdiv; ring). reflexivity. }
  destruct (U P0 v N B) as [-> ->], (U P0' v' N' B') as [-> ->]. rewrite Q, E. auto.
Qed.
Print Assumptions C201_same_momentum.
(* charge conjugation: the opposite charge in the opposite field *)
Definition reversed (f : field) : field := mkF (- b0 f) (ex f).
Lemma kick_reversed f l P0 q phi v : kick_dp (reversed f) l P0 (- q) phi v = kick_dp f l P0 q phi v.
Proof.
  unfold kick_dp. destruct (_ || _); [reflexivity|]. rewrite !field_at_ok. cbn [lift_u bind]. cbv zeta. unfold field_at, is_null, fequal, fequal_tol, reversed. cbn [b0 ex].
  replace (- b0 f - 0) with (- (b0 f - 0)) by ring. rewrite Rabs_Ropp. destruct (Rleb _ _).
  - f_equal. apply v6_eq; cbn; try reflexivity; ring.
  - f_equal. apply v6_eq; cbn; try reflexivity; unfold Rdiv; ring.
Qed.
Theorem C201_charge_bend P0 q mass ds b v : tr_bend_step P0 (- q) mass ds (mkSB (sh b) (stilt b) (reversed (sfield b)) (face_in b) (face_out b)) v = (do r <- tr_bend_step P0 q mass ds b v; Ok (fst r, reversed (snd r))).
Proof.
  unfold tr_bend_step. cbn [sfield sh]. destruct (Reqb ds 0); [reflexivity|]. cbv zeta.
  assert (GF : forall n g, fst (get_coefficient n 1 (reversed g)) = reversed (fst (get_coefficient n 1 g))) by reflexivity.
  assert (GS : forall n g, snd (get_coefficient n 1 (reversed g)) = snd (get_coefficient n 1 g)) by reflexivity.
  assert (ST : forall n c g, set_coefficient n c 1 (reversed g) = reversed (set_coefficient n c 1 g)) by reflexivity.
  assert (HI : forall g, highest (reversed g) = highest g) by reflexivity.
  rewrite GF, HI, !GS. set (f1 := fst (get_coefficient 0 1 (sfield b))). rewrite ?GF, ?GS, ?ST.
  assert (MQ : matched (sh b) (- q) (reversed f1) = matched (sh b) q f1).
  { unfold matched. rewrite GS. cbn [reversed b0]. set (u := re _). assert (X : forall a, u * - b0 f1 / a / - q = u * b0 f1 / a / q) by (intros a; unfold Rdiv; rewrite Rinv_opp; ring). rewrite X. replace (u * - b0 f1 / - q) with (u * b0 f1 / q) by (unfold Rdiv; rewrite Rinv_opp; ring). reflexivity. }
  assert (MM : matched_momentum (sh b) (- q) (reversed f1) = matched_momentum (sh b) q f1).
  { unfold matched_momentum. rewrite GS. cbn [reversed b0]. unfold Rdiv. rewrite Rinv_opp. ring. }
  rewrite MQ, MM. destruct (negb _); [reflexivity|].
  assert (KK : (if Z.ltb 0 (highest f1) then do k <- lift_u (get_kn (reversed f1) 1 (P0 / eVc)); Ok (cscale (- q) k) else Ok Cplx.c0) = (if Z.ltb 0 (highest f1) then do k <- lift_u (get_kn f1 1 (P0 / eVc)); Ok (cscale q k) else Ok (E := ierr) Cplx.c0)).
  { destruct (Z.ltb 0 _); [|reflexivity]. unfold get_kn. destruct (Reqb _ _); [reflexivity|]. cbn [reversed ex b0]. destruct (Nat.ltb _ _); cbn [lift_u bind]; f_equal; apply cx_eq; cbn; unfold Rdiv; ring. }
  rewrite KK. clear KK. match goal with |- (do K1 <- ?X; _) = _ => destruct X as [K| |] end; try reflexivity. cbn [bind]. destruct (bend_rt _ _ _ _ _) as [m| |]; try reflexivity. cbn [bind]. destruct (bend_apply _ _ m v) as [v2| |]; try reflexivity. cbn [bind].
  destruct (_ || _ || _); [|reflexivity]. rewrite kick_reversed. destruct (kick_dp _ _ _ _ _ _) as [v3| |]; try reflexivity. cbn [bind]. destruct (bend_apply _ _ _ _) as [v4| |]; reflexivity.
Qed.
Print Assumptions C201_charge_bend.
Lemma mapped_reversed P0 q ds phi sp m n f v : mapped P0 (- q) ds phi sp m n (reversed f) v = (do r <- mapped P0 q ds phi sp m n f v; Ok (fst r, reversed (snd r))).
Proof.
  unfold mapped. cbv zeta. change (without n (reversed f)) with (reversed (without n f)). rewrite ?kick_reversed.
  destruct (unless_zero phi (- phi) v) as [w| |]; try reflexivity. cbn [bind]. destruct (apply_rt m w) as [w1| |]; try reflexivity. cbn [bind]. destruct sp.
  - rewrite kick_reversed. destruct (kick_dp _ _ _ _ _ _) as [w2| |]; try reflexivity. cbn [bind]. destruct (apply_rt m w2) as [w3| |]; try reflexivity. cbn [bind fst snd]. destruct (unless_zero phi phi w3); reflexivity.
  - cbn [bind fst snd]. destruct (unless_zero phi phi w1); reflexivity.
Qed.
Theorem C201_charge_straight P0 q comp_len ds f v : tr_rect_step P0 (- q) comp_len ds (reversed f) v = (do r <- tr_rect_step P0 q comp_len ds f v; Ok (fst r, reversed (snd r))).
Proof.
  unfold tr_rect_step. assert (NU : is_null (reversed f) = is_null f) by (unfold is_null, fequal, fequal_tol, reversed; cbn [b0]; replace (- b0 f - 0) with (- (b0 f - 0)) by ring; now rewrite Rabs_Ropp).
  rewrite NU, !kick_reversed. destruct (_ && _ && _); [destruct (kick_dp _ _ _ _ _ _); reflexivity|]. destruct (Reqb ds 0); [reflexivity|].
  assert (KK : forall n, match get_kn f n (P0 / eVc) with Ok k => exists k', get_kn (reversed f) n (P0 / eVc) = Ok k' /\ cscale (- q) k' = cscale q k | _ => get_kn (reversed f) n (P0 / eVc) = UB end).
  { intros n. unfold get_kn. destruct (Reqb _ _); [reflexivity|]. cbn [reversed ex b0]. eexists. split; [reflexivity|]. destruct (Nat.ltb _ _); apply cx_eq; cbn; unfold Rdiv; ring. }
  assert (KT : forall n e, get_kn f n (P0 / eVc) <> Throw e) by (intros n e; unfold get_kn; destruct (Reqb _ _); discriminate).
  pose proof (KK 0%nat) as K0. pose proof (KK 1%nat) as K1. pose proof (KK 2%nat) as K2. pose proof (KT 0%nat) as T0. pose proof (KT 1%nat) as T1. pose proof (KT 2%nat) as T2.
  destruct (get_kn f 0 (P0 / eVc)) as [k0|e|]; [|now destruct (T0 e)|rewrite K0; reflexivity]. destruct K0 as (k0' & -> & Q0). cbn [lift_u bind].
  destruct (get_kn f 1 (P0 / eVc)) as [k1|e|]; [|now destruct (T1 e)|rewrite K1; reflexivity]. destruct K1 as (k1' & -> & Q1). cbn [lift_u bind].
  destruct (get_kn f 2 (P0 / eVc)) as [k2|e|]; [|now destruct (T2 e)|rewrite K2; reflexivity]. destruct K2 as (k2' & -> & Q2). cbn [lift_u bind]. cbv zeta. rewrite Q0, Q1, Q2. change (highest (reversed f)) with (highest f).
  destruct (cnonzero (cscale q k1)); [|destruct (cnonzero (cscale q k2))].
  - destruct (lift_map _) as [m| |]; try reflexivity. cbn [bind]. apply mapped_reversed.
  - destruct (lift_map _) as [m| |]; try reflexivity. cbn [bind]. apply mapped_reversed.
  - rewrite kick_reversed. destruct (_ || _ || _); [|reflexivity]. destruct (kick_dp _ _ _ _ _ _); reflexivity.
Qed.
Print Assumptions C201_charge_straight.

(* ---- C202: with a gradient the strength is that for the reference momentum ---- *)
Lemma cosh_mono x y : 0 <= x -> x < y -> cosh x < cosh y.
Proof.
  intros X L. set (a := (y - x) / 2). set (c := (y + x) / 2). replace y with (c + a) by (unfold a, c; lra). replace x with (c + - a) by (unfold a, c; lra). rewrite !cosh_plus.
  assert (S0 : forall t, 0 < t -> 0 < sinh t) by (intros t T; unfold sinh; assert (exp (- t) < exp t) by (apply exp_increasing; lra); lra).
  assert (A : sinh (- a) = - sinh a) by (unfold sinh; rewrite Ropp_involutive; lra). assert (B : cosh (- a) = cosh a) by (unfold cosh; rewrite Ropp_involutive; lra). rewrite A, B.
  assert (0 < sinh a) by (apply S0; unfold a; lra). assert (0 < sinh c) by (apply S0; unfold c; lra). nra.
Qed.
Lemma cosh_abs x : cosh x = cosh (Rabs x).
Proof. unfold Rabs. destruct (Rcase_abs x); [|reflexivity]. unfold cosh. rewrite Ropp_involutive. lra. Qed.
Lemma Cf_neg_inj K K' s : 0 < K -> 0 < K' -> s <> 0 -> Cf (- K) s = Cf (- K') s -> K = K'.
Proof.
  intros A B N E. unfold Cf in E. rewrite (Reqb_false (- K) 0), (Reqb_false (- K') 0) in E by lra. destruct (Rltb_spec 0 (- K)); [lra|]. destruct (Rltb_spec 0 (- K')); [lra|].
  rewrite !Ropp_involutive in E. rewrite cosh_abs, (cosh_abs (sqrt K' * s)) in E. assert (PS : 0 < Rabs s) by now apply Rabs_pos_lt.
  rewrite (Rabs_mult (sqrt K) s), (Rabs_mult (sqrt K') s) in E. rewrite (Rabs_pos_eq (sqrt K)), (Rabs_pos_eq (sqrt K')) in E by apply sqrt_pos.
  assert (Q : sqrt K = sqrt K').
  { assert (P1 : 0 <= sqrt K) by apply sqrt_pos. assert (P2 : 0 <= sqrt K') by apply sqrt_pos. destruct (Rtotal_order (sqrt K) (sqrt K')) as [L|[L|L]]; [|exact L|].
    - assert (cosh (sqrt K * Rabs s) < cosh (sqrt K' * Rabs s)) by (apply cosh_mono; nra). lra.
    - assert (cosh (sqrt K' * Rabs s) < cosh (sqrt K * Rabs s)) by (apply cosh_mono; nra). lra. }
  apply sqrt_inj; lra.
Qed.
Lemma gen2_dp h K1 K2 s w : vdp (gen2 h K1 K2 s w) = vdp w.
Proof. reflexivity. Qed.
Theorem C202_gradient_refuted P0 P0' q mass ds b : let Pd := design_momentum (sh b) q (sfield b) in let K P := kn P q (sfield b) 1 in
  0 < P0 -> 0 < P0' -> P0 <> P0' -> / 1000000 < Rabs (P0 - Pd) -> / 1000000 < Rabs (P0' - Pd) -> Pd <> 0 -> ds <> 0 -> matched (sh b) q (sfield b) = true ->
  (forall P, 0 < P -> simple_bend P q (sfield b) = true) -> 0 < re (K P0) -> regular (sh b) (re (K P0)) -> regular (sh b) (re (K P0')) ->
  exists v v' w w', with_dp 0 v = with_dp 0 v' /\ P0 * (1 + vdp v) = P0' * (1 + vdp v') /\
    particle_of (tr_bend_step P0 q mass ds b v) = Ok w /\ particle_of (tr_bend_step P0' q mass ds b v') = Ok w' /\ vy w <> vy w'.
Proof.
  intros Pd K A A' NE B B' NPd D M S KP R R'.
  assert (IM : forall P, 0 < P -> K P = mkCx (re (K P)) 0).
  { intros P HP. specialize (S P HP). unfold simple_bend in S. rewrite <- kn_strength in S. fold (K P) in S. destruct (Reqb_spec (im (K P)) 0) as [E|]; [apply cx_eq; [reflexivity|exact E]|rewrite andb_false_r in S; discriminate]. }
  assert (PL : forall P w, 0 < P -> regular (sh b) (re (K P)) -> particle_of (tr_bend_step P q mass ds b w) = Ok (at_design P Pd (gen2 (sh b) (re (K P)) 0 ds) w)).
  { intros P w HP HR. apply C201_plain; auto; [lra|]. fold (K P). destruct (C201_gradient_map P mass (sh b) (re (K P)) ds w HR) as (m & Eg & Em & _). exists m. split; [rewrite IM by exact HP; exact Em|].
    intros x. destruct (C201_gradient_map P mass (sh b) (re (K P)) ds x HR) as (m2 & Eg2 & _ & Am). congruence. }
  exists (V6 0 0 1 0 0 (Pd / P0 - 1)), (V6 0 0 1 0 0 (Pd / P0' - 1)). do 2 eexists. split; [reflexivity|]. split; [cbn; field; lra|]. split; [now apply PL|]. split; [now apply PL|].
  unfold at_design. rewrite !Rleb_false by assumption. unfold with_dp. cbn [vx vxp vy vyp vct vdp].
  replace (P0 / Pd * (1 + (Pd / P0 - 1)) - 1) with 0 by (field; lra). replace (P0' / Pd * (1 + (Pd / P0' - 1)) - 1) with 0 by (field; lra).
  unfold gen2. cbn [vx vxp vy vyp vct vdp]. rewrite !Rmult_0_l, !Rmult_0_r, !Rmult_1_r, !Rplus_0_r. intros E.
  assert (KE : re (K P0) * P0 = re (K P0') * P0') by (unfold K, kn; cbn; field; lra).
  assert (KP' : 0 < re (K P0')). { apply Rmult_lt_reg_r with P0'; [exact A'|]. rewrite <- KE, Rmult_0_l. now apply Rmult_lt_0_compat. }
  apply Cf_neg_inj in E; auto. rewrite <- E in KE. apply Rmult_eq_reg_l in KE; [contradiction|lra].
Qed.
Print Assumptions C202_gradient_refuted.
(* The two momenta count as equal when they differ by no more than 10^-6 GeV/c, however
   small they are: a particle of the design momentum of the bend is then bent, although it
   should follow the axis. *)
Theorem C202_tolerance_refuted P0 q ds b : let Pd := design_momentum (sh b) q (sfield b) in
  0 < P0 -> P0 <> Pd -> Rabs (P0 - Pd) <= / 1000000 -> ds <> 0 -> sh b <> 0 -> sin (sh b * ds) <> 0 -> matched (sh b) q (sfield b) = true -> highest (sfield b) = 0%Z -> im (coef (sfield b) 0) = 0 ->
  exists d w, P0 * (1 + d) = Pd /\ particle_of (tr_bend_step P0 q 0 ds b (V6 0 0 0 0 0 d)) = Ok w /\ vxp w <> 0.
Proof.
  intros Pd A NE T D H SN M Hi I0. exists (Pd / P0 - 1).
  assert (Z1 : coef (sfield b) 1 = c0) by (unfold coef, highest in *; apply nth_overflow; lia).
  assert (K0 : kn P0 q (sfield b) 1 = c0) by (unfold kn; rewrite Z1; apply cx_eq; cbn; ring).
  assert (SB : simple_bend P0 q (sfield b) = true) by (unfold simple_bend; rewrite <- kn_strength, K0, I0, Hi; cbn; now rewrite (Reqb_true 0 0)).
  exists (bend2 (sh b) 1 0 ds (V6 0 0 0 0 0 (Pd / P0 - 1))). split; [field; lra|]. split.
  - rewrite (C201_plain P0 q 0 ds b (bend2 (sh b) 1 0 ds)); auto; [|lra|].
    + unfold at_design. fold Pd. rewrite Rleb_true by exact T. reflexivity.
    + rewrite K0. destruct (massless_ok 0 ds (sh b) (mkP vzero 0) H) as (m & E & _). exists m. unfold bend_rt. rewrite cnonzero_0, (Reqb_true 0 0) by reflexivity. rewrite E. split; [reflexivity|].
      intros w. destruct (massless_ok 0 ds (sh b) (mkP w 0) H) as (m' & E' & P). rewrite E in E'. injection E' as <-. unfold apply_rt. now rewrite P.
  - unfold bend2. cbn. set (d := Pd / P0 - 1). intros E. assert (HS : sh b * (sin (sh b * ds) / sh b) = sin (sh b * ds)) by (field; exact H). rewrite HS in E. assert (H0 : d * sin (sh b * ds) = 0) by (clear - E; lra).
    apply Rmult_integral in H0. destruct H0 as [Z|Z]; [|contradiction]. apply NE. unfold d in Z. assert (X : Pd / P0 = 1) by lra. apply (Rmult_eq_compat_r P0) in X. unfold Rdiv in X. rewrite Rmult_assoc, Rinv_l in X by lra. lra.
Qed.
Print Assumptions C202_tolerance_refuted.
