(* C198, C199: a step of the default integrators through a straight magnet *)
From Coq Require Import ZArith FunctionalExtensionality.
From Verif Require Import RBase Rot Cplx CplxFacts Field FieldProps Cov Bunch BunchSpec Optics OpticsSpec OpticsProofs Chromatic ChromaticProps SparseMap SparseMapSpec SparseMapProps BendMap SympInt SympIntSpec SympIntProofs SympIntProps SympRectProps SympStepProps TransInt TransSpec.
Local Open Scope R_scope.

Lemma eVc_val : eVc = 299792458 / 1000000000.
Proof. unfold eVc. lra. Qed.
Lemma eVc_pos : 0 < eVc.
Proof. unfold eVc. lra. Qed.
Lemma rig_nz P0 : P0 <> 0 -> P0 / eVc <> 0.
Proof. intros N Z. pose proof eVc_pos. apply N. apply (Rmult_eq_compat_r eVc) in Z. unfold Rdiv in Z. rewrite Rmult_assoc, Rinv_l in Z by lra. lra. Qed.
Lemma kn_ok P0 q f n : P0 <> 0 -> exists k, get_kn f n (P0 / eVc) = Ok k /\ cscale q k = kn P0 q f n.
Proof.
  intros N. pose proof eVc_pos as V. unfold get_kn. rewrite Reqb_false by now apply rig_nz. eexists. split; [reflexivity|]. unfold kn, coef. rewrite factorial_ok, <- eVc_val.
  destruct (Nat.ltb_spec n (length (ex f))) as [H|H]; [|rewrite nth_overflow by exact H]; apply cx_eq; cbn; field; repeat split; lra.
Qed.
Lemma kn_strength P0 q f : kn P0 q f 1 = strength P0 q f.
Proof. unfold kn, strength. rewrite eVc_val. cbn [fact INR]. now rewrite Rmult_1_r. Qed.
Lemma field_at_ok f x y : field2d f x y (-1) = Ok (field_at f (mkCx x y)).
Proof. now rewrite field_eval. Qed.
Lemma kick_dp_ok f l P0 q phi v : P0 <> 0 -> 1 + vdp v <> 0 -> kick_dp f l P0 q phi v = Ok (pushed (deflection P0 q l v (cmul (phase phi) (field_at f (place v)))) v).
Proof.
  intros N D. unfold kick_dp. rewrite (Reqb_false P0 0), (Reqb_false (1 + vdp v) 0) by assumption. cbn [orb]. rewrite field_at_ok. cbn [lift_u bind]. cbv zeta. f_equal. unfold pushed, deflection, phase, place. rewrite eVc_val.
  set (B := field_at f _). apply v6_eq; cbn; try reflexivity; field; auto.
Qed.
Lemma kick_dp_stop f l P0 q phi v : 1 + vdp v = 0 -> kick_dp f l P0 q phi v = Throw NaN.
Proof. intros D. unfold kick_dp. rewrite (Reqb_true (1 + vdp v) 0) by exact D. now rewrite orb_true_r. Qed.
Lemma same_kick_dp f g l P0 q phi v : same_field f g -> kick_dp f l P0 q phi v = kick_dp g l P0 q phi v.
Proof. intros H. unfold kick_dp. now rewrite (same_field2d f g). Qed.
Lemma phase_0 z : cmul (phase 0) z = z.
Proof. unfold phase. rewrite cos_0, sin_0. apply cx_eq; cbn; ring. Qed.

(* ---- drift spaces ---- *)
Theorem C198_drift ds v : tr_drift_step ds v = Ok (V6 (vx v + ds * vxp v) (vxp v) (vy v + ds * vyp v) (vyp v) (vct v - ds * (vxp v * vxp v + vyp v * vyp v) / 2) (vdp v)).
Proof.
  unfold tr_drift_step. destruct (Reqb_spec ds 0) as [-> | N]; [f_equal; destruct v; apply v6_eq; cbn; try reflexivity; field|].
  destruct (drift_tm_ok 0 ds (mkP v 0)) as (m & -> & E). cbn [lift_map bind]. unfold apply_rt. rewrite E. cbn [lift bind pv]. f_equal. unfold drift2, path_term. apply v6_eq; try reflexivity; field.
Qed.
Print Assumptions C198_drift.
Theorem C198_drift_steps s t v : (do w <- tr_drift_step s v; tr_drift_step t w) = tr_drift_step (s + t) v.
Proof. rewrite !C198_drift. cbn [bind]. rewrite C198_drift. f_equal. apply v6_eq; cbn; try reflexivity; field. Qed.
Print Assumptions C198_drift_steps.

(* ---- straight magnets: which kind a field is ---- *)
Definition dipole_free (P0 q : R) (f : field) : Prop := kn P0 q f 0 = c0.
Lemma cnz K : cnonzero K = true <-> K <> c0.
Proof.
  unfold cnonzero, nonzero. destruct (Reqb_spec (re K) 0) as [A|A], (Reqb_spec (im K) 0) as [B|B]; cbn; split; try discriminate; try reflexivity; intros H.
  - exfalso. apply H. now apply cx_eq.
  - intros ->. apply B. reflexivity.
  - intros ->. apply A. reflexivity.
  - intros ->. apply A. reflexivity.
Qed.
Lemma cnz_f K : cnonzero K = false <-> K = c0.
Proof.
  split; intros H; [|subst; apply cnonzero_0]. apply cx_eq; unfold cnonzero, nonzero in H; destruct (Reqb_spec (re K) 0), (Reqb_spec (im K) 0); cbn in *; try discriminate; assumption.
Qed.
Lemma nonzero_cabs K : nonzero (cabs K) = cnonzero K.
Proof.
  unfold nonzero. destruct (Reqb_spec (cabs K) 0) as [E|E]; cbn; symmetry.
  - apply cnz_f. unfold cabs in E. apply sqrt_eq_0 in E; unfold csq in *; [|nra]. apply cx_eq; cbn; nra.
  - apply cnz. intros ->. apply E. unfold cabs, csq. cbn. replace (0 * 0 + 0 * 0) with 0 by ring. apply sqrt_0.
Qed.
(* the split of a magnet into two halves *)
Definition halved (P0 q : R) (f : field) : bool := cnonzero (kn P0 q f 0) || (cnonzero (kn P0 q f 1) && Z.ltb 1 (highest f)) || Z.ltb 2 (highest f).
Lemma rect_eq P0 q L ds f v : P0 <> 0 -> ds <> 0 -> tr_rect_step P0 q L ds f v =
  let K1 := kn P0 q f 1 in let K2 := kn P0 q f 2 in let sp := halved P0 q f in let len := if sp then ds / 2 else ds in
  if cnonzero K1 then do m <- lift_map (quadrupole_tm 0 len (size_of K1)); mapped P0 q ds (angle_of 2 K1) sp m 1 f v
  else if cnonzero K2 then do m <- lift_map (sextupole_tm 0 len (size_of K2)); mapped P0 q ds (angle_of 3 K2) sp m 2 f v
  else let v1 := plain_drift len v in if sp then do v2 <- kick_dp f ds P0 q 0 v1; Ok (plain_drift len v2, f) else Ok (v1, f).
Proof.
  intros N D. unfold tr_rect_step. rewrite (Reqb_false ds 0) by exact D. rewrite andb_false_r. cbn [andb].
  destruct (kn_ok P0 q f 0 N) as (k0 & -> & E0), (kn_ok P0 q f 1 N) as (k1 & -> & E1), (kn_ok P0 q f 2 N) as (k2 & -> & E2). cbn [lift_u bind]. cbv zeta. rewrite E0, E1, E2, nonzero_cabs. reflexivity.
Qed.
Lemma apply_quad len K : K <> 0 -> exists m, quadrupole_tm 0 len K = Ok m /\ forall v, apply_rt m v = Ok (quad2 K len v).
Proof.
  intros NK. destruct (quadrupole_tm_ok 0 len K (mkP (V6 0 0 0 0 0 0) 0) NK) as (m & E & _). exists m. split; [exact E|]. intros w. destruct (quadrupole_tm_ok 0 len K (mkP w 0) NK) as (m' & E' & A). rewrite E in E'. injection E' as <-. unfold apply_rt. now rewrite A.
Qed.
Lemma apply_sext len K : exists m, sextupole_tm 0 len K = Ok m /\ forall v, apply_rt m v = Ok (sext2 K len v).
Proof.
  destruct (sextupole_tm_ok 0 len K (mkP (V6 0 0 0 0 0 0) 0)) as (m & E & _). exists m. split; [exact E|]. intros w. destruct (sextupole_tm_ok 0 len K (mkP w 0)) as (m' & E' & A). rewrite E in E'. injection E' as <-. unfold apply_rt. now rewrite A.
Qed.
Lemma about_turn a v : eps < Rabs a -> about_z a v = Ok (turn a v).
Proof.
  intros A. unfold about_z, srot. rewrite far_angle by exact A. unfold srot_cs. cbn [Nat.leb lift bind]. f_equal. unfold apply_m, vof, msum, turn. cbn. apply v6_eq; try reflexivity; ring.
Qed.
Lemma about_zero a v : Rabs a <= eps -> about_z a v = Ok (V6 0 0 0 0 (vct v) (vdp v)).
Proof.
  intros A. unfold about_z, srot, fequal, fequal_tol. replace (a - 0) with a by ring. rewrite Rleb_true by exact A. cbn [lift bind]. f_equal. unfold apply_m, vof, msum. cbn. apply v6_eq; try reflexivity; ring.
Qed.
(* the rotation in front of and behind a magnet: none for angles below the tolerance *)
Definition turned (phi a : R) (v : vec6) : vec6 := if Rleb (Rabs phi) eps then v else turn a v.
Lemma unless_turned phi a v : Rabs a = Rabs phi -> unless_zero phi a v = Ok (turned phi a v).
Proof.
  intros A. unfold unless_zero, turned, fequal, fequal_tol. replace (phi - 0) with phi by ring. destruct (Rleb_spec (Rabs phi) eps) as [H|H]; [reflexivity|]. apply about_turn. rewrite A. lra.
Qed.
Lemma size_nz K : K <> c0 -> size_of K <> 0.
Proof.
  intros N. unfold size_of. destruct (Reqb_spec (im K) 0) as [E|E].
  - intros Z. apply N. now apply cx_eq.
  - unfold cabs, csq. apply Rgt_not_eq, sqrt_lt_R0. nra.
Qed.
Lemma without_lacks n f g : lacks n f g -> same_field (without n f) g.
Proof.
  intros (B & C & O). unfold without. split; [rewrite b0_set; unfold get_coefficient; cbn; congruence|]. intros k. rewrite set_coef. destruct (Nat.eqb_spec k n) as [-> | Q]; [symmetry; exact C|]. rewrite (proj2 (same_read n f)). symmetry. now apply O.
Qed.
Lemma mapped_whole P0 q ds phi m n f v F : (forall w, apply_rt m w = Ok (F w)) -> mapped P0 q ds phi false m n f v = Ok (turned phi phi (F (turned phi (- phi) v)), f).
Proof. intros A. unfold mapped. rewrite unless_turned by apply Rabs_Ropp. cbn [bind]. rewrite A. cbn [bind fst snd]. now rewrite unless_turned. Qed.
Lemma mapped_split P0 q ds phi m n f g v F : (forall w, apply_rt m w = Ok (F w)) -> lacks n f g ->
  particle_of (mapped P0 q ds phi true m n f v) = (do w <- kick_dp g ds P0 q (- phi) (F (turned phi (- phi) v)); Ok (turned phi phi (F w))).
Proof.
  intros A G. unfold mapped. rewrite unless_turned by apply Rabs_Ropp. cbn [bind]. rewrite A. cbn [bind]. rewrite (same_kick_dp _ g) by now apply without_lacks.
  destruct (kick_dp g ds P0 q (- phi) (F (turned phi (- phi) v))) as [w| |]; cbn [bind]; try reflexivity. rewrite A. cbn [bind fst snd]. rewrite unless_turned by reflexivity. reflexivity.
Qed.

(* ---- no field, dipoles and high multipoles: a kick between drifts ---- *)
Theorem C198_empty P0 q L ds f v : P0 <> 0 -> ds <> 0 -> (forall n, coef f n = c0) -> (highest f <= 2)%Z -> particle_of (tr_rect_step P0 q L ds f v) = tr_drift_step ds v.
Proof.
  intros N D E H. rewrite rect_eq by assumption. cbv zeta. assert (Z : forall n, kn P0 q f n = c0) by (intros n; unfold kn; rewrite E; apply cx_eq; cbn; ring). unfold halved. rewrite !Z, cnonzero_0. cbn [orb andb]. destruct (Z.ltb_spec 2 (highest f)); [lia|].
  rewrite C198_drift. reflexivity.
Qed.
Print Assumptions C198_empty.
Theorem C198_kicked P0 q L ds f v : P0 <> 0 -> ds <> 0 -> kn P0 q f 1 = c0 -> kn P0 q f 2 = c0 -> (kn P0 q f 0 <> c0 \/ (2 < highest f)%Z) -> 1 + vdp v <> 0 ->
  particle_of (tr_rect_step P0 q L ds f v) =
  (do v1 <- tr_drift_step (ds / 2) v; tr_drift_step (ds / 2) (pushed (deflection P0 q ds v1 (field_at f (place v1))) v1)).
Proof.
  intros N D E1 E2 H M. rewrite rect_eq by assumption. cbv zeta. rewrite E1, E2, cnonzero_0.
  assert (Sp : halved P0 q f = true). { unfold halved. destruct H as [H|H]; [apply cnz in H; now rewrite H|]. apply Z.ltb_lt in H. rewrite H. now rewrite orb_true_r. }
  rewrite Sp. rewrite kick_dp_ok by assumption. rewrite phase_0. cbn [bind particle_of fst]. rewrite C198_drift. cbn [bind]. rewrite C198_drift. reflexivity.
Qed.
Print Assumptions C198_kicked.
(* a magnet of no length: the kick of its field, taken as integrated over the length *)
Theorem C198_thin P0 q f v : P0 <> 0 -> 1 + vdp v <> 0 -> is_null f = false -> tr_rect_step P0 q 0 0 f v = Ok (pushed (deflection P0 q 1 v (field_at f (place v))) v, f).
Proof. intros N D Z. unfold tr_rect_step. rewrite !(Reqb_true 0 0), Z by reflexivity. cbn [andb negb]. rewrite kick_dp_ok by assumption. now rewrite phase_0. Qed.
Print Assumptions C198_thin.
Theorem C198_no_step P0 q L f v : L <> 0 \/ is_null f = true -> tr_rect_step P0 q L 0 f v = Ok (v, f).
Proof. intros H. unfold tr_rect_step. rewrite (Reqb_true 0 0) by reflexivity. destruct (Reqb_spec L 0) as [->|]; [|reflexivity]. destruct H as [H|H]; [congruence|]. now rewrite H. Qed.
Print Assumptions C198_no_step.

(* ---- quadrupoles and sextupoles ---- *)
Theorem C198_quadrupole P0 q L f K : P0 <> 0 -> kn P0 q f 0 = c0 -> kn P0 q f 1 = mkCx K 0 -> K <> 0 -> (highest f <= 1)%Z ->
  exists F M, (forall s v, s <> 0 -> tr_rect_step P0 q L s f v = Ok (F s v, f)) /\ (forall s, exists m, quadrupole 6 s K = Ok m /\ forall x, M s x = apply_m 6 m x) /\
    solves2 (bend_motion 0 K) (quad_second K) M F.
Proof.
  intros N E0 E1 NK H. destruct (C163_quadrupole 0 K NK) as (F & M & A & B & C). exists F, M. split; [|split; assumption]. intros s v D.
  rewrite rect_eq by assumption. cbv zeta. unfold halved. rewrite E0, E1, cnonzero_0. destruct (Z.ltb_spec 1 (highest f)); [lia|]. destruct (Z.ltb_spec 2 (highest f)); [lia|]. rewrite andb_false_r. cbn [orb].
  assert (X : cnonzero (mkCx K 0) = true) by (apply cnz; intros Q; injection Q; congruence). rewrite X. unfold size_of, angle_of. cbn [im re]. rewrite !(Reqb_true 0 0) by reflexivity.
  destruct (A s (mkP v 0%Z)) as (m & Em & _). rewrite Em. cbn [lift_map bind]. rewrite (mapped_whole _ _ _ _ _ _ _ _ (F s)).
  - unfold turned. rewrite Rabs_R0. pose proof eps_pos. rewrite !Rleb_true by lra. reflexivity.
  - intros w. destruct (A s (mkP w 0%Z)) as (m' & Q & G). rewrite Em in Q. injection Q as <-. unfold apply_rt. now rewrite G.
Qed.
Print Assumptions C198_quadrupole.
Theorem C198_sextupole P0 q L f k : P0 <> 0 -> kn P0 q f 0 = c0 -> kn P0 q f 1 = c0 -> kn P0 q f 2 = mkCx k 0 -> k <> 0 -> (highest f <= 2)%Z ->
  exists F, (forall s v, s <> 0 -> tr_rect_step P0 q L s f v = Ok (F s v, f)) /\ solves2 drift_motion (sext_second k) (fun s => apply_m 6 (drift 6 s)) F.
Proof.
  intros N E0 E1 E2 NK H. destruct (C163_sextupole 0 k) as (F & A & C). exists F. split; [|assumption]. intros s v D.
  rewrite rect_eq by assumption. cbv zeta. unfold halved. rewrite E0, E1, E2, cnonzero_0. destruct (Z.ltb_spec 2 (highest f)); [lia|]. cbn [orb andb].
  assert (X : cnonzero (mkCx k 0) = true) by (apply cnz; intros Q; injection Q; congruence). rewrite X. unfold size_of, angle_of. cbn [im re]. rewrite !(Reqb_true 0 0) by reflexivity.
  destruct (A s (mkP v 0%Z)) as (m & Em & _). rewrite Em. cbn [lift_map bind]. rewrite (mapped_whole _ _ _ _ _ _ _ _ (F s)).
  - unfold turned. rewrite Rabs_R0. pose proof eps_pos. rewrite !Rleb_true by lra. reflexivity.
  - intros w. destruct (A s (mkP w 0%Z)) as (m' & Q & G). rewrite Em in Q. injection Q as <-. unfold apply_rt. now rewrite G.
Qed.
Print Assumptions C198_sextupole.
(* an upright quadrupole with other multipoles: one kick between the two halves of the map *)
Theorem C198_with_others P0 q L ds f g K : P0 <> 0 -> ds <> 0 -> kn P0 q f 1 = mkCx K 0 -> K <> 0 -> kn P0 q f 0 <> c0 \/ (1 < highest f)%Z -> lacks 1 f g ->
  exists F, (forall p, exists m, quadrupole_tm 0 (ds / 2) K = Ok m /\ rt_apply m p = Ok (mkP (F (pv p)) (pid p))) /\
  forall v, 1 + vdp v <> 0 -> particle_of (tr_rect_step P0 q L ds f v) = Ok (F (pushed (deflection P0 q ds v (field_at g (place (F v)))) (F v))).
Proof.
  intros N D E1 NK H G. exists (quad2 K (ds / 2)). split; [intros p; now apply quadrupole_tm_ok|]. intros v M. rewrite rect_eq by assumption. cbv zeta.
  assert (X : cnonzero (kn P0 q f 1) = true) by (rewrite E1; apply cnz; intros Q; injection Q; congruence).
  assert (Sp : halved P0 q f = true). { unfold halved. rewrite X. destruct H as [H|H]; [apply cnz in H; now rewrite H|]. apply Z.ltb_lt in H. rewrite H. now rewrite orb_true_r. }
  rewrite Sp, X, E1. unfold size_of, angle_of. cbn [im re]. rewrite !(Reqb_true 0 0) by reflexivity. destruct (apply_quad (ds / 2) K NK) as (m & -> & A). cbn [lift_map bind].
  rewrite (mapped_split _ _ _ _ _ _ _ g _ (quad2 K (ds / 2))) by assumption. unfold turned. rewrite Rabs_R0. pose proof eps_pos. rewrite !Rleb_true by lra. rewrite kick_dp_ok by assumption. rewrite Ropp_0, phase_0. reflexivity.
Qed.
Print Assumptions C198_with_others.
Theorem C198_sextupole_with_others P0 q L ds f g k : P0 <> 0 -> ds <> 0 -> kn P0 q f 1 = c0 -> kn P0 q f 2 = mkCx k 0 -> k <> 0 -> kn P0 q f 0 <> c0 \/ (2 < highest f)%Z -> lacks 2 f g ->
  exists F, (forall p, exists m, sextupole_tm 0 (ds / 2) k = Ok m /\ rt_apply m p = Ok (mkP (F (pv p)) (pid p))) /\
  forall v, 1 + vdp v <> 0 -> particle_of (tr_rect_step P0 q L ds f v) = Ok (F (pushed (deflection P0 q ds v (field_at g (place (F v)))) (F v))).
Proof.
  intros N D E1 E2 NK H G. exists (sext2 k (ds / 2)). split; [intros p; now apply sextupole_tm_ok|]. intros v M. rewrite rect_eq by assumption. cbv zeta.
  assert (X : cnonzero (kn P0 q f 2) = true) by (rewrite E2; apply cnz; intros Q; injection Q; congruence).
  assert (Sp : halved P0 q f = true). { unfold halved. destruct H as [H|H]; [apply cnz in H; now rewrite H|]. apply Z.ltb_lt in H. rewrite H. now rewrite orb_true_r. }
  rewrite Sp, X, E1, E2, cnonzero_0. unfold size_of, angle_of. cbn [im re]. rewrite !(Reqb_true 0 0) by reflexivity. destruct (apply_sext (ds / 2) k) as (m & -> & A). cbn [lift_map bind].
  rewrite (mapped_split _ _ _ _ _ _ _ g _ (sext2 k (ds / 2))) by assumption. unfold turned. rewrite Rabs_R0. pose proof eps_pos. rewrite !Rleb_true by lra. rewrite kick_dp_ok by assumption. rewrite Ropp_0, phase_0. reflexivity.
Qed.
Print Assumptions C198_sextupole_with_others.
(* the magnet's field is put back *)
Lemma with_back n f : same_field (set_coefficient n (snd (get_coefficient n 1 f)) 1 (without n f)) f.
Proof. rewrite get_coef. unfold without. split; [reflexivity|]. intros k. rewrite !set_coef. destruct (Nat.eqb_spec k n) as [->|]; [reflexivity|apply (proj2 (same_read n f))]. Qed.
Lemma mapped_field P0 q ds phi sp m n f v v' f' : mapped P0 q ds phi sp m n f v = Ok (v', f') -> same_field f' f.
Proof.
  unfold mapped. destruct (unless_zero phi (- phi) v); try discriminate. cbn [bind]. destruct (apply_rt m _); try discriminate. cbn [bind]. destruct sp.
  - destruct (kick_dp _ _ _ _ _ _); try discriminate. cbn [bind]. destruct (apply_rt m _); try discriminate. cbn [bind fst snd]. destruct (unless_zero _ _ _); try discriminate. cbn [bind]. intros Q. injection Q as _ <-. apply with_back.
  - cbn [bind fst snd]. destruct (unless_zero _ _ _); try discriminate. cbn [bind]. intros Q. injection Q as _ <-. apply same_refl.
Qed.
Theorem C198_field_kept P0 q L ds f v v' f' : tr_rect_step P0 q L ds f v = Ok (v', f') -> b0 f' = b0 f /\ forall n, coef f' n = coef f n.
Proof.
  intros H. change (same_field f' f). revert H. unfold tr_rect_step. destruct (_ && _ && _).
  { destruct (kick_dp _ _ _ _ _ _); try discriminate. cbn [bind]. intros Q. injection Q as _ <-. apply same_refl. }
  destruct (Reqb ds 0); [intros Q; injection Q as _ <-; apply same_refl|].
  destruct (lift_u _) as [k0| |]; try discriminate. cbn [bind]. destruct (lift_u _) as [k1| |]; try discriminate. cbn [bind]. destruct (lift_u _) as [k2| |]; try discriminate. cbn [bind]. cbv zeta.
  destruct (cnonzero (cscale q k1)); [destruct (lift_map _); try discriminate; apply mapped_field|]. destruct (cnonzero (cscale q k2)); [destruct (lift_map _); try discriminate; apply mapped_field|].
  destruct (_ || _ || _); [destruct (kick_dp _ _ _ _ _ _); try discriminate; cbn [bind]; intros Q; injection Q as _ <-; apply same_refl | intros Q; injection Q as _ <-; apply same_refl].
Qed.
Print Assumptions C198_field_kept.

(* ================= C199: magnets that are not upright ================= *)
Theorem C199_quadrupole P0 q L ds f v : let K := kn P0 q f 1 in let a := carg K / 2 in P0 <> 0 -> ds <> 0 -> kn P0 q f 0 = c0 -> (highest f <= 1)%Z -> im K <> 0 -> eps < Rabs a ->
  particle_of (tr_rect_step P0 q L ds f v) = Ok (turn a (quad2 (cabs K) ds (turn (- a) v))).
Proof.
  intros K a N D E0 H NI A. rewrite rect_eq by assumption. cbv zeta. fold K. unfold halved. fold K. rewrite E0, cnonzero_0. destruct (Z.ltb_spec 1 (highest f)); [lia|]. destruct (Z.ltb_spec 2 (highest f)); [lia|]. rewrite andb_false_r. cbn [orb].
  assert (X : K <> c0) by (intros Q; apply NI; now rewrite Q). pose proof (proj2 (cnz K) X) as X'. rewrite X'. unfold size_of, angle_of. rewrite !(Reqb_false (im K) 0) by exact NI. fold a.
  assert (NK : cabs K <> 0) by (unfold cabs, csq; apply Rgt_not_eq, sqrt_lt_R0; nra). destruct (apply_quad ds (cabs K) NK) as (m & -> & Am). cbn [lift_map bind]. rewrite (mapped_whole _ _ _ _ _ _ _ _ (quad2 (cabs K) ds)) by exact Am. unfold turned. rewrite !Rleb_false by exact A. reflexivity.
Qed.
Print Assumptions C199_quadrupole.
Theorem C199_sextupole P0 q L ds f v : let K := kn P0 q f 2 in let a := carg K / 3 in P0 <> 0 -> ds <> 0 -> kn P0 q f 0 = c0 -> kn P0 q f 1 = c0 -> (highest f <= 2)%Z -> im K <> 0 -> eps < Rabs a ->
  particle_of (tr_rect_step P0 q L ds f v) = Ok (turn a (sext2 (cabs K) ds (turn (- a) v))).
Proof.
  intros K a N D E0 E1 H NI A. rewrite rect_eq by assumption. cbv zeta. fold K. unfold halved. rewrite E0, E1, cnonzero_0. destruct (Z.ltb_spec 2 (highest f)); [lia|]. cbn [orb andb].
  assert (X : K <> c0) by (intros Q; apply NI; now rewrite Q). pose proof (proj2 (cnz K) X) as X'. rewrite X'. unfold size_of, angle_of. rewrite !(Reqb_false (im K) 0) by exact NI. fold a.
  destruct (apply_sext ds (cabs K)) as (m & -> & Am). cbn [lift_map bind]. rewrite (mapped_whole _ _ _ _ _ _ _ _ (sext2 (cabs K) ds)) by exact Am. unfold turned. rewrite !Rleb_false by exact A. reflexivity.
Qed.
Print Assumptions C199_sextupole.
