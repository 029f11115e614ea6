From Verif Require Import RBase Base CoupWake CoupWakeSpec.
From Coq Require Import List Lia Lra Reals.
Import ListNotations.
Local Open Scope R_scope.

Lemma fold_sums : forall l a b, fold_left (fun c p => (fst c + fst p, snd c + snd p)) l (a, b) = (a + sums l fst, b + sums l snd).
Proof. induction l as [|p l IH]; intros a b; cbn [fold_left sums]; [f_equal; lra|]. cbn [fst snd]. rewrite IH. f_equal; lra. Qed.
Lemma cen_mean l : is_mean l (centroid l).
Proof.
  unfold centroid. rewrite fold_sums. cbv zeta. destruct l as [|p [|q l]]; unfold is_mean.
  - cbn. f_equal; lra.
  - cbn [length Nat.ltb Nat.leb fst snd sums]. change (INR 1) with 1. lra.
  - change (Nat.ltb 1 (length (p :: q :: l))) with true. cbn match. cbn [fst snd]. assert (INR (length (p :: q :: l)) <> 0) by (apply not_0_INR; discriminate). split; field; assumption.
Qed.
Lemma sumn_ext : forall n f g, (forall j, f j = g j) -> sumn n f = sumn n g.
Proof. induction n as [|n IH]; intros f g H; cbn [sumn]; [reflexivity|]. rewrite H. f_equal. apply IH. intros j. apply H. Qed.
Definition term (w : coupler) (ca : cavity) (g : R * R -> R) (cxy : R * R) (d : R) (qc : R * (R * R)) : R :=
  fst qc * (cp_t w (d * ca_dz ca) * g (snd qc) + g cxy / ca_len ca).
Lemma sum_wake_eq w ca cxy : ca_len ca <> 0 -> forall l k acc, sum_wake w ca cxy k l acc =
  (fst acc + sumn (length l) (fun j => term w ca fst cxy (INR (k + j) + 1 / 2) (nth j l (0, (0, 0)))), snd acc + sumn (length l) (fun j => term w ca snd cxy (INR (k + j) + 1 / 2) (nth j l (0, (0, 0))))).
Proof.
  intros N. induction l as [|(q, c) l IH]; intros k acc; cbn [sum_wake sumn length nth]; [destruct acc; cbn; f_equal; lra|]. rewrite IH. cbn [fst snd]. rewrite Nat.add_0_r.
  rewrite (sumn_ext _ (fun j => term w ca fst cxy (INR (k + Datatypes.S j) + 1 / 2) _) (fun j => term w ca fst cxy (INR (Datatypes.S k + j) + 1 / 2) (nth j l (0, (0, 0))))) by (intros; now rewrite Nat.add_succ_r).
  rewrite (sumn_ext _ (fun j => term w ca snd cxy (INR (k + Datatypes.S j) + 1 / 2) _) (fun j => term w ca snd cxy (INR (Datatypes.S k + j) + 1 / 2) (nth j l (0, (0, 0))))) by (intros; now rewrite Nat.add_succ_r).
  f_equal; match goal with |- context [sumn ?n ?f] => generalize (sumn n f) end; intros t; unfold term; cbn [fst snd]; field; exact N.
Qed.
Definition one (w : coupler) (ca : cavity) (a0 : R) (g : R * R -> R) (i : nat) (l : list (R * (R * R))) (k : nat) : R :=
  let c := snd (nth k l (0, (0, 0))) in
  g (cp_rf w (fst c) (snd c) (Rabs (ca_phi ca) + ca_k ca * (ca_zmin ca + (INR (i + k) + 1 / 2) * ca_dz ca))) * ca_v ca / ca_len ca
  + a0 * sumn (length l - k) (fun j => term w ca g (cp_xy w (fst c) (snd c)) (INR j + 1 / 2) (nth (k + j) l (0, (0, 0)))).
Lemma wakes_len w ca a0 : forall l i, length (wakes_at w ca a0 i l) = Datatypes.S (length l).
Proof. induction l as [|(q, c) l IH]; intros i; cbn [wakes_at length]; [reflexivity|]. cbv zeta. now rewrite IH. Qed.
Lemma wakes_last w ca a0 : forall l i, nth_error (wakes_at w ca a0 i l) (length l) = Some (0, 0).
Proof. induction l as [|(q, c) l IH]; intros i; cbn [wakes_at length]; cbv zeta; cbn [nth_error]; [do 2 f_equal; lra|apply IH]. Qed.
Lemma wakes_nth w ca a0 : ca_len ca <> 0 -> a0 <> 0 -> forall l i k, (k < length l)%nat -> nth_error (wakes_at w ca a0 i l) k = Some (one w ca a0 fst i l k, one w ca a0 snd i l k).
Proof.
  intros N A. induction l as [|(q, c) l IH]; intros i k K; [cbn in K; lia|]. cbn [wakes_at]. cbv zeta. destruct k as [|k]; cbn [nth_error].
  - rewrite sum_wake_eq by exact N. unfold one. cbv zeta. cbn [nth snd fst Nat.add]. rewrite Nat.add_0_r, Nat.sub_0_r. do 2 f_equal; field; auto.
  - cbn [length] in K. rewrite IH by lia. unfold one. cbv zeta. cbn [nth length Nat.sub Nat.add]. now rewrite Nat.add_succ_r.
Qed.

(* C442 *)
Theorem C442_wakes : forall w ca u qtot qd sl r, length qd = length sl -> coupler_wake w ca u qtot qd sl = Ok r ->
  exists cs, Forall2 is_mean sl cs /\ length r = Datatypes.S (length sl) /\ nth_error r (length sl) = Some (0, 0) /\
  forall i, (i < length sl)%nat -> let c := nth i cs (0, 0) in
  let rf := cp_rf w (fst c) (snd c) (Rabs (ca_phi ca) + ca_k ca * (ca_zmin ca + (INR i + 1 / 2) * ca_dz ca)) in let cxy := cp_xy w (fst c) (snd c) in
  let a0 := ca_dz ca * Rabs qtot * u in
  exists p, nth_error r i = Some p /\
  fst p = fst rf * ca_v ca / ca_len ca + a0 * sumn (length sl - i) (fun j => nth (i + j) qd 0 * (cp_t w ((INR j + 1 / 2) * ca_dz ca) * fst (nth (i + j) cs (0, 0)) + fst cxy / ca_len ca)) /\
  snd p = snd rf * ca_v ca / ca_len ca + a0 * sumn (length sl - i) (fun j => nth (i + j) qd 0 * (cp_t w ((INR j + 1 / 2) * ca_dz ca) * snd (nth (i + j) cs (0, 0)) + snd cxy / ca_len ca)).
Proof.
  intros w ca u qtot qd sl r L E. exists (map centroid sl). split; [clear; induction sl; cbn; constructor; [apply cen_mean|assumption]|].
  unfold coupler_wake in E. destruct sl as [|s0 sl]; [discriminate|]. remember (s0 :: sl) as ss. cbv zeta in E. destruct (Reqb_spec (ca_len ca) 0) as [|N]; [discriminate|]. destruct (Reqb_spec (ca_dz ca * Rabs qtot * u) 0) as [|A]; [discriminate|]. injection E as <-.
  assert (LC : length (combine qd (map centroid ss)) = length ss) by (rewrite combine_length, map_length, L; apply Nat.min_id). split; [now rewrite wakes_len, LC|]. split; [rewrite <- LC; apply wakes_last|].
  intros i I. cbv zeta. rewrite wakes_nth by (try assumption; now rewrite LC). eexists. split; [reflexivity|]. cbn [fst snd]. unfold one, term. cbv zeta. rewrite LC.
  assert (CN : forall k, nth k (combine qd (map centroid ss)) (0, (0, 0)) = (nth k qd 0, nth k (map centroid ss) (0, 0))) by (intros k; apply combine_nth; now rewrite map_length). cbn [Nat.add]. rewrite CN. cbn [snd]. split; f_equal; f_equal; apply sumn_ext; intros j; now rewrite CN.
Qed.
Print Assumptions C442_wakes.
Example C442_ex : exists r, coupler_wake (mkCp (fun x y => (x, y)) (fun _ _ _ => (1, 0)) (fun z => z)) (mkCav 1 1 0 0 0 1) 1 1 [1] [[(1, 2); (3, 4)]] = Ok r.
Proof. eexists. unfold coupler_wake. cbv zeta. cbn [ca_len ca_dz]. rewrite Rabs_R1, !Rmult_1_l. rewrite (Reqb_false 1 0) by apply R1_neq_R0. reflexivity. Qed.
(* C443: the RF kick does not know the charge *)
Theorem C443_rf : forall w ca u qtot qtot' qd sl r r', (forall z, cp_t w z = 0) -> (forall x y, cp_xy w x y = (0, 0)) -> length qd = length sl -> coupler_wake w ca u qtot qd sl = Ok r -> coupler_wake w ca u qtot' qd sl = Ok r' -> r = r'.
Proof.
  intros w ca u qtot qtot' qd sl r r' T X L E E'. unfold coupler_wake in *. destruct sl as [|s0 sl]; [discriminate|]. cbv zeta in *. destruct (Reqb_spec (ca_len ca) 0) as [|N]; [discriminate|]. destruct (Reqb_spec (ca_dz ca * Rabs qtot * u) 0) as [|A]; [discriminate|]. destruct (Reqb_spec (ca_dz ca * Rabs qtot' * u) 0) as [|A']; [discriminate|]. injection E as <-. injection E' as <-. revert A A'. generalize (ca_dz ca * Rabs qtot * u) (ca_dz ca * Rabs qtot' * u). intros a b A B. generalize 0%nat.
  change (centroid s0 :: map centroid sl) with (map centroid (s0 :: sl)). match goal with |- forall n, wakes_at _ _ _ n ?x = _ => generalize x end. induction l as [|(q, c) l IH]; intros i; cbn [wakes_at]; [now rewrite !Rmult_0_l|]. cbv zeta. rewrite !sum_wake_eq by exact N. rewrite IH. f_equal. rewrite X.
  assert (Z : forall g n f k h, g (0, 0) = 0 -> sumn n (fun j => term w ca g (0, 0) (INR (k + h j)%nat + 1 / 2) (f j)) = 0).
  { intros g. induction n as [|n IHn]; intros f k h G; cbn [sumn]; [reflexivity|]. unfold term at 1. rewrite T, G. rewrite (IHn (fun j => f (Datatypes.S j)) k (fun j => h (Datatypes.S j)) G). field. exact N. }
  rewrite !(Z fst _ _ 0%nat (fun j => j)), !(Z snd _ _ 0%nat (fun j => j)) by reflexivity. cbn [fst snd]. f_equal; field; auto.
Qed.
Print Assumptions C443_rf.
Example C443_ex : let w := mkCp (fun _ _ => (0, 0)) (fun x y p => (x + p, y)) (fun _ => 0) in let ca := mkCav 1 1 0 0 0 1 in (exists r, coupler_wake w ca 1 1 [1] [[(1, 2)]] = Ok r) /\ exists r, coupler_wake w ca 1 2 [1] [[(1, 2)]] = Ok r.
Proof.
  cbv zeta. unfold coupler_wake. cbv zeta. cbn [ca_len ca_dz]. rewrite Rabs_R1, (Rabs_pos_eq 2) by lra. rewrite !Rmult_1_l, Rmult_1_r. rewrite (Reqb_false 1 0), (Reqb_false 2 0) by lra. split; eexists; reflexivity.
Qed.
(* C444 *)
Theorem C444_neutral_refuted : forall w ca u qd s sl, coupler_wake w ca u 0 qd (s :: sl) = Throw CNaN.
Proof. intros. unfold coupler_wake. cbv zeta. destruct (Reqb _ _); [reflexivity|]. rewrite Reqb_true; [reflexivity|]. rewrite Rabs_R0. lra. Qed.
Print Assumptions C444_neutral_refuted.
Theorem C444_thin_refuted : forall w ca u q qd s sl, ca_len ca = 0 -> coupler_wake w ca u q qd (s :: sl) = Throw CNaN.
Proof. intros. unfold coupler_wake. cbv zeta. now rewrite Reqb_true. Qed.
Print Assumptions C444_thin_refuted.
Theorem C444_bins_refuted : forall w ca u q qd, coupler_wake w ca u q qd [] = UB.
Proof. reflexivity. Qed.
Print Assumptions C444_bins_refuted.
(* otherwise there is a result *)
Theorem C444_else_partial : forall w ca u q qd s sl, ca_len ca <> 0 -> ca_dz ca <> 0 -> q <> 0 -> u <> 0 -> exists r, coupler_wake w ca u q qd (s :: sl) = Ok r.
Proof. intros w ca u q qd s sl L D Q U. unfold coupler_wake. cbv zeta. rewrite Reqb_false by exact L. rewrite Reqb_false; [eauto|]. repeat apply Rmult_integral_contrapositive_currified; auto. now apply Rabs_no_R0. Qed.
Print Assumptions C444_else_partial.

(* C445: the longitudinal wake of a taper is the slope of the transverse one *)
Theorem C445_slope : forall a b nm m z, a <> 0 -> 0 < z -> (m <= nm)%nat -> exists f s, (forall x, w_trans a b nm x m = Ok (f x)) /\ w_long a b nm z m = Ok s /\ derivable_pt_lim f z s.
Proof.
  intros a b nm m z A Z M. exists (fun x => if Rltb 0 x then coeff a b m / exp (INR m * x / a) else 0). eexists. split; [|split].
  - intros x. unfold w_trans. replace (Nat.ltb nm m) with false by (symmetry; apply Nat.ltb_ge; exact M). now destruct (Rltb 0 x).
  - unfold w_long. rewrite Rltb_true by exact Z. replace (Nat.ltb nm m) with false by (symmetry; apply Nat.ltb_ge; exact M). reflexivity.
  - assert (D : derivable_pt_lim (fun x => coeff a b m * exp ((- (INR m / a)) * x)) z (coeff a b m * (exp ((- (INR m / a)) * z) * ((- (INR m / a)) * 1)))).
    { apply (derivable_pt_lim_scal (fun x => exp ((- (INR m / a)) * x))). apply (derivable_pt_lim_comp (fun x => (- (INR m / a)) * x) exp); [|apply derivable_pt_lim_exp]. apply (derivable_pt_lim_scal (fun x => x)). apply derivable_pt_lim_id. }
    assert (G : forall x, coeff a b m / exp (INR m * x / a) = coeff a b m * exp (- (INR m / a) * x)) by (intros x; unfold Rdiv at 1; rewrite <- exp_Ropp; f_equal; f_equal; field; exact A).
    intros e P. destruct (D e P) as (d & Dd). assert (K : 0 < Rmin d z) by (apply Rmin_glb_lt; [apply cond_pos|exact Z]). exists (mkposreal _ K). cbn [pos]. intros h H Hh. assert (H1 := Rmin_l d z). assert (H2 := Rmin_r d z). specialize (Dd h H ltac:(lra)).
    assert (HZ : 0 < z + h) by (destruct (Rcase_abs h); [rewrite Rabs_left in Hh by assumption|]; lra). rewrite !Rltb_true by assumption. rewrite !G. replace (- (INR m / a * coeff a b m / exp (INR m * z / a))) with (coeff a b m * (exp (- (INR m / a) * z) * (- (INR m / a) * 1))); [exact Dd|]. transitivity (- (INR m / a) * (coeff a b m / exp (INR m * z / a))); [rewrite G; ring|]. unfold Rdiv. ring.
Qed.
Print Assumptions C445_slope.
(* C446: nothing ahead or at the place of the charge, nothing for the mode of order zero, a decaying push from the wall behind *)
Theorem C446_causal : forall a b nm z m, z <= 0 -> w_long a b nm z m = Ok 0 /\ w_trans a b nm z m = Ok 0.
Proof. intros. unfold w_long, w_trans. now rewrite Rltb_false by lra. Qed.
Print Assumptions C446_causal.
Theorem C446_zero : forall a b nm z, w_long a b nm z 0 = Ok 0 /\ w_trans a b nm z 0 = Ok 0.
Proof. intros. unfold w_long, w_trans, coeff. cbn [INR Nat.mul pow]. destruct (Rltb 0 z); cbn; split; try reflexivity; f_equal; lra. Qed.
Print Assumptions C446_zero.
Theorem C446_decay : forall a b nm m y z, 0 < a -> a <= b -> 0 < y -> y <= z -> (m <= nm)%nat -> exists t s l, w_trans a b nm y m = Ok t /\ w_trans a b nm z m = Ok s /\ w_long a b nm z m = Ok l /\ 0 <= s <= t /\ t <= 2 * (/ (a * a) ^ m - / (b * b) ^ m) /\ l = - (INR m / a) * s.
Proof.
  intros a b nm m y z A B Y YZ M. unfold w_trans, w_long. rewrite !Rltb_true by lra. replace (Nat.ltb nm m) with false by (symmetry; apply Nat.ltb_ge; exact M). do 3 eexists. do 3 (split; [reflexivity|]).
  assert (PA : 0 < a ^ (2 * m)) by (apply pow_lt; lra). assert (PB : a ^ (2 * m) <= b ^ (2 * m)) by (apply pow_incr; lra).
  assert (C : 0 <= coeff a b m) by (unfold coeff; assert (/ b ^ (2 * m) <= / a ^ (2 * m)) by (apply Rinv_le_contravar; assumption); unfold Rdiv; lra).
  assert (I : 0 <= INR m / a) by (apply Rmult_le_pos; [apply pos_INR|left; now apply Rinv_0_lt_compat]).
  assert (E : forall x, coeff a b m / exp (INR m * x / a) = coeff a b m * / exp (INR m / a * x)) by (intros x; unfold Rdiv at 1; do 3 f_equal; field; lra). rewrite !E.
  assert (L : exp (INR m / a * y) <= exp (INR m / a * z)) by (destruct (Rmult_le_compat_l _ _ _ I YZ) as [H|H]; [left; now apply exp_increasing|right; now rewrite H]).
  assert (L0 : 1 <= exp (INR m / a * y)) by (rewrite <- exp_0; destruct (Rmult_le_pos _ y I (Rlt_le _ _ Y)) as [H|H]; [left; now apply exp_increasing|right; now rewrite <- H]).
  assert (P := exp_pos (INR m / a * y)). assert (Pz := exp_pos (INR m / a * z)).
  split; [split; [apply Rmult_le_pos; [exact C|left; now apply Rinv_0_lt_compat]|apply Rmult_le_compat_l; [exact C|now apply Rinv_le_contravar]]|]. split.
  - replace (2 * (/ (a * a) ^ m - / (b * b) ^ m)) with (coeff a b m).
    + rewrite <- (Rmult_1_r (coeff a b m)) at 2. apply Rmult_le_compat_l; [exact C|]. rewrite <- Rinv_1. apply Rinv_le_contravar; lra.
    + unfold coeff. rewrite !pow_mult. replace (a ^ 2) with (a * a) by ring. replace (b ^ 2) with (b * b) by ring. unfold Rdiv. now rewrite !Rmult_1_l.
  - unfold Rdiv at 2. replace (INR m * z / a) with (INR m / a * z) by (field; lra). unfold Rdiv. ring.
Qed.
Print Assumptions C446_decay.
Example C446_ex : coeff 1 2 1 = 3 / 2.
Proof. unfold coeff. cbn [Nat.mul Nat.add pow]. field. Qed.
(* C447: modes above those asked for read beyond the table *)
Theorem C447_modes_refuted : forall a b nm z m, 0 < z -> (nm < m)%nat -> w_long a b nm z m = UB /\ w_trans a b nm z m = UB.
Proof. intros a b nm z m Z M. unfold w_long, w_trans. rewrite Rltb_true by exact Z. apply Nat.ltb_lt in M. now rewrite M. Qed.
Print Assumptions C447_modes_refuted.
