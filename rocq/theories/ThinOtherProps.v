(* C210-C214: gradients of thin lens bends, solenoids and monitors *)
From Coq Require Import ZArith.
From Verif Require Import RBase Rot Cplx CplxFacts Field FieldProps Cov Bunch BunchSpec Optics OpticsSpec OpticsProofs OpticsProps Chromatic ChromaticProps RFMap SympInt SympIntSpec SympIntProofs SympIntProps SympRectProps SympStepProps TransInt TransSpec TransIntProps TransBendProps TransFaceProps ThinInt ThinSpec ThinIntProps ThinRectProps.
Local Open Scope R_scope.

(* The gradient of a bend acts as for the reference momentum of the bunch: particles of the
   same momentum are focused differently in bunches of different reference momentum. *)
Theorem C210_gradient_refuted P0 P0' q ds b : let f := sfield b in let Pd := design_momentum (sh b) q f in let K P := kn P q f 1 in
  0 < P0 -> 0 < P0' -> P0 <> P0' -> eps < Pd -> ds <> 0 -> sh b <> 0 -> stilt b = 0 -> matched (sh b) q f = true -> (forall P, 0 < P -> simple_bend P q f = true) -> 0 < re (K P0) ->
  exists v v' w w', with_dp 0 v = with_dp 0 v' /\ P0 * (1 + vdp v) = P0' * (1 + vdp v') /\
    particle_of (th_bend_step P0 q ds b v) = Ok w /\ particle_of (th_bend_step P0' q ds b v') = Ok w' /\ vy w <> vy w'.
Proof.
  intros f Pd K A A' NE L D H T M S KP.
  assert (PL : forall P w, 0 < P -> particle_of (th_bend_step P q ds b w) = Ok (about_design P Pd (bend_form ds (sh b) (re (K P))) w)).
  { intros P w HP. destruct (sbr_form 6 ds (sh b) (re (K P)) (or_intror eq_refl)) as (X & EX & FX).
    destruct (bend_core P q ds b w (about_design P Pd (bend_form ds (sh b) (re (K P)))) X) as [Y _]; try assumption; try lra; auto.
    - fold f. rewrite (S P HP), <- kn_strength. exact EX.
    - intros x. fold f. rewrite momentum_some by exact H. now apply scaled_some.
    - rewrite Y by apply (S P HP). unfold in_frame. now rewrite T, (Reqb_true 0 0). }
  exists (V6 0 0 1 0 0 (Pd / P0 - 1)), (V6 0 0 1 0 0 (Pd / P0' - 1)). do 2 eexists. split; [reflexivity|]. split; [cbn; field; lra|]. split; [now apply PL|]. split; [now apply PL|].
  assert (KE : re (K P0) * P0 = re (K P0') * P0') by (unfold K, kn; cbn; field; lra).
  assert (KP' : 0 < re (K P0')). { apply Rmult_lt_reg_r with P0'; [exact A'|]. rewrite <- KE, Rmult_0_l. now apply Rmult_lt_0_compat. }
  clear PL S. set (k := re (K P0)) in *. set (k' := re (K P0')) in *. clearbody k k'.
  unfold about_design, carried, bend_form, with_deviation, tbl, sum. cbn. rewrite !Rmult_0_l, !Rmult_0_r, !Rmult_1_r, !Rplus_0_l, !Rplus_0_r. intros E.
  apply Cf_neg_inj in E; auto. rewrite <- E in KE. apply Rmult_eq_reg_l in KE; [contradiction|lra].
Qed.
Print Assumptions C210_gradient_refuted.
(* gradient and curvature in balance: the orbit of another momentum is not displaced at all *)
Theorem C210_balance_refuted P0 q ds b d : let f := sfield b in let h := sh b in
  P0 = design_momentum h q f -> eps < P0 -> ds <> 0 -> h <> 0 -> stilt b = 0 -> matched h q f = true -> simple_bend P0 q f = true -> re (kn P0 q f 1) + h * h = 0 ->
  particle_of (th_bend_step P0 q ds b (V6 0 0 0 0 0 d)) = Ok (V6 0 0 0 0 0 d) /\
  (forall X PX : R -> R, (forall s, derivable_pt_lim X s (PX s) /\ derivable_pt_lim PX s (- (re (kn P0 q f 1) + h * h) * X s + h * d)) -> X 0 = 0 -> PX 0 = 0 -> PX ds = h * d * ds).
Proof.
  intros f h E L D H T M S B. pose proof eps_pos. split.
  - destruct (sbr_form 6 ds (sh b) (re (kn P0 q f 1)) (or_intror eq_refl)) as (X & EX & FX).
    destruct (bend_core P0 q ds b (V6 0 0 0 0 0 d) (about_design P0 (design_momentum h q f) (bend_form ds (sh b) (re (kn P0 q f 1)))) X) as [Y _]; try assumption; try lra; auto.
    + fold f. rewrite S, <- kn_strength. exact EX.
    + intros x. fold f h. rewrite momentum_some by exact H. apply scaled_some; [rewrite <- E; exact L|exact FX].
    + rewrite Y by exact S. unfold in_frame. rewrite T, (Reqb_true 0 0) by reflexivity. rewrite <- E. unfold about_design, carried, bend_form, gh, with_deviation, sum, tbl. fold h. rewrite (Reqb_true _ 0 B). cbn. replace (P0 * (1 + d) / P0 - 1) with d by (field; lra). f_equal. apply v6_eq; try reflexivity; unfold Rdiv; ring.
  - intros X PX HD X0 P0'. rewrite B in HD.
    assert (G : forall s, derivable_pt_lim (fun s => PX s - h * d * s) s 0).
    { intros s. destruct (HD s) as [_ HP]. eapply dlim_eq; [|refine (dlim_minus PX (fun s => h * d * s) s _ _ HP (dlim_mult (fun _ => h * d) (fun s => s) s _ _ (dcst _ s) (derivable_pt_lim_id s)))]. cbv beta. ring. }
    assert (pr : derivable (fun s => PX s - h * d * s)) by (intros s; exists 0; apply G).
    assert (C : constant (fun s => PX s - h * d * s)) by (apply (null_derivative_1 _ pr); intros s; rewrite (derive_pt_eq_0 _ _ _ _ (G s)); reflexivity).
    specialize (C ds 0). cbv beta in C. rewrite P0' in C. lra.
Qed.
Print Assumptions C210_balance_refuted.

Example C208_ex : let b := unit_bend (PI / 2) [mkCx 1 0] in design_momentum (sh b) 1 (sfield b) = 1 /\ eps < 1 /\ matched (sh b) 1 (sfield b) = true /\ eps < Rabs (stilt b) /\ simple_bend 1 1 (sfield b) = true /\
  th_bend_step 1 (-1) 1 b (V6 0 0 0 0 0 0) = Throw Assertion.
Proof.
  intros b. pose proof eps_small. pose proof PI2_1. assert (T : eps < Rabs (stilt b)) by (cbn; rewrite Rabs_pos_eq; lra). split; [apply unit_design|]. split; [lra|]. split; [apply C190_matched; cbn; lra|]. split; [exact T|]. split.
  - unfold simple_bend, strength, b, unit_bend, coef. cbn. rewrite (Reqb_true 0 0) by reflexivity. rewrite Reqb_true by ring. reflexivity.
  - apply C208_wrong_way; auto; cbn; lra.
Qed.
Example C208_kicked_ex : let b := unit_bend 0 [mkCx 1 0; c0; c1] in simple_bend 1 1 (sfield b) = false /\ remainder (sfield b) (mkF (1000000000 / 299792458) [c0; c0; c1]).
Proof.
  split; [unfold simple_bend, highest; cbn; now rewrite andb_false_r|]. unfold remainder, coef. cbn. repeat split. intros [|[|[|n]]] H; try lia; cbn; try reflexivity; destruct n; reflexivity.
Qed.
Example C209_ex : let f := mkF 1 [c0; mkCx 2 0] in let g := mkF 1 [c0; mkCx 2 0; c1] in let P := 299792458 / 1000000000 in
  kn P 1 f 1 = mkCx 2 0 /\ short_field f = true /\ kn P 1 g 1 = mkCx 2 0 /\ short_field g = false /\ lacks 1 g (mkF 1 [c0; c0; c1]).
Proof.
  intros f g P. assert (K : forall h, coef h 1 = mkCx 2 0 -> b0 h = 1 -> kn P 1 h 1 = mkCx 2 0) by (intros h E B; unfold kn; rewrite E, B; unfold P; apply cx_eq; cbn; field).
  split; [now apply K|]. split; [unfold short_field, cnonzero, nonzero, coef, highest; cbn; now rewrite (Reqb_true 0 0)|]. split; [now apply K|]. split; [unfold short_field, highest; cbn; now rewrite andb_false_r|].
  unfold lacks, coef. cbn. repeat split. intros [|[|[|k]]] H; try lia; cbn; try reflexivity; destruct k; reflexivity.
Qed.
Example C210_ex : let b := unit_bend 0 [mkCx 1 0; mkCx 4 0] in let c := unit_bend 0 [mkCx 1 0; mkCx (-1) 0] in design_momentum (sh b) 1 (sfield b) = 1 /\ 0 < re (kn 2 1 (sfield b) 1) /\
  1 = design_momentum (sh c) 1 (sfield c) /\ simple_bend 1 1 (sfield c) = true /\ re (kn 1 1 (sfield c) 1) + sh c * sh c = 0 /\
  (let f := mkF 0 [c0; c1; c1] in b0 f = 0 /\ coef f 1 <> c0 /\ short_field f = false) /\ (let f := mkF 1 [c1] in is_null f = false /\ field_at f (mkCx 0 0) <> c0).
Proof.
  intros b c. split; [apply unit_design|]. split; [unfold kn, b, unit_bend, coef; cbn; lra|]. split; [symmetry; apply unit_design|]. split.
  { unfold simple_bend, strength, c, unit_bend, coef. cbn. rewrite (Reqb_true 0 0) by reflexivity. rewrite Reqb_true by ring. reflexivity. }
  split; [unfold kn, c, unit_bend, coef; cbn; field|]. split.
  - cbv zeta. split; [reflexivity|]. split; [unfold coef; cbn; intros Q; injection Q; lra|]. unfold short_field, highest. cbn. now rewrite andb_false_r.
  - cbv zeta. assert (N : is_null (mkF 1 [c1]) = false) by (unfold is_null, fequal, fequal_tol; cbn [b0]; rewrite Rleb_false; [reflexivity|]; rewrite Rabs_pos_eq by lra; pose proof eps_small; lra). split; [exact N|]. unfold field_at. rewrite N. cbn. intros Q. injection Q. lra.
Qed.

(* ---- solenoids ---- *)
(* strength of a longitudinal field for a particle of charge q and momentum P *)
Definition ks_of (q Bz P : R) : R := q * Bz * (299792458 / 1000000000) / P.
Lemma ks_is P0 q Bz d : P0 <> 0 -> 1 + d <> 0 -> q * Bz / (P0 / eVc) / (1 + d) = ks_of q Bz (P0 * (1 + d)).
Proof. intros N D. unfold ks_of. rewrite eVc_val. field. auto. Qed.
Lemma sol_step P0 q Bz ds v : P0 <> 0 -> ds <> 0 -> eps < Rabs Bz -> 1 + vdp v <> 0 ->
  th_sol_step P0 q Bz ds v = (do M <- lift (solenoid 4 ds (ks_of q Bz (P0 * (1 + vdp v)))); Ok (apply_m 4 M v)).
Proof.
  intros N D B V1. unfold th_sol_step. rewrite (Reqb_false ds 0) by exact D. destruct (fequal Bz 0) eqn:F; [apply fequal_0 in F; lra|]. rewrite (Reqb_false P0 0), (Reqb_false (1 + vdp v) 0) by assumption. cbn [orb]. now rewrite ks_is.
Qed.
Theorem C211_solenoid P0 q Bz d : let ks := ks_of q Bz (P0 * (1 + d)) in P0 <> 0 -> q <> 0 -> eps < Rabs Bz -> 1 + d <> 0 -> exists F, solves 4 (solenoid_motion ks) F /\
  forall ds v, vdp v = d -> eps < Rabs (ks / 2 * ds) -> th_sol_step P0 q Bz ds v = Ok (carried 4 (F ds) v).
Proof.
  intros ks N Q B V1. pose proof eps_pos as EP. assert (NB : Bz <> 0) by (intros ->; rewrite Rabs_R0 in B; lra).
  assert (NK : ks <> 0). { unfold ks, ks_of, Rdiv. repeat apply Rmult_integral_contrapositive_currified; try assumption; try lra. apply Rinv_neq_0_compat. now apply Rmult_integral_contrapositive_currified. }
  exists (fun l => sol_form l ks). split; [apply sol_form_solves; auto|]. intros ds v E R.
  assert (D : ds <> 0) by (intros ->; rewrite Rmult_0_r, Rabs_R0 in R; lra).
  rewrite sol_step by (try assumption; rewrite E; exact V1). rewrite E. fold ks. destruct (sol_ok 4 ds ks (or_introl eq_refl) (or_intror R)) as (M & -> & EM). cbn [lift bind]. f_equal. now apply carried_ok; auto.
Qed.
Print Assumptions C211_solenoid.
Theorem C211_off P0 q Bz ds v : Rabs Bz <= eps \/ ds = 0 -> th_sol_step P0 q Bz ds v = Ok (straight_on ds v).
Proof.
  intros H. unfold th_sol_step. destruct (Reqb_spec ds 0) as [->|D].
  - f_equal. destruct v. unfold straight_on. cbn. f_equal; ring.
  - destruct H as [H|H]; [|contradiction]. apply fequal_0 in H. rewrite H. now rewrite th_drift_ok.
Qed.
Print Assumptions C211_off.
(* the canonical angular momentum about the axis does not change *)
Definition angular (v : vec6) : R := vx v * vyp v - vy v * vxp v.
Theorem C211_angular P0 q Bz ds v v' : P0 <> 0 -> 1 + vdp v <> 0 -> Rabs Bz <= eps \/ eps < Rabs (ks_of q Bz (P0 * (1 + vdp v)) / 2 * ds) -> th_sol_step P0 q Bz ds v = Ok v' ->
  angular v' = angular v /\ vct v' = vct v /\ vdp v' = vdp v.
Proof.
  intros N V1 H E. destruct (Rle_lt_dec (Rabs Bz) eps) as [B|B].
  { rewrite C211_off in E by auto. injection E as <-. unfold angular, straight_on. cbn. split; [ring|auto]. }
  destruct H as [H|H]; [lra|]. pose proof eps_pos. set (ks := ks_of q Bz (P0 * (1 + vdp v))) in *. assert (D : ds <> 0) by (intros ->; rewrite Rmult_0_r, Rabs_R0 in H; lra).
  rewrite sol_step in E by assumption. fold ks in E. destruct (sol_ok 4 ds ks (or_introl eq_refl) (or_intror H)) as (M & EM & FM). rewrite EM in E. cbn [lift bind] in E. apply (f_equal (fun r => match r with Ok x => x | _ => v end)) in E. cbv beta iota in E. rewrite (carried_ok 4 M _ _ (or_introl eq_refl) FM) in E. subst v'.
  split; [|split; reflexivity]. assert (NK : ks <> 0) by (intros Z; rewrite Z in H; unfold Rdiv in H; rewrite !Rmult_0_l, Rabs_R0 in H; lra).
  unfold angular, carried, sol_form, sum, tbl. cbn. assert (Q : cos (ks / 2 * ds) * cos (ks / 2 * ds) = 1 - sin (ks / 2 * ds) * sin (ks / 2 * ds)) by (pose proof (cos_sin (ks / 2 * ds)); lra).
  set (c := cos (ks / 2 * ds)) in *. set (s := sin (ks / 2 * ds)) in *. clearbody c s. destruct v as [x px y py z d]. cbn [vx vxp vy vyp vct vdp]. clear FM EM H.
  assert (Q2 : c * c + s * s = 1) by lra.
  transitivity ((x * py - y * px) * ((c * c + s * s) * (c * c + s * s))); [field; exact NK|]. rewrite Q2. ring.
Qed.
Print Assumptions C211_angular.
(* only the momentum of the particle counts *)
Theorem C211_same_momentum P0 P0' q Bz ds v v' : P0 <> 0 -> P0' <> 0 -> 1 + vdp v <> 0 -> 1 + vdp v' <> 0 -> with_dp 0 v = with_dp 0 v' -> P0 * (1 + vdp v) = P0' * (1 + vdp v') ->
  (do w <- th_sol_step P0 q Bz ds v; Ok (with_dp 0 w)) = (do w <- th_sol_step P0' q Bz ds v'; Ok (with_dp 0 w)).
Proof.
  intros N N' V V' Q E. destruct v as [x px y py z d], v' as [x' px' y' py' z' d']. unfold with_dp in Q. cbn [vx vxp vy vyp vct vdp] in *. injection Q as <- <- <- <- <-.
  destruct (Req_dec ds 0) as [->|D]; [unfold th_sol_step; now rewrite (Reqb_true 0 0)|]. destruct (Rle_lt_dec (Rabs Bz) eps) as [B|B].
  { rewrite !C211_off by auto. reflexivity. }
  rewrite !sol_step by (cbn; assumption). cbn [vdp]. rewrite E. destruct (lift _) as [M| |]; reflexivity.
Qed.
Print Assumptions C211_same_momentum.
(* successive steps *)
Theorem C211_steps P0 q Bz a b v : let ks := ks_of q Bz (P0 * (1 + vdp v)) in P0 <> 0 -> q <> 0 -> eps < Rabs Bz -> 1 + vdp v <> 0 -> eps < Rabs (ks / 2 * a) -> eps < Rabs (ks / 2 * b) -> eps < Rabs (ks / 2 * (a + b)) ->
  (do w <- th_sol_step P0 q Bz a v; th_sol_step P0 q Bz b w) = th_sol_step P0 q Bz (a + b) v.
Proof.
  intros ks N Q B V1 A1 A2 A3. pose proof eps_pos. assert (NZ : forall s, eps < Rabs (ks / 2 * s) -> s <> 0) by (intros s X ->; rewrite Rmult_0_r, Rabs_R0 in X; lra).
  assert (NK : ks <> 0) by (intros Z; rewrite Z in A1; unfold Rdiv in A1; rewrite !Rmult_0_l, Rabs_R0 in A1; lra).
  assert (ST : forall s w, vdp w = vdp v -> eps < Rabs (ks / 2 * s) -> th_sol_step P0 q Bz s w = Ok (carried 4 (sol_form s ks) w)).
  { intros s w E X. rewrite sol_step by (try assumption; try (now apply NZ); rewrite E; exact V1). rewrite E. fold ks. destruct (sol_ok 4 s ks (or_introl eq_refl) (or_intror X)) as (M & -> & EM). cbn [lift bind]. f_equal. apply carried_ok; auto. }
  rewrite !ST by auto. cbn [bind]. rewrite ST by auto. f_equal.
  rewrite (carried_meq 4 _ _ v (or_introl eq_refl) (sol_form_plus 4 a b ks (or_introl eq_refl) NK)). unfold carried, times. cbv zeta. set (A := sol_form a ks). set (C := sol_form b ks). unfold sum. cbn. apply v6_eq; try reflexivity; ring.
Qed.
Print Assumptions C211_steps.
(* C212: when the turn of a step is below the comparison tolerance, or the bunch carries no
   charge, the particles do not advance *)
Theorem C212_weak_refuted P0 q Bz ds px py z d : P0 <> 0 -> ds <> 0 -> eps < Rabs Bz -> 1 + d <> 0 -> Rabs (ks_of q Bz (P0 * (1 + d)) / 2 * ds) <= eps ->
  exists w, th_sol_step P0 q Bz ds (V6 0 px 0 py z d) = Ok w /\ vx w = 0 /\ vy w = 0.
Proof.
  intros N D B V1 S. rewrite sol_step by assumption. cbn [vdp]. unfold solenoid. apply fequal_0 in S. cbn [Nat.leb]. rewrite S. cbn [lift bind]. eexists. split; [reflexivity|]. unfold apply_m, vof, mset, mid, msum. cbn. split; ring.
Qed.
Print Assumptions C212_weak_refuted.
Theorem C212_neutral_refuted P0 Bz ds v : P0 <> 0 -> eps < Rabs Bz -> 1 + vdp v <> 0 -> th_sol_step P0 0 Bz ds v = Ok v.
Proof.
  intros N B V1. destruct (Req_dec ds 0) as [->|D]; [unfold th_sol_step; now rewrite (Reqb_true 0 0)|]. rewrite sol_step by assumption.
  assert (K : ks_of 0 Bz (P0 * (1 + vdp v)) = 0) by (unfold ks_of, Rdiv; ring). rewrite K. unfold solenoid. replace (0 / 2 * ds) with 0 by (unfold Rdiv; ring). assert (F : fequal 0 0 = true) by (apply fequal_0; rewrite Rabs_R0; pose proof eps_pos; lra). cbn [Nat.leb]. rewrite F, cos_0, sin_0. cbn [lift bind]. f_equal.
  unfold apply_m, vof, mset, mid, msum. cbn. destruct v as [x px y py z d]. cbn. apply v6_eq; try reflexivity; unfold Rdiv; ring.
Qed.
Print Assumptions C212_neutral_refuted.
Example C212_ex : Rabs (ks_of 1 (/ 2 ^ 51) (1 * (1 + 0)) / 2 * 1) <= eps /\ eps < Rabs (/ 2 ^ 51).
Proof.
  assert (P : 0 < / 2 ^ 51) by (apply Rinv_0_lt_compat, pow_lt; lra). assert (E : / 2 ^ 51 = 2 * eps) by (unfold eps; change (2 ^ 52) with (2 * 2 ^ 51); field; apply pow_nonzero; lra).
  pose proof eps_pos. unfold ks_of. rewrite E. split; rewrite Rabs_pos_eq; lra.
Qed.
Example C211_ex : eps < Rabs 2 /\ eps < Rabs (ks_of 1 2 (1 * (1 + 1)) / 2 * 3) /\ angular (V6 1 0 0 1 0 1) = 1.
Proof. pose proof eps_small. unfold ks_of, angular. cbn. split; [|split]; try (rewrite Rabs_pos_eq; lra); lra. Qed.

(* ---- monitors ---- *)
Lemma straight_plus a b v : straight_on b (straight_on a v) = straight_on (a + b) v.
Proof. unfold straight_on. cbn. f_equal; ring. Qed.
Lemma straight_0 v : straight_on 0 v = v.
Proof. destruct v. unfold straight_on. cbn. f_equal; ring. Qed.
Lemma mon_step_long len mp z ds v : len <> 0 -> mon_step len mp z ds v =
  Ok (straight_on ds v, if Rltb (mp + len / 2) (z + ds) then [straight_on (mp + len / 2 - z) v] else []).
Proof.
  intros N. unfold mon_step. rewrite (Reqb_false len 0) by exact N. cbv zeta. destruct (Rltb _ _); rewrite !th_drift_ok; [|reflexivity]. rewrite straight_plus. repeat f_equal. ring.
Qed.
(* a monitor of some length, in any steps: a drift; each measurement sees the particle where
   the measurement point is; one is made by every step that ends beyond that point *)
Theorem C213_track len mp : len <> 0 -> forall l z v, mon_track len mp z l v =
  Ok (straight_on (total_length l) v, repeat (straight_on (mp + len / 2 - z) v) (beyond (mp + len / 2) (ends z l))).
Proof.
  intros N. induction l as [|ds l IH]; intros z v.
  - cbn. now rewrite straight_0.
  - cbn [mon_track]. rewrite mon_step_long by exact N. cbn [bind fst snd]. rewrite IH. cbn [bind fst snd]. rewrite !straight_plus. replace (ds + (mp + len / 2 - (z + ds))) with (mp + len / 2 - z) by ring.
    cbn [total_length fold_right ends]. unfold beyond. cbn [filter]. destruct (Rltb _ _); reflexivity.
Qed.
Print Assumptions C213_track.
(* in one step: measured once, at the point, unless that is the exit *)
Theorem C213_whole len mp v : 0 < len -> - len / 2 <= mp < len / 2 -> mon_track len mp 0 [len] v = Ok (straight_on len v, [straight_on (len / 2 + mp) v]).
Proof.
  intros L M. rewrite C213_track by lra. cbn [total_length fold_right ends beyond]. unfold beyond. cbn [filter]. rewrite Rltb_true by lra. cbn [length repeat]. replace (len + 0) with len by ring. replace (mp + len / 2 - 0) with (len / 2 + mp) by field. reflexivity.
Qed.
Print Assumptions C213_whole.
Theorem C213_thin mp z v : mon_track 0 mp z [0] v = Ok (v, [v]) /\ forall ds, ds <> 0 -> mon_track 0 mp z [ds] v = Throw Assertion.
Proof. cbn. unfold mon_step. rewrite (Reqb_true 0 0) by reflexivity. cbn. split; [reflexivity|]. intros ds D. now rewrite (Reqb_false ds 0). Qed.
Print Assumptions C213_thin.
Example C213_ex : mon_track 2 (-1/2) 0 [2] (V6 0 1 0 0 0 0) = Ok (V6 2 1 0 0 0 0, [V6 (1/2) 1 0 0 0 0]).
Proof.
  rewrite C213_whole by lra. assert (A : straight_on 2 (V6 0 1 0 0 0 0) = V6 2 1 0 0 0 0) by (apply v6_eq; cbn; lra). assert (B : straight_on (2 / 2 + -1/2) (V6 0 1 0 0 0 0) = V6 (1/2) 1 0 0 0 0) by (apply v6_eq; cbn; lra). now rewrite A, B.
Qed.
(* C214: a monitor tracked in more steps measures again after each step beyond the point ... *)
Theorem C214_repeated_refuted len mp a b v : a + b = len -> 0 < a -> 0 < b -> mp + len / 2 < a ->
  mon_track len mp 0 [a; b] v = Ok (straight_on len v, [straight_on (len / 2 + mp) v; straight_on (len / 2 + mp) v]).
Proof.
  intros T A B M. rewrite C213_track by lra. unfold beyond. cbn [total_length fold_right ends filter]. rewrite !Rltb_true by lra. cbn [length repeat]. replace (a + (b + 0)) with len by lra. replace (mp + len / 2 - 0) with (len / 2 + mp) by field. reflexivity.
Qed.
Print Assumptions C214_repeated_refuted.
(* ... and one that measures at its exit never does *)
Theorem C214_exit_refuted len l v : 0 < len -> total_length l = len -> Forall (fun d => 0 <= d) l -> mon_track len (len / 2) 0 l v = Ok (straight_on len v, []).
Proof.
  intros L T P. rewrite C213_track by lra. rewrite T. assert (Z : beyond (len / 2 + len / 2) (ends 0 l) = 0%nat).
  { assert (H : forall l z, Forall (fun d => 0 <= d) l -> z + total_length l <= len -> beyond (len / 2 + len / 2) (ends z l) = 0%nat).
    { clear. induction l as [|d l IH]; intros z P H; [reflexivity|]. inversion P as [|? ? P1 P2]; subst. cbn [total_length fold_right] in H. fold (total_length l) in H. unfold beyond in *. cbn [ends filter].
      assert (TP : 0 <= total_length l) by (clear -P2; induction P2; [cbn; lra|cbn in *; unfold total_length in *; lra]). rewrite Rltb_false by lra. apply IH; [exact P2|lra]. }
    apply H; [exact P|lra]. }
  rewrite Z. reflexivity.
Qed.
Print Assumptions C214_exit_refuted.
Example C214_ex : (1 + 1 = 2 /\ -1/2 + 2 / 2 < 1) /\ total_length [1; 1] = 2.
Proof. cbn. lra. Qed.
