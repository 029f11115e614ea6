(* C191-C192: the second-order map of a bend without gradient *)
From Coq Require Import ZArith Lia.
From Verif Require Import RBase Cov Bunch BunchSpec BunchProofs Optics OpticsSpec OpticsProofs SparseMap SparseMapSpec SparseMapProofs SparseMapProps SympIntSpec BendMap BendMapSpec BendMapProofs.
Local Open Scope R_scope.

(* closed form; u = 1/beta, w = 1/(beta gamma)^2 *)
Definition bend2 (h u w s : R) (x : vec6) : vec6 :=
  let C := cos (h * s) in let S := sin (h * s) / h in let E := (1 - C) / (h * h) in
  V6 (C * vx x + S * vxp x + h * E * vdp x
       - h * h * h * (S * S) / 2 * (vx x * vx x) + h * S * C * (vx x * vxp x) + h * h * (S * S) * (vx x * vdp x) + C * h * E / 2 * (vxp x * vxp x)
       - u * S * C * (vxp x * vdp x) - h * (S * S) / 2 * (vdp x * vdp x) - h * E / 2 * (vyp x * vyp x))
     (- h * h * S * vx x + C * vxp x + h * S * vdp x - h * S / 2 * (vxp x * vxp x + vyp x * vyp x) - w * h * S / 2 * (vdp x * vdp x))
     (vy x + s * vyp x + h * S * (vx x * vyp x) + h * E * (vxp x * vyp x) - u * S * (vyp x * vdp x))
     (vyp x)
     (- h * S * vx x - h * E * vxp x + vct x + (S - s) * vdp x - S / 2 * (vxp x * vxp x + vyp x * vyp x)
       + w * (h * S * (vx x * vdp x) + h * E * (vxp x * vdp x) - 3 * u / 2 * S * (vdp x * vdp x)))
     (vdp x).
Definition ib (gamma : R) : R := / sqrt (1 - 1 / gamma / gamma).
Definition ibg (gamma : R) : R := ib gamma * ib gamma / (gamma * gamma).
Lemma beta_pos gamma : 1 < gamma * gamma -> 0 < sqrt (1 - 1 / gamma / gamma) /\ gamma <> 0.
Proof.
  intros H. assert (gamma <> 0) by nra. split; [|assumption]. apply sqrt_lt_R0.
  replace (1 / gamma / gamma) with (/ (gamma * gamma)) by (field; assumption).
  assert (/ (gamma * gamma) < / 1) by (apply Rinv_lt_contravar; lra). lra.
Qed.
Lemma sector_tm_ok w s h gamma p : h <> 0 -> 1 < gamma * gamma ->
  exists m, sector_tm w s h gamma = Ok m /\ rt_apply m p = Ok (mkP (bend2 h (ib gamma) (ibg gamma) s (pv p)) (pid p)).
Proof.
  intros NZ G. unfold sector_tm. destruct (Reqb_spec h 0); [contradiction|]. destruct (Rleb_spec (gamma * gamma) 1); [lra|].
  destruct (beta_pos gamma G) as [B GZ].
  apply rt_result; [numbers|unfold sector_second; numbers|]. intros i Hi. destruct i as [|i]; [lia|]. assert (Hi' : (i < 6)%nat) by lia.
  unfold bend2, sector_second, ibg, ib. cbn zeta. set (b := sqrt (1 - 1 / gamma / gamma)) in *. clearbody b.
  assert (H2 : sin (h * s / 2) ^ 2 = (1 - cos (h * s)) / 2).
  { pose proof (cos_2a_sin (h * s / 2)) as E. replace (2 * (h * s / 2)) with (h * s) in E by field. rewrite E. field. }
  pose proof (cos_sin (h * s)) as P.
  six i; cbn -[pow]; rewrite ?H2; generalize dependent (cos (h * s)); generalize dependent (sin (h * s)); intros; field; repeat split; lra.
Qed.
Definition bend1 (h s : R) (x : vec6) : vec6 := match sector_bend 6 s h 0 with Ok M => apply_m 6 M x | _ => x end.
Lemma bend1_form h s x : h <> 0 ->
  let C := cos (h * s) in let S := sin (h * s) / h in let E := (1 - C) / (h * h) in
  bend1 h s x = V6 (C * vx x + S * vxp x + h * E * vdp x) (- h * h * S * vx x + C * vxp x + h * S * vdp x) (vy x + s * vyp x) (vyp x)
                   (- h * S * vx x - h * E * vxp x + vct x + (S - s) * vdp x) (vdp x).
Proof.
  intros NZ. cbn zeta. unfold bend1. destruct (sbr_form 6 s h 0 (or_intror eq_refl)) as (M & E & F). unfold sector_bend. rewrite E.
  assert (V : forall i, (i < 6)%nat -> coord i (apply_m 6 M x) = sum (fun j => bend_form s h 0 i j * coord j x) (seq 0 6)).
  { intros i Hi. rewrite apply_coord by exact Hi. apply Nat.ltb_lt in Hi as Hb. rewrite Hb. apply sum_ext. intros j J. apply in_seq in J. now rewrite F by lia. }
  apply vec6_eq. intros i Hi. rewrite V by exact Hi. unfold bend_form, gh, Cf, Sf. rewrite Ropp_0, Rplus_0_l.
  destruct (Reqb_spec 0 0); [|lra]. destruct (Reqb_spec (h * h) 0); [nra|]. destruct (Rltb_spec 0 (h * h)); [|nra].
  assert (S1 : sin (sqrt (h * h) * s) / sqrt (h * h) = sin (h * s) / h /\ cos (sqrt (h * h) * s) = cos (h * s)).
  { destruct (Rle_dec 0 h) as [P|P].
    - rewrite sqrt_square by exact P. auto.
    - replace (h * h) with (- h * - h) by ring. rewrite sqrt_square by lra. replace (- h * s) with (- (h * s)) by ring. rewrite sin_neg, cos_neg. split; [field; lra|reflexivity]. }
  destruct S1 as [S1 S2]. rewrite S1, S2. clear - NZ Hi. six i; cbn; field; lra.
Qed.
Lemma bend2_solves h : h <> 0 -> solves2 (bend_motion h 0) (bend_canonical h) (bend1 h) (bend2 h 1 0).
Proof.
  intros NZ. split.
  - intros x. unfold bend2. rewrite Rmult_0_r, cos_0, sin_0. destruct x. cbn. f_equal; field; assumption.
  - intros x i s Hi. rewrite bend1_form by exact NZ. unfold bend2 at 1. cbn zeta.
    pose proof (cos_sin (h * s)) as P.
    six i; cbn -[bend2 path_term]; (eapply dlim_eq; [|dl]); cbv beta; unfold bend2, path_term; cbn;
      set (c := cos (h * s)) in *; set (t := sin (h * s)) in *; clearbody c t.
    all: assert (CC : c * c = 1 - t * t) by lra; clear P; try (field_simplify_eq; [ring [CC]|auto]).
Qed.
(* the same by coefficients *)
Definition bend_R (h s : R) : mtx :=
  let C := cos (h * s) in let S := sin (h * s) / h in let E := (1 - C) / (h * h) in
  tbl [[C; S; 0; 0; 0; h * E]; [- h * h * S; C; 0; 0; 0; h * S]; [0; 0; 1; s; 0; 0]; [0; 0; 0; 1; 0; 0]; [- h * S; - h * E; 0; 0; 1; S - s]; [0; 0; 0; 0; 0; 1]].
Definition bend_T (h u w s : R) (i : nat) : mtx :=
  let C := cos (h * s) in let S := sin (h * s) / h in let E := (1 - C) / (h * h) in
  match i with
  | 0%nat => tbl [[- h * h * h * (S * S) / 2; h * S * C; 0; 0; 0; h * h * (S * S)]; [0; C * h * E / 2; 0; 0; 0; - u * S * C]; []; [0; 0; 0; - h * E / 2]; []; [0; 0; 0; 0; 0; - h * (S * S) / 2]]
  | 1%nat => tbl [[]; [0; - h * S / 2]; []; [0; 0; 0; - h * S / 2]; []; [0; 0; 0; 0; 0; - w * h * S / 2]]
  | 2%nat => tbl [[0; 0; 0; h * S]; [0; 0; 0; h * E]; []; [0; 0; 0; 0; 0; - u * S]]
  | 4%nat => tbl [[0; 0; 0; 0; 0; w * h * S]; [0; - S / 2; 0; 0; 0; w * h * E]; []; [0; 0; 0; - S / 2]; []; [0; 0; 0; 0; 0; - 3 * w * u / 2 * S]]
  | _ => fun _ _ => 0
  end.
Lemma bend2_quadmap h u w s : bend2 h u w s = quadmap (bend_R h s) (bend_T h u w s).
Proof.
  apply FunctionalExtensionality.functional_extensionality. intros x. apply vec6_eq. intros i Hi. unfold quadmap. rewrite coord_vof by exact Hi.
  unfold bend2, bend_R, bend_T. cbn zeta. set (C := cos (h * s)). set (S := sin (h * s) / h). set (E := (1 - C) / (h * h)). clearbody S E. six i; cbn; field.
Qed.

(* ---- C191 ---- *)
(* what a finite energy changes in the map: 1/beta in two coefficients, and terms
   with 1/(beta gamma)^2 *)
Definition slow_terms (gamma h s : R) (x : vec6) : vec6 :=
  let beta := sqrt (1 - 1 / gamma / gamma) in let w := / (beta * beta * gamma * gamma) in
  let C := cos (h * s) in let S := sin (h * s) / h in
  V6 (- (/ beta - 1) * S * C * vxp x * vdp x)
     (- w * h * S / 2 * (vdp x * vdp x))
     (- (/ beta - 1) * S * vyp x * vdp x)
     0
     (w * (h * S * vx x + (1 - C) / h * vxp x - 3 / (2 * beta) * S * vdp x) * vdp x)
     0.
Definition vsum (a b : vec6) : vec6 := V6 (vx a + vx b) (vxp a + vxp b) (vy a + vy b) (vyp a + vyp b) (vct a + vct b) (vdp a + vdp b).
Theorem C191_bend h : h <> 0 -> exists F L,
  (forall s, exists M, sector_bend 6 s h 0 = Ok M /\ forall x, L s x = apply_m 6 M x) /\
  solves2 (bend_motion h 0) (bend_canonical h) L F /\ (forall s, symplectic2 (F s)) /\
  forall w s gamma p, 1 < gamma * gamma -> exists m, sector_tm w s h gamma = Ok m /\ rt_apply m p = Ok (mkP (vsum (F s (pv p)) (slow_terms gamma h s (pv p))) (pid p)).
Proof.
  intros NZ. exists (bend2 h 1 0), (bend1 h). split; [|split; [now apply bend2_solves|split]].
  - intros s. destruct (sbr_form 6 s h 0 (or_intror eq_refl)) as (M & E & _). exists M. unfold bend1, sector_bend. rewrite E. auto.
  - intros s. rewrite bend2_quadmap. apply symplectic2_iff. pose proof (cos_sin (h * s)) as P.
    unfold bend_R, bend_T; cbn zeta. set (c := cos (h * s)) in *. set (t := sin (h * s)) in *. clearbody c t. assert (CC : c * c = 1 - t * t) by lra. clear P. split.
    + intros i j Hi Hj. six i; six j; cbn; try ring; (field_simplify_eq; [ring [CC]|auto]).
    + intros i j m Hi Hj Hm. unfold balance. six i; six j; six m; cbn; try ring; (field_simplify_eq; [ring [CC]|auto]).
  - intros w s gamma p G. destruct (sector_tm_ok w s h gamma p NZ G) as (m & E & A). exists m. split; [exact E|]. rewrite A. do 2 f_equal.
    destruct (beta_pos gamma G) as [B GZ]. unfold bend2, vsum, slow_terms, ibg, ib. cbn zeta. set (b := sqrt (1 - 1 / gamma / gamma)) in *. clearbody b. cbn.
    f_equal; field; repeat split; lra.
Qed.
Print Assumptions C191_bend.
Lemma ib_facts gamma : 1 < gamma * gamma -> let u := ib gamma in 1 < u /\ u * u = 1 + / (gamma * gamma - 1) /\ ibg gamma = / (gamma * gamma - 1) /\ u - 1 <= / (gamma * gamma - 1).
Proof.
  intros G. cbn zeta. unfold ibg. set (u := ib gamma). unfold ib in u. destruct (beta_pos gamma G) as [B GZ]. set (b := sqrt (1 - 1 / gamma / gamma)) in *.
  assert (BB : b * b = 1 - / (gamma * gamma)).
  { unfold b. rewrite sqrt_sqrt; [field; assumption|]. replace (1 / gamma / gamma) with (/ (gamma * gamma)) by (field; assumption). assert (/ (gamma * gamma) < / 1) by (apply Rinv_lt_contravar; lra). lra. }
  assert (UU : u * u = 1 + / (gamma * gamma - 1)).
  { unfold u. replace (/ b * / b) with (/ (b * b)) by (field; lra). rewrite BB. field. repeat split; try assumption; nra. }
  assert (IP : 0 < / (gamma * gamma - 1)) by (apply Rinv_0_lt_compat; lra).
  assert (U0 : 0 < u) by (unfold u; now apply Rinv_0_lt_compat). assert (U1 : 1 < u) by nra.
  repeat split; try assumption; [|nra]. rewrite UU. field. repeat split; try assumption; nra.
Qed.
(* the deviation dies out like 1/(gamma^2 - 1) *)
Theorem C191_high_energy h s x : exists B, forall gamma i, 2 <= gamma * gamma -> (i < 6)%nat -> Rabs (coord i (slow_terms gamma h s x)) <= B / (gamma * gamma - 1).
Proof.
  set (C := cos (h * s)). set (S := sin (h * s) / h).
  set (B0 := Rabs (S * C * vxp x * vdp x)). set (B1 := Rabs (h * S / 2 * (vdp x * vdp x))). set (B2 := Rabs (S * vyp x * vdp x)).
  set (B4 := Rabs ((h * S * vx x + (1 - C) / h * vxp x) * vdp x) + 3 * Rabs (S * vdp x * vdp x)).
  assert (P0 : 0 <= B0) by apply Rabs_pos. assert (P1 : 0 <= B1) by apply Rabs_pos. assert (P2 : 0 <= B2) by apply Rabs_pos.
  assert (P4 : 0 <= B4) by (unfold B4; pose proof (Rabs_pos ((h * S * vx x + (1 - C) / h * vxp x) * vdp x)); pose proof (Rabs_pos (S * vdp x * vdp x)); lra).
  exists (B0 + B1 + B2 + B4). intros gamma i G Hi. assert (G' : 1 < gamma * gamma) by lra. destruct (ib_facts gamma G') as (U1 & UU & W & U2). destruct (beta_pos gamma G') as [BP GZ].
  assert (Wb : / (sqrt (1 - 1 / gamma / gamma) * sqrt (1 - 1 / gamma / gamma) * gamma * gamma) = ibg gamma) by (unfold ibg, ib; field; lra).
  assert (Ub : 3 / (2 * sqrt (1 - 1 / gamma / gamma)) = 3 / 2 * ib gamma) by (unfold ib; field; lra).
  unfold slow_terms. cbn zeta. rewrite Wb, Ub. fold (ib gamma). fold C S. unfold Rdiv. rewrite W in *. set (u := ib gamma) in *. set (q := / (gamma * gamma - 1)) in *.
  assert (QP : 0 < q <= 1). { split; [apply Rinv_0_lt_compat; lra|]. unfold q. rewrite <- Rinv_1. apply Rinv_le_contravar; lra. }
  assert (U3 : u <= 2) by lra.
  assert (TR : forall a b, Rabs (a - b) <= Rabs a + Rabs b) by (intros; unfold Rminus; eapply Rle_trans; [apply Rabs_triang|]; rewrite Rabs_Ropp; lra).
  clearbody q u C S. six i; cbn [coord vx vxp vy vyp vct vdp].
  - replace (- (u - 1) * S * C * vxp x * vdp x) with (- ((u - 1) * (S * C * vxp x * vdp x))) by ring. rewrite Rabs_Ropp, Rabs_mult, (Rabs_right (u - 1)) by lra. fold B0. nra.
  - replace (- q * h * S * / 2 * (vdp x * vdp x)) with (- (q * (h * S / 2 * (vdp x * vdp x)))) by (unfold Rdiv; ring). rewrite Rabs_Ropp, Rabs_mult, (Rabs_right q) by lra. fold B1. nra.
  - replace (- (u - 1) * S * vyp x * vdp x) with (- ((u - 1) * (S * vyp x * vdp x))) by ring. rewrite Rabs_Ropp, Rabs_mult, (Rabs_right (u - 1)) by lra. fold B2. nra.
  - rewrite Rabs_R0. nra.
  - replace (q * (h * S * vx x + (1 - C) * / h * vxp x - 3 * / 2 * u * S * vdp x) * vdp x)
      with (q * ((h * S * vx x + (1 - C) / h * vxp x) * vdp x - 3 / 2 * u * (S * vdp x * vdp x))) by (unfold Rdiv; ring).
    rewrite Rabs_mult, (Rabs_right q) by lra.
    assert (Rabs ((h * S * vx x + (1 - C) / h * vxp x) * vdp x - 3 / 2 * u * (S * vdp x * vdp x)) <= B4).
    { unfold B4. eapply Rle_trans; [apply TR|]. rewrite (Rabs_mult (3 / 2 * u)), (Rabs_right (3 / 2 * u)) by lra. pose proof (Rabs_pos (S * vdp x * vdp x)). nra. }
    nra.
  - rewrite Rabs_R0. nra.
Qed.
Print Assumptions C191_high_energy.
(* outside: no curvature, or no relativistic gamma *)
Theorem C191_domain w s h gamma : h = 0 \/ gamma * gamma <= 1 -> sector_tm w s h gamma = UB.
Proof. intros H. unfold sector_tm. destruct (Reqb_spec h 0); [reflexivity|]. destruct H as [H|H]; [contradiction|]. destruct (Rleb_spec (gamma * gamma) 1); [reflexivity|lra]. Qed.

(* ---- C192: symplectic to second order at every energy ---- *)
Theorem C192_finite_energy_refuted w s h gamma : h <> 0 -> 1 < gamma * gamma -> sin (h * s) <> 0 -> cos (h * s) <> 0 ->
  exists F, (forall p, exists m, sector_tm w s h gamma = Ok m /\ rt_apply m p = Ok (mkP (F (pv p)) (pid p))) /\ ~ symplectic2 F.
Proof.
  intros NZ G S0 C0. exists (bend2 h (ib gamma) (ibg gamma) s). split; [intros p; now apply sector_tm_ok|].
  rewrite bend2_quadmap. intros Y. apply symplectic2_iff in Y. destruct Y as [_ Y]. specialize (Y 0 1 5 ltac:(lia) ltac:(lia) ltac:(lia))%nat.
  destruct (ib_facts gamma G) as (U & _). unfold balance, bend_R, bend_T in Y. cbn in Y.
  assert (Z : sin (h * s) * sin (h * s) * cos (h * s) * (1 - ib gamma) = 0) by (rewrite <- Y; field; assumption).
  apply Rmult_integral in Z. destruct Z as [Z|Z]; [|lra]. apply Rmult_integral in Z. destruct Z as [Z|Z]; [|contradiction]. apply Rmult_integral in Z. tauto.
Qed.
Print Assumptions C192_finite_energy_refuted.

(* ---- C193: a bend of vanishing curvature is a drift ---- *)
Lemma sin_near : exists r, 0 < r /\ forall z, z <> 0 -> Rabs z < r -> / 2 <= sin z / z.
Proof.
  destruct (derivable_pt_lim_sin_0 (/ 2) ltac:(lra)) as (d & D). exists d. split; [apply cond_pos|]. intros z Z Hz. specialize (D z Z Hz).
  rewrite Rplus_0_l, sin_0, Rminus_0_r in D. apply Rabs_def2 in D. lra.
Qed.
Theorem C193_straight_refuted w s gamma b d : 1 < gamma * gamma -> s <> 0 ->
  exists r, 0 < r /\ forall h, h <> 0 -> Rabs h < r -> exists m m' v v',
    sector_tm w s h gamma = Ok m /\ drift_tm w s = Ok m' /\
    rt_apply m (mkP (V6 0 0 0 b 0 d) 0%Z) = Ok (mkP v 0%Z) /\ rt_apply m' (mkP (V6 0 0 0 b 0 d) 0%Z) = Ok (mkP v' 0%Z) /\
    Rabs (s * b * d) / 2 <= Rabs (vy v - vy v').
Proof.
  intros G S0. destruct sin_near as (r & R0 & Hr). assert (SP : 0 < Rabs s) by now apply Rabs_pos_lt.
  exists (r / Rabs s). split; [now apply Rdiv_lt_0_compat|]. intros h NZ Hh.
  set (p := mkP (V6 0 0 0 b 0 d) 0%Z). destruct (sector_tm_ok w s h gamma p NZ G) as (m & E & A). destruct (drift_tm_ok w s p) as (m' & E' & A').
  exists m, m', (bend2 h (ib gamma) (ibg gamma) s (pv p)), (drift2 s (pv p)). repeat (split; [assumption|]).
  unfold p, bend2, drift2. cbn. destruct (ib_facts gamma G) as (U & _). set (u := ib gamma) in *.
  assert (Z : h * s <> 0) by (apply Rmult_integral_contrapositive; auto).
  assert (B : / 2 <= sin (h * s) / (h * s)).
  { apply Hr; [exact Z|]. rewrite Rabs_mult. apply (Rmult_lt_compat_r (Rabs s)) in Hh; [|exact SP]. replace (r / Rabs s * Rabs s) with r in Hh by (field; lra). exact Hh. }
  replace (0 + s * b + h * (sin (h * s) / h) * (0 * b) + h * ((1 - cos (h * s)) / (h * h)) * (0 * b) - u * (sin (h * s) / h) * (b * d) - (0 + s * b))
    with (- (u * (sin (h * s) / (h * s)) * (s * b * d))) by (field; auto).
  rewrite Rabs_Ropp. set (k := sin (h * s) / (h * s)) in *. rewrite (Rabs_mult (u * k)), (Rabs_right (u * k)) by nra. pose proof (Rabs_pos (s * b * d)). assert (/ 2 <= u * k) by nra. nra.
Qed.
Print Assumptions C193_straight_refuted.
Example C191_ex : 1 <> 0 /\ 1 < 2 * 2 /\ sin (1 * 1) <> 0 /\ cos (1 * 1) <> 0 /\
  bend2 2 1 0 (PI / 4) (V6 1 1 0 1 0 0) = V6 (-3 / 4) (-3) (1 + PI / 4 + / 2) 1 (-2) 0.
Proof.
  rewrite Rmult_1_r. pose proof PI_4 as P4. pose proof PI2_1 as P1. assert (0 < PI) by apply PI_RGT_0.
  assert (S1 : 0 < sin 1) by (apply sin_gt_0; lra). assert (C1 : 0 < cos 1) by (apply cos_gt_0; lra). repeat split; try lra.
  unfold bend2. replace (2 * (PI / 4)) with (PI / 2) by field. rewrite cos_PI2, sin_PI2. cbn. f_equal; field.
Qed.
