From Coq Require Import ZArith Lia Psatz.
From Verif Require Import RBase Rot Cplx Field Cov Bunch BunchSpec BunchProofs Optics OpticsSpec OpticsProofs Chromatic ChromaticProps SympInt SympIntSpec.
Local Open Scope R_scope.

(* ---- one formula for the three linear maps ---- *)
Definition flow (h k1 s : R) (v : vec6) : vec6 :=
  let dp := vdp v in let d1 := 1 + dp in let j1 := k1 + h * h in
  let C := Cf (j1 / d1) s in let S := Sf (j1 / d1) s in
  let Cy := Cf (- k1 / d1) s in let Sy := Sf (- k1 / d1) s in
  let xe := h * dp / j1 in let X := vx v - xe in
  let px := vxp v in let py := vyp v in let y := vy v in
  V6 (xe + X * C + px / d1 * S) (px * C - j1 * X * S)
     (y * Cy + py / d1 * Sy) (py * Cy + k1 * y * Sy)
     (vct v - h * xe * s - h * (X * S + px * (1 - C) / j1)
        - (j1 * (X * X) * (s - S * C) / (4 * d1) - j1 * X * px * (S * S) / (2 * (d1 * d1)) + px * px * (s + S * C) / (4 * (d1 * d1)))
        - (- k1 * (y * y) * (s - Sy * Cy) / (4 * d1) + k1 * y * py * (Sy * Sy) / (2 * (d1 * d1)) + py * py * (s + Sy * Cy) / (4 * (d1 * d1))))
     dp.

Lemma sqrt_pos_sq a : 0 < a -> 0 < sqrt a /\ sqrt a * sqrt a = a.
Proof. intros H. split; [now apply sqrt_lt_R0 | apply sqrt_sqrt; lra]. Qed.
Lemma v6_eq a b c d e f a' b' c' d' e' f' : a = a' -> b = b' -> c = c' -> d = d' -> e = e' -> f = f' -> V6 a b c d e f = V6 a' b' c' d' e' f'.
Proof. now intros -> -> -> -> -> ->. Qed.
Lemma sin_2x x : sin (2 * x) = 2 * sin x * cos x.
Proof. replace (2 * x) with (x + x) by ring. rewrite sin_plus. ring. Qed.
Lemma cos_2x x : 1 - cos (2 * x) = 2 * (sin x * sin x).
Proof. replace (2 * x) with (x + x) by ring. rewrite cos_plus. pose proof (cos_sin x). lra. Qed.
Lemma sinh_2x x : sinh (2 * x) = 2 * sinh x * cosh x.
Proof. replace (2 * x) with (x + x) by ring. rewrite sinh_plus. ring. Qed.
Lemma cosh_2x x : 1 - cosh (2 * x) = - 2 * (sinh x * sinh x).
Proof. replace (2 * x) with (x + x) by ring. rewrite cosh_plus. pose proof (cosh_sinh x). lra. Qed.

(* the four functions of the code, for K = j / d *)
Lemma plane_pos j d s : 0 < j -> 0 < d -> let w := sqrt (j / d) in
  0 < w /\ w * w = j / d /\ cos (w * s) = Cf (j / d) s /\ sin (w * s) = w * Sf (j / d) s /\
  sin (2 * w * s) = 2 * w * (Sf (j / d) s * Cf (j / d) s) /\ 1 - cos (2 * w * s) = 2 * (w * w) * (Sf (j / d) s * Sf (j / d) s).
Proof.
  intros J D w. assert (K : 0 < j / d) by (now apply Rdiv_lt_0_compat). destruct (sqrt_pos_sq _ K) as (W & E). fold w in W, E.
  assert (C : cos (w * s) = Cf (j / d) s). { unfold Cf. rewrite Reqb_false, Rltb_true by lra. reflexivity. }
  assert (S1 : sin (w * s) = w * Sf (j / d) s). { unfold Sf. rewrite Reqb_false, Rltb_true by lra. fold w. field. lra. }
  repeat split; auto.
  - rewrite Rmult_assoc, sin_2x, S1, C. ring.
  - rewrite Rmult_assoc, cos_2x, S1. ring.
Qed.
Lemma plane_neg j d s : j < 0 -> 0 < d -> let w := sqrt (- j / d) in
  0 < w /\ w * w = - j / d /\ cosh (w * s) = Cf (j / d) s /\ sinh (w * s) = w * Sf (j / d) s /\
  sinh (2 * w * s) = 2 * w * (Sf (j / d) s * Cf (j / d) s) /\ 1 - cosh (2 * w * s) = - 2 * (w * w) * (Sf (j / d) s * Sf (j / d) s).
Proof.
  intros J D w. assert (K : 0 < - j / d) by (apply Rdiv_lt_0_compat; lra). destruct (sqrt_pos_sq _ K) as (W & E). fold w in W, E.
  assert (N : - (j / d) = - j / d) by (field; lra).
  assert (C : cosh (w * s) = Cf (j / d) s). { unfold Cf. rewrite Reqb_false, Rltb_false by lra. now rewrite N. }
  assert (S1 : sinh (w * s) = w * Sf (j / d) s). { unfold Sf. rewrite Reqb_false, Rltb_false by lra. rewrite N. fold w. field. lra. }
  repeat split; auto.
  - rewrite Rmult_assoc, sinh_2x, S1, C. ring.
  - rewrite Rmult_assoc, cosh_2x, S1. ring.
Qed.

Lemma quad_is_flow k1 s v : k1 <> 0 -> 0 < 1 + vdp v -> quad_map k1 s v = Ok (flow 0 k1 s v).
Proof.
  intros K D. unfold quad_map. rewrite Rleb_false, Reqb_false by lra. cbn [orb]. f_equal. unfold flow.
  set (d1 := 1 + vdp v) in *. replace (k1 + 0 * 0) with k1 by ring.
  destruct (Rleb_spec 0 k1) as [P|P].
  - rewrite Rabs_pos_eq by lra. destruct (plane_pos k1 d1 s ltac:(lra) D) as (W & E & C & S1 & S2 & C2).
    destruct (plane_neg (- k1) d1 s ltac:(lra) D) as (W' & E' & C' & S1' & S2' & C2'). rewrite Ropp_involutive in *.
    set (w := sqrt (k1 / d1)) in *. rewrite C, S1, S2, C2, C', S1', S2', C2'.
    assert (E1 : k1 = w * w * d1) by (rewrite E; field; lra).
    generalize (Cf (k1 / d1) s) (Sf (k1 / d1) s) (Cf (- k1 / d1) s) (Sf (- k1 / d1) s). intros c s0 cy sy. clearbody w. clear E E' C S1 S2 C2 C' S1' S2' C2'.
    subst k1. apply v6_eq; try field; try lra; auto.
  - rewrite Rabs_left by lra. destruct (plane_neg k1 d1 s ltac:(lra) D) as (W & E & C & S1 & S2 & C2).
    destruct (plane_pos (- k1) d1 s ltac:(lra) D) as (W' & E' & C' & S1' & S2' & C2').
    set (w := sqrt (- k1 / d1)) in *. rewrite C, S1, S2, C2, C', S1', S2', C2'.
    assert (E1 : k1 = - (w * w * d1)) by (rewrite E; field; lra).
    generalize (Cf (k1 / d1) s) (Sf (k1 / d1) s) (Cf (- k1 / d1) s) (Sf (- k1 / d1) s). intros c s0 cy sy. clearbody w. clear E E' C S1 S2 C2 C' S1' S2' C2'.
    subst k1. apply v6_eq; try field; try lra; auto.
Qed.
Lemma bend_is_flow h s v : h <> 0 -> 0 < 1 + vdp v -> bend_map h s v = Ok (flow h 0 s v).
Proof.
  intros K D. unfold bend_map. rewrite Rleb_false, Reqb_false by lra. cbn [orb]. f_equal. unfold flow.
  set (d1 := 1 + vdp v) in *. rewrite Rplus_0_l. replace (- 0 / d1) with 0 by (field; lra).
  assert (H2 : 0 < h * h) by nra.
  destruct (plane_pos (h * h) d1 s H2 D) as (W & E & C & S1 & S2 & C2).
  set (w := sqrt (h * h / d1)) in *. rewrite C, S1, S2, C2.
  assert (E1 : d1 = h * h / (w * w)) by (rewrite E; field; split; lra).
  assert (Cy : Cf 0 s = 1) by (unfold Cf; now rewrite Reqb_true). assert (Sy : Sf 0 s = s) by (unfold Sf; now rewrite Reqb_true). rewrite Cy, Sy.
  assert (Edp : vdp v = d1 - 1) by (unfold d1; ring). rewrite Edp.
  generalize (Cf (h * h / d1) s) (Sf (h * h / d1) s). intros c s0. clearbody w d1. clear E C S1 S2 C2 Edp.
  subst d1. apply v6_eq; try field; try lra; auto.
Qed.
Lemma combined_is_flow h k1 s v : k1 <> 0 -> k1 + h * h <> 0 -> 0 < 1 + vdp v -> combined_map h k1 s v = Ok (flow h k1 s v).
Proof.
  intros K J D. unfold combined_map. rewrite Rleb_false, !Reqb_false by lra. cbn [orb]. f_equal. unfold flow.
  set (d1 := 1 + vdp v) in *. replace (h * h + k1) with (k1 + h * h) by ring. set (j1 := k1 + h * h) in *.
  assert (Edp : vdp v = d1 - 1) by (unfold d1; ring). rewrite Edp.
  assert (PX : exists w, sqrt (Rabs j1 / d1) = w /\ 0 < w /\ Rabs j1 = w * w * d1 /\ j1 = (if Rltb 0 j1 then 1 else -1) * (w * w * d1) /\
     (if Rltb 0 j1 then cos (w * s) else cosh (w * s)) = Cf (j1 / d1) s /\ (if Rltb 0 j1 then sin (w * s) else sinh (w * s)) = w * Sf (j1 / d1) s /\
     (if Rltb 0 j1 then sin (2 * w * s) else sinh (2 * w * s)) = 2 * w * (Sf (j1 / d1) s * Cf (j1 / d1) s) /\
     1 - (if Rltb 0 j1 then cos (2 * w * s) else cosh (2 * w * s)) = (if Rltb 0 j1 then 2 else - 2) * (w * w) * (Sf (j1 / d1) s * Sf (j1 / d1) s)).
  { destruct (Rltb_spec 0 j1) as [P|P].
    - rewrite Rabs_pos_eq by lra. destruct (plane_pos j1 d1 s P D) as (W & E & C & S1 & S2 & C2). eexists. repeat split; eauto; rewrite E; field; lra.
    - rewrite Rabs_left by lra. destruct (plane_neg j1 d1 s ltac:(lra) D) as (W & E & C & S1 & S2 & C2). eexists. repeat split; eauto; rewrite E; field; lra. }
  assert (PY : exists w, sqrt (Rabs k1 / d1) = w /\ 0 < w /\ Rabs k1 = w * w * d1 /\ k1 = (if Rltb 0 k1 then 1 else -1) * (w * w * d1) /\
     (if Rltb 0 k1 then cosh (w * s) else cos (w * s)) = Cf (- k1 / d1) s /\ (if Rltb 0 k1 then sinh (w * s) else sin (w * s)) = w * Sf (- k1 / d1) s /\
     (if Rltb 0 k1 then sinh (2 * w * s) else sin (2 * w * s)) = 2 * w * (Sf (- k1 / d1) s * Cf (- k1 / d1) s) /\
     1 - (if Rltb 0 k1 then cosh (2 * w * s) else cos (2 * w * s)) = (if Rltb 0 k1 then - 2 else 2) * (w * w) * (Sf (- k1 / d1) s * Sf (- k1 / d1) s)).
  { destruct (Rltb_spec 0 k1) as [P|P].
    - rewrite Rabs_pos_eq by lra. destruct (plane_neg (- k1) d1 s ltac:(lra) D) as (W & E & C & S1 & S2 & C2). rewrite Ropp_involutive in *. eexists. repeat split; eauto; rewrite E; field; lra.
    - rewrite Rabs_left by lra. destruct (plane_pos (- k1) d1 s ltac:(lra) D) as (W & E & C & S1 & S2 & C2). eexists. repeat split; eauto; rewrite E; field; lra. }
  destruct PX as (w & -> & W & A & E & -> & -> & -> & ->). destruct PY as (u & -> & U & A' & E' & -> & -> & -> & ->).
  rewrite A, A'. generalize (Cf (j1 / d1) s) (Sf (j1 / d1) s) (Cf (- k1 / d1) s) (Sf (- k1 / d1) s). intros c s0 cy sy.
  clearbody j1 d1. clear A A' Edp.
  destruct (Rltb 0 j1), (Rltb 0 k1); rewrite ?Rmult_1_l in E, E'; rewrite E; rewrite ?E'; apply v6_eq; try field; try lra; auto.
Qed.

(* ---- splitting ---- *)
Lemma flow_dp h k1 s v : vdp (flow h k1 s v) = vdp v.
Proof. reflexivity. Qed.
Lemma flow_0 h k1 v : k1 + h * h <> 0 -> 0 < 1 + vdp v -> flow h k1 0 v = v.
Proof.
  intros J D. unfold flow. rewrite !Cf_0, !Sf_0. destruct v as [x px y py z d]. cbn [vx vxp vy vyp vct vdp] in *. apply v6_eq; field; lra.
Qed.
Lemma flow_plus h k1 a b v : k1 + h * h <> 0 -> 0 < 1 + vdp v -> flow h k1 b (flow h k1 a v) = flow h k1 (a + b) v.
Proof.
  intros J D. unfold flow. cbn [vx vxp vy vyp vct vdp]. rewrite !Cf_plus, !Sf_plus.
  set (d1 := 1 + vdp v) in *. set (j1 := k1 + h * h) in *.
  pose proof (pyth (j1 / d1) a) as P. pose proof (pyth (j1 / d1) b) as Q. pose proof (pyth (- k1 / d1) a) as P'. pose proof (pyth (- k1 / d1) b) as Q'.
  generalize dependent (Cf (j1 / d1) a). generalize dependent (Cf (j1 / d1) b). generalize dependent (Sf (j1 / d1) a). generalize dependent (Sf (j1 / d1) b).
  generalize dependent (Cf (- k1 / d1) a). generalize dependent (Cf (- k1 / d1) b). generalize dependent (Sf (- k1 / d1) a). generalize dependent (Sf (- k1 / d1) b).
  intros sb sa cb Q' ca P' Sb Sa Cb Q Ca P.
  apply v6_eq; try (field; lra).
  set (K := j1 / d1) in *. set (L := - k1 / d1) in *. assert (EK : j1 = K * d1) by (unfold K; field; lra). assert (EL : k1 = - (L * d1)) by (unfold L; field; lra).
  assert (KN : K <> 0). { intros Z. rewrite Z, Rmult_0_l in EK. auto. }
  assert (P1 : Ca * Ca = 1 - K * (Sa * Sa)) by lra. assert (Q1 : Cb * Cb = 1 - K * (Sb * Sb)) by lra.
  assert (P2 : ca * ca = 1 - L * (sa * sa)) by lra. assert (Q2 : cb * cb = 1 - L * (sb * sb)) by lra.
  set (xe := h * vdp v / j1). clearbody xe K L d1 j1. subst j1 k1. replace (xe + (vx v - xe) * Ca + vxp v / d1 * Sa - xe) with ((vx v - xe) * Ca + vxp v / d1 * Sa) by ring.
  set (X := vx v - xe). clearbody X. field_simplify_eq [P1 P2 Q1 Q2]; [|lra]. ring [P1 P2 Q1 Q2].
Qed.

(* ---- derivatives ---- *)
Lemma dcst c x : derivable_pt_lim (fun _ => c) x 0.
Proof. apply (derivable_pt_lim_const c). Qed.
Lemma did x : derivable_pt_lim (fun t => t) x 1.
Proof. apply derivable_pt_lim_id. Qed.
Lemma dinv f x a : f x <> 0 -> derivable_pt_lim f x a -> derivable_pt_lim (fun y => / f y) x (- a / (f x * f x)).
Proof.
  intros N H. apply (dlim_ext (fun y => 1 / f y)); [intros; unfold Rdiv; ring|]. eapply dlim_eq; [|apply (derivable_pt_lim_div (fun _ => 1) f x 0 a (dcst 1 x) H N)].
  unfold Rsqr. field. auto.
Qed.
Lemma ddiv f g x a b : g x <> 0 -> derivable_pt_lim f x a -> derivable_pt_lim g x b -> derivable_pt_lim (fun y => f y / g y) x ((a * g x - b * f x) / (g x * g x)).
Proof. intros N F G. eapply dlim_eq; [|apply (derivable_pt_lim_div f g x a b F G N)]. reflexivity. Qed.
Lemma dsqrt f x a : 0 < f x -> derivable_pt_lim f x a -> derivable_pt_lim (fun y => sqrt (f y)) x (a / (2 * sqrt (f x))).
Proof.
  intros P H. eapply dlim_eq; [|apply (derivable_pt_lim_comp f sqrt x a (/ (2 * sqrt (f x))) H (derivable_pt_lim_sqrt _ P))]. unfold Rdiv. ring.
Qed.
Lemma dcomp f g x a b : derivable_pt_lim g x a -> derivable_pt_lim f (g x) b -> derivable_pt_lim (fun y => f (g y)) x (b * a).
Proof. intros G F. apply (derivable_pt_lim_comp g f x a b G F). Qed.
(* the derivative of a term; the curves' own derivatives are hypotheses *)
Ltac dl := cbv beta; match goal with
  | H : derivable_pt_lim ?f ?x _ |- derivable_pt_lim ?g ?x _ => exact H
  | |- derivable_pt_lim (fun _ => ?c) _ _ => apply (dcst c)
  | |- derivable_pt_lim (fun t => t) _ _ => apply did
  | |- derivable_pt_lim (fun t => @?a t + @?b t) _ _ => refine (dlim_plus a b _ _ _ _ _); dl
  | |- derivable_pt_lim (fun t => @?a t - @?b t) _ _ => refine (dlim_minus a b _ _ _ _ _); dl
  | |- derivable_pt_lim (fun t => - @?a t) _ _ => refine (dlim_opp a _ _ _); dl
  | |- derivable_pt_lim (fun t => @?a t * @?b t) _ _ => refine (dlim_mult a b _ _ _ _ _); dl
  | |- derivable_pt_lim (fun t => @?a t / @?b t) _ _ => refine (ddiv a b _ _ _ _ _ _); [cbv beta|dl|dl]
  | |- derivable_pt_lim (fun t => sqrt (@?a t)) _ _ => refine (dsqrt a _ _ _ _); [cbv beta|dl]
  | |- derivable_pt_lim (fun t => Cf ?K (@?a t)) _ _ => refine (dcomp (Cf K) a _ _ _ _ (Cf_deriv K _)); dl
  | |- derivable_pt_lim (fun t => Sf ?K (@?a t)) _ _ => refine (dcomp (Sf K) a _ _ _ _ (Sf_deriv K _)); dl
  end.
Ltac three k := let H := fresh in intros k H; destruct k as [|[|[|k]]]; [| | |lia]; clear H; cbn [Nat.mul Nat.add coord].
Ltac six i := let H := fresh in intros i H; destruct i as [|[|[|[|[|[|i]]]]]]; [| | | | | |lia]; clear H; cbn [coord vx vxp vy vyp vct vdp].

Definition bend_velocity (h k1 : R) (v : vec6) : vec6 :=
  let d1 := 1 + vdp v in
  V6 (vxp v / d1) (h * vdp v - (k1 + h * h) * vx v) (vyp v / d1) (k1 * vy v) (- (vxp v * vxp v + vyp v * vyp v) / (2 * (d1 * d1)) - h * vx v) 0.
Lemma bend_velocity_ok h k1 v : 0 < 1 + vdp v -> velocity (H_bend h k1) v (bend_velocity h k1 v).
Proof.
  intros D. unfold velocity, partial, H_bend, bend_velocity. three k; cbn [set_coord vx vxp vy vyp vct vdp]; split; (eapply dlim_eq; [|dl]); cbv beta; try lra; field; lra.
Qed.
Lemma flow_moves h k1 v s : k1 + h * h <> 0 -> 0 < 1 + vdp v -> moves (H_bend h k1) (fun t => flow h k1 t v) s.
Proof.
  intros J D. exists (bend_velocity h k1 (flow h k1 s v)). split; [now apply bend_velocity_ok|].
  unfold flow, bend_velocity. cbn [vx vxp vy vyp vct vdp].
  set (d1 := 1 + vdp v) in *. set (j1 := k1 + h * h) in *.
  pose proof (pyth (j1 / d1) s) as P. pose proof (pyth (- k1 / d1) s) as P'.
  set (K := j1 / d1) in *. set (L := - k1 / d1) in *. assert (EK : j1 = K * d1) by (unfold K; field; lra). assert (EL : k1 = - (L * d1)) by (unfold L; field; lra).
  assert (KN : K <> 0). { intros Z. rewrite Z, Rmult_0_l in EK. auto. }
  six i; (eapply dlim_eq; [|dl]); cbv beta; try lra; clearbody K L j1 d1; subst j1 k1;
  assert (P1 : Cf K s * Cf K s = 1 - K * (Sf K s * Sf K s)) by lra; assert (P2 : Cf L s * Cf L s = 1 - L * (Sf L s * Sf L s)) by lra;
  try nra; try (field_simplify_eq [P1 P2]; [|lra]; ring [P1 P2]).
Qed.

(* ---- strengths that depend on the momentum ---- *)
Lemma Cf_scaled c d d' s : 1 + d 0 <> 0 -> derivable_pt_lim d 0 d' -> derivable_pt_lim (fun t => Cf (c / (1 + d t)) s) 0 (d' * (c / (1 + d 0) * s * Sf (c / (1 + d 0)) s / (2 * (1 + d 0)))).
Proof.
  intros N H. destruct (Req_dec c 0) as [->|Z].
  - eapply dlim_eq; [|eapply dlim_ext; [|apply (dcst 1)]]; [unfold Rdiv; ring|]. intros t. unfold Cf, Rdiv. rewrite Rmult_0_l, Reqb_true; reflexivity.
  - eapply dlim_eq; [|apply (Cf_along (fun t => c / (1 + d t)) (- c * d' / ((1 + d 0) * (1 + d 0))) 0 s)].
    + field. exact N.
    + unfold Rdiv. apply Rmult_integral_contrapositive_currified; [exact Z|now apply Rinv_neq_0_compat].
    + eapply dlim_eq; [|dl]; [|exact N]. cbv beta. field. exact N.
Qed.
Lemma Sf_scaled c d d' s : 1 + d 0 <> 0 -> derivable_pt_lim d 0 d' -> derivable_pt_lim (fun t => Sf (c / (1 + d t)) s) 0 (d' * ((Sf (c / (1 + d 0)) s - s * Cf (c / (1 + d 0)) s) / (2 * (1 + d 0)))).
Proof.
  intros N H. destruct (Req_dec c 0) as [->|Z].
  - eapply dlim_eq; [|eapply dlim_ext; [|apply (dcst s)]].
    + replace (0 / (1 + d 0)) with 0 by (unfold Rdiv; ring). unfold Sf, Cf. rewrite !Reqb_true by reflexivity. field. exact N.
    + intros t. unfold Sf, Rdiv. rewrite Rmult_0_l, Reqb_true; reflexivity.
  - eapply dlim_eq; [|apply (Sf_along (fun t => c / (1 + d t)) (- c * d' / ((1 + d 0) * (1 + d 0))) 0 s)].
    + field. auto.
    + unfold Rdiv. apply Rmult_integral_contrapositive_currified; [exact Z|now apply Rinv_neq_0_compat].
    + eapply dlim_eq; [|dl]; [|exact N]. cbv beta. field. exact N.
Qed.
(* a curve as six functions *)
Lemma passes_parts c v u : passes c v u -> exists x px y py z d,
  (forall t, c t = V6 (x t) (px t) (y t) (py t) (z t) (d t)) /\ v = V6 (x 0) (px 0) (y 0) (py 0) (z 0) (d 0) /\
  derivable_pt_lim x 0 (vx u) /\ derivable_pt_lim px 0 (vxp u) /\ derivable_pt_lim y 0 (vy u) /\ derivable_pt_lim py 0 (vyp u) /\ derivable_pt_lim z 0 (vct u) /\ derivable_pt_lim d 0 (vdp u).
Proof.
  intros (<- & H). exists (fun t => vx (c t)), (fun t => vxp (c t)), (fun t => vy (c t)), (fun t => vyp (c t)), (fun t => vct (c t)), (fun t => vdp (c t)).
  repeat split.
  - intros t. now destruct (c t).
  - now destruct (c 0).
  - apply (H 0%nat); lia.
  - apply (H 1%nat); lia.
  - apply (H 2%nat); lia.
  - apply (H 3%nat); lia.
  - apply (H 4%nat); lia.
  - apply (H 5%nat); lia.
Qed.
Definition rows (a b c d e f : vec6) : mtx := fun i j => coord j (match i with O => a | 1%nat => b | 2%nat => c | 3%nat => d | 4%nat => e | _ => f end).
Definition dotv (a u : vec6) : R := vx a * vx u + vxp a * vxp u + vy a * vy u + vyp a * vyp u + vct a * vct u + vdp a * vdp u.
Lemma image_rows a b c d e f u : image (rows a b c d e f) u = V6 (dotv a u) (dotv b u) (dotv c u) (dotv d u) (dotv e u) (dotv f u).
Proof. unfold image, rows, dotv. cbn [sum map seq fold_right coord]. apply v6_eq; ring. Qed.
(* the fifteen brackets *)
Definition bracket (a b c d e f : vec6) (i j : nat) : R :=
  coord i a * coord j b - coord i b * coord j a + (coord i c * coord j d - coord i d * coord j c) + (coord i e * coord j f - coord i f * coord j e).
Lemma bracket_symplectic a b c d e f :
  (bracket a b c d e f 0 1 = 1 /\ bracket a b c d e f 0 2 = 0 /\ bracket a b c d e f 0 3 = 0 /\ bracket a b c d e f 0 4 = 0 /\ bracket a b c d e f 0 5 = 0 /\ bracket a b c d e f 1 2 = 0 /\ bracket a b c d e f 1 3 = 0 /\ bracket a b c d e f 1 4 = 0 /\ bracket a b c d e f 1 5 = 0 /\
   bracket a b c d e f 2 3 = 1 /\ bracket a b c d e f 2 4 = 0 /\ bracket a b c d e f 2 5 = 0 /\ bracket a b c d e f 3 4 = 0 /\ bracket a b c d e f 3 5 = 0 /\ bracket a b c d e f 4 5 = 1) -> symplectic 6 (rows a b c d e f).
Proof.
  unfold bracket. cbn [coord]. intros (H01 & H02 & H03 & H04 & H05 & H12 & H13 & H14 & H15 & H23 & H24 & H25 & H34 & H35 & H45).
  intros i j Hi Hj. do 6 (destruct i as [|i]; [do 6 (destruct j as [|j]; [unfold rows; cbn; lra|]); lia|]). lia.
Qed.
Lemma rows_tangent {E} (F : vec6 -> res E vec6) v a b c d e f :
  (forall c0 u, passes c0 v u -> exists r c', 0 < r /\ (forall t, Rabs t < r -> F (c0 t) = Ok (c' t)) /\ passes c' (c' 0) (V6 (dotv a u) (dotv b u) (dotv c u) (dotv d u) (dotv e u) (dotv f u))) ->
  tangent F v (rows a b c d e f).
Proof. intros H c0 u P. rewrite image_rows. now apply H. Qed.
(* near zero a curve stays where a coordinate exceeds a bound *)
Lemma stays f l b : derivable_pt_lim f 0 l -> b < f 0 -> exists r, 0 < r /\ forall t, Rabs t < r -> b < f t.
Proof.
  intros H P. destruct (dlim_cont f 0 l H (f 0 - b) ltac:(lra)) as (r & Hr & C). exists r. split; auto.
  intros t T. specialize (C t). rewrite Rminus_0_r in C. specialize (C T). apply Rabs_def2 in C. lra.
Qed.

(* the derivative of the flow: rows of x, px, y, py, ct, dp *)
Section FlowTangent.
Variables (h k1 s x px y py d : R).
Let d1 := 1 + d. Let j1 := k1 + h * h.
Let C := Cf (j1 / d1) s. Let S := Sf (j1 / d1) s. Let Cy := Cf (- k1 / d1) s. Let Sy := Sf (- k1 / d1) s.
Let C' := j1 / d1 * s * S / (2 * d1). Let S' := (S - s * C) / (2 * d1).
Let Cy' := - k1 / d1 * s * Sy / (2 * d1). Let Sy' := (Sy - s * Cy) / (2 * d1).
Let xe := h * d / j1. Let xe' := h / j1. Let X := x - xe.
Definition row_x : vec6 := V6 C (S / d1) 0 0 0 (xe' - xe' * C + X * C' + px / d1 * S' - px / (d1 * d1) * S).
Definition row_px : vec6 := V6 (- j1 * S) C 0 0 0 (px * C' + j1 * xe' * S - j1 * X * S').
Definition row_y : vec6 := V6 0 0 Cy (Sy / d1) 0 (y * Cy' + py / d1 * Sy' - py / (d1 * d1) * Sy).
Definition row_py : vec6 := V6 0 0 (k1 * Sy) Cy 0 (py * Cy' + k1 * y * Sy').
Definition row_ct : vec6 := V6
  (- h * S - (j1 * (2 * X) * (s - S * C) / (4 * d1) - j1 * px * (S * S) / (2 * (d1 * d1))))
  (- h * (1 - C) / j1 - (- j1 * X * (S * S) / (2 * (d1 * d1)) + 2 * px * (s + S * C) / (4 * (d1 * d1))))
  (- (- k1 * (2 * y) * (s - Sy * Cy) / (4 * d1) + k1 * py * (Sy * Sy) / (2 * (d1 * d1))))
  (- (k1 * y * (Sy * Sy) / (2 * (d1 * d1)) + 2 * py * (s + Sy * Cy) / (4 * (d1 * d1))))
  1
  (- h * xe' * s - h * (- xe' * S + X * S' - px * C' / j1)
   - (j1 * (2 * X * - xe') * (s - S * C) / (4 * d1) + j1 * (X * X) * (- (S' * C + S * C')) / (4 * d1) - j1 * (X * X) * (s - S * C) / (4 * (d1 * d1))
      - (j1 * - xe' * px * (S * S) / (2 * (d1 * d1)) + j1 * X * px * (2 * S * S') / (2 * (d1 * d1)) - j1 * X * px * (S * S) / (d1 * d1 * d1))
      + px * px * (S' * C + S * C') / (4 * (d1 * d1)) - px * px * (s + S * C) / (2 * (d1 * d1 * d1)))
   - (- k1 * (y * y) * (- (Sy' * Cy + Sy * Cy')) / (4 * d1) + k1 * (y * y) * (s - Sy * Cy) / (4 * (d1 * d1))
      + (k1 * y * py * (2 * Sy * Sy') / (2 * (d1 * d1)) - k1 * y * py * (Sy * Sy) / (d1 * d1 * d1))
      + py * py * (Sy' * Cy + Sy * Cy') / (4 * (d1 * d1)) - py * py * (s + Sy * Cy) / (2 * (d1 * d1 * d1)))).
Definition row_dp : vec6 := V6 0 0 0 0 0 1.
Lemma flow_symplectic : j1 <> 0 -> 0 < d1 -> symplectic 6 (rows row_x row_px row_y row_py row_ct row_dp).
Proof.
  intros J D. apply bracket_symplectic. unfold bracket, row_x, row_px, row_y, row_py, row_ct, row_dp. cbn [coord vx vxp vy vyp vct vdp].
  unfold C', S', Cy', Sy', xe'. clearbody X. clear xe.
  pose proof (pyth (j1 / d1) s) as P. pose proof (pyth (- k1 / d1) s) as P'. fold C S in P. fold Cy Sy in P'.
  clearbody C S Cy Sy.
  set (K := j1 / d1) in *. set (L := - k1 / d1) in *. assert (EK : j1 = K * d1) by (unfold K; field; lra). assert (EL : k1 = - (L * d1)) by (unfold L; field; lra).
  assert (KN : K <> 0). { intros Z. rewrite Z, Rmult_0_l in EK. auto. }
  clearbody K L j1 d1. subst j1 k1.
  assert (P1 : C * C = 1 - K * (S * S)) by lra. assert (P2 : Cy * Cy = 1 - L * (Sy * Sy)) by lra.
  cbv zeta. repeat split; try ring; try (field_simplify_eq [P1 P2]; [ring [P1 P2] | lra]).
Qed.
End FlowTangent.
Lemma passes_v6 x px y py z d a b c e f g : derivable_pt_lim x 0 a -> derivable_pt_lim px 0 b -> derivable_pt_lim y 0 c -> derivable_pt_lim py 0 e -> derivable_pt_lim z 0 f -> derivable_pt_lim d 0 g ->
  passes (fun t => V6 (x t) (px t) (y t) (py t) (z t) (d t)) (V6 (x 0) (px 0) (y 0) (py 0) (z 0) (d 0)) (V6 a b c e f g).
Proof. intros. split; [reflexivity|]. six i; assumption. Qed.

Lemma flow_tangent {E} (F : vec6 -> res E vec6) h k1 s v : k1 + h * h <> 0 -> 0 < 1 + vdp v -> (forall v, 0 < 1 + vdp v -> F v = Ok (flow h k1 s v)) ->
  tangent F v (rows (row_x h k1 s (vx v) (vxp v) (vdp v)) (row_px h k1 s (vx v) (vxp v) (vdp v)) (row_y k1 s (vy v) (vyp v) (vdp v)) (row_py k1 s (vy v) (vyp v) (vdp v))
    (row_ct h k1 s (vx v) (vxp v) (vy v) (vyp v) (vdp v)) row_dp).
Proof.
  intros J D HF. apply rows_tangent. intros c u P. destruct (passes_parts c v u P) as (x & px & y & py & z & d & Hc & -> & Dx & Dpx & Dy & Dpy & Dz & Dd).
  cbn [vx vxp vy vyp vct vdp] in *.
  destruct (stays d (vdp u) (-1) Dd ltac:(lra)) as (r & Hr & St).
  exists r, (fun t => flow h k1 s (c t)). split; [exact Hr|]. split.
  { intros t T. apply HF. rewrite Hc. cbn. specialize (St t T). lra. }
  assert (N : 1 + d 0 <> 0) by lra.
  pose proof (Cf_scaled (k1 + h * h) d (vdp u) s N Dd) as DC. pose proof (Sf_scaled (k1 + h * h) d (vdp u) s N Dd) as DS.
  pose proof (Cf_scaled (- k1) d (vdp u) s N Dd) as DCy. pose proof (Sf_scaled (- k1) d (vdp u) s N Dd) as DSy.
  split; [reflexivity|].
  six i; (eapply dlim_ext; [intros t; rewrite Hc; unfold flow; cbn [vx vxp vy vyp vct vdp]; reflexivity|]);
  (eapply dlim_eq; [|dl; try lra; try nra]); cbv beta; unfold dotv, row_x, row_px, row_y, row_py, row_ct, row_dp; cbn [vx vxp vy vyp vct vdp].
  - field. lra.
  - field. lra.
  - field. lra.
  - field. lra.
  - set (j1 := k1 + h * h) in *. clearbody j1. generalize (Cf (j1 / (1 + d 0)) s) (Sf (j1 / (1 + d 0)) s) (Cf (- k1 / (1 + d 0)) s) (Sf (- k1 / (1 + d 0)) s). intros C S1 Cy Sy. field. lra.
  - ring.
Qed.

(* ---- free space ---- *)
Definition free (s : R) (v : vec6) : vec6 :=
  let k := sqrt (pz2 v) in V6 (vx v + vxp v * s / k) (vxp v) (vy v + vyp v * s / k) (vyp v) (vct v + (s - (1 + vdp v) * s / k)) (vdp v).
Lemma drift_is_free s v : 0 < pz2 v -> drift_map s v = Ok (free s v).
Proof. intros P. unfold pz2 in P. unfold drift_map, free, pz2. rewrite Rleb_false by exact P. reflexivity. Qed.
Lemma drift_nan s v : pz2 v <= 0 -> drift_map s v = Throw NaN.
Proof. intros P. unfold pz2 in P. unfold drift_map. rewrite Rleb_true by exact P. reflexivity. Qed.
Lemma free_0 v : 0 < pz2 v -> free 0 v = v.
Proof. intros P. destruct (sqrt_pos_sq _ P) as (Q & _). unfold free. destruct v as [a b c d e f]; cbn [vx vxp vy vyp vct vdp]. apply v6_eq; field; lra. Qed.
Lemma free_plus a b v : 0 < pz2 v -> free b (free a v) = free (a + b) v.
Proof.
  intros P. destruct (sqrt_pos_sq _ P) as (Q & _). assert (E : pz2 (free a v) = pz2 v) by reflexivity. unfold free at 1. rewrite E. unfold free. set (k := sqrt (pz2 v)) in *. cbn [vx vxp vy vyp vct vdp].
  apply v6_eq; field; lra.
Qed.
Definition free_velocity (v : vec6) : vec6 := let k := sqrt (pz2 v) in V6 (vxp v / k) 0 (vyp v / k) 0 (1 - (1 + vdp v) / k) 0.
Lemma free_velocity_ok v : 0 < pz2 v -> velocity H_free v (free_velocity v).
Proof.
  intros P. destruct (sqrt_pos_sq _ P) as (Q & _). unfold velocity, partial, H_free, free_velocity, pz2 in *.
  three k; cbn [set_coord vx vxp vy vyp vct vdp]; split; (eapply dlim_eq; [|dl; exact P]); cbv beta; field; lra.
Qed.
Lemma free_moves v s : 0 < pz2 v -> moves H_free (fun t => free t v) s.
Proof.
  intros P. exists (free_velocity (free s v)). split; [apply free_velocity_ok; exact P|].
  destruct (sqrt_pos_sq _ P) as (Q & _). unfold free_velocity. replace (pz2 (free s v)) with (pz2 v) by reflexivity. unfold free. set (k := sqrt (pz2 v)) in *.
  six i; (eapply dlim_eq; [|dl; lra]); cbv beta; field; lra.
Qed.
Lemma drift_symplectic s v : 0 < pz2 v -> symplectic_at (drift_map s) v.
Proof.
  intros P. set (k := sqrt (pz2 v)). destruct (sqrt_pos_sq _ P) as (Q & QQ). fold k in Q, QQ.
  set (px := vxp v). set (py := vyp v). set (d1 := 1 + vdp v). set (k3 := k * k * k).
  exists (rows (V6 1 (s / k + s * (px * px) / k3) 0 (s * (px * py) / k3) 0 (- s * (px * d1) / k3)) (V6 0 1 0 0 0 0)
               (V6 0 (s * (px * py) / k3) 1 (s / k + s * (py * py) / k3) 0 (- s * (py * d1) / k3)) (V6 0 0 0 1 0 0)
               (V6 0 (- s * (px * d1) / k3) 0 (- s * (py * d1) / k3) 1 (- s / k + s * (d1 * d1) / k3)) (V6 0 0 0 0 0 1)).
  split.
  - apply rows_tangent. intros c u Pc. destruct (passes_parts c v u Pc) as (x & qx & y & qy & z & d & Hc & Hv & Dx & Dpx & Dy & Dpy & Dz & Dd).
    assert (Dp : exists l, derivable_pt_lim (fun t => pz2 (c t)) 0 l). { eexists. eapply dlim_ext; [intros t; rewrite Hc; unfold pz2; cbn [vx vxp vy vyp vct vdp]; reflexivity|]. dl. }
    destruct Dp as (l & Dp). assert (V0 : c 0 = v) by apply Pc. assert (P0 : 0 < pz2 (c 0)) by (rewrite V0; exact P). destruct (stays _ l 0 Dp P0) as (r & Hr & St). clear P0.
    exists r, (fun t => free s (c t)). split; [exact Hr|]. split; [intros t T; now apply drift_is_free, St|]. split; [reflexivity|].
    unfold k3, k, px, py, d1 in *. rewrite Hv in *. clear Hv. unfold pz2 in *. cbn [vx vxp vy vyp vct vdp] in *.
    six i; (eapply dlim_ext; [intros t; rewrite Hc; unfold free, pz2; cbn [vx vxp vy vyp vct vdp]; reflexivity|]);
    (eapply dlim_eq; [|dl; try lra]); cbv beta; unfold dotv; cbn [vx vxp vy vyp vct vdp]; try ring.
    + field. lra.
    + field. lra.
    + field. lra.
  - apply bracket_symplectic. unfold bracket. cbn [coord vx vxp vy vyp vct vdp]. repeat split; try ring; field; unfold k3; repeat split; nra.
Qed.

(* ---- curves through compositions ---- *)
Lemma image_times A B u : image (times 6 A B) u = image A (image B u).
Proof.
  unfold image, times. cbn [sum map seq fold_right coord vx vxp vy vyp vct vdp]. apply v6_eq; ring.
Qed.
Lemma tangent_then {E} (F G : vec6 -> res E vec6) v v' A B : F v = Ok v' -> tangent F v A -> tangent G v' B -> tangent (fun w => do w' <- F w; G w') v (times 6 B A).
Proof.
  intros EF TF TG c u P. destruct (TF c u P) as (r & c' & Hr & Hc & Pc). assert (V0 : c' 0 = v').
  { pose proof (Hc 0 ltac:(rewrite Rabs_R0; exact Hr)) as H. destruct P as (P0 & _). rewrite P0, EF in H. now injection H. }
  rewrite V0 in Pc. destruct (TG c' (image A u) Pc) as (r2 & c2 & Hr2 & Hc2 & Pc2).
  exists (Rmin r r2), c2. split; [now apply Rmin_pos|]. split.
  - intros t T. rewrite Hc by (pose proof (Rmin_l r r2); lra). cbn [bind]. apply Hc2. pose proof (Rmin_r r r2). lra.
  - rewrite image_times. exact Pc2.
Qed.
Lemma tangent_ext {E} (F G : vec6 -> res E vec6) v M : (forall w, F w = G w) -> tangent F v M -> tangent G v M.
Proof. intros H T c u P. destruct (T c u P) as (r & c' & Hr & Hc & Pc). exists r, c'. split; auto. split; auto. intros t Ht. rewrite <- H. auto. Qed.
