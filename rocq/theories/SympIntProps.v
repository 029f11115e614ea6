(* C177-C185: the symplectic integrator set *)
From Coq Require Import ZArith Lia Psatz.
From Verif Require Import RBase Rot Cplx CplxFacts Field FieldProps Cov Bunch BunchSpec BunchProofs Optics OpticsSpec OpticsProofs Chromatic ChromaticProps BeamMatProps SympInt SympIntSpec SympIntProofs.
Local Open Scope R_scope.

(* ================= C177: equations of motion ================= *)
Theorem C177_drift v : 0 < pz2 v -> follows H_free drift_map v.
Proof. intros P. exists (fun s => free s v). split; [now apply free_0|]. split; [intros s; now apply drift_is_free | intros s; now apply free_moves]. Qed.
Print Assumptions C177_drift.
Theorem C177_quadrupole k1 v : k1 <> 0 -> 0 < 1 + vdp v -> follows (H_bend 0 k1) (quad_map k1) v.
Proof.
  intros K D. assert (J : k1 + 0 * 0 <> 0) by lra. exists (fun s => flow 0 k1 s v). split; [now apply flow_0|]. split; [intros s; now apply quad_is_flow | intros s; now apply flow_moves].
Qed.
Print Assumptions C177_quadrupole.
Theorem C177_bend h v : h <> 0 -> 0 < 1 + vdp v -> follows (H_bend h 0) (bend_map h) v.
Proof.
  intros K D. assert (J : 0 + h * h <> 0) by nra. exists (fun s => flow h 0 s v). split; [now apply flow_0|]. split; [intros s; now apply bend_is_flow | intros s; now apply flow_moves].
Qed.
Print Assumptions C177_bend.
Theorem C177_combined h k1 v : k1 <> 0 -> k1 + h * h <> 0 -> 0 < 1 + vdp v -> follows (H_bend h k1) (combined_map h k1) v.
Proof.
  intros K J D. exists (fun s => flow h k1 s v). split; [now apply flow_0|]. split; [intros s; now apply combined_is_flow | intros s; now apply flow_moves].
Qed.
Print Assumptions C177_combined.

(* the exact bend *)
Definition arc (h s : R) (v : vec6) : vec6 :=
  let d1 := 1 + vdp v in let px0 := vxp v in let py := vyp v in
  let w := sqrt (pz2 v) - (1 + h * vx v) in
  let px1 := px0 * cos (h * s) + w * sin (h * s) in
  let w1 := w * cos (h * s) - px0 * sin (h * s) in
  let q := sqrt (d1 * d1 - py * py) in
  let u := asin (px0 / q) - asin (px1 / q) in
  V6 ((sqrt (d1 * d1 - px1 * px1 - py * py) - w1 - 1) / h) px1 (vy v + py * s + py * u / h) py (vct v + s - d1 * s - d1 * u / h) (vdp v).
Definition arc_ok (h s : R) (v : vec6) : Prop := 0 <= pz2 v /\ 0 <= pz2 (arc h s v) /\ 0 < (1 + vdp v) * (1 + vdp v) - vyp v * vyp v.
Lemma arc_is h s v : h <> 0 -> (arc_ok h s v -> bend_map_ef h s v = Ok (arc h s v)) /\ (forall v', bend_map_ef h s v = Ok v' -> arc_ok h s v /\ v' = arc h s v).
Proof.
  intros N. unfold bend_map_ef, arc_ok. rewrite Reqb_false by exact N.
  assert (E1 : s / (1 / h) = h * s) by (field; exact N). rewrite !E1.
  assert (EW : sqrt ((1 + vdp v) * (1 + vdp v) - vxp v * vxp v - vyp v * vyp v) - h * (1 / h + vx v) = sqrt (pz2 v) - (1 + h * vx v)) by (unfold pz2; field; exact N). rewrite !EW.
  assert (EB : (1 + vdp v) * (1 + vdp v) - (vxp v * cos (h * s) + (sqrt (pz2 v) - (1 + h * vx v)) * sin (h * s)) * (vxp v * cos (h * s) + (sqrt (pz2 v) - (1 + h * vx v)) * sin (h * s)) - vyp v * vyp v = pz2 (arc h s v)) by reflexivity.
  rewrite EB. change ((1 + vdp v) * (1 + vdp v) - vxp v * vxp v - vyp v * vyp v) with (pz2 v).
  assert (EV : V6 (sqrt (pz2 (arc h s v)) / h - (- vxp v * sin (h * s) + (sqrt (pz2 v) - (1 + h * vx v)) * cos (h * s)) / h - 1 / h)
     (vxp v * cos (h * s) + (sqrt (pz2 v) - (1 + h * vx v)) * sin (h * s))
     (vy v + vyp v * s / h / (1 / h) + vyp v * (asin (vxp v / sqrt ((1 + vdp v) * (1 + vdp v) - vyp v * vyp v)) - asin ((vxp v * cos (h * s) + (sqrt (pz2 v) - (1 + h * vx v)) * sin (h * s)) / sqrt ((1 + vdp v) * (1 + vdp v) - vyp v * vyp v))) / h)
     (vyp v)
     (vct v + s - (1 + vdp v) * s / h / (1 / h) - (1 + vdp v) * (asin (vxp v / sqrt ((1 + vdp v) * (1 + vdp v) - vyp v * vyp v)) - asin ((vxp v * cos (h * s) + (sqrt (pz2 v) - (1 + h * vx v)) * sin (h * s)) / sqrt ((1 + vdp v) * (1 + vdp v) - vyp v * vyp v))) / h)
     (vdp v) = arc h s v).
  { rewrite <- EB. unfold arc. apply v6_eq; try reflexivity; field; exact N. }
  rewrite EV. split.
  - intros (A & B & D). rewrite !Rltb_false, Rleb_false by lra. reflexivity.
  - intros v' H. destruct (Rltb_spec (pz2 v) 0); [discriminate|]. destruct (Rltb_spec (pz2 (arc h s v)) 0); [discriminate|]. cbn [orb] in H. destruct (Rleb_spec ((1 + vdp v) * (1 + vdp v) - vyp v * vyp v) 0); [discriminate|].
    split; [repeat split; lra | now injection H].
Qed.
Lemma arc_plus h a b v : h <> 0 -> 0 <= pz2 (arc h a v) -> arc h b (arc h a v) = arc h (a + b) v.
Proof.
  intros N P. unfold arc at 1. set (q := sqrt (pz2 (arc h a v))). assert (EQ : q = sqrt (pz2 (arc h a v))) by reflexivity. clearbody q. unfold pz2 in EQ. unfold arc in EQ |- *. cbn [vx vxp vy vyp vct vdp] in *.
  replace (h * (a + b)) with (h * a + h * b) by ring. rewrite cos_plus, sin_plus.
  set (w := sqrt (pz2 v) - (1 + h * vx v)) in *. rewrite <- EQ.
  assert (W1 : q - (1 + h * ((q - (w * cos (h * a) - vxp v * sin (h * a)) - 1) / h)) = w * cos (h * a) - vxp v * sin (h * a)) by (field; exact N).
  rewrite W1. set (ca := cos (h * a)). set (sa := sin (h * a)). set (cb := cos (h * b)). set (sb := sin (h * b)).
  assert (PX : (vxp v * ca + w * sa) * cb + (w * ca - vxp v * sa) * sb = vxp v * (ca * cb - sa * sb) + w * (sa * cb + ca * sb)) by ring. rewrite PX.
  apply v6_eq; try reflexivity; field; exact N.
Qed.
Lemma dsin f x a : derivable_pt_lim f x a -> derivable_pt_lim (fun t => sin (f t)) x (a * cos (f x)).
Proof. intros H. eapply dlim_eq; [|apply (dcomp sin f x a (cos (f x)) H), derivable_pt_lim_sin]. ring. Qed.
Lemma dcos f x a : derivable_pt_lim f x a -> derivable_pt_lim (fun t => cos (f t)) x (- a * sin (f x)).
Proof. intros H. eapply dlim_eq; [|apply (dcomp cos f x a (- sin (f x)) H), derivable_pt_lim_cos]. ring. Qed.
Lemma dasin f x a : -1 < f x < 1 -> derivable_pt_lim f x a -> derivable_pt_lim (fun t => asin (f t)) x (a / sqrt (1 - f x * f x)).
Proof.
  intros B H. eapply dlim_eq; [|apply (dcomp asin f x a (1 / sqrt (1 - (f x)²)) H)]. - unfold Rsqr. field. apply Rgt_not_eq, sqrt_lt_R0. nra.
  - rewrite <- (derive_pt_asin _ B). destruct (derivable_pt_asin (f x) B) as (l & D). exact D.
Qed.
Ltac dt := cbv beta; match goal with
  | H : derivable_pt_lim ?f ?x _ |- derivable_pt_lim ?g ?x _ => exact H
  | |- derivable_pt_lim (fun _ => ?c) _ _ => apply (dcst c)
  | |- derivable_pt_lim (fun t => t) _ _ => apply did
  | |- derivable_pt_lim (fun t => @?a t + @?b t) _ _ => refine (dlim_plus a b _ _ _ _ _); dt
  | |- derivable_pt_lim (fun t => @?a t - @?b t) _ _ => refine (dlim_minus a b _ _ _ _ _); dt
  | |- derivable_pt_lim (fun t => - @?a t) _ _ => refine (dlim_opp a _ _ _); dt
  | |- derivable_pt_lim (fun t => @?a t * @?b t) _ _ => refine (dlim_mult a b _ _ _ _ _); dt
  | |- derivable_pt_lim (fun t => @?a t / @?b t) _ _ => refine (ddiv a b _ _ _ _ _ _); [cbv beta|dt|dt]
  | |- derivable_pt_lim (fun t => sqrt (@?a t)) _ _ => refine (dsqrt a _ _ _ _); [cbv beta|dt]
  | |- derivable_pt_lim (fun t => asin (@?a t)) _ _ => refine (dasin a _ _ _ _); [cbv beta|dt]
  | |- derivable_pt_lim (fun t => sin (@?a t)) _ _ => refine (dsin a _ _ _); dt
  | |- derivable_pt_lim (fun t => cos (@?a t)) _ _ => refine (dcos a _ _ _); dt
  end.
Definition arc_velocity (h : R) (v : vec6) : vec6 :=
  let k := sqrt (pz2 v) in let g := 1 + h * vx v in
  V6 (g * vxp v / k) (h * k - h * g) (g * vyp v / k) 0 (1 - g * (1 + vdp v) / k) 0.
Lemma arc_velocity_ok h v : 0 < pz2 v -> velocity (H_arc h) v (arc_velocity h v).
Proof.
  intros P. destruct (sqrt_pos_sq _ P) as (Q & QQ). unfold velocity, partial, H_arc, arc_velocity, pz2 in *.
  three k; cbn [set_coord vx vxp vy vyp vct vdp]; split; (eapply dlim_eq; [|dt; try exact P; lra]); cbv beta; field; lra.
Qed.
Lemma arc_0 h v : h <> 0 -> 0 < pz2 v -> arc h 0 v = v.
Proof.
  intros N P. unfold arc. rewrite Rmult_0_r, cos_0, sin_0. unfold pz2 in *. destruct v as [x px y py z d]. cbn [vx vxp vy vyp vct vdp] in *.
  set (w := sqrt ((1 + d) * (1 + d) - px * px - py * py) - (1 + h * x)). replace (px * 1 + w * 0) with px by ring. unfold w. apply v6_eq; try reflexivity; field; exact N.
Qed.
Lemma small_slope a b : 0 < a - b * b -> -1 < b / sqrt a < 1.
Proof.
  intros H. assert (A : 0 < a) by nra. destruct (sqrt_pos_sq a A) as (Q & QQ). split.
  - apply Rmult_lt_reg_r with (sqrt a); [exact Q|]. unfold Rdiv. rewrite Rmult_assoc, Rinv_l by lra. nra.
  - apply Rmult_lt_reg_r with (sqrt a); [exact Q|]. unfold Rdiv. rewrite Rmult_assoc, Rinv_l by lra. nra.
Qed.
Lemma slope_root a b : 0 < a - b * b -> sqrt (1 - b / sqrt a * (b / sqrt a)) = sqrt (a - b * b) / sqrt a.
Proof.
  intros H. assert (A : 0 < a) by nra. destruct (sqrt_pos_sq a A) as (Q & QQ). rewrite <- sqrt_div_alt by exact A. f_equal.
  replace (b / sqrt a * (b / sqrt a)) with (b * b / (sqrt a * sqrt a)) by (field; lra). rewrite QQ. field. lra.
Qed.
Theorem C177_arc h v : h <> 0 -> 0 < pz2 v -> follows_near (H_arc h) (bend_map_ef h) v.
Proof.
  intros N P. destruct (sqrt_pos_sq _ P) as (Q & QQ).
  assert (D : 0 < (1 + vdp v) * (1 + vdp v) - vyp v * vyp v). { unfold pz2 in P. nra. }
  assert (A0 : arc h 0 v = v) by now apply arc_0.
  assert (DP : exists l, derivable_pt_lim (fun t => pz2 (arc h t v)) 0 l). { eexists. unfold pz2 at 1, arc. cbn [vx vxp vy vyp vct vdp]. dt. }
  destruct DP as (l & DP). assert (P0 : 0 < pz2 (arc h 0 v)) by (rewrite A0; exact P).
  destruct (stays _ l 0 DP P0) as (r & Hr & St).
  exists (fun s => arc h s v), r. split; [exact Hr|]. split; [exact A0|]. split.
  { intros s Hs. apply arc_is; [exact N|]. repeat split; [lra | specialize (St s Hs); lra | exact D]. }
  exists (arc_velocity h (arc h 0 v)). rewrite A0. split; [now apply arc_velocity_ok|].
  set (w := sqrt (pz2 v) - (1 + h * vx v)).
  assert (PX0 : vxp v * cos (h * 0) + w * sin (h * 0) = vxp v) by (rewrite Rmult_0_r, cos_0, sin_0; ring).
  assert (PZ0 : (1 + vdp v) * (1 + vdp v) - (vxp v * cos (h * 0) + w * sin (h * 0)) * (vxp v * cos (h * 0) + w * sin (h * 0)) - vyp v * vyp v = pz2 v) by (rewrite PX0; reflexivity).
  assert (SL : -1 < vxp v / sqrt ((1 + vdp v) * (1 + vdp v) - vyp v * vyp v) < 1) by (apply small_slope; unfold pz2 in P; lra).
  assert (SR : sqrt (1 - vxp v / sqrt ((1 + vdp v) * (1 + vdp v) - vyp v * vyp v) * (vxp v / sqrt ((1 + vdp v) * (1 + vdp v) - vyp v * vyp v))) = sqrt (pz2 v) / sqrt ((1 + vdp v) * (1 + vdp v) - vyp v * vyp v)).
  { rewrite slope_root by (unfold pz2 in P; lra). f_equal. f_equal. unfold pz2. ring. }
  destruct (sqrt_pos_sq _ D) as (QD & _).
  clear DP St; unfold arc, arc_velocity. fold w.
  six i; (eapply dlim_eq; [|dt; try (rewrite PZ0; exact P); try (rewrite PX0; exact SL); try lra]); cbv beta; rewrite ?PZ0, ?PX0, ?SR, ?Rmult_0_r, ?cos_0, ?sin_0; unfold w; clear - N Q QD; revert Q QD; generalize (sqrt (pz2 v)) (sqrt ((1 + vdp v) * (1 + vdp v) - vyp v * vyp v)); intros k q Q QD; try generalize (asin (vxp v / q)); intros; field; repeat split; lra.
Qed.
Print Assumptions C177_arc.
(* the domain: everything else is not a number *)
Theorem C177_domain :
  (forall s v, (exists v', drift_map s v = Ok v') <-> 0 < pz2 v) /\
  (forall k1 s v, (exists v', quad_map k1 s v = Ok v') <-> k1 <> 0 /\ 0 < 1 + vdp v) /\
  (forall h s v, (exists v', bend_map h s v = Ok v') <-> h <> 0 /\ 0 < 1 + vdp v) /\
  (forall h k1 s v, (exists v', combined_map h k1 s v = Ok v') <-> k1 <> 0 /\ k1 + h * h <> 0 /\ 0 < 1 + vdp v).
Proof.
  repeat split; intros.
  - destruct H as (v' & H). destruct (Rlt_le_dec 0 (pz2 v)) as [P|P]; auto. rewrite drift_nan in H by auto. discriminate.
  - exists (free s v). now apply drift_is_free.
  - destruct H as (v' & H). intros Z. unfold quad_map in H. rewrite (Reqb_true k1 0 Z), Bool.orb_true_r in H. discriminate.
  - destruct H as (v' & H). unfold quad_map in H. destruct (Rleb_spec (1 + vdp v) 0); [discriminate|lra].
  - destruct H. eexists. now apply quad_is_flow.
  - destruct H as (v' & H). intros Z. unfold bend_map in H. rewrite (Reqb_true h 0 Z), Bool.orb_true_r in H. discriminate.
  - destruct H as (v' & H). unfold bend_map in H. destruct (Rleb_spec (1 + vdp v) 0); [discriminate|lra].
  - destruct H. eexists. now apply bend_is_flow.
  - destruct H as (v' & H). intros Z. unfold combined_map in H. rewrite (Reqb_true k1 0 Z), Bool.orb_true_r in H. discriminate.
  - destruct H as (v' & H). intros Z. unfold combined_map in H. rewrite (Reqb_true (k1 + h * h) 0 Z), Bool.orb_true_r in H. discriminate.
  - destruct H as (v' & H). unfold combined_map in H. destruct (Rleb_spec (1 + vdp v) 0); [discriminate|lra].
  - destruct H as (? & ? & ?). eexists. now apply combined_is_flow.
Qed.
Print Assumptions C177_domain.

(* ================= C178: steps ================= *)
Lemma steps_flow {E} (F : R -> vec6 -> res E vec6) (G : R -> vec6 -> vec6) (dom : vec6 -> Prop) :
  (forall s v, dom v -> F s v = Ok (G s v)) -> (forall s v, dom v -> dom (G s v)) -> (forall v, dom v -> G 0 v = v) -> (forall a b v, dom v -> G b (G a v) = G (a + b) v) ->
  forall l v, dom v -> steps F l v = F (span l) v.
Proof.
  intros HF HD H0 HP l. induction l as [|s l IH]; intros v D.
  - cbn. rewrite HF, H0 by exact D. reflexivity.
  - cbn [steps span fold_right]. fold (span l). rewrite HF by exact D. cbn [bind]. rewrite IH, HF, HP, <- HF by auto. reflexivity.
Qed.
Theorem C178_drift l v : 0 < pz2 v -> steps drift_map l v = drift_map (span l) v.
Proof.
  revert v. apply (steps_flow drift_map free (fun v => 0 < pz2 v)); intros; [now apply drift_is_free | exact H | now apply free_0 | now apply free_plus].
Qed.
Print Assumptions C178_drift.
Theorem C178_quadrupole k1 l v : k1 <> 0 -> 0 < 1 + vdp v -> steps (quad_map k1) l v = quad_map k1 (span l) v.
Proof.
  intros K. assert (J : k1 + 0 * 0 <> 0) by lra. revert v.
  apply (steps_flow (quad_map k1) (flow 0 k1) (fun v => 0 < 1 + vdp v)); intros; [now apply quad_is_flow | exact H | now apply flow_0 | now apply flow_plus].
Qed.
Print Assumptions C178_quadrupole.
Theorem C178_bend h l v : h <> 0 -> 0 < 1 + vdp v -> steps (bend_map h) l v = bend_map h (span l) v.
Proof.
  intros K. assert (J : 0 + h * h <> 0) by nra. revert v.
  apply (steps_flow (bend_map h) (flow h 0) (fun v => 0 < 1 + vdp v)); intros; [now apply bend_is_flow | exact H | now apply flow_0 | now apply flow_plus].
Qed.
Print Assumptions C178_bend.
Theorem C178_combined h k1 l v : k1 <> 0 -> k1 + h * h <> 0 -> 0 < 1 + vdp v -> steps (combined_map h k1) l v = combined_map h k1 (span l) v.
Proof.
  intros K J. revert v.
  apply (steps_flow (combined_map h k1) (flow h k1) (fun v => 0 < 1 + vdp v)); intros; [now apply combined_is_flow | exact H | now apply flow_0 | now apply flow_plus].
Qed.
Print Assumptions C178_combined.
(* the exact bend: wherever the steps exist *)
Theorem C178_arc h l v v' : h <> 0 -> l <> [] -> steps (bend_map_ef h) l v = Ok v' -> bend_map_ef h (span l) v = Ok v'.
Proof.
  intros N. revert v. induction l as [|s l IH]; intros v L H; [contradiction|]. cbn [steps] in H. cbn [span fold_right]. fold (span l).
  destruct (bend_map_ef h s v) as [v1| |] eqn:E; try discriminate. cbn [bind] in H. apply (arc_is h s v N) in E. destruct E as ((A1 & A2 & A3) & ->).
  destruct l as [|s' l].
  - cbn in H. injection H as <-. cbn. rewrite Rplus_0_r. apply arc_is; [exact N|]. repeat split; assumption.
  - specialize (IH (arc h s v) ltac:(discriminate) H). apply (arc_is h _ _ N) in IH. destruct IH as ((B1 & B2 & B3) & ->). rewrite arc_plus in * by assumption. apply arc_is; [exact N|]. repeat split; assumption.
Qed.
Print Assumptions C178_arc.
Example C178_arc_ex : steps (bend_map_ef 1) [PI / 2; PI / 2] (V6 0 0 0 0 0 0) = Ok (V6 0 0 0 0 0 0) /\ 0 < pz2 (V6 0 0 0 0 0 0).
Proof.
  assert (P : forall s, arc 1 s (V6 0 0 0 0 0 0) = V6 0 0 0 0 0 0).
  { intros s. unfold arc, pz2. cbn [vx vxp vy vyp vct vdp]. replace ((1 + 0) * (1 + 0) - 0 * 0 - 0 * 0) with 1 by ring. rewrite sqrt_1. replace (1 - (1 + 1 * 0)) with 0 by ring.
    replace (0 * cos (1 * s) + 0 * sin (1 * s)) with 0 by ring. replace (0 * cos (1 * s) - 0 * sin (1 * s)) with 0 by ring. replace ((1 + 0) * (1 + 0) - 0 * 0 - 0 * 0) with 1 by ring. rewrite sqrt_1. apply v6_eq; try reflexivity; lra. }
  assert (Z : pz2 (V6 0 0 0 0 0 0) = 1) by (unfold pz2; cbn; ring).
  assert (B : forall s, bend_map_ef 1 s (V6 0 0 0 0 0 0) = Ok (V6 0 0 0 0 0 0)). { intros s. rewrite <- (P s) at 2. apply arc_is; [lra|]. repeat split; rewrite ?P, ?Z; cbn; lra. }
  split; [|lra]. cbn [steps]. rewrite B. cbn [bind]. rewrite B. reflexivity.
Qed.
(* a bend of any curvature and gradient with numbers for it, in any number of pieces *)
Theorem C178_magnet h k1 l v : k1 + h * h <> 0 \/ h = 0 -> 0 < 1 + vdp v -> 0 < pz2 v -> steps (straight_part false h k1) l v = straight_part false h k1 (span l) v.
Proof.
  intros J D P. unfold straight_part, over. destruct (Req_dec h 0) as [->|N]; [destruct (Req_dec k1 0) as [->|K]|destruct (Req_dec k1 0) as [->|K]].
  - rewrite !(Reqb_true 0 0) by reflexivity. revert v D P. enough (G : forall v, 0 < pz2 v -> steps (fun len v => if Reqb len 0 then Ok v else drift_map len v) l v = if Reqb (span l) 0 then Ok v else drift_map (span l) v) by (intros; now apply G). 
    intros v. apply (steps_flow (fun len v => if Reqb len 0 then Ok v else drift_map len v) free (fun v => 0 < pz2 v)); intros.
    + destruct (Reqb_spec s 0) as [->|]; [rewrite free_0 by exact H; reflexivity | now apply drift_is_free].
    + exact H. + now apply free_0. + now apply free_plus.
  - rewrite (Reqb_true 0 0), (Reqb_false k1 0) by auto. clear P. assert (J' : k1 + 0 * 0 <> 0) by lra. revert v D. apply (steps_flow (fun len v => if Reqb len 0 then Ok v else quad_map k1 len v) (flow 0 k1) (fun v => 0 < 1 + vdp v)); intros.
    + destruct (Reqb_spec s 0) as [->|]; [rewrite flow_0 by assumption; reflexivity | now apply quad_is_flow].
    + exact H. + now apply flow_0. + now apply flow_plus.
  - rewrite (Reqb_true 0 0), (Reqb_false h 0) by auto. clear P. assert (J' : 0 + h * h <> 0) by nra. revert v D. apply (steps_flow (fun len v => if Reqb len 0 then Ok v else bend_map h len v) (flow h 0) (fun v => 0 < 1 + vdp v)); intros.
    + destruct (Reqb_spec s 0) as [->|]; [rewrite flow_0 by assumption; reflexivity | now apply bend_is_flow].
    + exact H. + now apply flow_0. + now apply flow_plus.
  - rewrite (Reqb_false k1 0), (Reqb_false h 0) by auto. clear P. assert (J' : k1 + h * h <> 0) by (destruct J; [assumption|contradiction]). revert v D. apply (steps_flow (fun len v => if Reqb len 0 then Ok v else combined_map h k1 len v) (flow h k1) (fun v => 0 < 1 + vdp v)); intros.
    + destruct (Reqb_spec s 0) as [->|]; [rewrite flow_0 by assumption; reflexivity | now apply combined_is_flow].
    + exact H. + now apply flow_0. + now apply flow_plus.
Qed.
Print Assumptions C178_magnet.
Example C178_magnet_ex : steps (straight_part false (1/10) (2/10)) [1/3; 1/3; 1/3] (V6 0 0 0 0 0 0) = straight_part false (1/10) (2/10) (1/3 + (1/3 + (1/3 + 0))) (V6 0 0 0 0 0 0).
Proof. apply C178_magnet; [left; lra | cbn; lra | unfold pz2; cbn; lra]. Qed.

(* ================= C179: symplectic maps ================= *)
Section ArcRows.
Variables (h L px py d1 c s pz pz1 px1 Q u : R).
Definition apx (i : nat) : R := match i with 0%nat => - h * s | 1%nat => c - px * s / pz | 3%nat => - py * s / pz | 5%nat => d1 * s / pz | _ => 0 end.
Definition aw (i : nat) : R := match i with 0%nat => - h * c | 1%nat => - px * c / pz - s | 3%nat => - py * c / pz | 5%nat => d1 * c / pz | _ => 0 end.
Definition apy (i : nat) : R := match i with 3%nat => 1 | _ => 0 end.
Definition ad (i : nat) : R := match i with 5%nat => 1 | _ => 0 end.
Definition apz1 (i : nat) : R := (- px1 * apx i - py * apy i + d1 * ad i) / pz1.
Definition au (i : nat) : R := (match i with 1%nat => 1 / pz | 3%nat => px * py / (Q * pz) | 5%nat => - px * d1 / (Q * pz) | _ => 0 end)
  - (apx i / pz1 + px1 * py * apy i / (Q * pz1) - px1 * d1 * ad i / (Q * pz1)).
Definition arow (f : nat -> R) : vec6 := V6 (f 0%nat) (f 1%nat) (f 2%nat) (f 3%nat) (f 4%nat) (f 5%nat).
Definition arow_x := arow (fun i => (apz1 i - aw i) / h).
Definition arow_y := arow (fun i => (match i with 2%nat => 1 | _ => 0 end) + apy i * (L + u / h) + py * au i / h).
Definition arow_ct := arow (fun i => (match i with 4%nat => 1 | _ => 0 end) - ad i * (L + u / h) - d1 * au i / h).
Lemma arc_rows_symplectic : h <> 0 -> 0 < pz -> 0 < pz1 -> Q = d1 * d1 - py * py -> 0 < Q -> pz * pz = Q - px * px -> pz1 * pz1 = Q - px1 * px1 -> c * c + s * s = 1 ->
  symplectic 6 (rows arow_x (arow apx) arow_y (arow apy) arow_ct (arow ad)).
Proof.
  intros N P P1 EQ HQ E E1 CS. apply bracket_symplectic. unfold bracket, arow_x, arow_y, arow_ct, arow, apz1, au, aw, apx, apy, ad. cbn [coord vx vxp vy vyp vct vdp].
  assert (EC : c * c = 1 - s * s) by lra. assert (ED : d1 * d1 = Q + py * py) by lra. clear EQ CS.
  repeat split; try ring; field_simplify_eq; try (repeat split; lra); try ring [E E1 EC ED].
Qed.
End ArcRows.
Theorem C179_arc h s v : h <> 0 -> 0 < pz2 v -> (exists v', bend_map_ef h s v = Ok v' /\ 0 < pz2 v') -> symplectic_at (bend_map_ef h s) v.
Proof.
  intros N P (v' & EV & P1). apply (arc_is h s v N) in EV. destruct EV as ((_ & _ & D) & ->).
  set (C := cos (h * s)). set (S0 := sin (h * s)). set (q2 := (1 + vdp v) * (1 + vdp v) - vyp v * vyp v).
  set (pz := sqrt (pz2 v)). set (pz1 := sqrt (pz2 (arc h s v))). set (px1 := vxp (arc h s v)).
  set (u := asin (vxp v / sqrt q2) - asin (px1 / sqrt q2)).
  destruct (sqrt_pos_sq _ P) as (Q & QQ). destruct (sqrt_pos_sq _ P1) as (Q1 & QQ1). fold pz in Q, QQ. fold pz1 in Q1, QQ1.
  exists (rows (arow_x h (vxp v) (vyp v) (1 + vdp v) C S0 pz pz1 px1) (arow (apx h (vxp v) (vyp v) (1 + vdp v) C S0 pz)) (arow_y h s (vxp v) (vyp v) (1 + vdp v) C S0 pz pz1 px1 q2 u) (arow apy)
            (arow_ct h s (vxp v) (vyp v) (1 + vdp v) C S0 pz pz1 px1 q2 u) (arow ad)).
  split; [|apply arc_rows_symplectic; try assumption; try reflexivity; [rewrite QQ; unfold pz2, q2; ring | rewrite QQ1; unfold q2, px1, pz2; cbn [arc vxp vyp vdp]; ring | unfold C, S0; pose proof (sin2_cos2 (h * s)); unfold Rsqr in *; lra]].
  apply rows_tangent. intros c du Pc. destruct (passes_parts c v du Pc) as (x & qx & y & qy & z & d & Hc & Hv & Dx & Dpx & Dy & Dpy & Dz & Dd).
  assert (V0 : c 0 = v) by apply Pc.
  assert (D0 : exists l, derivable_pt_lim (fun t => pz2 (c t)) 0 l). { eexists. eapply dlim_ext; [intros t; rewrite Hc; unfold pz2; cbn [vx vxp vy vyp vct vdp]; reflexivity|]. dt. }
  assert (D1 : exists l, derivable_pt_lim (fun t => pz2 (arc h s (c t))) 0 l).
  { eexists. eapply dlim_ext; [intros t; rewrite Hc; unfold pz2, arc; cbn [vx vxp vy vyp vct vdp]; reflexivity|]. unfold pz2. cbn [vx vxp vy vyp vct vdp]. dt. rewrite Hv in P. exact P. rewrite Hv in P. exact P. }
  assert (D2 : exists l, derivable_pt_lim (fun t => (1 + vdp (c t)) * (1 + vdp (c t)) - vyp (c t) * vyp (c t)) 0 l). { eexists. eapply dlim_ext; [intros t; rewrite Hc; cbn [vx vxp vy vyp vct vdp]; reflexivity|]. dt. }
  destruct D0 as (l0 & D0), D1 as (l1 & D1), D2 as (l2 & D2).
  destruct (stays _ _ 0 D0) as (r0 & Hr0 & St0); [rewrite V0; exact P|]. destruct (stays _ _ 0 D1) as (r1 & Hr1 & St1); [rewrite V0; exact P1|]. destruct (stays _ _ 0 D2) as (r2 & Hr2 & St2); [rewrite V0; exact D|].
  exists (Rmin r0 (Rmin r1 r2)), (fun t => arc h s (c t)). split; [repeat apply Rmin_pos; assumption|]. split.
  { intros t T. pose proof (Rmin_l r0 (Rmin r1 r2)). pose proof (Rmin_r r0 (Rmin r1 r2)). pose proof (Rmin_l r1 r2). pose proof (Rmin_r r1 r2). apply arc_is; [exact N|]. repeat split; [apply Rlt_le, St0; lra | apply Rlt_le, St1; lra | apply St2; lra]. }
  split; [reflexivity|]. clear D0 D1 D2 St0 St1 St2 l0 l1 l2 Pc V0.
  assert (B1 : 0 < q2 - px1 * px1) by (unfold q2, px1; unfold pz2 in P1; cbn [arc vxp vyp vdp] in *; lra).
  assert (B0 : 0 < q2 - vxp v * vxp v) by (unfold q2; unfold pz2 in P; lra).
  pose proof (small_slope _ _ B0) as SL0. pose proof (slope_root _ _ B0) as SR0. pose proof (small_slope _ _ B1) as SL1. pose proof (slope_root _ _ B1) as SR1.
  assert (G0 : q2 - vxp v * vxp v = pz2 v) by (unfold q2, pz2; ring). rewrite G0 in SR0. fold pz in SR0.
  assert (G1 : q2 - px1 * px1 = pz2 (arc h s v)) by (unfold q2, px1, pz2; cbn [arc vxp vyp vdp]; ring). rewrite G1 in SR1. fold pz1 in SR1.
  destruct (sqrt_pos_sq _ D) as (QD & QQD). fold q2 in QD, QQD.
  subst v. unfold arow_x, arow_y, arow_ct, arow, apz1, au, aw, apx, apy, ad.
  assert (X1 : qx 0 * C + (pz - (1 + h * x 0)) * S0 = px1) by reflexivity.
  assert (PZ : (1 + d 0) * (1 + d 0) - qx 0 * qx 0 - qy 0 * qy 0 = pz2 (V6 (x 0) (qx 0) (y 0) (qy 0) (z 0) (d 0))) by reflexivity.
  assert (PZ1 : (1 + d 0) * (1 + d 0) - px1 * px1 - qy 0 * qy 0 = pz2 (arc h s (V6 (x 0) (qx 0) (y 0) (qy 0) (z 0) (d 0)))) by reflexivity.
  assert (U : asin (qx 0 / sqrt q2) - asin (px1 / sqrt q2) = u) by reflexivity.
  assert (EQ2 : (1 + d 0) * (1 + d 0) - qy 0 * qy 0 = q2) by reflexivity.
  cbn [vx vxp vy vyp vct vdp] in *.
  clearbody u q2.
  six i; (eapply dlim_ext; [intros t; rewrite Hc; unfold arc, pz2; cbn [vx vxp vy vyp vct vdp]; reflexivity|]); fold C S0.
  all: (eapply dlim_eq; [|dt]); cbv beta; unfold dotv; cbn [vx vxp vy vyp vct vdp].
  all: rewrite ?PZ, ?EQ2; fold pz; rewrite ?X1, ?PZ1, ?EQ2; fold pz1; try exact P; try exact P1; try lra.
  all: rewrite ?SR0, ?SR1, ?U; clearbody px1 pz pz1 C S0; clear - N Q Q1 QD QQD; revert QD QQD; generalize (sqrt q2); intros rq QD QQD; subst q2; field; repeat split; nra.
Qed.
Print Assumptions C179_arc.
Theorem C179_drift s v : 0 < pz2 v -> symplectic_at (drift_map s) v.
Proof. apply drift_symplectic. Qed.
Print Assumptions C179_drift.
Lemma flow_symplectic_at {E} (F : vec6 -> res E vec6) h k1 s v : k1 + h * h <> 0 -> 0 < 1 + vdp v -> (forall v, 0 < 1 + vdp v -> F v = Ok (flow h k1 s v)) -> symplectic_at F v.
Proof. intros J D H. eexists. split; [now apply (flow_tangent F h k1 s v)|]. now apply flow_symplectic. Qed.
Theorem C179_quadrupole k1 s v : k1 <> 0 -> 0 < 1 + vdp v -> symplectic_at (quad_map k1 s) v.
Proof. intros K D. apply (flow_symplectic_at _ 0 k1 s); [lra | exact D | intros; now apply quad_is_flow]. Qed.
Print Assumptions C179_quadrupole.
Theorem C179_bend h s v : h <> 0 -> 0 < 1 + vdp v -> symplectic_at (bend_map h s) v.
Proof. intros K D. apply (flow_symplectic_at _ h 0 s); [nra | exact D | intros; now apply bend_is_flow]. Qed.
Print Assumptions C179_bend.
Theorem C179_combined h k1 s v : k1 <> 0 -> k1 + h * h <> 0 -> 0 < 1 + vdp v -> symplectic_at (combined_map h k1 s) v.
Proof. intros K J D. apply (flow_symplectic_at _ h k1 s); [exact J | exact D | intros; now apply combined_is_flow]. Qed.
Print Assumptions C179_combined.
Lemma linear_tangent {E} (F : vec6 -> res E vec6) M v : (forall w, F w = Ok (image M w)) -> tangent F v M.
Proof.
  intros H c u Pc. exists 1, (fun t => image M (c t)). split; [lra|]. split; [intros; apply H|]. split; [reflexivity|].
  destruct (passes_parts c v u Pc) as (x & qx & y & qy & z & d & Hc & Hv & Dx & Dpx & Dy & Dpy & Dz & Dd).
  six i; (eapply dlim_ext; [intros t; rewrite Hc; unfold image; cbn [sum map seq fold_right coord vx vxp vy vyp vct vdp]; reflexivity|]);
  (eapply dlim_eq; [|dt]); cbv beta; unfold image; cbn [sum map seq fold_right coord vx vxp vy vyp vct vdp]; ring.
Qed.
(* magnet edges *)
Theorem C179_pole_face h pf v : symplectic_at (fun w => Ok (E := ierr) (pole_face_map h pf w)) v.
Proof.
  unfold pole_face_map. cbv zeta. set (a := h * tan (frot pf)). set (b := - h * tan (frot pf - _)). clearbody a b.
  exists (rows (V6 1 0 0 0 0 0) (V6 a 1 0 0 0 0) (V6 0 0 1 0 0 0) (V6 0 0 b 1 0 0) (V6 0 0 0 0 1 0) (V6 0 0 0 0 0 1)). split.
  - apply linear_tangent. intros w. rewrite image_rows. unfold dotv. cbn [vx vxp vy vyp vct vdp]. f_equal. apply v6_eq; ring.
  - apply bracket_symplectic. unfold bracket. cbn [coord vx vxp vy vyp vct vdp]. repeat split; ring.
Qed.
Print Assumptions C179_pole_face.
(* a kick by any multipole field, at any angle *)
Theorem C179_kick f ds P0 q phi v : P0 <> 0 -> symplectic_at (multipole_kick f ds P0 q phi) v.
Proof.
  intros N. set (k := cscale (q * ds * eVc / P0) (mkCx (cos phi) (sin phi))).
  set (B := fun z => if is_null f then c0 else cscale (b0 f) (peval (ex f) z)). set (B' := fun z => if is_null f then c0 else cscale (b0 f) (peval (pd (ex f)) z)).
  assert (DB : forall g t u, cderiv g t u -> cderiv (fun s => B (g s)) t (cmul (B' (g t)) u)).
  { intros g t u D. unfold B, B'. destruct (is_null f); [replace (cmul c0 u) with c0 by ring; apply cderiv_const|]. pose proof (peval_deriv (ex f) g t u D) as P. pose proof (cderiv_mul (fun _ => creal (b0 f)) _ t _ _ (cderiv_const _ t) P) as Q.
    replace (cmul (cscale (b0 f) (peval (pd (ex f)) (g t))) u) with (cadd (cmul c0 (peval (ex f) (g t))) (cmul (creal (b0 f)) (cmul (peval (pd (ex f)) (g t)) u))) by (rewrite cscale_mul; ring).
    destruct Q as (Q1 & Q2). split; [eapply dlim_ext; [|exact Q1] | eapply dlim_ext; [|exact Q2]]; intros w; cbn; ring. }
  assert (EK : forall w, multipole_kick f ds P0 q phi w = Ok (V6 (vx w) (vxp w - re (cmul k (B (mkCx (vx w) (vy w))))) (vy w) (vyp w + im (cmul k (B (mkCx (vx w) (vy w))))) (vct w) (vdp w))).
  { intros w. unfold multipole_kick. rewrite Reqb_false by exact N. rewrite field_eval. reflexivity. }
  set (D := cmul k (B' (mkCx (vx v) (vy v)))).
  exists (rows (V6 1 0 0 0 0 0) (V6 (- re D) 1 (im D) 0 0 0) (V6 0 0 1 0 0 0) (V6 (im D) 0 (re D) 1 0 0) (V6 0 0 0 0 1 0) (V6 0 0 0 0 0 1)). split.
  - apply rows_tangent. intros c u Pc. eexists 1, _. split; [lra|]. split; [intros t _; rewrite EK; reflexivity|]. split; [reflexivity|].
    destruct (passes_parts c v u Pc) as (x & qx & y & qy & z & d & Hc & Hv & Dx & Dpx & Dy & Dpy & Dz & Dd).
    assert (DZ : cderiv (fun t => mkCx (x t) (y t)) 0 (mkCx (vx u) (vy u))) by (split; assumption).
    pose proof (cderiv_mul (fun _ => k) _ 0 _ _ (cderiv_const k 0) (DB _ _ _ DZ)) as (Q1 & Q2).
    subst v. unfold D. cbn [vx vxp vy vyp vct vdp]. clearbody B B' k.
    six i; (eapply dlim_ext; [intros t; rewrite Hc; cbn [vx vxp vy vyp vct vdp]; reflexivity|]); unfold dotv; cbn [vx vxp vy vyp vct vdp].
    + eapply dlim_eq; [|exact Dx]. ring.
    + eapply dlim_eq; [|exact (dlim_minus _ _ _ _ _ Dpx Q1)]. cbn. ring.
    + eapply dlim_eq; [|exact Dy]. ring.
    + eapply dlim_eq; [|exact (dlim_plus _ _ _ _ _ Dpy Q2)]. cbn. ring.
    + eapply dlim_eq; [|exact Dz]. ring.
    + eapply dlim_eq; [|exact Dd]. ring.
  - apply bracket_symplectic. unfold bracket. cbn [coord vx vxp vy vyp vct vdp]. repeat split; ring.
Qed.
Print Assumptions C179_kick.
(* ---- a whole step through a bend ---- *)
Lemma symplectic_then {E} (F G : vec6 -> res E vec6) v v' : F v = Ok v' -> symplectic_at F v -> symplectic_at G v' -> symplectic_at (fun w => do w' <- F w; G w') v.
Proof. intros H (A & TA & SA) (B & TB & SB). exists (times 6 B A). split; [now apply (tangent_then F G v v')|]. now apply symplectic_times. Qed.
Lemma symplectic_ext {E} (F G : vec6 -> res E vec6) v : (forall w, F w = G w) -> symplectic_at F v -> symplectic_at G v.
Proof. intros H (M & T & SM). exists M. split; auto. now apply (tangent_ext F). Qed.
Lemma symplectic_same {E} v : symplectic_at (fun w => Ok (E := E) w) v.
Proof.
  exists (rows (V6 1 0 0 0 0 0) (V6 0 1 0 0 0 0) (V6 0 0 1 0 0 0) (V6 0 0 0 1 0 0) (V6 0 0 0 0 1 0) (V6 0 0 0 0 0 1)). split.
  - apply linear_tangent. intros w. rewrite image_rows. unfold dotv. cbn [vx vxp vy vyp vct vdp]. f_equal. destruct w as [a b c d e f]. apply v6_eq; cbn; ring.
  - apply bracket_symplectic. unfold bracket. cbn [coord vx vxp vy vyp vct vdp]. repeat split; ring.
Qed.
Definition turn (a : R) (v : vec6) : vec6 :=
  V6 (cos a * vx v - sin a * vy v) (cos a * vxp v - sin a * vyp v) (sin a * vx v + cos a * vy v) (sin a * vxp v + cos a * vyp v) (vct v) (vdp v).
Lemma rolled_turn a v : eps < Rabs a -> rolled a v = Ok (turn a v).
Proof.
  intros H. unfold rolled. assert (N : a <> 0) by (intros ->; rewrite Rabs_R0 in H; pose proof eps_pos; lra). rewrite Reqb_false by exact N.
  unfold srot, fequal, fequal_tol. replace (a - 0) with a by ring. rewrite Rleb_false by exact H.
  unfold srot_cs. cbn [Nat.leb lift bind]. f_equal. unfold apply_m, vof, turn, msum, mset, mid. cbn [Nat.ltb Nat.leb Nat.eqb seq map fold_right coord andb]. apply v6_eq; cbn; try ring.
Qed.
Lemma rolled_symplectic a v : a = 0 \/ eps < Rabs a -> symplectic_at (rolled a) v.
Proof.
  intros [->|H].
  - apply (symplectic_ext (fun w => Ok w)); [|apply symplectic_same]. intros w. unfold rolled. now rewrite Reqb_true.
  - exists (rows (V6 (cos a) 0 (- sin a) 0 0 0) (V6 0 (cos a) 0 (- sin a) 0 0) (V6 (sin a) 0 (cos a) 0 0 0) (V6 0 (sin a) 0 (cos a) 0 0) (V6 0 0 0 0 1 0) (V6 0 0 0 0 0 1)). split.
    + apply linear_tangent. intros w. rewrite rolled_turn by exact H. rewrite image_rows. unfold dotv, turn. cbn [vx vxp vy vyp vct vdp]. f_equal. apply v6_eq; ring.
    + pose proof (sin2_cos2 a) as CS. unfold Rsqr in CS. apply bracket_symplectic. unfold bracket. cbn [coord vx vxp vy vyp vct vdp]. repeat split; try ring; lra.
Qed.
Lemma straight_symplectic h k1 len v v' : straight_part false h k1 len v = Ok v' -> symplectic_at (straight_part false h k1 len) v.
Proof.
  destruct C177_domain as (D1 & D2 & D3 & D4). unfold straight_part, over. intros H. destruct (Reqb len 0); [apply symplectic_same|]. destruct (Reqb h 0); destruct (Reqb k1 0).
  - apply C179_drift. apply (D1 len v). eauto.
  - destruct (proj1 (D2 k1 len v)); [eauto|]. now apply C179_quadrupole.
  - destruct (proj1 (D3 h len v)); [eauto|]. now apply C179_bend.
  - destruct (proj1 (D4 h k1 len v)) as (? & ? & ?); [eauto|]. now apply C179_combined.
Qed.
Theorem C179_bend_step P0 q ds b v r : stilt b = 0 \/ eps < Rabs (stilt b) -> sbend_step false P0 q ds b v = Ok r ->
  symplectic_at (fun w => do r <- sbend_step false P0 q ds b w; Ok (fst r)) v.
Proof.
  intros T H. unfold sbend_step in H |- *. set (f1 := fst (get_coefficient 0 1 (sfield b))) in *. cbv zeta in H |- *.
  assert (T' : - stilt b = 0 \/ eps < Rabs (- stilt b)) by (rewrite Rabs_Ropp; destruct T; [left; lra | right; assumption]).
  destruct (rolled (stilt b) v) as [v1| |] eqn:E1; try discriminate. cbn [bind] in H.
  destruct (negb (matched (sh b) q f1)); [discriminate|].
  destruct (if Z.ltb 0 (highest f1) then do k <- lift_u (get_kn f1 1 (P0 / eVc)); Ok (cscale q k) else Ok Cplx.c0) as [K1| |] eqn:EK; try discriminate. cbn [bind] in H |- *.
  set (sp := nonzero (im (snd (get_coefficient 0 1 f1))) || nonzero (im K1) || Z.ltb 1 (highest f1)) in *.
  set (len := if sp then ds / 2 else ds) in *. destruct (straight_part false (sh b) (re K1) len v1) as [v2| |] eqn:E2; try discriminate. cbn [bind] in H.
  destruct sp.
  - set (f3 := set_coefficient 1 _ 1 (set_coefficient 0 _ 1 _)) in *. set (fin := set_coefficient 1 _ 1 (set_coefficient 0 _ 1 f3)) in *. clearbody f3 fin.
    destruct (over ds (fun l => multipole_kick f3 l P0 q 0) v2) as [v3| |] eqn:E3; try discriminate. cbn [bind] in H.
    destruct (straight_part false (sh b) (re K1) len v3) as [v4| |] eqn:E4; try discriminate. cbn [bind fst snd] in H.
    destruct (rolled (- stilt b) v4) as [v5| |] eqn:E5; try discriminate.
    apply (symplectic_ext (fun w => do w1 <- rolled (stilt b) w; (do w2 <- straight_part false (sh b) (re K1) len w1; (do w3 <- over ds (fun l => multipole_kick f3 l P0 q 0) w2; (do w4 <- straight_part false (sh b) (re K1) len w3; rolled (- stilt b) w4))))).
    { intros w. destruct (rolled (stilt b) w) as [w1| |]; try reflexivity. cbn [bind]. destruct (straight_part false (sh b) (re K1) len w1) as [w2| |]; try reflexivity. cbn [bind]. destruct (over ds _ w2) as [w3| |]; try reflexivity. cbn [bind].
      destruct (straight_part false (sh b) (re K1) len w3) as [w4| |]; try reflexivity. cbn [bind fst snd]. destruct (rolled (- stilt b) w4); reflexivity. }
    apply (symplectic_then _ _ _ _ E1); [now apply rolled_symplectic|]. apply (symplectic_then _ _ _ _ E2); [eapply straight_symplectic; eassumption|].
    apply (symplectic_then _ _ _ _ E3). { unfold over in *. destruct (Reqb ds 0); [apply symplectic_same|]. apply C179_kick. intros ->. unfold multipole_kick in E3. rewrite Reqb_true in E3 by reflexivity. discriminate. }
    apply (symplectic_then _ _ _ _ E4); [eapply straight_symplectic; eassumption|]. now apply rolled_symplectic.
  - cbn [bind fst snd] in H. destruct (rolled (- stilt b) v2) as [v5| |] eqn:E5; try discriminate.
    apply (symplectic_ext (fun w => do w1 <- rolled (stilt b) w; (do w2 <- straight_part false (sh b) (re K1) len w1; rolled (- stilt b) w2))).
    { intros w. destruct (rolled (stilt b) w) as [w1| |]; try reflexivity. cbn [bind]. destruct (straight_part false (sh b) (re K1) len w1) as [w2| |]; try reflexivity. cbn [bind fst snd]. destruct (rolled (- stilt b) w2); reflexivity. }
    apply (symplectic_then _ _ _ _ E1); [now apply rolled_symplectic|]. apply (symplectic_then _ _ _ _ E2); [eapply straight_symplectic; eassumption|]. now apply rolled_symplectic.
Qed.
Print Assumptions C179_bend_step.

(* ================= C180: bends that are not tracked ================= *)
Theorem C180_gradient_refuted ef h len v : h <> 0 -> len <> 0 -> straight_part ef h (- (h * h)) len v = Throw NaN.
Proof.
  intros H L. unfold straight_part, over. rewrite (Reqb_false len 0), (Reqb_false h 0), (Reqb_false (- (h * h)) 0) by nra. unfold combined_map. rewrite (Reqb_true (- (h * h) + h * h) 0) by ring. now rewrite Bool.orb_true_r.
Qed.
Print Assumptions C180_gradient_refuted.
Theorem C180_no_dipole_refuted ef P0 q ds h f fi fo v : coef f 0 = c0 -> sbend_step ef P0 q ds (mkSB h 0 f fi fo) v = Throw Assertion.
Proof.
  intros C. unfold sbend_step. cbn [sh stilt sfield]. unfold rolled. rewrite (Reqb_true 0 0) by reflexivity. cbn [bind]. unfold coef in C.
  assert (M : matched h q (fst (get_coefficient 0 1 f)) = false).
  { unfold matched, get_coefficient, grow. cbn [fst snd b0 ex]. assert (G : forall l, nth 0 (l ++ repeat c0 (0 + 1 - length l)) c0 = nth 0 l c0) by (intros [|x l]; reflexivity).
    rewrite !G, C. cbn. rewrite Rmult_0_r, Rmult_0_l. destruct (Reqb h 0); apply Rltb_false; unfold Rdiv; lra. }
  cbv zeta. rewrite M. reflexivity.
Qed.
Print Assumptions C180_no_dipole_refuted.
(* a tiny tilt: every particle is put at the origin *)
Theorem C180_tiny_tilt_refuted ef P0 q ds b : stilt b <> 0 -> Rabs (stilt b) <= eps -> (forall v, rolled (stilt b) v = Ok (V6 0 0 0 0 0 0)) /\ forall v w, sbend_step ef P0 q ds b v = sbend_step ef P0 q ds b w.
Proof.
  intros N H. assert (Z : forall v, rolled (stilt b) v = Ok (V6 0 0 0 0 0 0)).
  { intros v. unfold rolled. rewrite Reqb_false by exact N. unfold srot, fequal, fequal_tol. replace (stilt b - 0) with (stilt b) by ring. rewrite Rleb_true by exact H. cbn [lift bind]. f_equal. unfold apply_m, vof, msum. cbn. apply v6_eq; ring. }
  split; [exact Z|]. intros v w. unfold sbend_step. now rewrite !Z.
Qed.
Print Assumptions C180_tiny_tilt_refuted.
Example C180_tiny_tilt_ex : let b := mkSB (1/10) (eps / 2) (mkF 1 [c1]) None None in stilt b <> 0 /\ Rabs (stilt b) <= eps.
Proof. cbn. pose proof eps_pos. rewrite Rabs_pos_eq; lra. Qed.

(* ================= C186: bends that are ================= *)
Lemma turn_back a v : turn (- a) (turn a v) = v.
Proof.
  unfold turn. cbn [vx vxp vy vyp vct vdp]. rewrite cos_neg, sin_neg. pose proof (sin2_cos2 a) as CS. unfold Rsqr in CS. destruct v as [x px y py z d]. cbn [vx vxp vy vyp vct vdp].
  assert (CC : cos a * cos a = 1 - sin a * sin a) by lra. apply v6_eq; try reflexivity; ring [CC].
Qed.
Theorem C186_roll_back a v : a = 0 \/ eps < Rabs a -> exists w, rolled a v = Ok w /\ rolled (- a) w = Ok v /\ vct w = vct v /\ vdp w = vdp v.
Proof.
  intros [->|H].
  - exists v. rewrite Ropp_0. unfold rolled. rewrite Reqb_true by reflexivity. auto.
  - exists (turn a v). rewrite rolled_turn by exact H. rewrite rolled_turn by (rewrite Rabs_Ropp; exact H). rewrite turn_back. auto.
Qed.
Print Assumptions C186_roll_back.
Lemma bent_part h k1 len v : h <> 0 -> k1 + h * h <> 0 -> 0 < 1 + vdp v -> straight_part false h k1 len v = Ok (if Reqb len 0 then v else flow h k1 len v).
Proof.
  intros N J D. unfold straight_part, over. destruct (Reqb len 0); [reflexivity|]. rewrite Reqb_false by exact N. destruct (Reqb_spec k1 0) as [->|K]; [now apply bend_is_flow | now apply combined_is_flow].
Qed.
Theorem C186_bend P0 q ds b v K : sh b <> 0 -> P0 <> 0 -> stilt b = 0 \/ eps < Rabs (stilt b) -> matched (sh b) q (sfield b) = true ->
  get_kn (sfield b) 1 (P0 / eVc) = Ok K -> re (cscale q K) + sh b * sh b <> 0 -> 0 < 1 + vdp v -> exists r, sbend_step false P0 q ds b v = Ok r /\ vdp (fst r) = vdp v.
Proof.
  intros N NP T M EK J D. destruct (C186_roll_back _ v T) as (w & E1 & _ & _ & W). unfold sbend_step. rewrite E1. cbn [bind]. cbv zeta.
  assert (V : 0 < eVc) by (unfold eVc; lra). assert (NR : P0 / eVc <> 0) by (intros Z; apply NP; apply (Rmult_eq_compat_r eVc) in Z; unfold Rdiv in Z; rewrite Rmult_assoc, Rinv_l in Z by lra; lra).
  set (f1 := fst (get_coefficient 0 1 (sfield b))).
  assert (M1 : matched (sh b) q f1 = matched (sh b) q (sfield b)).
  { unfold matched, f1, get_coefficient, grow. cbn [fst snd b0 ex]. assert (G : forall l, nth 0 (l ++ repeat c0 (0 + 1 - length l)) c0 = nth 0 l c0) by (intros [|x l]; reflexivity). now rewrite !G. }
  rewrite M1, M. cbn [negb].
  assert (EK1 : exists K', (if Z.ltb 0 (highest f1) then do k <- lift_u (get_kn f1 1 (P0 / eVc)); Ok (cscale q k) else Ok Cplx.c0) = Ok (E := ierr) K' /\ re K' = re (cscale q K)).
  { unfold get_kn in *. rewrite Reqb_false in EK by exact NR. rewrite Reqb_false by exact NR. unfold f1, get_coefficient, grow, highest. cbn [fst snd b0 ex]. destruct (ex (sfield b)) as [|x [|y l]]; cbn [length Nat.sub Nat.add repeat app nth] in *.
    - exists Cplx.c0. split; [reflexivity|]. change (Nat.ltb 1 0) with false in EK. injection EK as <-. cbn. ring.
    - exists Cplx.c0. split; [reflexivity|]. change (Nat.ltb 1 1) with false in EK. injection EK as <-. cbn. ring.
    - rewrite app_nil_r. cbn [length nth]. replace (Z.ltb 0 (Z.of_nat (S (S (length l))) - 1)) with true by (symmetry; apply Z.ltb_lt; lia). rewrite EK. cbn [lift_u bind]. eexists. split; reflexivity. }
  destruct EK1 as (K' & EK1 & RK). rewrite EK1. cbn [bind]. rewrite RK.
  set (sp := nonzero _ || nonzero _ || _). set (len := if sp then ds / 2 else ds). clearbody sp len.
  assert (DW : 0 < 1 + vdp w) by (rewrite W; exact D). rewrite bent_part by assumption. cbn [bind]. set (v2 := if Reqb len 0 then w else _). assert (D2 : vdp v2 = vdp v) by (unfold v2; destruct (Reqb len 0); [exact W | rewrite flow_dp; exact W]). clearbody v2.
  assert (T' : - stilt b = 0 \/ eps < Rabs (- stilt b)) by (rewrite Rabs_Ropp; destruct T; [left; lra | right; assumption]).
  destruct sp.
  - set (f3 := set_coefficient 1 _ 1 (set_coefficient 0 _ 1 _)). assert (E3 : exists v3, over ds (fun l => multipole_kick f3 l P0 q 0) v2 = Ok v3 /\ vdp v3 = vdp v2).
    { unfold over. destruct (Reqb ds 0); [eauto|]. unfold multipole_kick. rewrite Reqb_false by exact NP. rewrite field_eval. cbn [lift_u bind]. eexists. split; reflexivity. }
    destruct E3 as (v3 & -> & D3). cbn [bind]. rewrite bent_part by (try assumption; rewrite D3, D2; exact D). cbn [bind fst snd]. set (v4 := if Reqb len 0 then v3 else _). assert (D4 : vdp v4 = vdp v) by (unfold v4; destruct (Reqb len 0); rewrite ?flow_dp, D3; exact D2).
    destruct (C186_roll_back _ v4 T') as (v5 & -> & _ & _ & D5). cbn [bind]. eexists. split; [reflexivity|]. cbn [fst]. congruence.
  - cbn [bind fst snd]. destruct (C186_roll_back _ v2 T') as (v5 & -> & _ & _ & D5). cbn [bind]. eexists. split; [reflexivity|]. cbn [fst]. congruence.
Qed.
Print Assumptions C186_bend.
Example C179_bend_step_ex : let b := mkSB (1/10) 1 (mkF 1 [c1; mkCx (1/100) (1/50); c1]) None None in exists r, sbend_step false eVc 1 1 b (V6 0 0 0 0 0 0) = Ok r /\
  symplectic_at (fun w => do r <- sbend_step false eVc 1 1 b w; Ok (fst r)) (V6 0 0 0 0 0 0).
Proof.
  intros b. assert (T : stilt b = 0 \/ eps < Rabs (stilt b)) by (right; cbn; rewrite Rabs_pos_eq; pose proof eps_small; lra).
  assert (V : 0 < eVc) by (unfold eVc; lra).
  destruct (C186_bend eVc 1 1 b (V6 0 0 0 0 0 0) (cscale (1 / (eVc / eVc) * factorial 1) (mkCx (1/100) (1/50)))) as (r & E & _).
  - cbn. lra.
  - lra.
  - exact T.
  - unfold matched, b, get_coefficient. cbn. rewrite Reqb_false by lra. apply Rltb_true. lra.
  - unfold get_kn. replace (eVc / eVc) with 1 by (field; lra). rewrite Reqb_false by lra. reflexivity.
  - replace (eVc / eVc) with 1 by (field; lra). unfold factorial. cbn. destruct (Reqb_spec 1 0); lra.
  - cbn. lra.
  - exists r. split; [exact E|]. eapply C179_bend_step; [exact T | exact E].
Qed.
