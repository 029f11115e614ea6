(* C46, C94: klystrons *)
From Coq Require Import Psatz.
From Verif Require Import RBase Rot RotProofs Cplx CplxFacts Klystron.
Local Open Scope R_scope.

Lemma vector_sum_csum l : vector_sum l = csum (map phasor l).
Proof.
  unfold vector_sum. assert (G : forall l z, fold_left (fun z c => cadd z (phasor c)) l z = cadd z (csum (map phasor l))).
  { clear. induction l as [|c l IH]; intros z; cbn [fold_left map csum]; [|rewrite IH]; apply cx_eq; cbn; ring. }
  rewrite G. apply cx_eq; cbn; ring.
Qed.
Definition usable (l : list cavity) : Prop := Forall (fun c => clength c <> 0) l.
Lemma set_cavity_phasor v p c : clength c <> 0 -> phasor (set_cavity v p c) = polar v p.
Proof. intros H. unfold phasor, set_cavity, set_phase, set_voltage, voltage. cbn. f_equal. now field. Qed.
Lemma set_phasor_phasor z c : clength c <> 0 -> phasor (set_phasor z c) = z.
Proof. intros H. unfold set_phasor. change (set_phase (carg z) (set_voltage (cabs z) c)) with (set_cavity (cabs z) (carg z) c). rewrite set_cavity_phasor by auto. apply polar_form. Qed.
Lemma balanced_sum v p l : l <> [] -> usable l -> vector_sum (map (set_cavity (v / INR (length l)) p) l) = polar v p /\ usable (map (set_cavity (v / INR (length l)) p) l).
Proof.
  intros N U. split.
  - rewrite vector_sum_csum. assert (G : forall w l, usable l -> csum (map phasor (map (set_cavity w p) l)) = polar (INR (length l) * w) p).
    { clear. intros w l U. induction U as [|c l H U IH]; cbn [map csum]; [apply cx_eq; cbn; ring|]. rewrite IH, set_cavity_phasor by auto. cbn [length]. rewrite S_INR. apply cx_eq; cbn; ring. }
    rewrite G by auto. f_equal. destruct l; [congruence|]. cbn [length]. pose proof (pos_INR (length l)). rewrite S_INR. field. lra.
  - unfold usable in *. apply Forall_map. eapply Forall_impl; [|exact U]. auto.
Qed.
(* the state seen by the user: sum of the cavities and the klystron's own phasor *)
Definition in_step (k : klystron) : Prop := vector_sum (cavs k) = kphasor k.
Theorem C94_construction l : l <> [] -> usable l -> in_step (make l Balanced) /\ in_step (make l VectorSum) /\ kphasor (make l Balanced) = vector_sum l /\ kphasor (make l VectorSum) = vector_sum l /\ cavs (make l VectorSum) = l.
Proof.
  intros N U. unfold in_step, kphasor, make. cbn [cavs vk phik]. rewrite polar_form. destruct (balanced_sum (cabs (vector_sum l)) (carg (vector_sum l)) l N U) as [-> _]. rewrite polar_form. auto.
Qed.
Print Assumptions C94_construction.
Definition goal_of (o : kop) (k : klystron) : cx := match o with SetV v => polar v (phik k) | SetPhi p => polar (vk k) p | SetZ z => z end.
Lemma balanced_step o k : kmode k = Balanced -> cavs k <> [] -> usable (cavs k) -> exists k', kstep o k = Some k' /\ kmode k' = Balanced /\ cavs k' <> [] /\ usable (cavs k') /\ in_step k' /\ kphasor k' = goal_of o k /\ length (cavs k') = length (cavs k) /\
  Forall2 (fun c c' => clength c' = clength c) (cavs k) (cavs k').
Proof.
  intros M N U.
  assert (G : forall v p, exists k', adjust (mkK (cavs k) (kmode k) v p) = Some k' /\ kmode k' = Balanced /\ cavs k' <> [] /\ usable (cavs k') /\ in_step k' /\ kphasor k' = polar v p /\ length (cavs k') = length (cavs k) /\ Forall2 (fun c c' => clength c' = clength c) (cavs k) (cavs k')).
  { intros v p. unfold adjust. rewrite M. cbn [kmode cavs vk phik]. eexists. split; [reflexivity|]. cbn [kmode cavs vk phik]. destruct (balanced_sum v p (cavs k) N U) as [S V]. repeat split; auto.
    - destruct (cavs k); [congruence|discriminate].
    - apply map_length.
    - generalize (v / INR (length (cavs k))) as w. clear. intros w. induction (cavs k); cbn; constructor; auto. }
  destruct o as [v|p|z]; cbn [kstep goal_of]; [apply G|apply G|]. destruct (G (cabs z) (carg z)) as (k' & H). rewrite polar_form in H. eauto.
Qed.
(* balanced: over every sequence of settings *)
Theorem C94_balanced ops : forall k, kmode k = Balanced -> cavs k <> [] -> usable (cavs k) -> in_step k ->
  exists k', fold_left (fun ok o => match ok with Some k => kstep o k | None => None end) ops (Some k) = Some k' /\ in_step k' /\ length (cavs k') = length (cavs k).
Proof.
  induction ops as [|o ops IH]; intros k M N U S; cbn [fold_left]; [eauto|]. destruct (balanced_step o k M N U) as (k1 & -> & M1 & N1 & U1 & S1 & _ & L1 & _). destruct (IH k1 M1 N1 U1 S1) as (k2 & E & S2 & L2). exists k2. repeat split; auto. congruence.
Qed.
Print Assumptions C94_balanced.
Theorem C94_setting o k : kmode k = Balanced -> cavs k <> [] -> usable (cavs k) -> exists k', kstep o k = Some k' /\ kphasor k' = goal_of o k /\ in_step k'.
Proof. intros M N U. destruct (balanced_step o k M N U) as (k' & E & _ & _ & _ & S & G & _). eauto. Qed.
Print Assumptions C94_setting.
(* every cavity gets the same share *)
Theorem C94_shares o k k' c : kmode k = Balanced -> usable (cavs k) -> kstep o k = Some k' -> In c (cavs k') -> voltage c = vk k' / INR (length (cavs k)) /\ phase c = phik k'.
Proof.
  intros M U. assert (G : forall v p, adjust (mkK (cavs k) (kmode k) v p) = Some k' -> In c (cavs k') -> voltage c = vk k' / INR (length (cavs k)) /\ phase c = phik k').
  { intros v p E I. unfold adjust in E. rewrite M in E. cbn [kmode cavs vk phik] in E. injection E as <-. cbn [cavs vk phik] in *. apply in_map_iff in I. destruct I as (d & <- & I). unfold usable in U. rewrite Forall_forall in U. specialize (U d I). unfold voltage, set_cavity, set_phase, set_voltage. cbn. split; auto. set (w := v / INR (length (cavs k))). now field. }
  destruct o as [v|p|z]; cbn [kstep]; apply G.
Qed.
Print Assumptions C94_shares.
Example C94_ex : let l := [mkCav 1 0 1; mkCav 2 0 1] in l <> [] /\ usable l.
Proof. cbn. split; [discriminate|]. repeat constructor; cbn; lra. Qed.
(* vector sum mode: no setting ever changes a cavity *)
Lemma self_ratio z : csq z <> 0 -> cdiv z z = Some (mkCx 1 0).
Proof. intros H. unfold cdiv. destruct (Reqb_spec (csq z) 0); [contradiction|]. f_equal. apply cx_eq; cbn; unfold csq in *; field; auto. Qed.
Lemma csq_polar v p : csq (polar v p) = v * v.
Proof. unfold csq, polar. cbn. pose proof (sin2_cos2 p) as H. unfold Rsqr in H. replace (v * cos p * (v * cos p) + v * sin p * (v * sin p)) with (v * v * (sin p * sin p + cos p * cos p)) by ring. rewrite H. ring. Qed.
Theorem C46_cavities_stay_refuted v p k : kmode k = VectorSum -> usable (cavs k) -> v <> 0 ->
  exists k', adjust (mkK (cavs k) (kmode k) v p) = Some k' /\ map phasor (cavs k') = map phasor (cavs k) /\ kphasor k' = polar v p.
Proof.
  intros M U V. unfold adjust. rewrite M. cbn [kmode]. unfold adjust_vector_sum. cbn [vk phik cavs kmode]. rewrite self_ratio by (rewrite csq_polar; nra). eexists. split; [reflexivity|]. cbn [cavs]. split; [|reflexivity].
  rewrite map_map. apply map_ext_in. intros c I. unfold usable in U. rewrite Forall_forall in U. rewrite set_phasor_phasor by auto. apply cx_eq; cbn; ring.
Qed.
Print Assumptions C46_cavities_stay_refuted.
Theorem C46_vector_sum_refuted o k k' : kmode k = VectorSum -> usable (cavs k) -> in_step k -> csq (goal_of o k) <> 0 -> kstep o k = Some k' -> (in_step k' <-> goal_of o k = kphasor k).
Proof.
  intros M U S Z E.
  assert (G : forall v p, v * v <> 0 -> adjust (mkK (cavs k) (kmode k) v p) = Some k' -> (in_step k' <-> polar v p = kphasor k)).
  { intros v p Vz Ea. destruct (C46_cavities_stay_refuted v p k M U) as (k1 & E1 & C1 & P1); [nra|]. rewrite Ea in E1. injection E1 as <-. unfold in_step in *. rewrite P1, vector_sum_csum, C1, <- vector_sum_csum, S. split; congruence. }
  destruct o as [v|p|z]; cbn [kstep goal_of] in *; [apply G in E; auto; rewrite csq_polar in Z; auto|apply G in E; auto; rewrite csq_polar in Z; auto|].
  rewrite <- (polar_form z). apply G; auto. rewrite <- (polar_form z), csq_polar in Z. exact Z.
Qed.
Print Assumptions C46_vector_sum_refuted.
Theorem C46_zero_refuted k : kmode k = VectorSum -> kstep (SetV 0) k = None.
Proof. intros M. cbn. unfold adjust. rewrite M. cbn [kmode]. unfold adjust_vector_sum, cdiv. cbn [vk phik]. rewrite csq_polar. destruct (Reqb_spec (0 * 0) 0); [reflexivity|lra]. Qed.
Print Assumptions C46_zero_refuted.
(* the scaling itself is right when the old sum is still known *)
Theorem C46_scaling_partial v p k : in_step k -> usable (cavs k) -> csq (kphasor k) <> 0 -> exists k', adjust_vector_sum v p k = Some k' /\ in_step k' /\ kphasor k' = polar v p.
Proof.
  intros S U Z. unfold adjust_vector_sum. fold (kphasor k). unfold cdiv. destruct (Reqb_spec (csq (kphasor k)) 0); [contradiction|]. set (s := mkCx _ _). eexists. split; [reflexivity|]. split; [|reflexivity]. unfold in_step in *. cbn [cavs vk phik].
  assert (P : map phasor (map (fun c => set_phasor (cmul s (phasor c)) c) (cavs k)) = map (cmul s) (map phasor (cavs k))).
  { rewrite !map_map. apply map_ext_in. intros c I. unfold usable in U. rewrite Forall_forall in U. apply set_phasor_phasor. auto. }
  assert (L : forall l, csum (map (cmul s) l) = cmul s (csum l)). { clear. induction l as [|z l IH]; cbn [map csum]; [|rewrite IH]; apply cx_eq; cbn; ring. }
  rewrite vector_sum_csum, P, L, <- vector_sum_csum, S. unfold kphasor at 2. cbn [vk phik]. unfold s. generalize (polar v p). revert Z n. generalize (kphasor k). clear. intros z Z _ w. apply cx_eq; cbn; unfold csq in *; field; auto.
Qed.
Print Assumptions C46_scaling_partial.
Example C46_ex : let k := make [mkCav 1 0 1; mkCav 2 0 1] VectorSum in usable (cavs k) /\ in_step k /\ csq (goal_of (SetV 5) k) <> 0.
Proof.
  cbn zeta. destruct (C94_construction [mkCav 1 0 1; mkCav 2 0 1]) as (_ & S & _); [discriminate|repeat constructor; cbn; lra|]. split; [repeat constructor; cbn; lra|]. split; auto. cbn [goal_of]. rewrite csq_polar. lra.
Qed.
