From Verif Require Import RBase Cov CovProofs Bunch BunchSpec BunchProofs Optics OpticsSpec OpticsProofs.
From Coq Require Import ZArith Lia.
Local Open Scope R_scope.

(* ---- C34: first-order matrices are symplectic ---- *)
Lemma drift_sympl n l : (n = 2 \/ n = 4 \/ n = 6)%nat -> symplectic n (drift n l).
Proof.
  intros [-> | Hn].
  - intros i j Hi Hj. six i; six j; cbn; unfold mset, mid; cbn; ring.
  - apply (symplectic_ext n _ (bend_form l 0 0)); [exact Hn|now apply drift_form|now apply bend_form_symplectic].
Qed.
Theorem C145_drift n l : (n = 2 \/ n = 4 \/ n = 6)%nat -> symplectic n (drift n l).
Proof. apply drift_sympl. Qed.
Print Assumptions C145_drift.
Example C34_drift_ex : symplectic 4 (drift 4 3) /\ drift 4 3 0%nat 1%nat = 3 /\ ~ symplectic 2 (mset 0 0 2 mid).
Proof.
  split; [apply C145_drift; auto|]. split; [reflexivity|]. intros H. specialize (H 0%nat 1%nat ltac:(lia) ltac:(lia)). cbn in H. unfold mset, mid in H. cbn in H. lra.
Qed.

Theorem C145_sector_bend n l h K : (n = 4 \/ n = 6)%nat -> exists M, sector_bend n l h K = Ok M /\ symplectic n M.
Proof.
  intros Hn. destruct (sbr_form n l h K Hn) as (M & E & F). exists M. split; [exact E|].
  eapply symplectic_ext; [exact Hn|exact F|now apply bend_form_symplectic].
Qed.
Print Assumptions C145_sector_bend.
Theorem C145_quadrupole n l K : (n = 4 \/ n = 6)%nat -> exists M, quadrupole n l K = Ok M /\ symplectic n M.
Proof. apply C145_sector_bend. Qed.
(* a quadrupole does focus: the element is not the unit matrix in disguise *)
Example C34_quadrupole_ex : exists M, quadrupole 4 1 1 = Ok M /\ symplectic 4 M /\ M 1%nat 0%nat = - sin 1 /\ M 3%nat 2%nat = sinh 1.
Proof.
  destruct (sbr_form 4 1 0 1 (or_introl eq_refl)) as (M & E & F). exists M. split; [exact E|]. split.
  { eapply symplectic_ext; [now left|exact F|apply bend_form_symplectic; now left]. }
  rewrite !F by lia. cbn. unfold Sf. replace (1 + 0 * 0) with 1 by ring.
  destruct (Reqb_spec 1 0); [lra|]. destruct (Rltb_spec 0 1); [|lra]. destruct (Reqb_spec (- (1)) 0); [lra|]. destruct (Rltb_spec 0 (- (1))); [lra|].
  rewrite Ropp_involutive, sqrt_1, Rmult_1_r. split; field.
Qed.
(* matrices too small for two planes are refused, unless nothing is to be done *)
Theorem C145_too_small n l h K : (n <= 3)%nat -> sector_bend n l h K = if Reqb l 0 then Ok mid else Throw OAssert.
Proof. intros Hn. unfold sector_bend, sbr. destruct (Reqb l 0); [reflexivity|]. apply Nat.leb_le in Hn. now rewrite Hn. Qed.

Theorem C145_roll n c s : (n = 4 \/ n = 6)%nat -> exists M, srot_cs n c s = Ok M /\ meq n M (roll c s) /\ (symplectic n M <-> c * c + s * s = 1).
Proof.
  intros Hn. assert (E : Nat.leb n 3 = false) by (destruct Hn; subst; reflexivity). unfold srot_cs. rewrite E.
  eexists. split; [reflexivity|]. split.
  - intros i j Hi Hj. assert (i < 6 /\ j < 6)%nat by lia. unfold mset, mid. six i; six j; reflexivity.
  - split.
    + intros H. specialize (H 0%nat 1%nat ltac:(lia) ltac:(lia)). destruct Hn; subst n; cbn in H; unfold mset, mid in H; cbn in H; lra.
    + intros H i j Hi Hj. destruct Hn; subst n; unfold mset, mid; six i; six j; cbn; lra.
Qed.
Print Assumptions C145_roll.
Theorem C145_roll_angle n phi M0 : (n = 4 \/ n = 6)%nat -> symplectic n M0 -> exists M, srot n phi M0 = Ok M /\ symplectic n M /\
  (eps < Rabs phi -> meq n M (roll (cos phi) (sin phi))) /\ (Rabs phi <= eps -> M = M0).
Proof.
  intros Hn S. unfold srot. destruct (fequal phi 0) eqn:F.
  - apply fequal_0 in F. exists M0. split; [reflexivity|]. split; [exact S|]. split; [lra|reflexivity].
  - destruct (C145_roll n (cos phi) (sin phi) Hn) as (M & E & R & Q). exists M. split; [exact E|]. split; [apply Q, cos_sin|].
    split; [intros _; exact R|]. intros H. apply fequal_0 in H. congruence.
Qed.
Theorem C145_pole_face n h theta fint hgap : (n = 4 \/ n = 6)%nat -> exists M, pole_face n h theta fint hgap = Ok M /\ symplectic n M /\
  meq n M (thin_lens (h * tan theta) (- h * tan (theta - 2 * fint * hgap * h * (1 + sin theta * sin theta) / cos theta))).
Proof.
  intros Hn. assert (E : Nat.leb n 3 = false) by (destruct Hn; subst; reflexivity). unfold pole_face. rewrite E.
  eexists. split; [reflexivity|]. split.
  - intros i j Hi Hj. destruct Hn; subst n; unfold mset, mid; six i; six j; cbn; ring.
  - intros i j Hi Hj. assert (i < 6 /\ j < 6)%nat by lia. unfold mset, mid, thin_lens. six i; six j; reflexivity.
Qed.
Print Assumptions C145_pole_face.

(* the solenoid is symplectic unless its rotation falls into the window in
   which it is taken to vanish *)
Theorem C145_solenoid n l ks : (n = 4 \/ n = 6)%nat -> resolved l ks -> exists M, solenoid n l ks = Ok M /\ symplectic n M.
Proof.
  intros Hn R. destruct (sol_ok n l ks Hn R) as (M & E & F). exists M. split; [exact E|].
  eapply symplectic_ext; [exact Hn|exact F|now apply sol_form_symplectic].
Qed.
Print Assumptions C145_solenoid.
Example C34_solenoid_ex : resolved 1 2.
Proof. right. replace (2 / 2 * 1) with 1 by field. rewrite Rabs_R1. pose proof eps_small. lra. Qed.
Lemma eps_sin : 0 < sin (eps / 2).
Proof. apply sin_gt_0; pose proof eps_pos; pose proof eps_small; pose proof PI2_1; unfold PI2 in *; lra. Qed.
Theorem C34_solenoid_refuted n : (n = 4 \/ n = 6)%nat -> exists l ks M, solenoid n l ks = Ok M /\ ~ symplectic n M.
Proof.
  intros Hn. pose proof eps_pos as P. exists (eps / 2), 2.
  destruct (sol_small n (eps / 2) 2 Hn) as (M & E & E00 & E01 & E11 & E20 & E31 & E21 & E40 & E50 & E41 & E51).
  { replace (2 / 2 * (eps / 2)) with (eps / 2) by field. rewrite Rabs_right; lra. }
  exists M. split; [exact E|]. intros S. specialize (S 0%nat 1%nat ltac:(lia) ltac:(lia)).
  assert (X : M 0%nat 0%nat * M 1%nat 1%nat + M 2%nat 0%nat * M 3%nat 1%nat = 1).
  { destruct Hn; subst n; cbn in S; rewrite ?E01, ?E21, ?E40, ?E50 in S; lra. }
  rewrite E00, E11, E20, E31 in X. replace (2 / 2 * (eps / 2)) with (eps / 2) in X by field.
  pose proof eps_sin. pose proof (cos_sin (eps / 2)). nra.
Qed.
Print Assumptions C34_solenoid_refuted.

(* ---- C35: two pieces make a whole ---- *)
Theorem C146_drift n a b : (n = 2 \/ n = 4 \/ n = 6)%nat ->
  meq n (drift n (a + b)) (times n (drift n b) (drift n a)) /\ meq n (drift n 0) unit_matrix.
Proof.
  intros [-> | Hn].
  - split; intros i j Hi Hj; six i; six j; cbn; unfold mset, mid; cbn; unfold unit_matrix; cbn; ring.
  - split.
    + eapply meq_trans; [now apply drift_form|]. eapply meq_trans; [now apply bend_form_plus|].
      apply times_ext; apply meq_sym; now apply drift_form.
    + eapply meq_trans; [now apply drift_form|]. apply (bend_form_solves n 0 0). destruct Hn; [left|right]; auto.
Qed.
Print Assumptions C146_drift.
Theorem C146_sector_bend n a b h K : (n = 4 \/ n = 6)%nat -> exists M1 M2 M,
  sector_bend n a h K = Ok M1 /\ sector_bend n b h K = Ok M2 /\ sector_bend n (a + b) h K = Ok M /\ meq n M (times n M2 M1).
Proof.
  intros Hn. destruct (sbr_form n a h K Hn) as (M1 & E1 & F1). destruct (sbr_form n b h K Hn) as (M2 & E2 & F2).
  destruct (sbr_form n (a + b) h K Hn) as (M & E & F). exists M1, M2, M. repeat (split; [assumption|]).
  eapply meq_trans; [exact F|]. eapply meq_trans; [now apply bend_form_plus|]. apply times_ext; now apply meq_sym.
Qed.
Print Assumptions C146_sector_bend.
Theorem C146_quadrupole n a b K : (n = 4 \/ n = 6)%nat -> exists M1 M2 M,
  quadrupole n a K = Ok M1 /\ quadrupole n b K = Ok M2 /\ quadrupole n (a + b) K = Ok M /\ meq n M (times n M2 M1).
Proof. apply C146_sector_bend. Qed.
(* going back undoes *)
Corollary C146_there_and_back n a h K : (n = 4 \/ n = 6)%nat -> exists M1 M2,
  sector_bend n a h K = Ok M1 /\ sector_bend n (- a) h K = Ok M2 /\ meq n (times n M2 M1) unit_matrix.
Proof.
  intros Hn. destruct (C146_sector_bend n a (- a) h K Hn) as (M1 & M2 & M & E1 & E2 & E & F). exists M1, M2. repeat (split; [assumption|]).
  apply meq_sym. eapply meq_trans; [|exact F]. rewrite Rplus_opp_r in E. unfold sector_bend, sbr in E. destruct (Reqb_spec 0 0); [|lra].
  injection E as <-. apply meq_sym, mid_unit.
Qed.
Theorem C146_zero_length n h K : sector_bend n 0 h K = Ok mid /\ quadrupole n 0 K = Ok mid /\ meq n mid unit_matrix.
Proof.
  unfold sector_bend, quadrupole, sbr. destruct (Reqb_spec 0 0); [|lra]. repeat (split; [reflexivity|]). apply mid_unit.
Qed.
(* no strength: exactly the drift; little strength: close to the drift *)
Theorem C146_no_strength n l : (n = 4 \/ n = 6)%nat -> exists M, quadrupole n l 0 = Ok M /\ meq n M (drift n l).
Proof.
  intros Hn. destruct (sbr_form n l 0 0 Hn) as (M & E & F). exists M. split; [exact E|]. eapply meq_trans; [exact F|]. now apply meq_sym, drift_form.
Qed.
Theorem C146_weak_limit n l e : (n = 4 \/ n = 6)%nat -> 0 < e -> exists d, 0 < d /\ forall K, Rabs K < d -> exists M,
  quadrupole n l K = Ok M /\ forall i j, (i < n)%nat -> (j < n)%nat -> Rabs (M i j - drift n l i j) < e.
Proof.
  intros Hn He. destruct (quad_weak n l e Hn He) as (d & P & H). exists d. split; [exact P|]. intros K HK.
  destruct (sbr_form n l 0 K Hn) as (M & E & F). exists M. split; [exact E|]. intros i j Hi Hj.
  rewrite F, (drift_form n l Hn) by assumption. now apply H.
Qed.
Print Assumptions C146_weak_limit.
Theorem C146_solenoid n a b ks : (n = 4 \/ n = 6)%nat -> resolved a ks -> resolved b ks -> resolved (a + b) ks -> exists M1 M2 M,
  solenoid n a ks = Ok M1 /\ solenoid n b ks = Ok M2 /\ solenoid n (a + b) ks = Ok M /\ meq n M (times n M2 M1).
Proof.
  intros Hn Ra Rb R. destruct (sol_ok n a ks Hn Ra) as (M1 & E1 & F1). destruct (sol_ok n b ks Hn Rb) as (M2 & E2 & F2).
  destruct (sol_ok n (a + b) ks Hn R) as (M & E & F). exists M1, M2, M. repeat (split; [assumption|]).
  eapply meq_trans; [exact F|]. eapply meq_trans; [|apply times_ext; apply meq_sym; eassumption].
  destruct (Req_dec ks 0) as [->|Z]; [|now apply sol_form_plus].
  assert (A : a = 0) by (destruct (resolved_cases a 0 Ra) as [[_ ?]|?]; [assumption|lra]).
  assert (B : b = 0) by (destruct (resolved_cases b 0 Rb) as [[_ ?]|?]; [assumption|lra]). subst. rewrite Rplus_0_l.
  eapply meq_trans; [now apply sol_form_0|]. eapply meq_trans; [|apply times_ext; apply meq_sym; now apply sol_form_0].
  intros i j Hi Hj. destruct Hn; subst n; unfold times, unit_matrix; six i; six j; cbn; ring.
Qed.
Print Assumptions C146_solenoid.
Theorem C146_solenoid_zero_length n ks : (n = 4 \/ n = 6)%nat -> exists M, solenoid n 0 ks = Ok M /\ meq n M unit_matrix.
Proof.
  intros Hn. destruct (sol_ok n 0 ks Hn (or_introl eq_refl)) as (M & E & F). exists M. split; [exact E|]. eapply meq_trans; [exact F|now apply sol_form_0].
Qed.
(* a solenoid without current is not a drift: it does not propagate at all *)
Theorem C35_solenoid_no_strength_refuted n l : (n = 4 \/ n = 6)%nat -> exists M, solenoid n l 0 = Ok M /\ meq n M unit_matrix /\ (l <> 0 -> ~ meq n M (drift n l)).
Proof.
  intros Hn. unfold solenoid. assert (E : Nat.leb n 3 = false) by (destruct Hn; subst; reflexivity). rewrite E.
  eexists. split; [reflexivity|]. assert (Z : 0 / 2 * l = 0) by (unfold Rdiv; ring). rewrite Z, cos_0, sin_0. rewrite fequal_refl. split.
  - intros i j Hi Hj. assert (i < 6 /\ j < 6)%nat by lia. unfold mset, mid, unit_matrix. six i; six j; cbn; unfold Rdiv; ring.
  - intros L H. specialize (H 0%nat 1%nat ltac:(lia) ltac:(lia)). destruct Hn; subst n; cbn in H; unfold mset, mid in H; cbn in H; lra.
Qed.
Print Assumptions C35_solenoid_no_strength_refuted.

(* ---- C75: the matrices solve the equations of motion ---- *)
Theorem C162_bend n h K : n = 4%nat \/ n = 6%nat /\ (h = 0 \/ K + h * h <> 0) ->
  exists F, solves n (bend_motion h K) F /\ forall l, exists M, sector_bend n l h K = Ok M /\ meq n M (F l).
Proof.
  intros Hn. exists (fun l => bend_form l h K). split; [now apply bend_form_solves|]. intros l. apply sbr_form. destruct Hn as [|[? _]]; auto.
Qed.
Print Assumptions C162_bend.
Theorem C162_quadrupole n K : (n = 4 \/ n = 6)%nat ->
  exists F, solves n (bend_motion 0 K) F /\ forall l, exists M, quadrupole n l K = Ok M /\ meq n M (F l).
Proof. intros Hn. apply C162_bend. destruct Hn; auto. Qed.
Theorem C162_drift n : (n = 4 \/ n = 6)%nat -> solves n drift_motion (drift n).
Proof.
  intros Hn. destruct (bend_form_solves n 0 0) as [I D]; [destruct Hn; auto|]. split.
  - eapply meq_trans; [now apply drift_form|exact I].
  - intros i j Hi Hj s. apply (dlim_ext (fun l => bend_form l 0 0 i j)); [intros y; symmetry; now apply drift_form|].
    eapply dlim_eq; [|now apply D]. apply times_ext; [intros a b _ _; reflexivity|now apply meq_sym, drift_form|assumption|assumption].
Qed.
Theorem C162_solenoid n ks : (n = 4 \/ n = 6)%nat -> ks <> 0 ->
  exists F, solves n (solenoid_motion ks) F /\ forall l, resolved l ks -> exists M, solenoid n l ks = Ok M /\ meq n M (F l).
Proof.
  intros Hn Z. exists (fun l => sol_form l ks). split; [now apply sol_form_solves|]. intros l R. now apply sol_ok.
Qed.
Print Assumptions C162_solenoid.
(* a bend whose focusing cancels exactly has no dispersion *)
Theorem C75_bend_refuted : exists h K, ~ exists F, solves 6 (bend_motion h K) F /\ forall l, exists M, sector_bend 6 l h K = Ok M /\ meq 6 M (F l).
Proof.
  exists 1, (-1). intros (F & [_ D] & H).
  assert (FE : forall l, F l 1%nat 5%nat = 0 /\ F l 0%nat 5%nat = 0 /\ F l 5%nat 5%nat = 1).
  { intros l. destruct (H l) as (M & E & Q). destruct (sbr_form 6 l 1 (-1) (or_intror eq_refl)) as (M' & E' & Q').
    unfold sector_bend in E. rewrite E' in E. injection E as <-. rewrite <- !Q by lia. rewrite !Q' by lia.
    unfold bend_form, gh. destruct (Reqb_spec (-1 + 1 * 1) 0) as [_|N]; [|lra]. cbn. unfold Rdiv. repeat split; ring. }
  specialize (D 1%nat 5%nat ltac:(lia) ltac:(lia) 0).
  assert (D0 : derivable_pt_lim (fun l => F l 1%nat 5%nat) 0 0).
  { apply (dlim_ext (fun _ => 0)); [intros y; symmetry; apply FE|apply derivable_pt_lim_const]. }
  pose proof (uniqueness_limite _ _ _ _ D D0) as E. unfold times in E. cbn in E.
  destruct (FE 0) as (A & B & C). rewrite A, B, C in E. lra.
Qed.
Print Assumptions C75_bend_refuted.

(* ---- C36: particles and moments under linear maps ---- *)
Lemma symm_cov l : symm (fun a b => cov (at_ a) (at_ b) l).
Proof. intros a b. apply cov_sym. Qed.
(* a six by six map: the statistics of the mapped bunch are the mapped statistics *)
Theorem C147_moments M l d : l <> [] -> length d = 21%nat -> exists s s',
  moments l d = Ok s /\ transform 6 M s = Ok s' /\ moments (map (on (apply_m 6 M)) l) d = Ok s'.
Proof.
  intros NE L. destruct (moments_ok l d NE L) as (d1 & E1 & H1).
  destruct (transform_holds 6 M (centroid l) d1 _ (le_n 6) H1 (symm_cov l)) as (d2 & E2 & H2).
  destruct (moments_ok (map (on (apply_m 6 M)) l) d (map_ne _ _ NE) L) as (d3 & E3 & H3).
  eexists _, _. split; [exact E1|]. split; [exact E2|]. rewrite E3.
  assert (DD : d3 = d2).
  { apply (holds_unique 6 d3 d2 _ H3). eapply holds_ext; [|exact H2]. intros i j B. cbn beta.
    destruct (Nat.ltb_spec i 6); [|lia]. symmetry. apply cov_apply; auto; lia. }
  rewrite DD. do 2 f_equal. apply vec6_eq. intros i Hi. rewrite centroid_avg by now apply map_ne. rewrite coord_vof by exact Hi.
  destruct (Nat.ltb_spec i 6); [|lia]. rewrite avg_apply by (auto; lia). apply sum_ext. intros k _. now rewrite centroid_avg.
Qed.
Print Assumptions C147_moments.
Example C36_moments_ex : let l := [mkP (V6 1 0 0 0 0 0) 0; mkP (V6 0 1 0 0 0 0) 0]%Z in
  l <> [] /\ apply_m 6 (drift 6 2) (V6 1 3 0 0 0 0) = V6 7 3 0 0 0 0.
Proof.
  split; [discriminate|]. apply vec6_eq. intros i Hi. rewrite apply_coord by exact Hi. six i; cbn; unfold mset, mid; cbn; ring.
Qed.
(* smaller maps: the same for the coordinates they act on *)
Theorem C147_moments_moved n M l d : (n <= 6)%nat -> l <> [] -> length d = 21%nat -> exists s m' d' m'' d'',
  moments l d = Ok s /\ transform n M s = Ok (m', d') /\ moments (map (on (apply_m n M)) l) d = Ok (m'', d'') /\
  (forall i, (i < n)%nat -> coord i m' = coord i m'') /\
  forall i j, (i < n)%nat -> (j < n)%nat -> sig 6 d' (Z.of_nat i) (Z.of_nat j) = sig 6 d'' (Z.of_nat i) (Z.of_nat j).
Proof.
  intros Hn NE L. destruct (moments_ok l d NE L) as (d1 & E1 & H1).
  destruct (transform_holds n M (centroid l) d1 _ Hn H1 (symm_cov l)) as (d2 & E2 & H2).
  destruct (moments_ok (map (on (apply_m n M)) l) d (map_ne _ _ NE) L) as (d3 & E3 & H3).
  eexists (centroid l, d1), _, d2, _, d3. split; [exact E1|]. split; [exact E2|]. split; [exact E3|]. split.
  - intros i Hi. rewrite coord_vof by lia. destruct (Nat.ltb_spec i n); [|lia]. rewrite centroid_avg by now apply map_ne.
    rewrite avg_apply by (auto; lia). apply sum_ext. intros k _. now rewrite centroid_avg.
  - assert (G : forall i j, (j <= i < n)%nat -> sig 6 d2 (Z.of_nat i) (Z.of_nat j) = sig 6 d3 (Z.of_nat i) (Z.of_nat j)).
    { intros i j B. destruct H2 as [_ H2], H3 as [_ H3]. change 6%Z with (Z.of_nat 6). rewrite H2, H3 by lia.
      destruct (Nat.ltb_spec i n); [|lia]. f_equal. symmetry. apply cov_apply; auto; lia. }
    intros i j Hi Hj. destruct (Nat.le_ge_cases j i); [apply G; lia|]. rewrite (sig_comm 6 d2), (sig_comm 6 d3). apply G. lia.
Qed.
Print Assumptions C147_moments_moved.
(* but the coordinates it does not act on are lost from the moments, whereas the particles keep them *)
Theorem C36_transverse_map_refuted : exists l d s m' d' m'' d'', moments l d = Ok s /\ transform 4 mid s = Ok (m', d') /\
  moments (map (on (apply_m 4 mid)) l) d = Ok (m'', d'') /\ coord 5 m' = 0 /\ coord 5 m'' = 1.
Proof.
  set (l := [mkP (V6 0 0 0 0 0 1) 0%Z]). set (d := zero 6).
  assert (NE : l <> []) by discriminate.
  destruct (moments_ok l d NE eq_refl) as (d1 & E1 & H1).
  destruct (transform_holds 4 mid (centroid l) d1 _ ltac:(lia) H1 (symm_cov l)) as (d2 & E2 & _).
  destruct (moments_ok (map (on (apply_m 4 mid)) l) d (map_ne _ _ NE) eq_refl) as (d3 & E3 & _).
  eexists l, d, (centroid l, d1), _, d2, _, d3. split; [exact E1|]. split; [exact E2|]. split; [exact E3|]. split; [reflexivity|].
  rewrite centroid_avg by now apply map_ne. rewrite avg_on. unfold avg. cbn. field.
Qed.
Print Assumptions C36_transverse_map_refuted.
(* one map after another, and the product of their matrices *)
Theorem C147_product n A B : (n <= 6)%nat -> exists M, mul_assign n n A B = Ok M /\ meq n M (times n B A) /\
  forall x, apply_m n M x = apply_m n B (apply_m n A x).
Proof.
  intros Hn. unfold mul_assign. rewrite Nat.eqb_refl. eexists. split; [reflexivity|]. split.
  - intros i j _ _. unfold mmul, times. apply msum_sum.
  - intros x. now apply apply_times.
Qed.
Print Assumptions C147_product.
Theorem C147_product_sizes n m A B : n <> m -> mul_assign n m A B = Throw ODimension.
Proof. intros H. unfold mul_assign. now destruct (Nat.eqb_spec n m). Qed.
(* what a map with a reference momentum does depends on the momentum of the
   particle, not on the momentum it is referred to; and the momentum is kept *)
Theorem C147_momentum_dependence n M Pref p0 p0' x dp dp' : eps < Rabs Pref -> p0 * (1 + dp) = p0' * (1 + dp') ->
  (forall i, (i < 5)%nat -> coord i (apply_p n M Pref p0 (with_dp dp x)) = coord i (apply_p n M Pref p0' (with_dp dp' x))) /\
  vdp (apply_p n M Pref p0 (with_dp dp x)) = dp.
Proof.
  intros E H. unfold apply_p. destruct (fequal Pref 0) eqn:F; [apply fequal_0 in F; lra|].
  assert (S : scaledp Pref p0 dp = scaledp Pref p0' dp') by (unfold scaledp; rewrite H; reflexivity).
  cbn [vdp with_dp]. unfold with_dp at 2 5. cbn [vx vxp vy vyp vct]. rewrite S. split; [|reflexivity]. intros i Hi. six i; reflexivity.
Qed.
Print Assumptions C147_momentum_dependence.
(* reference particle: at its own momentum the map acts as its matrix *)
Theorem C147_at_reference n M Pref x i : (n <= 6)%nat -> (i < 5)%nat -> coord i (apply_p n M Pref Pref x) = coord i (apply_m n M x).
Proof.
  intros Hn Hi. unfold apply_p. destruct (fequal Pref 0) eqn:F; [reflexivity|].
  assert (Z : Pref <> 0) by (intros ->; rewrite fequal_refl in F; discriminate).
  assert (X : with_dp (scaledp Pref Pref (vdp x)) x = x) by (unfold scaledp; destruct x; unfold with_dp; cbn; f_equal; field; exact Z).
  rewrite X. destruct i as [|[|[|[|[|i]]]]]; try reflexivity. lia.
Qed.
(* statistics under maps with a reference momentum; missing: covariances with ct *)
Theorem C147_moments_at_momentum M Pref p0 l d : p0 <> 0 -> eps < Rabs Pref -> l <> [] -> length d = 21%nat ->
  (forall j, (j < 6)%nat -> M 5%nat j = unit_matrix 5%nat j) -> (forall i, (i < 6)%nat -> i <> 4%nat -> M i 4%nat = 0) -> exists s m d' d'',
  moments l d = Ok s /\ transform_p 6 M Pref p0 s = Ok (m, d') /\ moments (map (on (apply_p 6 M Pref p0)) l) d = Ok (m, d'') /\
  forall i j, (i < 6)%nat -> (j < 6)%nat -> i <> 4%nat -> j <> 4%nat -> sig 6 d' (Z.of_nat i) (Z.of_nat j) = sig 6 d'' (Z.of_nat i) (Z.of_nat j).
Proof.
  intros Z0 E NE L U C4. assert (Z : Pref <> 0) by (intros ->; rewrite Rabs_R0 in E; pose proof eps_pos; lra).
  destruct (moments_ok l d NE L) as (d1 & E1 & H1).
  destruct (rescale_holds p0 Pref (centroid l) d1 _ H1 (symm_cov l)) as (d2 & E2 & H2).
  set (l1 := map (on (sc p0 Pref)) l). assert (NE1 : l1 <> []) by now apply map_ne.
  (* a symmetric function holding the rescaled matrix *)
  set (g0 := fun a b => if (Nat.eqb a 4 && Nat.leb 5 b || Nat.leb 5 a && Nat.eqb b 4)%bool then cov (at_ a) (at_ b) l else cov (at_ a) (at_ b) l1).
  assert (S0 : symm g0).
  { intros a b. unfold g0. rewrite (cov_sym (at_ a)), (cov_sym (at_ a) (at_ b) l1).
    destruct (Nat.eqb_spec a 4), (Nat.leb_spec 5 b), (Nat.leb_spec 5 a), (Nat.eqb_spec b 4); cbn; try reflexivity; lia. }
  assert (H2' : holds 6 d2 g0).
  { eapply holds_ext; [|exact H2]. intros i j B. unfold g0, l1. rewrite cov_sc by exact NE. unfold fac. six i; six j; cbn; ring. }
  destruct (transform_holds 6 M (sc p0 Pref (centroid l)) d2 g0 (le_n 6) H2' S0) as (d3 & E3 & H3).
  set (m3 := vof (fun i => if Nat.ltb i 6 then sum (fun j => M i j * coord j (sc p0 Pref (centroid l))) (seq 0 6) else 0)) in *.
  assert (S3 : symm (congruence 6 M g0)) by (intros a b; now apply congruence_sym).
  assert (H3' : holds 6 d3 (congruence 6 M g0)).
  { eapply holds_ext; [|exact H3]. intros i j B. cbn beta. now destruct (Nat.ltb_spec i 6); [|lia]. }
  destruct (rescale_holds Pref p0 m3 d3 _ H3' S3) as (d4 & E4 & H4).
  set (l2 := map (on (apply_m 6 M)) l1). assert (NE2 : l2 <> []) by now apply map_ne.
  set (l3 := map (on (sc Pref p0)) l2). assert (NE3 : l3 <> []) by now apply map_ne.
  assert (LL : map (on (apply_p 6 M Pref p0)) l = l3).
  { unfold l3, l2, l1. rewrite !map_map. apply map_ext. intros p. unfold on. cbn [pv pid]. now rewrite apply_p_sc. }
  destruct (moments_ok l3 d NE3 L) as (d5 & E5 & H5).
  exists (centroid l, d1), (centroid l3), d4, d5. split; [exact E1|]. rewrite LL. split.
  { unfold transform_p. destruct (fequal Pref 0) eqn:F; [apply fequal_0 in F; lra|]. rewrite E2. cbn [bind].
    change (with_dp (p0 / Pref * (1 + vdp (centroid l)) - 1) (centroid l)) with (sc p0 Pref (centroid l)). rewrite E3. cbn [bind]. rewrite E4. do 2 f_equal.
    apply vec6_eq. intros i Hi. change (with_dp (Pref / p0 * (1 + vdp m3) - 1) m3) with (sc Pref p0 m3).
    rewrite centroid_avg by exact NE3. unfold l3. rewrite avg_sc by exact NE2. unfold l2. rewrite avg_apply by (auto; lia).
    rewrite sc_coord. do 2 f_equal. unfold m3. rewrite coord_vof by exact Hi. destruct (Nat.ltb_spec i 6); [|lia].
    apply sum_ext. intros k _. f_equal. unfold l1. rewrite avg_sc, sc_coord, centroid_avg by exact NE. reflexivity. }
  split; [exact E5|].
  assert (G : forall i j, (j <= i < 6)%nat -> i <> 4%nat -> j <> 4%nat -> sig 6 d4 (Z.of_nat i) (Z.of_nat j) = sig 6 d5 (Z.of_nat i) (Z.of_nat j)).
  { intros i j B I4 J4. destruct H4 as [_ H4], H5 as [_ H5]. change 6%Z with (Z.of_nat 6). rewrite H4, H5 by lia. f_equal.
    assert (Q : congruence 6 M g0 i j = cov (at_ i) (at_ j) l2).
    { unfold l2. rewrite cov_apply by (auto; lia). apply congruence_ext. intros k q Hk Hq A C. unfold g0.
      assert (k <> 4%nat) by (intros ->; apply A, C4; lia). assert (q <> 4%nat) by (intros ->; apply C, C4; lia).
      destruct (Nat.eqb_spec k 4); [contradiction|]. destruct (Nat.eqb_spec q 4); [contradiction|]. rewrite andb_false_r. reflexivity. }
    unfold l3. rewrite cov_sc by exact NE2. rewrite <- Q. clear - B I4 J4. six i; six j; unfold fac; cbn [Nat.ltb Nat.leb]; try ring; contradiction. }
  intros i j Hi Hj I4 J4. destruct (Nat.le_ge_cases j i); [apply G; auto; lia|]. rewrite (sig_comm 6 d4), (sig_comm 6 d5). apply G; auto; lia.
Qed.
Print Assumptions C147_moments_at_momentum.
(* the correlation of ct and dp is not rescaled *)
Theorem C36_moments_at_momentum_refuted : exists M Pref p0 l d s m d' m' d'',
  (forall j, (j < 6)%nat -> M 5%nat j = unit_matrix 5%nat j) /\ (forall i, (i < 6)%nat -> i <> 4%nat -> M i 4%nat = 0) /\
  moments l d = Ok s /\ transform_p 6 M Pref p0 s = Ok (m, d') /\ moments (map (on (apply_p 6 M Pref p0)) l) d = Ok (m', d'') /\
  sig 6 d' 5 4 = Ok 4 /\ sig 6 d'' 5 4 = Ok 2.
Proof.
  set (M := mset 4 5 1 mid). set (l := [mkP (V6 0 0 0 0 0 1) 0%Z; mkP (V6 0 0 0 0 0 (-1)) 0%Z]).
  assert (NE : l <> []) by discriminate.
  assert (F : eps < Rabs 1) by (rewrite Rabs_R1; pose proof eps_small; lra).
  assert (U : forall j, (j < 6)%nat -> M 5%nat j = unit_matrix 5%nat j) by (intros j Hj; six j; reflexivity).
  destruct (moments_ok l (zero 6) NE eq_refl) as (d1 & E1 & H1).
  destruct (moments_ok (map (on (apply_p 6 M 1 2)) l) (zero 6) (map_ne _ _ NE) eq_refl) as (d3 & E3 & H3).
  assert (D1 : d1 = map (fun p => if (Nat.eqb (fst p) 5 && Nat.eqb (snd p) 5)%bool then 1 else 0) (pairs 6)).
  { apply (holds_unique 6 d1 _ _ H1). apply (holds6 _ (fun i j => cov (at_ i) (at_ j) l)). unfold cov, avg, l. lazy -[IZR INR Rdiv Rmult Rplus Rminus].
    repeat (apply f_equal2; [cbn [INR]; field|]). reflexivity. }
  eexists M, 1, 2, l, (zero 6), (centroid l, d1), _, _, _, d3. split; [exact U|]. split; [intros i Hi N; six i; try reflexivity; contradiction|].
  split; [exact E1|]. split.
  { unfold transform_p. destruct (fequal 1 0) eqn:G; [apply fequal_0 in G; exfalso; clear - F G; lra|]. rewrite D1. lazy -[IZR centroid vdp Rdiv Rminus]. reflexivity. }
  split; [exact E3|]. split; [lazy -[IZR vdp Rdiv Rminus]; apply f_equal; field|].
  destruct H3 as [_ H3]. pose proof (H3 5%nat 4%nat ltac:(lia)) as X. change (sig 6 d3 5 4 = Ok (cov (at_ 5) (at_ 4) (map (on (apply_p 6 M 1 2)) l))) in X. rewrite X. apply f_equal. rewrite cov_on.
  rewrite (cov_ext _ _ (at_ 5) (fun p => at_ 4 p + 2 * at_ 5 p + 1)).
  - unfold cov, avg, l, at_. cbn. field.
  - intros p. unfold apply_p. destruct (fequal 1 0) eqn:G; [apply fequal_0 in G; lra|reflexivity].
  - intros p. rewrite apply_p_sc by (auto; lra). unfold at_. rewrite sc_coord. rewrite apply_coord by lia. cbn. unfold M, mset, mid. cbn. unfold fac. cbn. field.
Qed.
Print Assumptions C36_moments_at_momentum_refuted.
(* the chromatic map: exact when all particles have the same momentum *)
Theorem C147_chromatic M T delta l d : l <> [] -> length d = 21%nat -> (forall p, In p l -> vdp (pv p) = delta) -> exists s s',
  moments l d = Ok s /\ transform_dp 6 M T s = Ok s' /\ moments (map (on (apply_dp 6 M T)) l) d = Ok s'.
Proof.
  intros NE L H. destruct (C147_moments (fun i j => M i j + T i j * delta) l d NE L) as (s & s' & E1 & E2 & E3).
  exists s, s'. split; [exact E1|]. destruct (moments_ok l d NE L) as (d1 & E1' & _). rewrite E1' in E1. injection E1 as <-.
  assert (C : vdp (centroid l) = delta).
  { change (vdp (centroid l)) with (coord 5 (centroid l)). rewrite centroid_avg by exact NE. rewrite (avg_ext _ (fun _ => delta)) by (intros p Hp; now apply H).
    unfold avg. rewrite sum_const. pose proof (len_pos l NE). field. lra. }
  split.
  - unfold transform_dp. cbn [fst]. rewrite C. exact E2.
  - rewrite <- E3. f_equal. apply map_ext_in. intros p Hp. unfold on. f_equal. apply vec6_eq. intros i Hi. unfold apply_dp, apply_m.
    rewrite !coord_vof by exact Hi. now rewrite (H p Hp).
Qed.
Print Assumptions C147_chromatic.
Example C36_chromatic_ex : apply_dp 2 mid (fun i j => if (Nat.eqb i 0 && Nat.eqb j 1)%bool then 1 else 0) (V6 1 2 0 0 0 3) = V6 7 2 0 0 0 3.
Proof. apply vec6_eq. intros i Hi. six i; cbn; unfold mid; cbn; ring. Qed.

(* drifts of moments by the tuned routines, and plane by plane maps *)
Theorem C147_drift_particle z x : simple_drift z x = apply_m 6 (drift 6 z) x.
Proof. apply vec6_eq. intros i Hi. rewrite apply_coord by exact Hi. six i; cbn; unfold mset, mid; cbn; ring. Qed.
Theorem C147_drift_moments6 z l d : l <> [] -> length d = 21%nat -> exists s s',
  moments l d = Ok s /\ drift_moments6 z s = Ok s' /\ moments (map (on (simple_drift z)) l) d = Ok s'.
Proof.
  intros NE L. destruct (moments_ok l d NE L) as (d1 & E1 & H1).
  destruct (drift_moments6_ok z (centroid l) d1 _ H1 (symm_cov l)) as (d2 & E2 & H2).
  destruct (moments_ok (map (on (simple_drift z)) l) d (map_ne _ _ NE) L) as (d3 & E3 & H3).
  eexists _, _. split; [exact E1|]. split; [exact E2|]. rewrite E3.
  assert (LL : map (on (simple_drift z)) l = map (on (apply_m 6 (drift 6 z))) l)
    by (apply map_ext; intros p; unfold on; now rewrite C147_drift_particle).
  rewrite LL in *. assert (DD : d3 = d2).
  { apply (holds_unique 6 d3 d2 _ H3). eapply holds_ext; [|exact H2]. intros i j B. cbn beta. symmetry. apply cov_apply; auto; lia. }
  rewrite DD. do 2 f_equal. apply vec6_eq. intros i Hi. rewrite centroid_avg by now apply map_ne. rewrite C147_drift_particle, apply_coord by exact Hi.
  destruct (Nat.ltb_spec i 6); [|lia]. rewrite avg_apply by (auto; lia). apply sum_ext. intros k _. now rewrite centroid_avg.
Qed.
Print Assumptions C147_drift_moments6.
Theorem C147_drift_moments4 z m d g : holds 4 d g -> (forall a b, g a b = g b a) -> exists d',
  drift_moments4 z (m, d) = Ok (simple_drift z m, d') /\ holds 4 d' (congruence 4 (drift 4 z) g).
Proof. apply drift_moments4_ok. Qed.
Theorem C147_planes rx ry m d g : holds 4 d g -> (forall a b, g a b = g b a) -> exists d',
  (do s <- r2_moments rx 0 (m, d); do s' <- r2_moments ry 1 s; r2_coupling rx ry s') = Ok (apply_m 4 (block rx ry) m, d') /\
  holds 4 d' (congruence 4 (block rx ry) g).
Proof.
  intros H S. destruct (r2_all rx ry m d g H S) as (d' & E & H'). exists d'. split; [|exact H']. rewrite E. do 2 f_equal.
  apply vec6_eq. intros i Hi. rewrite apply_coord by exact Hi. six i; cbn; unfold r2_apply; cbn; ring.
Qed.
Print Assumptions C147_planes.
Example C36_planes_ex : exists d g, holds 4 d g /\ (forall a b, g a b = g b a) /\ g 1%nat 0%nat = 5.
Proof.
  exists [1; 5; 2; 0; 0; 3; 0; 0; 0; 4], (fun i j => nth (Nat.max i j * (Nat.max i j + 1) / 2 + Nat.min i j) [1; 5; 2; 0; 0; 3; 0; 0; 0; 4] 0).
  split; [apply holds4; reflexivity|]. split; [|reflexivity]. intros a b. now rewrite Nat.max_comm, Nat.min_comm.
Qed.
(* the identity test of a plane map looks at the diagonal only *)
Theorem C74_plane_identity_refuted : exists r, r2_is_identity r = true /\ r2_apply r 0 (V6 0 1 0 0 0 0) <> V6 0 1 0 0 0 0.
Proof.
  exists (R2 1 5 0 1). split.
  - unfold r2_is_identity, fequal_tol. cbn [r11 r22]. unfold Rminus. rewrite Rplus_opp_r, Rabs_R0. destruct (Rleb_spec 0 (/ 1000000)); [reflexivity|lra].
  - intros H. apply (f_equal vx) in H. cbn in H. lra.
Qed.
