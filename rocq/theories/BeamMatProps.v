(* C53, C119, C120: beam parameters and beam matrix *)
From Verif Require Import RBase Cov CovProofs Bunch BunchSpec BunchProofs Optics OpticsSpec OpticsProofs SparseMap SparseMapSpec SparseMapProofs SparseMapProps BeamMat BeamMatSpec BeamMatProofs.
From Coq Require Import ZArith Lia.
Local Open Scope R_scope.

Definition centroid (t : beam) : vec6 := V6 (x0 t) (xp0 t) (y0 t) (yp0 t) 0 0.

Lemma beam_ok_iff t : beam_ok t = true <-> 0 < emit_x t /\ 0 < emit_y t /\ 0 < beta_x t /\ 0 < beta_y t.
Proof.
  unfold beam_ok. destruct (Rltb_spec 0 (emit_x t)), (Rltb_spec 0 (emit_y t)), (Rltb_spec 0 (beta_x t)), (Rltb_spec 0 (beta_y t)); cbn; split; intros; try discriminate; try lra; auto.
Qed.
(* from any covariance: the diagonal is replaced, the rest stays and is transformed *)
Lemma to_sigma_ok t N c d g : normal_transform t = Ok N -> holds 6 d g -> (forall a b, g a b = g b a) -> exists d',
  to_sigma t (c, d) = Ok (centroid t, d') /\ holds 6 d' (congruence 6 N (fun a b => if Nat.eq_dec a b then diag_of t a else g a b)).
Proof.
  intros E H S. unfold to_sigma. rewrite E. cbn [bind snd].
  destruct (set_diag_ok t d g H) as (d1 & -> & H1). cbn [lift bind].
  destruct (map_moments_ok N vzero d1 _ H1) as (v & d2 & -> & _ & V & H2).
  { intros a b. destruct (Nat.eq_dec a b), (Nat.eq_dec b a); subst; try congruence; apply S. }
  cbn [lift bind fst snd]. exists d2. split; [| exact H2]. unfold centroid.
  pose proof (V 4%nat ltac:(lia)) as V4. pose proof (V 5%nat ltac:(lia)) as V5.
  unfold image in V4, V5. cbn in V4, V5. replace (vct v) with 0 by (rewrite V4; ring). replace (vdp v) with 0 by (rewrite V5; ring). reflexivity.
Qed.
Lemma sigma_uncoupled t : beam_ok t = true -> uncoupled t -> exists d, beam_sigma t = Ok (centroid t, d) /\ holds 6 d (expected t (disp_of t)).
Proof.
  intros OK U. apply beam_ok_iff in OK. destruct OK as (Ex & Ey & Bx & By). destruct (normal_uncoupled t Bx By U) as (N & EN & MN).
  destruct (to_sigma_ok t N vzero (zero 6) (fun _ _ => 0) EN zero_holds6 (fun _ _ => eq_refl)) as (d & E & H).
  exists d. split; [exact E |]. eapply holds_ext; [exact H |]. intros i j Hi Hj. rewrite <- (congruence_uncoupled t Bx By i j Hi Hj).
  apply congruence_ext; auto. intros a b _ _. reflexivity.
Qed.
(* ---- C119: the moments of an uncoupled beam ---- *)
Theorem C119_moments t : beam_ok t = true -> uncoupled t -> exists d, beam_sigma t = Ok (centroid t, d) /\
  length d = 21%nat /\ forall i j, (i < 6)%nat -> (j < 6)%nat -> sig 6 d (Z.of_nat i) (Z.of_nat j) =
    Ok (uncoupled_moments (emit_x t) (beta_x t) (alpha_x t) (emit_y t) (beta_y t) (alpha_y t) (sig_z t) (sig_dp t) (disp_vec (Dx t) (Dxp t) (Dy t) (Dyp t)) i j).
Proof.
  intros OK U. destruct (sigma_uncoupled t OK U) as (d & E & L & H). exists d. split; [exact E |]. split; [exact L |].
  intros i j Hi Hj. destruct (Nat.le_gt_cases j i).
  - change 6%Z with (Z.of_nat 6). rewrite H by lia. reflexivity.
  - rewrite sig_sym. change 6%Z with (Z.of_nat 6). rewrite H by lia. f_equal. apply expected_sym.
Qed.
Print Assumptions C119_moments.
(* without dispersion the beam sizes are those BeamData reports *)
Theorem C119_sizes t d : beam_ok t = true -> uncoupled t -> Dx t = 0 -> Dxp t = 0 -> Dy t = 0 -> Dyp t = 0 -> 0 <= sig_z t -> 0 <= sig_dp t -> beam_sigma t = Ok (centroid t, d) ->
  std 6 d 0 = Ok (sigma_x t) /\ std 6 d 1 = Ok (sigma_xp t) /\ std 6 d 2 = Ok (sigma_y t) /\ std 6 d 3 = Ok (sigma_yp t) /\
  std 6 d 4 = Ok (sig_z t) /\ std 6 d 5 = Ok (sig_dp t).
Proof.
  intros OK U D1 D2 D3 D4 Hz Hd E. destruct (C119_moments t OK U) as (d' & E' & L & H). rewrite E in E'. assert (d' = d) by congruence. subst d'.
  assert (V : forall i, (i < 6)%nat -> var 6 d (Z.of_nat i) = Ok (uncoupled_moments (emit_x t) (beta_x t) (alpha_x t) (emit_y t) (beta_y t) (alpha_y t) (sig_z t) (sig_dp t) (disp_vec (Dx t) (Dxp t) (Dy t) (Dyp t)) i i)).
  { intros i Hi. rewrite <- H by exact Hi. unfold var, sig. rewrite offset1_diag by lia. destruct (Z.ltb_spec (Z.of_nat i) 6); [reflexivity | lia]. }
  rewrite D1, D2, D3, D4 in V.
  unfold std. cbn [Z.ltb Z.compare Pos.compare Pos.compare_cont].
  pose proof (V 0%nat ltac:(lia)) as V0. pose proof (V 1%nat ltac:(lia)) as V1. pose proof (V 2%nat ltac:(lia)) as V2.
  pose proof (V 3%nat ltac:(lia)) as V3. pose proof (V 4%nat ltac:(lia)) as V4. pose proof (V 5%nat ltac:(lia)) as V5.
  cbn [Z.of_nat Pos.of_succ_nat Pos.succ] in *. rewrite V0, V1, V2, V3, V4, V5. cbn [bind].
  unfold uncoupled_moments, plane_moments, disp_vec, sigma_x, sigma_y, sigma_xp, sigma_yp, gamma_x, gamma_y. cbn.
  repeat split; apply f_equal.
  1-4: f_equal; ring.
  - transitivity (sqrt (sig_z t * sig_z t)); [f_equal; ring | apply sqrt_square; assumption].
  - transitivity (sqrt (sig_dp t * sig_dp t)); [f_equal; ring | apply sqrt_square; assumption].
Qed.
Print Assumptions C119_sizes.

Lemma read_identity : read_coupling (mmul 6 mid mid) = (0, 0, 0, 0).
Proof.
  unfold read_coupling. cbv zeta.
  assert (H : forall i j, (i < 6)%nat -> (j < 6)%nat -> mmul 6 mid mid i j = mid i j).
  { intros i j Hi Hj. unfold mmul, mid, msum. six i; six j; cbn [Nat.eqb]; ring. }
  rewrite !H by lia. unfold mid. cbn [Nat.eqb]. f_equal; [f_equal; [f_equal |] |]; ring.
Qed.
Lemma emit_back e b a x y z : 0 < e -> b <> 0 -> x = e * b -> y = e * ((1 + a * a) / b) -> z = - (e * a) -> real_sqrt (x * y - z * z) = Ok e.
Proof.
  intros He Hb -> -> ->. replace (e * b * (e * ((1 + a * a) / b)) - - (e * a) * - (e * a)) with (e * e) by (field; exact Hb).
  unfold real_sqrt. destruct (Rltb_spec (e * e) 0); [nra |]. rewrite sqrt_square by lra. reflexivity.
Qed.
(* the parameters read from moments of the uncoupled form *)
Lemma to_beam_uncoupled fuel t c d : beam_ok t = true -> 0 <= sig_z t -> 0 <= sig_dp t -> emit_x t <> emit_y t ->
  holds 6 d (expected t (disp_of t)) -> (sig_dp t = 0 -> Dx t = 0 /\ Dxp t = 0 /\ Dy t = 0 /\ Dyp t = 0) ->
  to_beam (S fuel) (c, d) = Some (Ok (mkBeam (beta_x t) (beta_y t) (alpha_x t) (alpha_y t) (emit_x t) (emit_y t) (sig_dp t) (sig_z t)
    (vx c) (vxp c) (vy c) (vyp c) (vct c) (vdp c) 0 0 0 0 (Dx t) (Dxp t) (Dy t) (Dyp t) 1)).
Proof.
  intros OK Hz Hd NE H DD. apply beam_ok_iff in OK. destruct OK as (Ex & Ey & Bx & By).
  pose proof (cel_holds d _ H (expected_sym t (disp_of t))) as CE.
  assert (C5 : forall i, (i < 6)%nat -> cel d i 5 = disp_of t i * (sig_dp t * sig_dp t)).
  { intros i Hi. rewrite CE by lia. unfold disp_of. rewrite expected_tbl by lia. unfold tbl, disp_vec. six i; cbn; ring. }
  assert (C44 : cel d 4 4 = sig_z t * sig_z t).
  { rewrite CE by lia. unfold disp_of. rewrite expected_tbl by lia. reflexivity. }
  unfold to_beam. cbv zeta. cbn [fst snd].
  rewrite (C5 5%nat), (C5 0%nat), (C5 1%nat), (C5 2%nat), (C5 3%nat), C44 by lia. unfold disp_of, disp_vec. rewrite Rmult_1_l.
  assert (DSP : forall D, (sig_dp t = 0 -> D = 0) -> (if Reqb (sig_dp t * sig_dp t) 0 then 0 else D * (sig_dp t * sig_dp t) / (sig_dp t * sig_dp t)) = D).
  { intros D HD. destruct (Reqb_spec (sig_dp t * sig_dp t) 0) as [Z | Z]; [symmetry; apply HD; nra | field; nra]. }
  rewrite !DSP by (intros Z; destruct (DD Z) as (? & ? & ? & ?); assumption).
  assert (MD : exists d1, (if Reqb (sig_dp t * sig_dp t) 0 then Ok d else do s <- map_moments (dispersion (- Dx t) (- Dxp t) (- Dy t) (- Dyp t)) (c, d) ; Ok (snd s)) = Ok d1 /\ holds 6 d1 (expected t (disp_vec 0 0 0 0))).
  { destruct (Reqb_spec (sig_dp t * sig_dp t) 0) as [Z | Z].
    - exists d. split; [reflexivity |]. destruct DD as (A & B & C & D); [nra |]. unfold disp_of in H. rewrite A, B, C, D in H. exact H.
    - destruct (map_moments_ok (dispersion (- Dx t) (- Dxp t) (- Dy t) (- Dyp t)) c d _ H (expected_sym t _)) as (v & d1 & -> & _ & _ & H1). cbn [bind snd].
      exists d1. split; [reflexivity |]. eapply holds_ext; [exact H1 |]. intros i j Hi Hj. apply congruence_disp; assumption. }
  destruct MD as (d1 & -> & H1). clear H CE C5 C44 DSP.
  set (g := expected t (disp_vec 0 0 0 0)) in *.
  assert (T : forall i j, (i < 6)%nat -> (j < 6)%nat -> g i j = _) by (intros i j Hi Hj; unfold g; rewrite expected_tbl by assumption; reflexivity).
  assert (T00 : g 0%nat 0%nat = emit_x t * beta_x t) by (rewrite T by lia; cbn; ring).
  assert (T01 : g 0%nat 1%nat = - (emit_x t * alpha_x t)) by (rewrite T by lia; cbn; ring).
  assert (T11 : g 1%nat 1%nat = emit_x t * ((1 + alpha_x t * alpha_x t) / beta_x t)) by (rewrite T by lia; cbn; ring).
  assert (T22 : g 2%nat 2%nat = emit_y t * beta_y t) by (rewrite T by lia; cbn; ring).
  assert (T23 : g 2%nat 3%nat = - (emit_y t * alpha_y t)) by (rewrite T by lia; cbn; ring).
  assert (T33 : g 3%nat 3%nat = emit_y t * ((1 + alpha_y t * alpha_y t) / beta_y t)) by (rewrite T by lia; cbn; ring).
  destruct (decouple_uncoupled fuel d1 g mid H1 (expected_sym t _)) as (d2 & -> & H2); try (rewrite T by lia; cbn; ring).
  { rewrite T00, T01, T11, T22, T23, T33.
    replace (_ - _) with ((emit_y t - emit_x t) * (emit_y t + emit_x t)) by (field; lra). intros Z. apply Rmult_integral in Z. lra. }
  cbn [bind]. rewrite read_identity. unfold proj_emit.
  pose proof (cel_holds d2 g H2 (expected_sym t _)) as CE.
  rewrite (CE 0 0)%nat, (CE 0 1)%nat, (CE 1 1)%nat, (CE 2 2)%nat, (CE 2 3)%nat, (CE 3 3)%nat by lia.
  rewrite (emit_back (emit_x t) (beta_x t) (alpha_x t)) by (auto; lra). cbn [bind].
  rewrite (emit_back (emit_y t) (beta_y t) (alpha_y t)) by (auto; lra). cbn [bind].
  unfold finite_div. destruct (Reqb_spec (emit_x t) 0); [lra |]. destruct (Reqb_spec (emit_y t) 0); [lra |]. cbn [bind].
  unfold real_sqrt. destruct (Rltb_spec (sig_z t * sig_z t) 0); [nra |]. destruct (Rltb_spec (sig_dp t * sig_dp t) 0); [nra |]. cbn [bind].
  rewrite !sqrt_square by assumption. rewrite T00, T22, T01, T23.
  replace (emit_x t * beta_x t / emit_x t) with (beta_x t) by (field; lra). replace (emit_y t * beta_y t / emit_y t) with (beta_y t) by (field; lra).
  replace (- - (emit_x t * alpha_x t) / emit_x t) with (alpha_x t) by (field; lra). replace (- - (emit_y t * alpha_y t) / emit_y t) with (alpha_y t) by (field; lra).
  reflexivity.
Qed.
(* ---- C119: there and back; the loop ends after its first round ---- *)
Theorem C119_round_trip t : beam_ok t = true -> uncoupled t -> 0 <= sig_z t -> 0 <= sig_dp t -> emit_x t <> emit_y t ->
  (sig_dp t = 0 -> Dx t = 0 /\ Dxp t = 0 /\ Dy t = 0 /\ Dyp t = 0) -> ct0 t = 0 -> p0 t = 0 -> charge t = 1 ->
  exists S, beam_sigma t = Ok S /\ forall fuel, to_beam (Datatypes.S fuel) S = Some (Ok t) /\ mode_emittance (Datatypes.S fuel) S = Some (Ok (emit_x t, emit_y t)).
Proof.
  intros OK U Hz Hd NE DD Hc Hp Hq. destruct (sigma_uncoupled t OK U) as (d & E & H). exists (centroid t, d). split; [exact E |].
  intros fuel. unfold mode_emittance. rewrite (to_beam_uncoupled fuel t (centroid t) d OK Hz Hd NE H DD). cbn [bind emit_x emit_y].
  split; [| reflexivity]. destruct U as (C1 & C2 & C3 & C4). destruct t; cbn in *. subst. reflexivity.
Qed.
Print Assumptions C119_round_trip.

(* ---- C53: what does not come back ---- *)
Lemma removed_nan fuel t c d : holds 6 d (expected t (disp_of t)) ->
  (forall d1, holds 6 d1 (expected t (disp_vec 0 0 0 0)) -> decouple fuel d1 mid = Some (Throw NaN)) -> to_beam fuel (c, d) = Some (Throw NaN).
Proof.
  intros H K.
  pose proof (cel_holds d _ H (expected_sym t (disp_of t))) as CE.
  assert (C5 : forall i, (i < 6)%nat -> cel d i 5 = disp_of t i * (sig_dp t * sig_dp t)).
  { intros i Hi. rewrite CE by lia. unfold disp_of. rewrite expected_tbl by lia. unfold tbl, disp_vec. six i; cbn; ring. }
  unfold to_beam. cbv zeta. cbn [fst snd].
  rewrite (C5 5%nat), (C5 0%nat), (C5 1%nat), (C5 2%nat), (C5 3%nat) by lia. unfold disp_of, disp_vec. rewrite Rmult_1_l.
  destruct (Reqb_spec (sig_dp t * sig_dp t) 0) as [Z | Z].
  - rewrite K; [reflexivity |]. eapply holds_ext; [exact H |]. intros i j Hi Hj. unfold disp_of. rewrite !expected_tbl by assumption. cbv zeta. rewrite Z. unfold tbl. six i; six j; cbn; ring.
  - assert (DV : forall D, D * (sig_dp t * sig_dp t) / (sig_dp t * sig_dp t) = D) by (intros; field; nra). rewrite !DV.
    destruct (map_moments_ok (dispersion (- Dx t) (- Dxp t) (- Dy t) (- Dyp t)) c d _ H (expected_sym t _)) as (v & d1 & -> & _ & _ & H1). cbn [bind snd].
    rewrite K; [reflexivity |]. eapply holds_ext; [exact H1 |]. intros i j Hi Hj. apply congruence_disp; assumption.
Qed.
(* equal emittances divide zero by zero *)
Theorem C53_round_beam_refuted t fuel : beam_ok t = true -> uncoupled t -> emit_x t = emit_y t -> exists S, beam_sigma t = Ok S /\
  to_beam (Datatypes.S fuel) S = Some (Throw NaN).
Proof.
  intros OK U E. destruct (sigma_uncoupled t OK U) as (d & ES & H). exists (centroid t, d). split; [exact ES |].
  apply removed_nan with (1 := H). intros d1 H1. cbn [decouple]. unfold coeff. cbv zeta.
  pose proof (cel_holds d1 _ H1 (expected_sym t _)) as CE. rewrite (CE 2 2)%nat, (CE 3 3)%nat, (CE 2 3)%nat, (CE 0 0)%nat, (CE 1 1)%nat, (CE 0 1)%nat by lia.
  apply beam_ok_iff in OK. rewrite !expected_tbl by lia. unfold tbl. cbn [nth]. rewrite E.
  match goal with |- context [Reqb ?x 0] => replace x with 0 by (field; lra) end.
  destruct (Reqb_spec 0 0); [reflexivity | lra].
Qed.
Print Assumptions C53_round_beam_refuted.
(* without momentum spread the dispersion is lost *)
Definition no_disp (t : beam) : beam :=
  mkBeam (beta_x t) (beta_y t) (alpha_x t) (alpha_y t) (emit_x t) (emit_y t) (sig_dp t) (sig_z t) (x0 t) (xp0 t) (y0 t) (yp0 t) (ct0 t) (p0 t)
    (c_xy t) (c_xyp t) (c_xpy t) (c_xpyp t) 0 0 0 0 (charge t).
Theorem C53_dispersion_refuted t fuel : beam_ok t = true -> uncoupled t -> 0 <= sig_z t -> sig_dp t = 0 -> emit_x t <> emit_y t -> exists S t',
  beam_sigma t = Ok S /\ to_beam (Datatypes.S fuel) S = Some (Ok t') /\ Dx t' = 0 /\ Dxp t' = 0 /\ Dy t' = 0 /\ Dyp t' = 0 /\ beta_x t' = beta_x t.
Proof.
  intros OK U Hz Hd NE. destruct (sigma_uncoupled t OK U) as (d & ES & H). exists (centroid t, d).
  eexists. split; [exact ES |]. split; [apply (to_beam_uncoupled fuel (no_disp t) (centroid t) d) |].
  - exact OK.
  - exact Hz.
  - cbn. lra.
  - exact NE.
  - eapply holds_ext; [exact H |]. intros i j Hi Hj. unfold disp_of. rewrite !expected_tbl by assumption. cbv zeta. cbn [no_disp sig_dp emit_x emit_y beta_x beta_y alpha_x alpha_y sig_z Dx Dxp Dy Dyp].
    rewrite Hd. unfold tbl. six i; six j; cbn; ring.
  - auto.
  - cbn. auto 6.
Qed.
Print Assumptions C53_dispersion_refuted.
(* moments that have been in use keep their correlations: S.zero() clears the mean only *)
Definition unit_beam (ex ey : R) : beam := mkBeam 1 1 0 0 ex ey 1 1 0 0 0 0 0 0 0 0 0 0 0 0 0 0 1.
Theorem C53_reused_refuted ex ey c d g : holds 6 d g -> (forall a b, g a b = g b a) -> exists c' d', to_sigma (unit_beam ex ey) (c, d) = Ok (c', d') /\
  forall i j, (i < 6)%nat -> (j < 6)%nat -> i <> j -> cel d' i j = g i j.
Proof.
  intros H S. destruct (normal_uncoupled (unit_beam ex ey)) as (N & EN & MN); [cbn; lra | cbn; lra | repeat split; reflexivity |].
  destruct (to_sigma_ok (unit_beam ex ey) N c d g EN H S) as (d' & E & H'). exists (centroid (unit_beam ex ey)), d'. split; [exact E |].
  intros i j Hi Hj NE. erewrite (cel_holds d'); [| exact H' | | exact Hi | exact Hj].
  - rewrite (congruence_ext 6 N mid (fun a b => if Nat.eq_dec a b then diag_of (unit_beam ex ey) a else g a b) (fun a b => if Nat.eq_dec a b then diag_of (unit_beam ex ey) a else g a b)); [| | intros a b _ _; reflexivity | exact Hi | exact Hj].
    + rewrite congruence_mid by assumption. destruct (Nat.eq_dec i j); [contradiction | reflexivity].
    + intros a b Ha Hb. rewrite MN by assumption. unfold norm_form, tbl, unit_beam. cbn [beta_x beta_y alpha_x alpha_y Dx Dxp Dy Dyp]. rewrite sqrt_1. unfold mid. six a; six b; cbn; lra.
  - apply congruence_sym. intros a b. destruct (Nat.eq_dec a b), (Nat.eq_dec b a); subst; try congruence; apply S.
Qed.
Print Assumptions C53_reused_refuted.

(* ---- C120: coupling ---- *)
Lemma coupling_form a b c d : b * c - a * d <> 0 -> let h := Cf (b * c - a * d) 1 in let z := Sf (b * c - a * d) 1 in
  meq 6 (coupling a b c d) (tbl [[h; 0; a * z; b * z; 0; 0]; [0; h; - (c * z); - (d * z); 0; 0]; [d * z; b * z; h; 0; 0; 0]; [- (c * z); - (a * z); 0; h; 0; 0]; [0; 0; 0; 0; 1; 0]; [0; 0; 0; 0; 0; 1]]).
Proof.
  intros N h z. unfold coupling. cbv zeta. destruct (Reqb_spec (b * c - a * d) 0) as [X | _]; [contradiction |].
  assert (Eh : (if Rltb 0 (b * c - a * d) then cos (sqrt (b * c - a * d)) else cosh (sqrt (- (b * c - a * d)))) = h).
  { unfold h, Cf. destruct (Reqb_spec (b * c - a * d) 0); [contradiction |]. rewrite !Rmult_1_r. reflexivity. }
  assert (Ez : (if Rltb 0 (b * c - a * d) then sin (sqrt (b * c - a * d)) / sqrt (b * c - a * d) else sinh (sqrt (- (b * c - a * d))) / sqrt (- (b * c - a * d))) = z).
  { unfold z, Sf. destruct (Reqb_spec (b * c - a * d) 0); [contradiction |]. rewrite !Rmult_1_r. reflexivity. }
  rewrite Eh, Ez. intros i j Hi Hj. unfold mset, mid, tbl. six i; six j; reflexivity.
Qed.

Lemma symplectic_times A B : symplectic 6 A -> symplectic 6 B -> symplectic 6 (times 6 A B).
Proof.
  intros HA HB i j Hi Hj.
  transitivity (sum (fun p => sum (fun q => sum (fun k => A (2 * k)%nat p * A (2 * k + 1)%nat q - A (2 * k + 1)%nat p * A (2 * k)%nat q) (seq 0 (6 / 2)) * (B p i * B q j)) (seq 0 6)) (seq 0 6)).
  { change (6 / 2)%nat with 3%nat. unfold times. cbn [sum seq Nat.mul Nat.add]. ring. }
  transitivity (sum (fun p => sum (fun q => (if Nat.eq_dec (p + 1) q then (if Nat.even p then 1 else 0) else if Nat.eq_dec p (q + 1) then (if Nat.even q then -1 else 0) else 0) * (B p i * B q j)) (seq 0 6)) (seq 0 6)).
  { apply sum_ext. intros p Hp. apply in_seq in Hp. apply sum_ext. intros q Hq. apply in_seq in Hq. rewrite (HA p q) by lia. reflexivity. }
  rewrite <- (HB i j Hi Hj). change (6 / 2)%nat with 3%nat. cbn. ring.
Qed.
Lemma symplectic_meq A B : meq 6 A B -> symplectic 6 B -> symplectic 6 A.
Proof. intros. eapply symplectic_ext; [right; reflexivity | eassumption | assumption]. Qed.
Ltac sympl := intros i j Hi Hj; change (6 / 2)%nat with 3%nat; unfold tbl, mset, mid; cbn [sum seq Nat.mul Nat.add]; six i; six j; cbn.
Lemma mid_symplectic : symplectic 6 mid.
Proof. sympl; ring. Qed.
(* every coupling matrix is symplectic and the opposite parameters undo it *)
Theorem C120_coupling a b c d : symplectic 6 (coupling a b c d) /\ meq 6 (times 6 (coupling (- a) (- b) (- c) (- d)) (coupling a b c d)) unit_matrix.
Proof.
  destruct (Reqb_spec (b * c - a * d) 0) as [Z | N].
  - assert (E : coupling a b c d = mid) by (unfold coupling; cbv zeta; destruct (Reqb_spec (b * c - a * d) 0); [reflexivity | contradiction]).
    assert (E' : coupling (- a) (- b) (- c) (- d) = mid) by (unfold coupling; cbv zeta; destruct (Reqb_spec (- b * - c - - a * - d) 0) as [| X]; [reflexivity | exfalso; apply X; lra]).
    rewrite E, E'. split; [apply mid_symplectic |]. intros i j Hi Hj. unfold times, mid, unit_matrix. cbn [sum seq]. six i; six j; cbn; ring.
  - pose proof (coupling_form a b c d N) as F. pose proof (coupling_form (- a) (- b) (- c) (- d) ltac:(intros X; apply N; lra)) as F'. cbv zeta in F, F'.
    replace (- b * - c - - a * - d) with (b * c - a * d) in F' by ring. pose proof (pyth (b * c - a * d) 1) as P.
    set (h := Cf (b * c - a * d) 1) in *. set (z := Sf (b * c - a * d) 1) in *. clearbody h z. split.
    + eapply symplectic_meq; [exact F |]. sympl; try ring; try (rewrite <- P; ring); lra.
    + intros i j Hi Hj. unfold times. transitivity (sum (fun k =>
        tbl [[h; 0; - a * z; - b * z; 0; 0]; [0; h; - (- c * z); - (- d * z); 0; 0]; [- d * z; - b * z; h; 0; 0; 0]; [- (- c * z); - (- a * z); 0; h; 0; 0]; [0; 0; 0; 0; 1; 0]; [0; 0; 0; 0; 0; 1]] i k *
        tbl [[h; 0; a * z; b * z; 0; 0]; [0; h; - (c * z); - (d * z); 0; 0]; [d * z; b * z; h; 0; 0; 0]; [- (c * z); - (a * z); 0; h; 0; 0]; [0; 0; 0; 0; 1; 0]; [0; 0; 0; 0; 0; 1]] k j) (seq 0 6)).
      { apply sum_ext. intros k Hk. apply in_seq in Hk. rewrite F, F' by lia. reflexivity. }
      unfold tbl, unit_matrix. cbn [sum seq]. six i; six j; cbn; try ring; try (rewrite <- P; ring); lra.
Qed.
Print Assumptions C120_coupling.
(* parameters whose determinant vanishes are ignored *)
Theorem C120_singular_refuted a b c d : b * c = a * d -> coupling a b c d = mid.
Proof. intros E. unfold coupling. cbv zeta. destruct (Reqb_spec (b * c - a * d) 0) as [| N]; [reflexivity | exfalso; apply N; lra]. Qed.
Print Assumptions C120_singular_refuted.
(* without dispersion the normal transformation is symplectic *)
Theorem C120_normal t : 0 < beta_x t -> 0 < beta_y t -> Dx t = 0 -> Dxp t = 0 -> Dy t = 0 -> Dyp t = 0 -> exists N, normal_transform t = Ok N /\ symplectic 6 N.
Proof.
  intros Bx By D1 D2 D3 D4. unfold normal_transform. destruct (Rltb_spec 0 (beta_x t)); [| lra]. destruct (Rltb_spec 0 (beta_y t)); [| lra]. cbn [andb]. rewrite D1, D2, D3, D4.
  pose proof (sqrt_lt_R0 _ Bx) as Sx. pose proof (sqrt_lt_R0 _ By) as Sy.
  eexists. split; [reflexivity |].
  assert (MT : forall A B, symplectic 6 A -> symplectic 6 B -> symplectic 6 (mmul 6 A B)).
  { intros A B HA HB. eapply symplectic_meq; [| exact (symplectic_times A B HA HB)]. intros i j _ _. apply times_mmul. }
  apply MT; [apply MT; [apply MT |] |].
  - unfold dispersion. sympl; ring.
  - unfold beta_matrix. sympl; try ring; field; lra.
  - unfold alpha_matrix. sympl; ring.
  - apply C120_coupling.
Qed.
Print Assumptions C120_normal.
(* with any coupling the moments are those of the normal coordinates, transformed *)
Theorem C120_moments t : beam_ok t = true -> exists N d, normal_transform t = Ok N /\ beam_sigma t = Ok (centroid t, d) /\
  holds 6 d (congruence 6 N (fun a b => if Nat.eq_dec a b then diag_of t a else 0)).
Proof.
  intros OK. apply beam_ok_iff in OK. destruct OK as (Ex & Ey & Bx & By).
  assert (E : exists N, normal_transform t = Ok N) by (unfold normal_transform; destruct (Rltb_spec 0 (beta_x t)); [| lra]; destruct (Rltb_spec 0 (beta_y t)); [| lra]; cbn [andb]; eauto).
  destruct E as (N & EN). destruct (to_sigma_ok t N vzero (zero 6) (fun _ _ => 0) EN zero_holds6 (fun _ _ => eq_refl)) as (d & E & H).
  exists N, d. auto.
Qed.
Print Assumptions C120_moments.
(* whenever the decoupling ends, the matrix it returns is symplectic and carries the moments given to those left *)
Theorem C120_decouple fuel : forall d Q g g0 d' C, holds 6 d g -> (forall a b, g a b = g b a) -> (forall a b, g0 a b = g0 b a) ->
  symplectic 6 Q -> meq 6 g (congruence 6 Q g0) -> decouple fuel d Q = Some (Ok (d', C)) ->
  symplectic 6 C /\ holds 6 d' (congruence 6 C g0).
Proof.
  induction fuel as [| fuel IH]; intros d Q g g0 d' C H S S0 SQ EG E; cbn [decouple] in E; [discriminate |].
  destruct (coeff d) as [(((a, b), c), e) |]; [| discriminate].
  set (Q1 := coupling (- a) (- b) (- c) (- e)) in *.
  destruct (map_moments_ok Q1 vzero d g H S) as (v & d1 & _ & E1 & _ & H1). rewrite E1 in E.
  assert (S1 : symplectic 6 (mmul 6 Q1 Q)).
  { eapply symplectic_meq; [| apply (symplectic_times Q1 Q); [apply C120_coupling | exact SQ]]. intros i j _ _. apply times_mmul. }
  assert (H2 : meq 6 (congruence 6 Q1 g) (congruence 6 (mmul 6 Q1 Q) g0)).
  { intros i j Hi Hj. rewrite (congruence_ext 6 Q1 Q1 g (congruence 6 Q g0) (fun _ _ _ _ => eq_refl) EG i j Hi Hj).
    rewrite congruence_times by assumption. apply congruence_ext; try assumption; [| intros x y _ _; reflexivity]. intros x y _ _. symmetry. apply times_mmul. }
  destruct (Rleb (1 / 10000000000) (a * a + b * b + c * c + e * e)).
  - eapply (IH d1 (mmul 6 Q1 Q) (congruence 6 Q1 g) g0); [exact H1 | | exact S0 | exact S1 | exact H2 | exact E]. apply congruence_sym. exact S.
  - assert (X : d1 = d' /\ mmul 6 Q1 Q = C) by (injection E; auto). destruct X as [<- <-]. split; [exact S1 |].
    eapply holds_ext; [exact H1 | exact H2].
Qed.
Print Assumptions C120_decouple.
(* a coupled beam for which the decoupling never ends: its parameters have determinant
   zero, so the coupling matrix is the unit matrix and nothing changes *)
Definition stuck (s : R) : mtx := tbl [[1; 0; - 2 * s; 0; 0; 0]; [0; 1; 0; s; 0; 0]; [- 2 * s; 0; 2; 0; 0; 0]; [0; s; 0; 2; 0; 0]; [0; 0; 0; 0; 1; 0]; [0; 0; 0; 0; 0; 1]].
Lemma stuck_sym s a b : stuck s a b = stuck s b a.
Proof.
  unfold stuck, tbl.
  destruct a as [| [| [| [| [| [| a]]]]]], b as [| [| [| [| [| [| b]]]]]]; cbn [nth]; try reflexivity.
  all: try destruct a; try destruct b; reflexivity.
Qed.
Lemma decouple_stuck s fuel : 1 / 10000000000 <= s * s -> forall d Q, holds 6 d (stuck s) -> decouple fuel d Q = None.
Proof.
  intros Hs. induction fuel as [| fuel IH]; intros d Q H; cbn [decouple]; [reflexivity |].
  pose proof (cel_holds d _ H (stuck_sym s)) as CE.
  assert (C : coeff d = Some (- s, 0, 0, 0)).
  { unfold coeff. cbv zeta. rewrite !CE by lia. unfold stuck, tbl. cbn [nth]. destruct (Reqb_spec (2 * 2 - 0 * 0 - (1 * 1 - 0 * 0)) 0) as [X | X]; [lra |].
    f_equal. repeat match goal with |- (_, _) = (_, _) => f_equal end; field. }
  rewrite C. rewrite C120_singular_refuted by ring. destruct (map_moments_ok mid vzero d _ H (stuck_sym s)) as (v & d1 & _ & -> & _ & H1).
  destruct (Rleb_spec (1 / 10000000000) (- s * - s + 0 * 0 + 0 * 0 + 0 * 0)) as [X | X]; [| nra].
  apply IH. eapply holds_ext; [exact H1 |]. apply congruence_mid.
Qed.
Theorem C120_never_ends_refuted s c d : 1 / 10000000000 <= s * s -> holds 6 d (stuck s) -> forall fuel, to_beam fuel (c, d) = None.
Proof.
  intros Hs H fuel. pose proof (cel_holds d _ H (stuck_sym s)) as CE. unfold to_beam. cbv zeta. cbn [fst snd].
  rewrite !CE by lia. unfold stuck, tbl. cbn [nth]. destruct (Reqb_spec 1 0) as [X | X]; [lra |].
  replace (- (0 / 1)) with 0 by field.
  destruct (map_moments_ok (dispersion 0 0 0 0) c d _ H (stuck_sym s)) as (v & d1 & -> & _ & _ & H1). cbn [bind snd].
  rewrite (decouple_stuck s fuel Hs d1 mid); [reflexivity |]. eapply holds_ext; [exact H1 |]. intros i j Hi Hj.
  rewrite (congruence_ext 6 (dispersion 0 0 0 0) mid (stuck s) (stuck s)); [apply congruence_mid; assumption | | intros a b _ _; reflexivity | exact Hi | exact Hj].
  intros a b Ha Hb. unfold dispersion, mset, mid. six a; six b; reflexivity.
Qed.
Print Assumptions C120_never_ends_refuted.
(* such moments exist and belong to a beam: the quadratic form is positive *)
Definition stuck_list (s : R) : list R := [1; 0; 1; - 2 * s; 0; 2; 0; s; 0; 2; 0; 0; 0; 0; 1; 0; 0; 0; 0; 0; 1].
Example C120_never_ends_case : holds 6 (stuck_list (1 / 10)) (stuck (1 / 10)) /\
  (forall x : nat -> R, (exists i, (i < 6)%nat /\ x i <> 0) -> 0 < sum (fun i => sum (fun j => x i * stuck (1 / 10) i j * x j) (seq 0 6)) (seq 0 6)) /\
  forall fuel, to_beam fuel (vzero, stuck_list (1 / 10)) = None.
Proof.
  assert (H : holds 6 (stuck_list (1 / 10)) (stuck (1 / 10))).
  { split; [reflexivity |]. intros i j Hij. unfold stuck, tbl. six i; six j; reflexivity. }
  split; [exact H |]. split; [| apply C120_never_ends_refuted with (s := 1 / 10); [lra | exact H]].
  intros x (i & Hi & N). unfold stuck, tbl. cbn [sum seq nth].
  set (a := x 0%nat) in *. set (b := x 1%nat) in *. set (c := x 2%nat) in *. set (d := x 3%nat) in *. set (e := x 4%nat) in *. set (f := x 5%nat) in *.
  assert (Q : 0 < a * a + b * b + c * c + d * d + e * e + f * f).
  { assert (P : forall y, y <> 0 -> 0 < y * y) by (intros; nra).
    pose proof (Rle_0_sqr a). pose proof (Rle_0_sqr b). pose proof (Rle_0_sqr c). pose proof (Rle_0_sqr d). pose proof (Rle_0_sqr e). pose proof (Rle_0_sqr f). unfold Rsqr in *.
    pose proof (P _ N) as PN. clear N. unfold a, b, c, d, e, f in *. six i; lra. }
  clearbody a b c d e f.
  pose proof (Rle_0_sqr (a - c)) as S1. pose proof (Rle_0_sqr (b + d)) as S2. unfold Rsqr in *. nra.
Qed.
(* ---- C120: the parameters read off have changed signs, or values ---- *)
Lemma cosh_gt x : 0 < x -> 1 < cosh x.
Proof.
  intros H. assert (E : exp x * exp (- x) = 1) by (rewrite <- exp_plus; replace (x + - x) with 0 by ring; apply exp_0).
  pose proof (exp_pos x). pose proof (exp_pos (- x)). assert (1 < exp x) by (rewrite <- exp_0; apply exp_increasing; exact H).
  unfold cosh. nra.
Qed.
Theorem C120_read_back_refuted a b c d : b * c < a * d -> read_coupling (coupling (- a) (- b) (- c) (- d)) = (- a, - b, c, d).
Proof.
  intros L. set (K := b * c - a * d).
  pose proof (coupling_form (- a) (- b) (- c) (- d) ltac:(intros X; lra)) as F. cbv zeta in F.
  replace (- b * - c - - a * - d) with K in F by (unfold K; ring). assert (NK : K < 0) by (unfold K; lra).
  unfold read_coupling. cbv zeta. rewrite !F by lia. unfold tbl. cbn [nth].
  unfold Cf, Sf. destruct (Reqb_spec K 0) as [X | X]; [lra |]. destruct (Rltb_spec 0 K) as [Y | Y]; [lra |]. rewrite !Rmult_1_r.
  assert (P : 0 < sqrt (- K)) by (apply sqrt_lt_R0; lra). set (f := sqrt (- K)) in *. clearbody f.
  destruct (Rltb_spec 1 (cosh f)) as [Z | Z]; [| pose proof (cosh_gt f P); lra].
  assert (SP : 0 < sinh f) by (unfold sinh; assert (exp (- f) < exp f) by (apply exp_increasing; lra); lra).
  replace (cosh f * cosh f - 1) with (sinh f * sinh f) by (pose proof (cosh_sinh f); lra). rewrite sqrt_square by lra.
  destruct (Reqb_spec (sinh f) 0) as [W | W]; [lra |].
  replace (cosh f + sinh f) with (exp f) by (unfold cosh, sinh; field). rewrite ln_exp.
  f_equal; [f_equal; [f_equal |] |]; field; lra.
Qed.
Print Assumptions C120_read_back_refuted.
Theorem C120_read_angle_refuted : exists b, 0 < b /\ (forall z, read_coupling (coupling 0 b b 0) <> (z, b, - b, 0)).
Proof.
  set (p := 2 * (PI / 3)). pose proof PI_RGT_0 as PP. exists p. split; [unfold p; lra |]. intros z E.
  assert (PQ : 0 < p * p) by (unfold p; nra).
  pose proof (coupling_form 0 p p 0 ltac:(lra)) as F. cbv zeta in F. replace (p * p - 0 * 0) with (p * p) in F by ring.
  unfold read_coupling in E. cbv zeta in E. rewrite !F in E by lia. unfold tbl in E. cbn [nth] in E.
  apply (f_equal (fun q => snd (fst (fst q)))) in E. cbn [fst snd] in E.
  unfold Cf, Sf in E. destruct (Reqb_spec (p * p) 0) as [X | X]; [lra |]. destruct (Rltb_spec 0 (p * p)) as [Y | Y]; [| lra]. rewrite !Rmult_1_r in E.
  rewrite sqrt_square in E by (unfold p; lra). unfold p in E. rewrite cos_2PI3, sin_2PI3 in E. fold p in E.
  destruct (Rltb_spec 1 (-1 / 2)) as [W | W]; [lra |]. replace (1 - -1 / 2) with (3 / 2) in E by field.
  assert (S3 : 0 < sqrt 3) by (apply sqrt_lt_R0; lra). assert (S32 : 0 < sqrt (3 / 2)) by (apply sqrt_lt_R0; lra).
  pose proof (sqrt_sqrt 3 ltac:(lra)) as Q3. pose proof (sqrt_sqrt (3 / 2) ltac:(lra)) as Q32.
  set (u := sqrt 3) in *. set (w := sqrt (3 / 2)) in *. clearbody u w.
  destruct (Reqb_spec w 0) as [V | V]; [lra |]. unfold atan2_up in E.
  destruct (Rltb_spec 0 (-1 / 2)) as [V1 | V1]; [lra |]. destruct (Rltb_spec (-1 / 2) 0) as [V2 | V2]; [| lra].
  assert (AT : atan (w / (-1 / 2)) < - (PI / 4)).
  { rewrite <- atan_1, <- atan_opp. apply atan_increasing. assert (1 < w) by nra. lra. }
  set (m := atan (w / (-1 / 2)) + PI) in *. assert (ML : m < 3 * PI / 4) by (unfold m; lra). clearbody m.
  assert (E1 : u / 2 * m = p * w).
  { assert (E2 : p * (u / 2 / p) * (m / w) * w = p * w) by (rewrite E; reflexivity).
    rewrite <- E2. field. split; unfold p; lra. }
  unfold p in E1. assert (U : 9 * u < 16 * w) by nra.
  assert (T1 : u / 2 * m < u / 2 * (3 * PI / 4)) by (apply Rmult_lt_compat_l; lra).
  assert (T2 : 9 * u * PI < 16 * w * PI) by (apply Rmult_lt_compat_r; lra). lra.
Qed.
Print Assumptions C120_read_angle_refuted.

(* ---- cases ---- *)
Definition some_beam : beam := mkBeam 10 4 (1 / 2) (-1) 2 1 (1 / 1000) 3 5 6 7 8 0 0 0 0 0 0 1 2 3 4 1.
Example C119_case : exists S, beam_sigma some_beam = Ok S /\ cel (snd S) 0 1 = - 1 + 2 / 1000000 /\ to_beam 1 S = Some (Ok some_beam).
Proof.
  destruct (C119_round_trip some_beam) as (S & E & H); try (cbn; lra); try reflexivity.
  - apply beam_ok_iff. cbn. lra.
  - repeat split; reflexivity.
  - exists S. split; [exact E |]. split; [| apply H].
    destruct (C119_moments some_beam) as (d & E' & _ & H'); [apply beam_ok_iff; cbn; lra | repeat split; reflexivity |]. rewrite E in E'. assert (X : S = (centroid some_beam, d)) by congruence.
    subst S. unfold cel. cbn [snd]. rewrite (H' 0%nat 1%nat) by lia. unfold uncoupled_moments, plane_moments, disp_vec. cbn. field.
Qed.
Definition round_beam : beam := unit_beam 1 1.
Example C53_case : exists S, beam_sigma round_beam = Ok S /\ to_beam 1 S = Some (Throw NaN).
Proof. apply C53_round_beam_refuted; [apply beam_ok_iff; cbn; lra | repeat split; reflexivity | reflexivity]. Qed.
Example C120_case : coupling 0 1 1 0 0%nat 3%nat = 1 * (sin (sqrt (1 * 1 - 0 * 0)) / sqrt (1 * 1 - 0 * 0)) /\ coupling 1 0 0 0 = mid.
Proof.
  split; [| apply C120_singular_refuted; ring]. unfold coupling. cbv zeta. destruct (Reqb_spec (1 * 1 - 0 * 0) 0) as [X | X]; [lra |].
  destruct (Rltb_spec 0 (1 * 1 - 0 * 0)) as [Y | Y]; [| lra]. reflexivity.
Qed.
