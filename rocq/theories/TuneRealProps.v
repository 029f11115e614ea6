(* C373 for tunes between the bins. *)
From Verif Require Import RBase Base Tune TuneSpec TuneProofs TuneProps.
From Coq Require Import List Arith Lia Lra ZArith Ratan.
Import ListNotations.
Local Open Scope R_scope.

Definition geor (n : nat) (e : R) : cx := csum (fun r => cis (2 * PI * e * INR (r + 1) / INR n)) n.
Definition binsr (n : nat) (e : R) : cx := cadd (cmul (1 / 2, 0) (geor n e)) (cadd (cmul (- (1 / 4), 0) (geor n (e + 1))) (cmul (- (1 / 4), 0) (geor n (e - 1)))).
Lemma rotr_bin n a nu m : (0 < n)%nat -> dft n (fun k => (fst (rotating_at a nu k) * window n k, snd (rotating_at a nu k) * window n k)) m = cmul (cmul a (cis (- (2 * PI * INR m / INR n)))) (binsr n (INR m - INR n * nu)).
Proof.
  intros P. assert (NN : INR n <> 0) by (apply not_0_INR; lia). unfold binsr, geor. rewrite <- !csum_scale, <- !csum_add, <- csum_scale. unfold dft. apply csum_ext. intros r R.
  set (u := PI * INR (r + 1) / INR n). set (b := - (2 * PI * INR m / INR n)). set (g := 2 * PI * nu * INR (r + 1)). set (e := 2 * PI * INR (m * r) / INR n).
  replace (2 * PI * (INR m - INR n * nu + 1) * INR (r + 1) / INR n) with (- g + e + - b + 2 * u) by (unfold g, e, b, u; rewrite mult_INR, plus_INR; cbn [INR]; field; exact NN).
  replace (2 * PI * (INR m - INR n * nu - 1) * INR (r + 1) / INR n) with (- g + e + - b + - (2 * u)) by (unfold g, e, b, u; rewrite mult_INR, plus_INR; cbn [INR]; field; exact NN).
  replace (2 * PI * (INR m - INR n * nu) * INR (r + 1) / INR n) with (- g + e + - b) by (unfold g, e, b, u; rewrite mult_INR, plus_INR; cbn [INR]; field; exact NN).
  unfold rotating_at, window. fold u. fold g. rewrite (cis_plus (- g + e + - b) (2 * u)), (cis_plus (- g + e + - b) (- (2 * u))), (cis_plus (- g + e)), (cis_plus (- g) e).
  assert (ONE : cmul (cis b) (cis (- b)) = (1, 0)). { rewrite <- cis_plus. replace (b + - b) with 0 by ring. unfold cis. now rewrite cos_0, sin_0. }
  assert (W : cadd (1 / 2, 0) (cadd (cmul (- (1 / 4), 0) (cis (2 * u))) (cmul (- (1 / 4), 0) (cis (- (2 * u))))) = (sin u ^ 2, 0)).
  { unfold cis, cadd, cmul. cbn [fst snd]. rewrite cos_neg, sin_neg, cos_2a_sin. f_equal; field. }
  set (X := cis (- g)). set (Y := cis e) in *. set (B := cis b) in *. set (B' := cis (- b)) in *.
  transitivity (cmul (cmul (cmul a X) Y) (cmul (cmul B B') (sin u ^ 2, 0))); [rewrite ONE; unfold X; cxring|]. rewrite <- W. cxring.
Qed.
Lemma geor_val n e : (0 < n)%nat -> sin (PI * e / INR n) <> 0 -> geor n e = cmul (csub (cis (2 * PI * e)) (1, 0)) (1 / 2, - (cos (PI * e / INR n) / (2 * sin (PI * e / INR n)))).
Proof.
  intros P SN. assert (NN : INR n <> 0) by (apply not_0_INR; lia). set (u := PI * e / INR n) in *. set (phi := 2 * u).
  assert (E : geor n e = csum (fun r => cis (phi * INR (r + 1))) n). { apply csum_ext. intros r R. f_equal. unfold phi, u. field. exact NN. }
  rewrite E. pose proof (geo_tel phi n) as T. set (G := csum (fun r => cis (phi * INR (r + 1))) n) in *. set (Z := csub (cis (2 * PI * e)) (1, 0)). set (g := (1 / 2, - (cos u / (2 * sin u)))).
  assert (T' : csub (cis (phi * INR (n + 1))) (cis phi) = cmul (cis phi) Z). { unfold Z. rewrite plus_INR. change (INR 1) with 1. replace (phi * (INR n + 1)) with (phi + 2 * PI * e) by (unfold phi, u; field; exact NN). rewrite cis_plus. cxring. }
  assert (SC : cos u * cos u = 1 - sin u * sin u). { pose proof (sin2_cos2 u) as Q. unfold Rsqr in Q. lra. }
  assert (GG : cmul (csub (cis phi) (1, 0)) g = cis phi).
  { unfold g, cis, phi. rewrite cos_2a_sin, sin_2a. apply cx_eq; unfold cmul, csub; cbn [fst snd].
    - replace ((1 - 2 * sin u * sin u - 1) * (1 / 2) - (2 * sin u * cos u - 0) * - (cos u / (2 * sin u))) with (- sin u * sin u + cos u * cos u) by (field; exact SN). rewrite SC. ring.
    - field. exact SN. }
  assert (D : csub G (cmul Z g) = (0, 0)).
  { apply (cmul_zero (csub (cis phi) (1, 0))).
    - replace (cmul (csub (cis phi) (1, 0)) (csub G (cmul Z g))) with (csub (cmul (csub (cis phi) (1, 0)) G) (cmul Z (cmul (csub (cis phi) (1, 0)) g))) by cxring. rewrite GG, T, T'. cxring.
    - unfold csub, cis, phi. cbn [fst snd]. rewrite cos_2a_sin, sin_2a. assert (0 < sin u * sin u) by nra.
      replace ((1 - 2 * sin u * sin u - 1) * (1 - 2 * sin u * sin u - 1) + (2 * sin u * cos u - 0) * (2 * sin u * cos u - 0)) with (4 * (sin u * sin u) * (sin u * sin u + cos u * cos u)) by ring. rewrite SC. nra. }
  replace G with (cadd (csub G (cmul Z g)) (cmul Z g)) by cxring. rewrite D. cxring.
Qed.
Lemma sin_pm u h : sin (u + h) * sin (u - h) = sin u * sin u - sin h * sin h.
Proof. rewrite sin_plus, sin_minus. pose proof (sin2_cos2 u) as A. pose proof (sin2_cos2 h) as B. unfold Rsqr in *. replace ((sin u * cos h + cos u * sin h) * (sin u * cos h - cos u * sin h)) with (sin u * sin u * (cos h * cos h) - (cos u * cos u) * (sin h * sin h)) by ring. replace (cos h * cos h) with (1 - sin h * sin h) by lra. replace (cos u * cos u) with (1 - sin u * sin u) by lra. ring. Qed.
Lemma binsr_val n e : (0 < n)%nat -> let u := PI * e / INR n in let h := PI / INR n in sin u <> 0 -> sin (u + h) <> 0 -> sin (u - h) <> 0 ->
  binsr n e = cmul (csub (cis (2 * PI * e)) (1, 0)) (0, sin h * sin h * cos u / (4 * (sin u * (sin (u + h) * sin (u - h))))).
Proof.
  intros P u h S0 S1 S2. assert (NN : INR n <> 0) by (apply not_0_INR; lia). assert (E1 : PI * (e + 1) / INR n = u + h) by (unfold u, h; field; exact NN). assert (E2 : PI * (e - 1) / INR n = u - h) by (unfold u, h; field; exact NN).
  unfold binsr. rewrite !geor_val by (rewrite ?E1, ?E2; assumption). rewrite E1, E2. fold u.
  replace (cis (2 * PI * (e + 1))) with (cis (2 * PI * e)) by (symmetry; apply (cis_turns' _ _ 1); cbn [INR]; ring). replace (cis (2 * PI * (e - 1))) with (cis (2 * PI * e)) by (apply (cis_turns' _ _ 1); cbn [INR]; ring).
  set (Z := csub (cis (2 * PI * e)) (1, 0)).
  assert (V : - (1 / 2) * (cos u / (2 * sin u)) + 1 / 4 * (cos (u + h) / (2 * sin (u + h))) + 1 / 4 * (cos (u - h) / (2 * sin (u - h))) = sin h * sin h * cos u / (4 * (sin u * (sin (u + h) * sin (u - h))))).
  { assert (ID : cos (u + h) * sin (u - h) + cos (u - h) * sin (u + h) = 2 * sin u * cos u). { replace (cos (u + h) * sin (u - h) + cos (u - h) * sin (u + h)) with (sin ((u + h) + (u - h))) by (rewrite sin_plus; ring). replace (u + h + (u - h)) with (2 * u) by ring. apply sin_2a. }
    replace (- (1 / 2) * (cos u / (2 * sin u)) + 1 / 4 * (cos (u + h) / (2 * sin (u + h))) + 1 / 4 * (cos (u - h) / (2 * sin (u - h)))) with ((- (2 * cos u * (sin (u + h) * sin (u - h))) + sin u * (cos (u + h) * sin (u - h) + cos (u - h) * sin (u + h))) / (8 * (sin u * (sin (u + h) * sin (u - h))))) by (field; auto).
    rewrite ID. replace (- (2 * cos u * (sin (u + h) * sin (u - h))) + sin u * (2 * sin u * cos u)) with (2 * (sin h * sin h * cos u)) by (rewrite sin_pm; ring). field. auto. }
  rewrite <- V. apply cx_eq; unfold cadd, cmul; cbn [fst snd]; field; auto.
Qed.
(* the size of the spectrum of the window at the angle u, up to a factor *)
Definition shape (h u : R) : R := Rabs (cos u) / (Rabs (sin u) * Rabs (sin (u + h) * sin (u - h))).
Lemma cabs_pos z : z <> (0, 0) -> 0 < cabs z.
Proof.
  intros N. unfold cabs. apply sqrt_lt_R0. destruct z as [x y]. cbn [fst snd]. destruct (Req_dec x 0) as [->|X]; [destruct (Req_dec y 0) as [->|Y]; [congruence|]|]; nra.
Qed.
Lemma rotr_abs n a nu m : (2 <= n)%nat -> let h := PI / INR n in let u := PI * (INR m - INR n * nu) / INR n in sin u <> 0 -> sin (u + h) <> 0 -> sin (u - h) <> 0 ->
  cabs (dft n (fun k => (fst (rotating_at a nu k) * window n k, snd (rotating_at a nu k) * window n k)) m) = (cabs a * cabs (csub (cis (- (2 * PI * (INR n * nu)))) (1, 0)) * (sin h * sin h / 4)) * shape h u.
Proof.
  intros N h u S0 S1 S2. rewrite rotr_bin by lia. rewrite binsr_val by (try lia; assumption). fold h. fold u. rewrite !cabs_mul, cabs_cis, Rmult_1_r.
  replace (cis (2 * PI * (INR m - INR n * nu))) with (cis (- (2 * PI * (INR n * nu)))) by (symmetry; apply (cis_turns' _ _ m); ring). rewrite !Rmult_assoc. do 2 f_equal. unfold shape.
  assert (C : forall y, cabs (0, y) = Rabs y). { intros y. unfold cabs. cbn [fst snd]. replace (0 * 0 + y * y) with (Rsqr y) by (unfold Rsqr; ring). apply sqrt_Rsqr_abs. }
  rewrite C. unfold Rdiv. rewrite !Rabs_mult. rewrite Rabs_inv. rewrite !Rabs_mult. rewrite (Rabs_pos_eq 4) by lra.
  assert (HH : Rabs (sin h) * Rabs (sin h) = sin h * sin h) by (rewrite <- Rabs_mult; apply Rabs_pos_eq, Rle_0_sqr). rewrite <- HH.
  field. repeat split; apply Rabs_no_R0; assumption.
Qed.

Lemma div_lt a b c d : 0 < b -> 0 < d -> a * d < c * b -> a / b < c / d.
Proof. intros B D H. apply Rmult_lt_reg_r with (b * d); [nra|]. replace (a / b * (b * d)) with (a * d) by (field; lra). replace (c / d * (b * d)) with (c * b) by (field; lra). exact H. Qed.
Lemma shape_pos h u : 0 < sin u -> 0 <= cos u -> shape h u = cos u / (sin u * Rabs (sin (u + h) * sin (u - h))).
Proof. intros S C. unfold shape. rewrite (Rabs_pos_eq (sin u)), (Rabs_pos_eq (cos u)) by lra. reflexivity. Qed.
Lemma shape_neg h u : shape h (- u) = shape h u.
Proof.
  unfold shape. rewrite cos_neg, sin_neg, Rabs_Ropp. replace (- u + h) with (- (u - h)) by ring. replace (- u - h) with (- (u + h)) by ring. rewrite !sin_neg. do 3 f_equal. ring.
Qed.
Section Peak.
  Variables h v : R.
  Hypothesis H : 0 < h <= PI / 4.
  Hypothesis V : 0 < v < h / 2.
  Lemma sv : 0 < sin v. Proof. pose proof PI_RGT_0. apply sin_gt_0; lra. Qed.
  Lemma shm : 0 < sin (h - v). Proof. pose proof PI_RGT_0. apply sin_gt_0; lra. Qed.
  Lemma shp : 0 < sin (h + v). Proof. pose proof PI_RGT_0. apply sin_gt_0; lra. Qed.
  Lemma s2m : 0 < sin (2 * h - v). Proof. pose proof PI_RGT_0. apply sin_gt_0; lra. Qed.
  Lemma s2p : 0 < sin (2 * h + v). Proof. pose proof PI_RGT_0. apply sin_gt_0; lra. Qed.
  Lemma s3m : 0 < sin (3 * h - v). Proof. pose proof PI_RGT_0. apply sin_gt_0; lra. Qed.
  Lemma at_v : shape h v = cos v / (sin v * (sin (h + v) * sin (h - v))).
  Proof.
    pose proof PI_RGT_0. rewrite shape_pos by (try apply sv; apply cos_ge_0; lra). do 2 f_equal. replace (v - h) with (- (h - v)) by ring. rewrite sin_neg, (Rplus_comm v h), <- Ropp_mult_distr_r, Rabs_Ropp. apply Rabs_pos_eq. pose proof shp. pose proof shm. nra.
  Qed.
  Lemma at_right : shape h (h - v) = cos (h - v) / (sin (h - v) * (sin (2 * h - v) * sin v)).
  Proof.
    pose proof PI_RGT_0. rewrite shape_pos by (try apply shm; apply cos_ge_0; lra). do 2 f_equal. replace (h - v - h) with (- v) by ring. replace (h - v + h) with (2 * h - v) by ring. rewrite sin_neg, <- Ropp_mult_distr_r, Rabs_Ropp. apply Rabs_pos_eq. pose proof s2m. pose proof sv. nra.
  Qed.
  Lemma at_right2 : shape h (2 * h - v) = cos (2 * h - v) / (sin (2 * h - v) * (sin (3 * h - v) * sin (h - v))).
  Proof.
    pose proof PI_RGT_0. rewrite shape_pos by (try apply s2m; apply cos_ge_0; lra). do 2 f_equal. replace (2 * h - v - h) with (h - v) by ring. replace (2 * h - v + h) with (3 * h - v) by ring. apply Rabs_pos_eq. pose proof s3m. pose proof shm. nra.
  Qed.
  Lemma at_left : shape h (h + v) = cos (h + v) / (sin (h + v) * (sin (2 * h + v) * sin v)).
  Proof.
    pose proof PI_RGT_0. rewrite shape_pos by (try apply shp; apply cos_ge_0; lra). do 2 f_equal. replace (h + v - h) with v by ring. replace (h + v + h) with (2 * h + v) by ring. apply Rabs_pos_eq. pose proof s2p. pose proof sv. nra.
  Qed.
  Lemma prod_sc a b : cos a * sin b = (sin (b + a) + sin (b - a)) / 2.
  Proof. rewrite sin_plus, sin_minus. field. Qed.
  Lemma right_lower : shape h (h - v) < shape h v.
  Proof.
    pose proof PI_RGT_0. pose proof sv. pose proof shm. pose proof shp. pose proof s2m. rewrite at_right, at_v. apply div_lt; [apply Rmult_lt_0_compat; [|apply Rmult_lt_0_compat]; assumption|apply Rmult_lt_0_compat; [|apply Rmult_lt_0_compat]; assumption|].
    assert (K : cos (h - v) * sin (h + v) < cos v * sin (2 * h - v)).
    { rewrite !prod_sc. replace (h + v + (h - v)) with (2 * h) by ring. replace (h + v - (h - v)) with (2 * v) by ring. replace (2 * h - v + v) with (2 * h) by ring. replace (2 * h - v - v) with (2 * h - 2 * v) by ring. assert (sin (2 * v) < sin (2 * h - 2 * v)) by (apply sin_increasing_1; lra). lra. }
    replace (cos (h - v) * (sin v * (sin (h + v) * sin (h - v)))) with (cos (h - v) * sin (h + v) * (sin v * sin (h - v))) by ring. replace (cos v * (sin (h - v) * (sin (2 * h - v) * sin v))) with (cos v * sin (2 * h - v) * (sin v * sin (h - v))) by ring. apply Rmult_lt_compat_r; [nra|exact K].
  Qed.
  Lemma left_lower : shape h (h + v) < shape h v.
  Proof.
    pose proof PI_RGT_0. pose proof sv. pose proof shm. pose proof shp. pose proof s2p. rewrite at_left, at_v. apply div_lt; [apply Rmult_lt_0_compat; [|apply Rmult_lt_0_compat]; assumption|apply Rmult_lt_0_compat; [|apply Rmult_lt_0_compat]; assumption|].
    assert (K : cos (h + v) * sin (h - v) < cos v * sin (2 * h + v)).
    { rewrite !prod_sc. replace (h - v + (h + v)) with (2 * h) by ring. replace (h - v - (h + v)) with (- (2 * v)) by ring. replace (2 * h + v + v) with (2 * h + 2 * v) by ring. replace (2 * h + v - v) with (2 * h) by ring. rewrite sin_neg. assert (0 < sin (2 * v)) by (apply sin_gt_0; lra). assert (0 < sin (2 * h + 2 * v)) by (apply sin_gt_0; lra). lra. }
    replace (cos (h + v) * (sin v * (sin (h + v) * sin (h - v)))) with (cos (h + v) * sin (h - v) * (sin v * sin (h + v))) by ring. replace (cos v * (sin (h + v) * (sin (2 * h + v) * sin v))) with (cos v * sin (2 * h + v) * (sin v * sin (h + v))) by ring. apply Rmult_lt_compat_r; [nra|exact K].
  Qed.
  Lemma sin_between w : h + v <= w <= PI - (h + v) -> sin (h + v) <= sin w.
  Proof.
    intros W. pose proof PI_RGT_0. destruct (Rle_dec w (PI / 2)) as [L|L].
    - apply sin_incr_1; lra.
    - rewrite <- (sin_PI_x w). apply sin_incr_1; lra.
  Qed.
  Lemma far_lower w : h + v <= w <= PI - (h + v) -> sin w <> 0 /\ sin (w + h) <> 0 /\ sin (w - h) <> 0 /\ shape h w < shape h v.
  Proof.
    intros W. pose proof PI_RGT_0. pose proof shp as SP. pose proof (sin_between w W) as SB. assert (SW : 0 < sin w) by lra.
    assert (SH : 0 < sin h) by (apply sin_gt_0; lra). assert (HL : sin h < sin (h + v)) by (apply sin_increasing_1; lra).
    assert (D0 : 0 < sin (h + v) * sin (h + v) - sin h * sin h) by nra. assert (D : sin (h + v) * sin (h + v) - sin h * sin h <= sin w * sin w - sin h * sin h) by nra.
    assert (PM : 0 < sin (w + h) * sin (w - h)) by (rewrite sin_pm; lra).
    split; [lra|]. split; [intros Z; rewrite Z in PM; lra|]. split; [intros Z; rewrite Z in PM; lra|]. apply Rle_lt_trans with (shape h (h + v)); [|apply left_lower].
    assert (CW : Rabs (cos w) <= cos (h + v)). { rewrite <- (Rabs_pos_eq (cos (h + v))) by (apply cos_ge_0; lra). apply Rsqr_le_abs_0. rewrite !cos2. unfold Rsqr. nra. }
    unfold shape. rewrite (Rabs_pos_eq (sin w)), (Rabs_pos_eq (sin (w + h) * sin (w - h))), (Rabs_pos_eq (sin (h + v))), (Rabs_pos_eq (cos (h + v))) by (try lra; apply cos_ge_0; lra).
    replace (sin (h + v + h) * sin (h + v - h)) with (sin (h + v) * sin (h + v) - sin h * sin h) by (symmetry; apply sin_pm). rewrite sin_pm, (Rabs_pos_eq (sin (h + v) * sin (h + v) - sin h * sin h)) by lra.
    unfold Rdiv. apply Rmult_le_compat; [apply Rabs_pos|apply Rlt_le, Rinv_0_lt_compat; nra|exact CW|]. apply Rinv_le_contravar; [nra|]. apply Rmult_le_compat; lra.
  Qed.
End Peak.
(* C373: for a tune nu between the bins p and p+1, closer to p, the tune found is nu - 1/n, exactly one bin too low *)
Theorem C373_between_refuted : forall t a p x, (1 <= p)%nat -> (p + 3 <= 2 ^ t)%nat -> 0 < cabs a -> 0 < x < 1 / 2 -> let nu := (INR p + x) / INR (2 ^ t) in
  find_tune (recorded (2 ^ t) (rotating_at a nu)) = Ok (nu - 1 / INR (2 ^ t)).
Proof.
  intros t a p x P1 P3 A X nu. set (n := (2 ^ t)%nat) in *. assert (N4 : (4 <= n)%nat) by lia. assert (NP : 4 <= INR n). { replace 4 with (INR 4) by (cbn; ring). apply le_INR. exact N4. } pose proof PI_RGT_0 as PP.
  set (h := PI / INR n). set (v := PI * x / INR n). assert (NH : INR n * h = PI) by (unfold h; field; lra). assert (H : 0 < h <= PI / 4). { split; [apply Rmult_lt_0_compat; [lra|apply Rinv_0_lt_compat; lra]|]. nra. }
  assert (VE : v = x * h) by (unfold v, h; field; lra). assert (V : 0 < v < h / 2) by (rewrite VE; split; nra).
  assert (NU : INR n * nu = INR p + x) by (unfold nu; field; lra).
  set (d := fun k => (fst (rotating_at a nu k) * window n k, snd (rotating_at a nu k) * window n k)).
  set (K := cabs a * cabs (csub (cis (- (2 * PI * (INR n * nu)))) (1, 0)) * (sin h * sin h / 4)).
  assert (SH : 0 < sin h) by (apply sin_gt_0; lra).
  assert (KP : 0 < K).
  { unfold K. apply Rmult_lt_0_compat; [apply Rmult_lt_0_compat; [exact A|]|nra]. apply cabs_pos. rewrite NU. replace (cis (- (2 * PI * (INR p + x)))) with (cis (- (2 * PI * x))) by (apply (cis_turns' _ _ p); ring).
    unfold csub, cis. cbn [fst snd]. intros [= Q _]. rewrite cos_neg in Q. replace (2 * PI * x) with (2 * (PI * x)) in Q by ring. rewrite cos_2a_sin in Q. assert (0 < sin (PI * x)) by (apply sin_gt_0; nra). nra. }
  assert (AB : forall m u, u = PI * (INR m - INR n * nu) / INR n -> sin u <> 0 -> sin (u + h) <> 0 -> sin (u - h) <> 0 -> cabs (dft n d m) = K * shape h u).
  { intros m u -> S0 S1 S2. unfold d, K, h. apply rotr_abs; [lia|exact S0|exact S1|exact S2]. }
  pose proof (sv h v H V) as SV. pose proof (shm h v H V) as SHM. pose proof (shp h v H V) as SHP. pose proof (s2m h v H V) as S2M. pose proof (s3m h v H V) as S3M.
  assert (BP : cabs (dft n d p) = K * shape h v).
  { rewrite <- (shape_neg h v). apply AB; [rewrite NU; unfold v; field; lra| | |].
    - rewrite sin_neg. lra. - replace (- v + h) with (h - v) by ring. lra. - replace (- v - h) with (- (h + v)) by ring. rewrite sin_neg. lra. }
  assert (B1 : cabs (dft n d (p + 1)) = K * shape h (h - v)).
  { apply AB; [rewrite NU, plus_INR; unfold v, h; cbn [INR]; field; lra| | |].
    - lra. - replace (h - v + h) with (2 * h - v) by ring. lra. - replace (h - v - h) with (- v) by ring. rewrite sin_neg. lra. }
  assert (B2 : cabs (dft n d (p + 1 + 1)) = K * shape h (2 * h - v)).
  { apply AB; [rewrite NU, !plus_INR; unfold v, h; cbn [INR]; field; lra| | |].
    - lra. - replace (2 * h - v + h) with (3 * h - v) by ring. lra. - replace (2 * h - v - h) with (h - v) by ring. lra. }
  assert (PK : forall k, (1 <= k < n)%nat -> k <> p -> cabs (dft n d k) < cabs (dft n d p)).
  { intros k KK NK. rewrite BP. destruct (Nat.eq_dec k (p + 1)) as [->|N1].
    - rewrite B1. apply Rmult_lt_compat_l; [exact KP|]. now apply right_lower.
    - destruct (Nat.lt_ge_cases k p) as [L|G].
      + set (w := INR (p - k) * h + v). assert (J : (1 <= p - k)%nat) by lia. assert (J' : (p - k <= n - 2)%nat) by lia. apply le_INR in J, J'. rewrite (minus_INR n 2) in J' by lia. cbn [INR] in J, J'.
        destruct (far_lower h v H V w) as (F0 & F1 & F2 & F3). { unfold w. split; [nra|]. nra. }
        rewrite (AB k (- w)); [rewrite shape_neg; now apply Rmult_lt_compat_l| | | |].
        * rewrite NU. unfold w, v, h. rewrite minus_INR by lia. field. lra.
        * rewrite sin_neg. lra.
        * replace (- w + h) with (- (w - h)) by ring. rewrite sin_neg. lra.
        * replace (- w - h) with (- (w + h)) by ring. rewrite sin_neg. lra.
      + set (w := INR (k - p) * h - v). assert (J : (2 <= k - p)%nat) by lia. assert (J' : (k - p <= n - 2)%nat) by lia. apply le_INR in J, J'. rewrite (minus_INR n 2) in J' by lia. cbn [INR] in J, J'.
        destruct (far_lower h v H V w) as (F0 & F1 & F2 & F3). { unfold w. split; [nra|]. nra. }
        rewrite (AB k w); [now apply Rmult_lt_compat_l| |assumption|assumption|assumption]. rewrite NU. unfold w, v, h. rewrite minus_INR by lia. field. lra. }
  assert (Z : 0 < cabs (dft n d p)). { apply Rle_lt_trans with (cabs (dft n d (p + 1))); [apply sqrt_pos|]. apply PK; lia. }
  pose proof (find_tune_unfold t (recorded n (rotating_at a nu)) d p (recorded_nth _ _) ltac:(fold n; lia) PK Z) as FT. fold n in FT. rewrite FT. clear FT. unfold vget. rewrite !spec_nth. replace (Nat.ltb (p + 1) n) with true by (symmetry; apply Nat.ltb_lt; lia). replace (Nat.ltb (p + 1 + 1) n) with true by (symmetry; apply Nat.ltb_lt; lia). cbn [bind].
  rewrite B1, B2, (at_right h v H V), (at_right2 h v H V). assert (SQ : 0 < sqrt (INR n)) by (apply sqrt_lt_R0; lra).
  set (T := sin (h - v) * sin (2 * h - v) * sin v * sin (3 * h - v)). assert (TP : 0 < T) by (unfold T; repeat apply Rmult_lt_0_compat; assumption). set (s := K / (T * sqrt (INR n))). assert (SP : 0 < s). { apply Rmult_lt_0_compat; [exact KP|apply Rinv_0_lt_compat; nra]. }
  set (u := v - h).
  replace (K * (cos (h - v) / (sin (h - v) * (sin (2 * h - v) * sin v))) / sqrt (INR n)) with (s * (cos u * sin (2 * h - u))).
  2:{ unfold s, T, u. replace (v - h) with (- (h - v)) by ring. rewrite cos_neg. replace (2 * h - - (h - v)) with (3 * h - v) by ring. field. repeat split; lra. }
  replace (K * (cos (2 * h - v) / (sin (2 * h - v) * (sin (3 * h - v) * sin (h - v)))) / sqrt (INR n)) with (s * (cos (u - h) * sin (u + h))).
  2:{ unfold s, T, u. replace (v - h - h) with (- (2 * h - v)) by ring. rewrite cos_neg. replace (v - h + h) with v by ring. field. repeat split; lra. }
  replace (2 * PI / INR n) with (2 * h) by (unfold h; field; lra). destruct (C379_interpolation h u s SP H) as (B & -> & EB); [unfold u; lra|unfold u; lra|]. cbn [bind]. rewrite EB.
  rewrite Rltb_false by (pose proof (SIN_bound (2 * u)) as (Q1 & Q2); apply Rabs_le; lra). rewrite asin_sin by (unfold u; lra). f_equal. unfold u, nu, v, h. field. lra.
Qed.
Print Assumptions C373_between_refuted.
Example C373_between_ex : find_tune (recorded 16 (rotating_at (1, 0) (17 / 64))) = Ok (13 / 64).
Proof.
  assert (E : (17 / 64) = (INR 4 + 1 / 4) / INR (2 ^ 4)) by (cbn; field). pose proof (C373_between_refuted 4 (1, 0) 4 (1 / 4) ltac:(lia) ltac:(cbn; lia)) as H. cbv zeta in H. rewrite <- E in H. change (2 ^ 4)%nat with 16%nat in H. rewrite H; [f_equal; cbn; field| |lra]. rewrite cabs_real, Rabs_R1. lra.
Qed.
