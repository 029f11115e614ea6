(* C73, C125, C126: matrices of second order in the momentum deviation *)
From Verif Require Import RBase Cov Bunch BunchSpec BunchProofs Optics OpticsSpec OpticsProofs Chromatic.
From Coq Require Import ZArith Lia.
Local Open Scope R_scope.

(* an element of a matrix that may be missing *)
Definition entry (r : res oerr mat) (i j : nat) : R := match r with Ok M => M i j | _ => 0 end.
(* T is the derivative in the momentum deviation of the maps F *)
Definition chromatic_at (F : R -> res oerr mat) (T : mat) (i j : nat) : Prop := derivable_pt_lim (fun d => entry (F d) i j) 0 (T i j).
(* a magnet of fixed field seen by a particle of momentum 1 + d *)
Definition quad_at (n : nat) (l K d : R) : res oerr mat := quadrupole n l (K / (1 + d)).
Definition bend_at (n : nat) (l h K d : R) : res oerr mat := sector_bend n l (h / (1 + d)) (K / (1 + d)).

(* ---- derivatives in the strength ---- *)
Lemma dlim_local f g x l d : 0 < d -> (forall y, Rabs (y - x) < d -> f y = g y) -> derivable_pt_lim f x l -> derivable_pt_lim g x l.
Proof.
  intros Hd E H e He. destruct (H e He) as (r & R0). assert (M : 0 < Rmin r d) by (apply Rmin_pos; [apply cond_pos | exact Hd]).
  exists (mkposreal _ M). cbn. intros h N B. assert (B1 : Rabs h < r) by (pose proof (Rmin_l r d); lra). assert (B2 : Rabs h < d) by (pose proof (Rmin_r r d); lra).
  rewrite <- (E (x + h)), <- (E x); [apply (R0 h N B1) | rewrite Rminus_diag_eq by reflexivity; rewrite Rabs_R0; exact Hd | replace (x + h - x) with h by ring; exact B2].
Qed.
Lemma Cf_pos K l : 0 < K -> Cf K l = cos (sqrt K * l).
Proof. intros P. unfold Cf. destruct (Reqb_spec K 0); [lra |]. destruct (Rltb_spec 0 K); [reflexivity | lra]. Qed.
Lemma Sf_pos K l : 0 < K -> Sf K l = sin (sqrt K * l) / sqrt K.
Proof. intros P. unfold Sf. destruct (Reqb_spec K 0); [lra |]. destruct (Rltb_spec 0 K); [reflexivity | lra]. Qed.
Lemma Cf_neg K l : K < 0 -> Cf K l = cosh (sqrt (- K) * l).
Proof. intros P. unfold Cf. destruct (Reqb_spec K 0); [lra |]. destruct (Rltb_spec 0 K); [lra | reflexivity]. Qed.
Lemma Sf_neg K l : K < 0 -> Sf K l = sinh (sqrt (- K) * l) / sqrt (- K).
Proof. intros P. unfold Sf. destruct (Reqb_spec K 0); [lra |]. destruct (Rltb_spec 0 K); [lra | reflexivity]. Qed.
Lemma root_deriv k k' x : 0 < k x -> derivable_pt_lim k x k' -> derivable_pt_lim (fun y => sqrt (k y)) x (k' / (2 * sqrt (k x))).
Proof. intros P H. eapply dlim_eq; [| eapply derivable_pt_lim_comp; [exact H | apply derivable_pt_lim_sqrt, P]]. unfold Rdiv. ring. Qed.
Lemma dlim_quot f g x a b : g x <> 0 -> derivable_pt_lim f x a -> derivable_pt_lim g x b -> derivable_pt_lim (fun y => f y / g y) x ((a * g x - b * f x) / (g x * g x)).
Proof. intros N F G. exact (derivable_pt_lim_div f g x a b F G N). Qed.
Lemma dlim_cont f x l : derivable_pt_lim f x l -> forall e, 0 < e -> exists d, 0 < d /\ forall y, Rabs (y - x) < d -> Rabs (f y - f x) < e.
Proof.
  intros H e He. assert (D : derivable_pt f x) by (exists l; exact H). apply derivable_continuous_pt in D. destruct (D e He) as (d & Hd & C). exists d. split; [exact Hd |].
  intros y Y. destruct (Req_dec y x) as [-> | N]; [rewrite Rminus_diag_eq by reflexivity; rewrite Rabs_R0; exact He |].
  apply (C y). split; [split; [exact I | congruence] | exact Y].
Qed.
(* composed with a strength that varies *)
Lemma Cf_along k k' x l : k x <> 0 -> derivable_pt_lim k x k' -> derivable_pt_lim (fun y => Cf (k y) l) x (k' * (- l * Sf (k x) l / 2)).
Proof.
  intros N H. destruct (dlim_cont k x k' H (Rabs (k x)) (Rabs_pos_lt _ N)) as (d & Hd & C).
  destruct (Rlt_or_le 0 (k x)) as [P | P].
  - rewrite (Sf_pos _ _ P). assert (Q : 0 < sqrt (k x)) by (apply sqrt_lt_R0, P).
    apply (dlim_local (fun y => cos (sqrt (k y) * l)) _ _ _ d Hd); [intros y Y; symmetry; apply Cf_pos; specialize (C y Y); rewrite (Rabs_pos_eq (k x)) in C by lra; apply Rabs_def2 in C; lra |].
    eapply dlim_eq; [| apply (derivable_pt_lim_comp (fun y => sqrt (k y) * l) cos x); [| apply derivable_pt_lim_cos]; apply (dlim_mult (fun y => sqrt (k y)) (fun _ => l)); [apply root_deriv; [exact P | exact H] | apply derivable_pt_lim_const]].
    cbv beta. field. lra.
  - assert (P' : k x < 0) by lra. rewrite (Sf_neg _ _ P'). assert (Q : 0 < sqrt (- k x)) by (apply sqrt_lt_R0; lra).
    apply (dlim_local (fun y => cosh (sqrt (- k y) * l)) _ _ _ d Hd); [intros y Y; symmetry; apply Cf_neg; specialize (C y Y); rewrite (Rabs_left (k x)) in C by lra; apply Rabs_def2 in C; lra |].
    eapply dlim_eq; [| apply (derivable_pt_lim_comp (fun y => sqrt (- k y) * l) cosh x); [| apply derivable_pt_lim_cosh]; apply (dlim_mult (fun y => sqrt (- k y)) (fun _ => l)); [apply (root_deriv (fun y => - k y)); [lra | apply dlim_opp; exact H] | apply derivable_pt_lim_const]].
    cbv beta. field. lra.
Qed.
Lemma Sf_along k k' x l : k x <> 0 -> derivable_pt_lim k x k' -> derivable_pt_lim (fun y => Sf (k y) l) x (k' * ((l * Cf (k x) l - Sf (k x) l) / (2 * k x))).
Proof.
  intros N H. destruct (dlim_cont k x k' H (Rabs (k x)) (Rabs_pos_lt _ N)) as (d & Hd & C).
  destruct (Rlt_or_le 0 (k x)) as [P | P].
  - rewrite (Sf_pos _ _ P), (Cf_pos _ _ P). assert (Q : 0 < sqrt (k x)) by (apply sqrt_lt_R0, P). pose proof (sqrt_sqrt (k x) ltac:(lra)) as SQ.
    apply (dlim_local (fun y => sin (sqrt (k y) * l) / sqrt (k y)) _ _ _ d Hd); [intros y Y; symmetry; apply Sf_pos; specialize (C y Y); rewrite (Rabs_pos_eq (k x)) in C by lra; apply Rabs_def2 in C; lra |].
    eapply dlim_eq; [| apply dlim_quot; [cbv beta; lra | apply (derivable_pt_lim_comp (fun y => sqrt (k y) * l) sin x); [apply (dlim_mult (fun y => sqrt (k y)) (fun _ => l)); [apply root_deriv; [exact P | exact H] | apply derivable_pt_lim_const] | apply derivable_pt_lim_sin] | apply root_deriv; [exact P | exact H]]].
    cbv beta. set (q := sqrt (k x)) in *. rewrite <- SQ. field. lra.
  - assert (P' : k x < 0) by lra. rewrite (Sf_neg _ _ P'), (Cf_neg _ _ P'). assert (Q : 0 < sqrt (- k x)) by (apply sqrt_lt_R0; lra). pose proof (sqrt_sqrt (- k x) ltac:(lra)) as SQ.
    apply (dlim_local (fun y => sinh (sqrt (- k y) * l) / sqrt (- k y)) _ _ _ d Hd); [intros y Y; symmetry; apply Sf_neg; specialize (C y Y); rewrite (Rabs_left (k x)) in C by lra; apply Rabs_def2 in C; lra |].
    assert (RD : derivable_pt_lim (fun y => sqrt (- k y)) x (- k' / (2 * sqrt (- k x)))) by (apply (root_deriv (fun y => - k y)); [lra | apply dlim_opp; exact H]).
    eapply dlim_eq; [| apply dlim_quot; [cbv beta; lra | apply (derivable_pt_lim_comp (fun y => sqrt (- k y) * l) sinh x); [apply (dlim_mult (fun y => sqrt (- k y)) (fun _ => l)); [exact RD | apply derivable_pt_lim_const] | apply derivable_pt_lim_sinh] | exact RD]].
    cbv beta. set (q := sqrt (- k x)) in *. replace (k x) with (- (q * q)) by lra. field. lra.
Qed.
Lemma scaled_deriv c : derivable_pt_lim (fun d => c / (1 + d)) 0 (- c).
Proof.
  eapply dlim_eq; [| apply (dlim_quot (fun _ => c) (fun d => 1 + d)); [lra | apply derivable_pt_lim_const | apply (dlim_plus (fun _ => 1) id); [apply derivable_pt_lim_const | apply derivable_pt_lim_id]]].
  cbv beta. field.
Qed.
Lemma scaled_0 c : c / (1 + 0) = c.
Proof. field. Qed.

(* ---- the chromatic matrix of one plane: -K times the derivative in K ---- *)
Definition ta (K l : R) : R := K * l * Sf K l / 2.
Definition tb (K l : R) : R := (Sf K l - l * Cf K l) / 2.
Definition tc (K l : R) : R := K * (Sf K l + l * Cf K l) / 2.
Lemma t_pos K l : 0 < K -> let k := sqrt K in let phi := l * k in
  ta K l = phi * sin phi / 2 /\ tb K l = (sin phi / k - l * cos phi) / 2 /\ tc K l = k * (phi * cos phi + sin phi) / 2.
Proof.
  intros P k phi. assert (Q : 0 < k) by (apply sqrt_lt_R0, P). assert (SQ : k * k = K) by (apply sqrt_sqrt; lra). unfold ta, tb, tc. rewrite (Sf_pos _ _ P), (Cf_pos _ _ P). fold k.
  replace (k * l) with phi by (unfold phi; ring). set (s := sin phi). set (c := cos phi). rewrite <- SQ. unfold phi. repeat split; field; lra.
Qed.
Lemma t_neg K l : K < 0 -> let k := sqrt (- K) in let phi := l * k in
  ta K l = - phi * sinh phi / 2 /\ tb K l = (sinh phi / k - l * cosh phi) / 2 /\ tc K l = - k * (phi * cosh phi + sinh phi) / 2.
Proof.
  intros P k phi. assert (Q : 0 < k) by (apply sqrt_lt_R0; lra). assert (SQ : k * k = - K) by (apply sqrt_sqrt; lra). unfold ta, tb, tc. rewrite (Sf_neg _ _ P), (Cf_neg _ _ P). fold k.
  replace (k * l) with phi by (unfold phi; ring). set (s := sinh phi). set (c := cosh phi). replace K with (- (k * k)) by lra. unfold phi. repeat split; field; lra.
Qed.
Definition quad_t_form (l K : R) : mat :=
  tbl [[ta K l; tb K l; 0; 0]; [tc K l; ta K l; 0; 0]; [0; 0; ta (- K) l; tb (- K) l]; [0; 0; tc (- K) l; ta (- K) l]].
Lemma quad_t_ok n l K : (4 <= n)%nat -> l <> 0 -> K <> 0 -> exists T, quadrupole_t n l K = Ok T /\ meq 4 T (quad_t_form l K).
Proof.
  intros Hn NL NK. unfold quadrupole_t. destruct (Reqb_spec l 0); [contradiction |]. destruct (Reqb_spec K 0); [contradiction |]. cbn [orb]. replace (Nat.leb n 3) with false by (symmetry; apply Nat.leb_gt; lia).
  cbv zeta. eexists. split; [reflexivity |]. destruct (Rltb_spec 0 K) as [P | P]; destruct (Rltb_spec K 0) as [N' | N']; try lra.
  - destruct (t_pos K l P) as (A & B & C). destruct (t_neg (- K) l ltac:(lra)) as (A' & B' & C'). rewrite Ropp_involutive in A', B', C'. cbv zeta in *.
    intros i j Hi Hj. unfold quad_t_form. do 4 (destruct i as [| i]; [do 4 (destruct j as [| j]; [unfold mset, tbl, mid; cbn; rewrite ?A, ?B, ?C, ?A', ?B', ?C'; reflexivity |]); exfalso; lia |]). exfalso; lia.
  - destruct (t_neg K l N') as (A & B & C). destruct (t_pos (- K) l ltac:(lra)) as (A' & B' & C'). cbv zeta in *.
    intros i j Hi Hj. unfold quad_t_form. do 4 (destruct i as [| i]; [do 4 (destruct j as [| j]; [unfold mset, tbl, mid; cbn; rewrite ?A, ?B, ?C, ?A', ?B', ?C'; reflexivity |]); exfalso; lia |]). exfalso; lia.
Qed.
(* the four functions along a strength k that moves at the rate k' *)
Lemma ta_along k k' x l : k x <> 0 -> derivable_pt_lim k x k' -> derivable_pt_lim (fun y => Cf (k y) l) x (- k' / k x * ta (k x) l).
Proof. intros N H. eapply dlim_eq; [| apply (Cf_along k k' x l N H)]. unfold ta. field. exact N. Qed.
Lemma tb_along k k' x l : k x <> 0 -> derivable_pt_lim k x k' -> derivable_pt_lim (fun y => Sf (k y) l) x (- k' / k x * tb (k x) l).
Proof. intros N H. eapply dlim_eq; [| apply (Sf_along k k' x l N H)]. unfold tb. field. exact N. Qed.
Lemma tc_along k k' x l : k x <> 0 -> derivable_pt_lim k x k' -> derivable_pt_lim (fun y => - k y * Sf (k y) l) x (- k' / k x * tc (k x) l).
Proof.
  intros N H. eapply dlim_eq; [| apply (dlim_mult (fun y => - k y) (fun y => Sf (k y) l)); [apply dlim_opp; exact H | apply (Sf_along k k' x l N H)]]. cbv beta. unfold tc. field. exact N.
Qed.
Lemma quad_entry n l K i j : n = 4%nat \/ n = 6%nat -> (i < n)%nat -> (j < n)%nat -> entry (quadrupole n l K) i j = bend_form l 0 K i j.
Proof. intros Hn Hi Hj. unfold quadrupole. destruct (sbr_form n l 0 K Hn) as (M & -> & E). exact (E i j Hi Hj). Qed.
Lemma dconst c x : derivable_pt_lim (fun _ => c) x 0.
Proof. apply derivable_pt_lim_const. Qed.

Theorem C73_quadrupole l K : l <> 0 -> K <> 0 -> exists T, quadrupole_t 4 l K = Ok T /\ forall i j, (i < 4)%nat -> (j < 4)%nat -> chromatic_at (quad_at 4 l K) T i j.
Proof.
  intros NL NK. destruct (quad_t_ok 4 l K ltac:(lia) NL NK) as (T & E & F). exists T. split; [exact E |]. intros i j Hi Hj. unfold chromatic_at. rewrite F by assumption.
  apply (dlim_ext (fun d => bend_form l 0 (K / (1 + d)) i j)); [intros d; symmetry; unfold quad_at; apply quad_entry; [left; reflexivity | exact Hi | exact Hj] |].
  set (k := fun d => K / (1 + d) + 0 * 0). set (k2 := fun d => - (K / (1 + d))).
  assert (K0 : k 0 = K) by (unfold k; rewrite scaled_0; ring). assert (K20 : k2 0 = - K) by (unfold k2; rewrite scaled_0; reflexivity).
  assert (D1 : derivable_pt_lim k 0 (- K)) by (eapply dlim_eq; [| apply (dlim_plus (fun d => K / (1 + d)) (fun _ => 0 * 0)); [apply scaled_deriv | apply dconst]]; ring).
  assert (D2 : derivable_pt_lim k2 0 K) by (eapply dlim_eq; [| apply (dlim_opp (fun d => K / (1 + d))), scaled_deriv]; ring).
  assert (N1 : k 0 <> 0) by lra. assert (N2 : k2 0 <> 0) by lra.
  pose proof (ta_along k _ 0 l N1 D1) as A1. pose proof (tb_along k _ 0 l N1 D1) as B1. pose proof (tc_along k _ 0 l N1 D1) as C1.
  pose proof (ta_along k2 _ 0 l N2 D2) as A2. pose proof (tb_along k2 _ 0 l N2 D2) as B2. pose proof (tc_along k2 _ 0 l N2 D2) as C2.
  rewrite K0 in A1, B1, C1. rewrite K20 in A2, B2, C2. replace (- - K / K) with 1 in A1, B1, C1 by (field; exact NK). replace (- K / - K) with 1 in A2, B2, C2 by (field; exact NK).
  rewrite Rmult_1_l in A1, B1, C1, A2, B2, C2. unfold bend_form, quad_t_form, tbl.
  do 4 (destruct i as [| i]; [do 4 (destruct j as [| j]; [cbn [nth]; first [exact A1 | exact B1 | exact C1 | exact A2 | exact B2 | apply dconst | apply (dlim_ext _ _ _ _ (fun y => f_equal (fun z => z * Sf (k2 y) l) (Ropp_involutive (K / (1 + y)))) C2)] |]); exfalso; lia |]). exfalso; lia.
Qed.
Print Assumptions C73_quadrupole.
Theorem C126_quadrupole_refuted l : l <> 0 -> quadrupole_t 4 l 0 = Ok mid /\ ~ chromatic_at (quad_at 4 l 0) mid 0 0 /\ chromatic_at (quad_at 4 l 0) (fun _ _ => 0) 0 0.
Proof.
  intros NL. assert (E : quadrupole_t 4 l 0 = Ok mid) by (unfold quadrupole_t; destruct (Reqb_spec 0 0); [rewrite orb_true_r; reflexivity | lra]). split; [exact E |].
  assert (D : derivable_pt_lim (fun d => entry (quad_at 4 l 0 d) 0 0) 0 0).
  { apply (dlim_ext (fun _ => 1)); [| apply dconst]. intros d. unfold quad_at. rewrite quad_entry by lia. replace (0 / (1 + d)) with 0 by (unfold Rdiv; ring). unfold bend_form, tbl. cbn [nth]. unfold Cf. destruct (Reqb_spec (0 + 0 * 0) 0); [reflexivity | lra]. }
  split; [| exact D]. intros X. unfold chromatic_at in X. pose proof (uniqueness_limite _ _ _ _ X D) as U. unfold mid in U. cbn in U. lra.
Qed.
Print Assumptions C126_quadrupole_refuted.

(* ---- what a particle feels: R + T dp reproduces the map of its own momentum up to o(dp) ---- *)
Definition second_order (n : nat) (R0 T : mat) (F : R -> res oerr mat) : Prop :=
  forall x, forall e, 0 < e -> exists r, 0 < r /\ forall d, Rabs d < r -> forall i, (i < n)%nat ->
    Rabs (coord i (apply_dp n R0 T (with_dp d x)) - coord i (apply_m n (entry (F d)) (with_dp d x))) <= e * Rabs d.
Lemma msum_deriv (f : nat -> R -> R) (f' : nat -> R) x n : (forall j, (j < n)%nat -> derivable_pt_lim (f j) x (f' j)) -> derivable_pt_lim (fun y => msum (fun j => f j y) n) x (msum f' n).
Proof.
  induction n as [| n IH]; intros H; [exact (dconst 0 x) |]. cbn. apply (dlim_plus (fun y => msum (fun j => f j y) n) (f n)); [apply IH; intros; apply H; lia | apply H; lia].
Qed.
Lemma msum_ext f g n : (forall j, (j < n)%nat -> f j = g j) -> msum f n = msum g n.
Proof. induction n as [| n IH]; intros H; [reflexivity |]. cbn. rewrite (H n) by lia. rewrite IH by (intros; apply H; lia). reflexivity. Qed.
Lemma msum_lin f g d n : msum f n + msum g n * d = msum (fun j => f j + g j * d) n.
Proof. induction n as [| n IH]; cbn; [ring |]. rewrite <- IH. ring. Qed.
Lemma coord_vof f i : (i < 6)%nat -> coord i (vof f) = f i.
Proof. intros H. six i; reflexivity. Qed.
Lemma coord_with_dp d x j : (j < 5)%nat -> coord j (with_dp d x) = coord j x.
Proof. intros H. do 5 (destruct j as [| j]; [reflexivity |]). exfalso; lia. Qed.
Lemma small_rest f a : derivable_pt_lim f 0 a -> forall e, 0 < e -> exists r, 0 < r /\ forall d, Rabs d < r -> Rabs (f 0 + a * d - f d) <= e * Rabs d.
Proof.
  intros H e He. destruct (H e He) as (r & P). exists r. split; [apply cond_pos |]. intros d Hd. destruct (Req_dec d 0) as [-> | N]; [rewrite Rmult_0_r, Rplus_0_r, Rminus_diag_eq, Rabs_R0 by reflexivity; lra |].
  specialize (P d N Hd). rewrite Rplus_0_l in P. replace (f 0 + a * d - f d) with (- (((f d - f 0) / d - a) * d)) by (field; exact N). rewrite Rabs_Ropp, Rabs_mult. apply Rmult_le_compat_r; [apply Rabs_pos | lra].
Qed.
Lemma radii n (P : nat -> R -> Prop) : (forall i r s, P i r -> 0 < s <= r -> P i s) -> (forall i, (i < n)%nat -> exists r, 0 < r /\ P i r) -> exists r, 0 < r /\ forall i, (i < n)%nat -> P i r.
Proof.
  intros M. induction n as [| n IH]; intros H; [exists 1; split; [lra | intros; lia] |]. destruct IH as (r & R1 & R2); [intros; apply H; lia |]. destruct (H n ltac:(lia)) as (s & S1 & S2).
  assert (Q : 0 < Rmin r s) by (apply Rmin_pos; assumption). exists (Rmin r s). split; [exact Q |]. intros i Hi. destruct (Nat.eq_dec i n) as [-> | N].
  - apply (M n s); [exact S2 | split; [exact Q | apply Rmin_r]].
  - apply (M i r); [apply R2; lia | split; [exact Q | apply Rmin_l]].
Qed.
Lemma second_order_of n F R0 T : (n <= 4)%nat -> (forall i j, (i < n)%nat -> (j < n)%nat -> entry (F 0) i j = R0 i j /\ chromatic_at F T i j) -> second_order n R0 T F.
Proof.
  intros Hn H x e He.
  destruct (radii n (fun i r => forall d, Rabs d < r -> Rabs (coord i (apply_dp n R0 T (with_dp d x)) - coord i (apply_m n (entry (F d)) (with_dp d x))) <= e * Rabs d)) as (r & R1 & R2).
  - intros i r s Pr Hs d Hd. apply Pr. lra.
  - intros i Hi. destruct (small_rest (fun d => msum (fun j => entry (F d) i j * coord j x) n) (msum (fun j => T i j * coord j x) n)) with (e := e) as (r & R1 & R2); [| exact He |].
    + apply (msum_deriv (fun j d => entry (F d) i j * coord j x)). intros j Hj. eapply dlim_eq; [| apply (dlim_mult (fun d => entry (F d) i j) (fun _ => coord j x)); [apply (H i j Hi Hj) | apply dconst]]. ring.
    + exists r. split; [exact R1 |]. intros d Hd. specialize (R2 d Hd). unfold apply_dp, apply_m. rewrite !coord_vof by lia. replace (Nat.ltb i n) with true by (symmetry; apply Nat.ltb_lt; exact Hi).
      replace (vdp (with_dp d x)) with d by reflexivity. cbv beta in R2. rewrite msum_lin in R2.
      rewrite (msum_ext (fun j => (R0 i j + T i j * d) * coord j (with_dp d x)) (fun j => entry (F 0) i j * coord j x + T i j * coord j x * d)).
      2:{ intros j Hj. rewrite coord_with_dp by lia. destruct (H i j Hi Hj) as (-> & _). ring. }
      rewrite (msum_ext (fun j => entry (F d) i j * coord j (with_dp d x)) (fun j => entry (F d) i j * coord j x)) by (intros j Hj; rewrite coord_with_dp by lia; reflexivity). exact R2.
  - exists r. split; [exact R1 |]. intros d Hd i Hi. exact (R2 i Hi d Hd).
Qed.
Theorem C73_particles l K : l <> 0 -> K <> 0 -> exists R0 T, quadrupole 4 l K = Ok R0 /\ quadrupole_t 4 l K = Ok T /\ second_order 4 R0 T (quad_at 4 l K).
Proof.
  intros NL NK. destruct (C73_quadrupole l K NL NK) as (T & E & D). destruct (sbr_form 4 l 0 K (or_introl eq_refl)) as (M & EM & _). exists M, T. repeat split; [exact EM | exact E |].
  apply second_order_of; [lia |]. intros i j Hi Hj. split; [| apply D; assumption]. unfold quad_at. rewrite scaled_0. unfold quadrupole. rewrite EM. reflexivity.
Qed.
Print Assumptions C73_particles.
(* a quadrupole of zero strength: the particle is moved by its position times dp too much *)
Theorem C126_particles_refuted l x d : l <> 0 -> exists R0, quadrupole 4 l 0 = Ok R0 /\ quadrupole_t 4 l 0 = Ok mid /\
  coord 0 (apply_dp 4 R0 mid (with_dp d x)) = coord 0 (apply_m 4 (entry (quad_at 4 l 0 d)) (with_dp d x)) + d * vx x.
Proof.
  intros NL. destruct (sbr_form 4 l 0 0 (or_introl eq_refl)) as (M & EM & F). exists M. split; [exact EM |]. split; [apply C126_quadrupole_refuted, NL |].
  assert (Z : 0 / (1 + d) = 0) by (unfold Rdiv; ring). unfold quad_at. rewrite Z. unfold quadrupole. rewrite EM. cbn [entry]. unfold apply_dp, apply_m. rewrite !coord_vof by lia. cbn. unfold mid. cbn. unfold coord. cbn. ring.
Qed.
Print Assumptions C126_particles_refuted.
(* a quarter wave lens: cos and sin of pi / 2 *)
Example C73_ex : exists T, quadrupole_t 4 1 ((PI / 2) * (PI / 2)) = Ok T /\ T 0%nat 0%nat = PI / 4 /\ T 0%nat 1%nat = 1 / PI /\ T 1%nat 0%nat = PI / 4.
Proof.
  pose proof PI_RGT_0 as P. set (K := PI / 2 * (PI / 2)). assert (PK : 0 < K) by (unfold K; apply Rmult_lt_0_compat; lra). assert (Q : sqrt K = PI / 2) by (unfold K; apply sqrt_square; lra).
  destruct (quad_t_ok 4 1 K ltac:(lia) ltac:(lra) ltac:(lra)) as (T & E & F). exists T. split; [exact E |]. destruct (t_pos K 1 PK) as (A & B & C). cbv zeta in *. rewrite Q, Rmult_1_l, ?sin_PI2, ?cos_PI2 in A, B, C.
  rewrite !F by lia. unfold quad_t_form, tbl. cbn [nth]. rewrite A, B, C. rewrite cos_PI2. clear - P. generalize dependent PI. intros p P. repeat split; field; lra.
Qed.

(* ---- combined-function bends ---- *)
(* the elements the matrix of a bend gets right, by the sign of the horizontal focusing K + h^2 *)
Definition left_out (i j : nat) : bool := match i, j with 4%nat, (0 | 1 | 4)%nat | 5%nat, 5%nat => true | _, _ => false end.
Definition horizontal (i j : nat) : bool := match i, j with (0 | 1)%nat, (0 | 1)%nat => true | _, _ => false end.
Definition bend_t_form (hor : mat) (l h K : R) : mat :=
  let k := K + h * h in let hk := 2 * (h * h) + K in let c := Cf k l in let s := Sf k l in
  tbl [[hor 0%nat 0%nat; hor 0%nat 1%nat; 0; 0; 0; h * ((1 - c) * (h * h) - hk * l * s * k / 2) / (k * k)]; [hor 1%nat 0%nat; hor 1%nat 1%nat; 0; 0; 0; - h * (K * s + hk * l * c) / (2 * k)];
       [0; 0; ta (- K) l; tb (- K) l; 0; 0]; [0; 0; tc (- K) l; ta (- K) l; 0; 0];
       [0; 0; 0; 0; 1; h * h * (2 * K * l - hk * l * c + (2 * (h * h) - K) * s) / (2 * (k * k))]; [0; 0; 0; 0; 0; 1]].
Definition hor_pos (l h K : R) : mat :=
  let k := K + h * h in let hk := 2 * (h * h) + K in let c := Cf k l in let s := Sf k l in
  tbl [[hk * l * s / 2; hk * (s - l * c) / (2 * k)]; [hk * (s + l * c) / 2; hk * l * s / 2]].
Definition hor_neg (l h K : R) : mat :=
  let k := K + h * h in let hk := 2 * (h * h) + K in let q := sqrt (- k) in let c := cos (q * l) in let s := sin (q * l) / q in
  tbl [[hk * l * s / 2; hk * (s - l * c) / (2 * k)]; [hk * (s + l * c) / 2; hk * l * s / 2]].
Lemma bend_t_ok_pos l h K : l <> 0 -> K <> 0 -> 0 < K + h * h -> exists T, sector_bend_t 6 l h K = Ok T /\ meq 6 T (bend_t_form (hor_pos l h K) l h K).
Proof.
  intros NL NK P. unfold sector_bend_t. destruct (Reqb_spec l 0); [contradiction |]. destruct (Reqb_spec K 0); [contradiction |]. cbn [orb andb Nat.leb].
  cbv zeta. eexists. split; [reflexivity |]. unfold bend_t_form, hor_pos. cbv zeta. rewrite (Cf_pos _ _ P), (Sf_pos _ _ P). replace (h * h + K) with (K + h * h) by ring.
  unfold bend_t_horizontal, bend_t_dispersion. destruct (Reqb_spec (K + h * h) 0); [lra |]. destruct (Rltb_spec 0 (K + h * h)); [| lra]. cbv zeta.
  assert (Q : 0 < sqrt (K + h * h)) by (apply sqrt_lt_R0, P). pose proof (sqrt_sqrt (K + h * h) ltac:(lra)) as SQ.
  replace (sqrt (K + h * h) * l) with (l * sqrt (K + h * h)) by ring.
  set (q := sqrt (K + h * h)) in *. set (s := sin (l * q)). set (c := cos (l * q)). replace (K + h * h) with (q * q) by exact SQ. clearbody s c.
  unfold bend_t_vertical. destruct (Rltb_spec 0 (- K)) as [P' | P'].
  - destruct (t_pos (- K) l P') as (A & B & C). cbv zeta in *. clearbody q.
    intros i j Hi Hj. six i; six j; unfold mset, tbl, mid; cbn -[pow]; rewrite ?A, ?B, ?C; try reflexivity; field; lra.
  - destruct (Rltb_spec (- K) 0) as [P'' | P'']; [| lra]. destruct (t_neg (- K) l P'') as (A & B & C). cbv zeta in *. clearbody q.
    intros i j Hi Hj. six i; six j; unfold mset, tbl, mid; cbn -[pow]; rewrite ?A, ?B, ?C; try reflexivity; field; lra.
Qed.
Lemma bend_t_ok_neg l h K : l <> 0 -> K + h * h < 0 -> exists T, sector_bend_t 6 l h K = Ok T /\ meq 6 T (bend_t_form (hor_neg l h K) l h K).
Proof.
  intros NL P. assert (NK : K < 0) by nra. unfold sector_bend_t. destruct (Reqb_spec l 0); [contradiction |]. destruct (Reqb_spec K 0); [lra |]. cbn [orb andb Nat.leb].
  cbv zeta. eexists. split; [reflexivity |]. unfold bend_t_form, hor_neg. cbv zeta. rewrite (Cf_neg _ _ P), (Sf_neg _ _ P). replace (h * h + K) with (K + h * h) by ring.
  unfold bend_t_horizontal, bend_t_dispersion. destruct (Reqb_spec (K + h * h) 0); [lra |]. destruct (Rltb_spec 0 (K + h * h)); [lra |]. cbv zeta.
  assert (Q : 0 < sqrt (- (K + h * h))) by (apply sqrt_lt_R0; lra). pose proof (sqrt_sqrt (- (K + h * h)) ltac:(lra)) as SQ.
  replace (sqrt (- (K + h * h)) * l) with (l * sqrt (- (K + h * h))) by ring.
  set (q := sqrt (- (K + h * h))) in *. set (s := sin (l * q)). set (c := cos (l * q)). set (s' := sinh (l * q)). set (c' := cosh (l * q)). replace (K + h * h) with (- (q * q)) by lra. clearbody s c s' c'.
  unfold bend_t_vertical. destruct (Rltb_spec 0 (- K)) as [P' | P']; [| lra].
  destruct (t_pos (- K) l P') as (A & B & C). cbv zeta in *. clearbody q.
  intros i j Hi Hj. six i; six j; unfold mset, tbl, mid; cbn -[pow]; rewrite ?A, ?B, ?C; try reflexivity; field; lra.
Qed.
Lemma bend_entry n l h K i j : n = 4%nat \/ n = 6%nat -> (i < n)%nat -> (j < n)%nat -> entry (sector_bend n l h K) i j = bend_form l h K i j.
Proof. intros Hn Hi Hj. unfold sector_bend. destruct (sbr_form n l h K Hn) as (M & -> & E). exact (E i j Hi Hj). Qed.
(* the horizontal elements as they should be for either sign are those of hor_pos *)
Lemma bend_deriv l h K i j : K + h * h <> 0 -> K <> 0 -> (i < 6)%nat -> (j < 6)%nat -> left_out i j = false ->
  derivable_pt_lim (fun d => entry (bend_at 6 l h K d) i j) 0 (bend_t_form (hor_pos l h K) l h K i j).
Proof.
  intros N NK Hi Hj LO. apply (dlim_ext (fun d => bend_form l (h / (1 + d)) (K / (1 + d)) i j)); [intros d; symmetry; unfold bend_at; apply bend_entry; [right; reflexivity | exact Hi | exact Hj] |].
  set (k := fun d => K / (1 + d) + h / (1 + d) * (h / (1 + d))). set (k2 := fun d => - (K / (1 + d))). set (g := fun d => h / (1 + d)).
  assert (K0 : k 0 = K + h * h) by (unfold k; rewrite !scaled_0; ring). assert (K20 : k2 0 = - K) by (unfold k2; rewrite scaled_0; reflexivity). assert (G0 : g 0 = h) by apply scaled_0.
  assert (D1 : derivable_pt_lim k 0 (- (2 * (h * h) + K))).
  { eapply dlim_eq; [| apply (dlim_plus (fun d => K / (1 + d)) (fun d => h / (1 + d) * (h / (1 + d)))); [apply scaled_deriv | apply (dlim_mult (fun d => h / (1 + d)) (fun d => h / (1 + d))); apply scaled_deriv]]. cbv beta. rewrite scaled_0. ring. }
  assert (D2 : derivable_pt_lim k2 0 K) by (eapply dlim_eq; [| apply (dlim_opp (fun d => K / (1 + d))), scaled_deriv]; ring).
  assert (DG : derivable_pt_lim g 0 (- h)) by apply scaled_deriv.
  assert (N1 : k 0 <> 0) by (rewrite K0; exact N). assert (N2 : k2 0 <> 0) by lra.
  pose proof (Cf_along k _ 0 l N1 D1) as A1. pose proof (Sf_along k _ 0 l N1 D1) as B1.
  pose proof (ta_along k2 _ 0 l N2 D2) as A2. pose proof (tb_along k2 _ 0 l N2 D2) as B2. pose proof (tc_along k2 _ 0 l N2 D2) as C2.
  rewrite K20 in A2, B2, C2. replace (- K / - K) with 1 in A2, B2, C2 by (field; exact NK). rewrite Rmult_1_l in A2, B2, C2.
  destruct (dlim_cont k 0 _ D1 (Rabs (k 0)) (Rabs_pos_lt _ N1)) as (r & Hr & CK).
  assert (GH : forall d, Rabs (d - 0) < r -> gh (h / (1 + d)) (K / (1 + d)) = g d).
  { intros d Hd. unfold gh. destruct (Reqb_spec (K / (1 + d) + h / (1 + d) * (h / (1 + d))) 0) as [E | E]; [| reflexivity]. specialize (CK d Hd). change (k d = 0) in E. rewrite E in CK. unfold Rminus in CK. rewrite Rplus_0_l, Rabs_Ropp in CK. lra. }
  set (T := bend_t_form (hor_pos l h K) l h K). unfold bend_form. 
  apply (dlim_local (fun d => tbl [[Cf (k d) l; Sf (k d) l; 0; 0; 0; g d * (1 - Cf (k d) l) / k d]; [- k d * Sf (k d) l; Cf (k d) l; 0; 0; 0; g d * Sf (k d) l]; [0; 0; Cf (k2 d) l; Sf (k2 d) l; 0; 0]; [0; 0; - k2 d * Sf (k2 d) l; Cf (k2 d) l; 0; 0];
       [- g d * Sf (k d) l; - g d * (1 - Cf (k d) l) / k d; 0; 0; 1; - g d * g d * (l - Sf (k d) l) / k d]; [0; 0; 0; 0; 0; 1]] i j) _ _ _ r Hr).
  { intros d Hd. rewrite (GH d Hd). unfold k2. rewrite Ropp_involutive. reflexivity. }
  unfold T, bend_t_form, hor_pos. cbv zeta. rewrite <- K0. clear GH CK. cbv beta in *.
  set (kk := k 0) in *. set (c := Cf kk l) in *. set (s := Sf kk l) in *.
  assert (EK : K = kk - h * h) by lra.
  assert (DC : derivable_pt_lim (fun d => 1 - Cf (k d) l) 0 (0 - - (2 * (h * h) + K) * (- l * s / 2))) by (apply (dlim_minus (fun _ => 1) (fun d => Cf (k d) l)); [apply dconst | exact A1]).
  assert (DS : derivable_pt_lim (fun d => l - Sf (k d) l) 0 (0 - - (2 * (h * h) + K) * ((l * c - s) / (2 * kk)))) by (apply (dlim_minus (fun _ => l) (fun d => Sf (k d) l)); [apply dconst | exact B1]).
  six i; six j; try discriminate LO; unfold tbl; cbn [nth]; try apply dconst.
  - eapply dlim_eq; [| exact A1]. field.
  - eapply dlim_eq; [| exact B1]. field. exact N1.
  - eapply dlim_eq; [| apply (dlim_quot (fun d => g d * (1 - Cf (k d) l)) k); [exact N1 | apply (dlim_mult g (fun d => 1 - Cf (k d) l)); [exact DG | exact DC] | exact D1]].
    cbv beta. rewrite G0. fold kk. fold c. rewrite EK. field. exact N1.
  - eapply dlim_eq; [| apply (dlim_mult (fun d => - k d) (fun d => Sf (k d) l)); [apply dlim_opp; exact D1 | exact B1]]. cbv beta. fold kk. fold s. field. exact N1.
  - eapply dlim_eq; [| exact A1]. field.
  - eapply dlim_eq; [| apply (dlim_mult g (fun d => Sf (k d) l)); [exact DG | exact B1]]. cbv beta. rewrite G0. fold kk. fold s. rewrite EK. field. exact N1.
  - exact A2.
  - exact B2.
  - exact C2.
  - exact A2.
  - eapply dlim_eq; [| apply (dlim_quot (fun d => - g d * g d * (l - Sf (k d) l)) k); [exact N1 | apply (dlim_mult (fun d => - g d * g d) (fun d => l - Sf (k d) l)); [apply (dlim_mult (fun d => - g d) g); [apply dlim_opp; exact DG | exact DG] | exact DS] | exact D1]].
    cbv beta. rewrite G0. fold kk. fold s. rewrite EK. field. exact N1.
Qed.
Theorem C125_focusing l h K : l <> 0 -> K <> 0 -> 0 < K + h * h ->
  exists T, sector_bend_t 6 l h K = Ok T /\ forall i j, (i < 6)%nat -> (j < 6)%nat -> left_out i j = false -> chromatic_at (bend_at 6 l h K) T i j.
Proof.
  intros NL NK P. destruct (bend_t_ok_pos l h K NL NK P) as (T & E & F). exists T. split; [exact E |]. intros i j Hi Hj LO. unfold chromatic_at. rewrite F by assumption. apply bend_deriv; auto. lra.
Qed.
Print Assumptions C125_focusing.
Theorem C125_defocusing l h K : l <> 0 -> K + h * h < 0 ->
  exists T, sector_bend_t 6 l h K = Ok T /\ forall i j, (i < 6)%nat -> (j < 6)%nat -> left_out i j = false -> horizontal i j = false -> chromatic_at (bend_at 6 l h K) T i j.
Proof.
  intros NL P. assert (NK : K < 0) by nra. destruct (bend_t_ok_neg l h K NL P) as (T & E & F). exists T. split; [exact E |]. intros i j Hi Hj LO HO. unfold chromatic_at. rewrite F by assumption.
  pose proof (bend_deriv l h K i j ltac:(lra) ltac:(lra) Hi Hj LO) as D. replace (bend_t_form (hor_neg l h K) l h K i j) with (bend_t_form (hor_pos l h K) l h K i j); [exact D |].
  six i; six j; try discriminate HO; reflexivity.
Qed.
Print Assumptions C125_defocusing.
(* without curvature the matrix of a bend is that of the quadrupole *)
Theorem C125_no_curvature l K : l <> 0 -> 0 < K -> exists T Tq, sector_bend_t 6 l 0 K = Ok T /\ quadrupole_t 4 l K = Ok Tq /\ meq 4 T Tq.
Proof.
  intros NL P. destruct (bend_t_ok_pos l 0 K NL ltac:(lra) ltac:(lra)) as (T & E & F). destruct (quad_t_ok 4 l K ltac:(lia) NL ltac:(lra)) as (Tq & Eq & Fq). exists T, Tq. split; [exact E |]. split; [exact Eq |].
  intros i j Hi Hj. rewrite F, Fq by lia. unfold bend_t_form, hor_pos, quad_t_form, ta, tb, tc. cbv zeta. replace (K + 0 * 0) with K by ring. set (s := Sf K l). set (c := Cf K l). set (s' := Sf (- K) l). set (c' := Cf (- K) l). clearbody s c s' c'.
  do 4 (destruct i as [| i]; [do 4 (destruct j as [| j]; [unfold tbl; cbn [nth]; try reflexivity; field; lra |]); exfalso; lia |]). exfalso; lia.
Qed.
Print Assumptions C125_no_curvature.
(* matrices too small for the dispersion are refused, whatever the bend *)
Theorem C125_small n l h K : (n <= 5)%nat -> l <> 0 -> (K <> 0 \/ h <> 0) -> sector_bend_t n l h K = Throw ORange.
Proof.
  intros Hn NL N. unfold sector_bend_t. destruct (Reqb_spec l 0); [contradiction |]. cbn [orb]. replace (Nat.leb n 5) with true by (symmetry; apply Nat.leb_le; exact Hn).
  destruct (Reqb_spec K 0), (Reqb_spec h 0); try reflexivity. destruct N; contradiction.
Qed.
Print Assumptions C125_small.

(* ---- where the chromatic matrix is not the derivative ---- *)
Lemma sin_lt_sinh x : 0 < x -> sin x < sinh x.
Proof.
  intros P. apply Rlt_trans with x; [apply sin_lt_x, P |].
  destruct (MVT_cor2 sinh cosh 0 x P) as (c & E & C1 & C2); [intros; apply derivable_pt_lim_sinh |]. rewrite sinh_0, !Rminus_0_r in E. rewrite E.
  assert (1 < cosh c); [| nra]. unfold cosh. assert (Q : exp c * exp (- c) = 1) by (rewrite <- exp_plus, Rplus_opp_r; apply exp_0). pose proof (exp_ineq1 c ltac:(lra)). pose proof (exp_pos (- c)). set (a := exp c) in *. set (b := exp (- c)) in *. nra.
Qed.
(* horizontally defocusing: circular functions instead of hyperbolic ones *)
Theorem C126_defocusing_refuted l h K : 0 < l -> K + h * h < 0 -> 2 * (h * h) + K <> 0 ->
  exists T, sector_bend_t 6 l h K = Ok T /\ ~ chromatic_at (bend_at 6 l h K) T 0 0.
Proof.
  intros PL P N. assert (NK : K < 0) by nra. destruct (bend_t_ok_neg l h K ltac:(lra) P) as (T & E & F). exists T. split; [exact E |]. intros X. unfold chromatic_at in X. rewrite F in X by lia.
  pose proof (bend_deriv l h K 0 0 ltac:(lra) ltac:(lra) ltac:(lia) ltac:(lia) eq_refl) as D. pose proof (uniqueness_limite _ _ _ _ X D) as U. unfold bend_t_form, hor_neg, hor_pos, tbl in U. cbn [nth] in U. cbv zeta in U.
  rewrite (Sf_neg _ _ P) in U. assert (Q : 0 < sqrt (- (K + h * h))) by (apply sqrt_lt_R0; lra). set (q := sqrt (- (K + h * h))) in *. pose proof (sin_lt_sinh (q * l) ltac:(nra)) as L.
  set (a := sin (q * l)) in *. set (b := sinh (q * l)) in *. clearbody a b q. assert (V : (2 * (h * h) + K) * l * (b - a) = 0).
  { apply (Rmult_eq_reg_r (/ q)); [| apply Rinv_neq_0_compat; lra]. rewrite Rmult_0_l. unfold Rdiv in U. lra. }
  apply Rmult_integral in V. destruct V as [V | V]; [apply Rmult_integral in V |]; lra.
Qed.
Print Assumptions C126_defocusing_refuted.
(* every bend without gradient: the vertical block is the unit matrix instead of zero *)
Theorem C126_dipole_refuted l h : l <> 0 -> h <> 0 -> exists T, sector_bend_t 6 l h 0 = Ok T /\ ~ chromatic_at (bend_at 6 l h 0) T 2 2 /\ chromatic_at (bend_at 6 l h 0) (fun _ _ => 0) 2 2.
Proof.
  intros NL NH. assert (P : 0 < h * h) by nra. unfold sector_bend_t. destruct (Reqb_spec l 0); [contradiction |]. destruct (Reqb_spec h 0); [contradiction |]. rewrite andb_false_r. cbn [orb Nat.leb]. cbv zeta. eexists. split; [reflexivity |].
  assert (D : derivable_pt_lim (fun d => entry (bend_at 6 l h 0 d) 2 2) 0 0).
  { apply (dlim_ext (fun _ => 1)); [| apply dconst]. intros d. unfold bend_at. rewrite bend_entry by lia. replace (0 / (1 + d)) with 0 by (unfold Rdiv; ring). unfold bend_form, tbl. cbn [nth]. unfold Cf. destruct (Reqb_spec (- 0) 0); [reflexivity | lra]. }
  split; [| exact D]. intros X. unfold chromatic_at in X. pose proof (uniqueness_limite _ _ _ _ X D) as U. revert U.
  unfold bend_t_dispersion, bend_t_vertical, bend_t_horizontal. destruct (Reqb_spec (h * h + 0) 0); [lra |]. destruct (Rltb_spec 0 (h * h + 0)); [| lra]. destruct (Rltb_spec 0 (- 0)); [lra |]. destruct (Rltb_spec (- 0) 0); [lra |].
  cbv zeta. unfold mset, mid. cbn -[pow]. lra.
Qed.
Print Assumptions C126_dipole_refuted.
(* the rows of the path length and of the momentum *)
Theorem C126_diagonal_refuted l h K : l <> 0 -> K + h * h <> 0 -> K <> 0 ->
  exists T, sector_bend_t 6 l h K = Ok T /\ ~ chromatic_at (bend_at 6 l h K) T 4 4 /\ ~ chromatic_at (bend_at 6 l h K) T 5 5.
Proof.
  intros NL N NK.
  assert (D : forall i, (i = 4 \/ i = 5)%nat -> derivable_pt_lim (fun d => entry (bend_at 6 l h K d) i i) 0 0).
  { intros i Hi. apply (dlim_ext (fun _ => 1)); [| apply dconst]. intros d. unfold bend_at. rewrite bend_entry by lia. destruct Hi as [-> | ->]; reflexivity. }
  assert (G : exists T hor, sector_bend_t 6 l h K = Ok T /\ meq 6 T (bend_t_form hor l h K)).
  { destruct (Rlt_or_le 0 (K + h * h)); [destruct (bend_t_ok_pos l h K NL NK H) as (T & E & F) | destruct (bend_t_ok_neg l h K NL ltac:(lra)) as (T & E & F)]; exists T; eexists; split; [exact E | exact F | exact E | exact F]. }
  destruct G as (T & hor & E & F). exists T. split; [exact E |]. split; intros X; unfold chromatic_at in X; rewrite F in X by lia.
  - pose proof (uniqueness_limite _ _ _ _ X (D 4%nat (or_introl eq_refl))) as U. unfold bend_t_form, tbl in U. cbn [nth] in U. lra.
  - pose proof (uniqueness_limite _ _ _ _ X (D 5%nat (or_intror eq_refl))) as U. unfold bend_t_form, tbl in U. cbn [nth] in U. lra.
Qed.
Print Assumptions C126_diagonal_refuted.
(* the path length depends on the position through the curvature and the chromatic matrix has no such term *)
Theorem C126_path_length_refuted : let l := PI / 2 in exists T, sector_bend_t 6 l 2 (-3) = Ok T /\ T 4%nat 0%nat = 0 /\ derivable_pt_lim (fun d => entry (bend_at 6 l 2 (-3) d) 4 0) 0 (-3).
Proof.
  intros l. assert (NL : l <> 0) by (unfold l; pose proof PI_RGT_0; lra). destruct (bend_t_ok_pos l 2 (-3) NL ltac:(lra) ltac:(lra)) as (T & E & F). exists T. split; [exact E |]. split; [rewrite F by lia; reflexivity |].
  apply (dlim_ext (fun d => bend_form l (2 / (1 + d)) (-3 / (1 + d)) 4 0)); [intros d; symmetry; unfold bend_at; apply bend_entry; lia |].
  set (k := fun d => -3 / (1 + d) + 2 / (1 + d) * (2 / (1 + d))). assert (K0 : k 0 = 1) by (unfold k; rewrite !scaled_0; ring).
  assert (D1 : derivable_pt_lim k 0 (-5)).
  { eapply dlim_eq; [| apply (dlim_plus (fun d => -3 / (1 + d)) (fun d => 2 / (1 + d) * (2 / (1 + d)))); [apply scaled_deriv | apply (dlim_mult (fun d => 2 / (1 + d)) (fun d => 2 / (1 + d))); apply scaled_deriv]]. cbv beta. rewrite scaled_0. ring. }
  destruct (dlim_cont k 0 _ D1 1 ltac:(lra)) as (r & Hr & CK).
  apply (dlim_local (fun d => - (2 / (1 + d)) * Sf (k d) l) _ _ _ r Hr).
  { intros d Hd. unfold bend_form, tbl. cbn [nth]. unfold gh. fold (k d). destruct (Reqb_spec (k d) 0) as [Z | Z]; [| reflexivity]. specialize (CK d Hd). rewrite Z, K0 in CK. apply Rabs_def2 in CK. lra. }
  eapply dlim_eq; [| apply (dlim_mult (fun d => - (2 / (1 + d))) (fun d => Sf (k d) l)); [apply dlim_opp, scaled_deriv | apply Sf_along; [rewrite K0; lra | exact D1]]].
  cbv beta. rewrite K0, scaled_0, (Sf_pos 1 l), (Cf_pos 1 l), sqrt_1 by lra. rewrite !Rmult_1_l. unfold l. rewrite sin_PI2, cos_PI2. field.
Qed.
Print Assumptions C126_path_length_refuted.
(* lengths twice as large, the curvature half, the gradient a quarter: the path length doubles; it does in the focusing
   and in the defocusing bend, not in the one whose focusing vanishes *)
Theorem C125_scales l h K : l <> 0 -> K <> 0 -> K + h * h <> 0 -> exists T T', sector_bend_t 6 l h K = Ok T /\ sector_bend_t 6 (2 * l) (h / 2) (K / 4) = Ok T' /\ T' 4%nat 5%nat = 2 * T 4%nat 5%nat.
Proof.
  intros NL NK N. assert (E4 : K / 4 + h / 2 * (h / 2) = (K + h * h) / 4) by field.
  destruct (Rlt_or_le 0 (K + h * h)) as [P | P].
  - destruct (bend_t_ok_pos l h K NL NK P) as (T & E & F). destruct (bend_t_ok_pos (2 * l) (h / 2) (K / 4) ltac:(lra) ltac:(lra) ltac:(lra)) as (T' & E' & F'). exists T, T'. split; [exact E |]. split; [exact E' |].
    rewrite F, F' by lia. unfold bend_t_form, tbl. cbn [nth]. cbv zeta. rewrite E4, !Cf_pos, !Sf_pos by lra.
    assert (Q : sqrt ((K + h * h) / 4) = sqrt (K + h * h) / 2). { replace ((K + h * h) / 4) with ((K + h * h) / (2 * 2)) by field. rewrite sqrt_div_alt by lra. rewrite sqrt_square by lra. reflexivity. }
    rewrite Q. assert (Q0 : 0 < sqrt (K + h * h)) by (apply sqrt_lt_R0, P). set (q := sqrt (K + h * h)) in *. clearbody q. replace (q / 2 * (2 * l)) with (q * l) by field. set (k := K + h * h) in *. set (s := sin (q * l)). set (c := cos (q * l)). clearbody k s c. field. split; lra.
  - assert (P' : K + h * h < 0) by lra. destruct (bend_t_ok_neg l h K NL P') as (T & E & F). destruct (bend_t_ok_neg (2 * l) (h / 2) (K / 4) ltac:(lra) ltac:(lra)) as (T' & E' & F'). exists T, T'. split; [exact E |]. split; [exact E' |].
    rewrite F, F' by lia. unfold bend_t_form, tbl. cbn [nth]. cbv zeta. rewrite E4, !Cf_neg, !Sf_neg by lra.
    assert (Q : sqrt (- ((K + h * h) / 4)) = sqrt (- (K + h * h)) / 2). { replace (- ((K + h * h) / 4)) with (- (K + h * h) / (2 * 2)) by field. rewrite sqrt_div_alt by lra. rewrite sqrt_square by lra. reflexivity. }
    rewrite Q. assert (Q0 : 0 < sqrt (- (K + h * h))) by (apply sqrt_lt_R0; lra). set (q := sqrt (- (K + h * h))) in *. clearbody q. replace (q / 2 * (2 * l)) with (q * l) by field. set (k := K + h * h) in *. set (s := sinh (q * l)). set (c := cosh (q * l)). clearbody k s c. field. split; lra.
Qed.
Print Assumptions C125_scales.
Theorem C126_scales_refuted l h : l <> 0 -> h <> 0 -> h * l * (h * l) <> 40 -> exists T T', sector_bend_t 6 l h (- (h * h)) = Ok T /\ sector_bend_t 6 (2 * l) (h / 2) (- (h * h) / 4) = Ok T' /\ T' 4%nat 5%nat = T 4%nat 5%nat /\ T 4%nat 5%nat <> 0.
Proof.
  intros NL NH N4. assert (P : 0 < h * h) by nra. unfold sector_bend_t. destruct (Reqb_spec l 0); [contradiction |]. destruct (Reqb_spec (- (h * h)) 0); [lra |]. cbn [orb andb Nat.leb].
  destruct (Reqb_spec (2 * l) 0); [lra |]. destruct (Reqb_spec (- (h * h) / 4) 0); [lra |]. cbn [orb andb]. cbv zeta. do 2 eexists. split; [reflexivity |]. split; [reflexivity |].
  unfold bend_t_dispersion. destruct (Reqb_spec (h * h + - (h * h)) 0); [| lra]. destruct (Reqb_spec (h / 2 * (h / 2) + - (h * h) / 4) 0) as [Z | Z]; [| exfalso; apply Z; field]. cbv zeta. assert (MS : forall v M, mset 4 5 v M 4%nat 5%nat = v) by reflexivity. rewrite !MS.
  split; [field |]. intros X. assert (NP : h * l <> 0) by (apply Rmult_integral_contrapositive; split; assumption). set (p := h * l) in *. clearbody p. assert (Y : (p * p) * p * (p * p - 40) = 0) by (replace (p * p * p * (p * p - 40)) with (-120 * (- (p * p) * p * (p * p - 40) / 120)) by field; rewrite X; ring).
  apply Rmult_integral in Y. destruct Y as [Y | Y]; [| lra]. apply Rmult_integral in Y. destruct Y as [Y | Y]; [| lra]. apply Rmult_integral in Y. destruct Y; lra.
Qed.
Print Assumptions C126_scales_refuted.
(* Kx = 1 and a quarter of a wave *)
Example C125_ex : exists T, sector_bend_t 6 (PI / 2) 2 (-3) = Ok T /\ T 0%nat 5%nat = 8 - 5 * PI / 2 /\ T 1%nat 5%nat = 3 /\ T 0%nat 0%nat = 5 * PI / 4.
Proof.
  pose proof PI_RGT_0 as P. destruct (bend_t_ok_pos (PI / 2) 2 (-3) ltac:(lra) ltac:(lra) ltac:(lra)) as (T & E & F). exists T. split; [exact E |]. rewrite !F by lia. unfold bend_t_form, hor_pos, tbl. cbn [nth]. cbv zeta.
  replace (-3 + 2 * 2) with 1 by ring. rewrite (Sf_pos 1), (Cf_pos 1), sqrt_1, Rmult_1_l, sin_PI2, cos_PI2 by lra. repeat split; lra.
Qed.
Example C125_defocusing_ex : (1 : R) <> 0 /\ -2 + 1 * 1 < 0 /\ 0 < 3 /\ -5 + 1 * 1 < 0 /\ 2 * (1 * 1) + -5 <> 0. Proof. lra. Qed.
