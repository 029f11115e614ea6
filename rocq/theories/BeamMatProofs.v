From Verif Require Import RBase Cov CovProofs Bunch BunchSpec BunchProofs Optics OpticsSpec OpticsProofs SparseMap SparseMapSpec SparseMapProofs SparseMapProps BeamMat BeamMatSpec.
From Coq Require Import ZArith Lia.
Local Open Scope R_scope.

Lemma holds_ext N d g h : holds N d g -> (forall i j, (i < N)%nat -> (j < N)%nat -> g i j = h i j) -> holds N d h.
Proof. intros [L H] E. split; [exact L |]. intros i j Hij. rewrite H by exact Hij. rewrite E by lia. reflexivity. Qed.
Lemma sig_sym N d i j : sig N d i j = sig N d j i.
Proof. unfold sig. rewrite offset2_sym, andb_comm. reflexivity. Qed.
Lemma cel_holds d g : holds 6 d g -> (forall a b, g a b = g b a) -> forall i j, (i < 6)%nat -> (j < 6)%nat -> cel d i j = g i j.
Proof.
  intros [L H] S i j Hi Hj. unfold cel. destruct (Nat.le_gt_cases j i).
  - change 6%Z with (Z.of_nat 6). rewrite H by lia. reflexivity.
  - rewrite sig_sym. change 6%Z with (Z.of_nat 6). rewrite H by lia. apply S.
Qed.
Lemma congruence_sym n A g : (forall a b, g a b = g b a) -> forall a b, congruence n A g a b = congruence n A g b a.
Proof.
  intros S a b. unfold congruence. rewrite sum_swap. apply sum_ext. intros l _. apply sum_ext. intros k _. rewrite (S k l). ring.
Qed.
Lemma congruence_ext n A B g h : meq n A B -> meq n g h -> meq n (congruence n A g) (congruence n B h).
Proof.
  intros E F i j Hi Hj. unfold congruence. apply sum_ext. intros k Hk. apply in_seq in Hk. apply sum_ext. intros l Hl. apply in_seq in Hl.
  rewrite E, (E j l), F by lia. reflexivity.
Qed.
Lemma map_moments_ok M c d g : holds 6 d g -> (forall a b, g a b = g b a) -> exists v d',
  map_moments M (c, d) = Ok (v, d') /\ map_cov M d = Ok d' /\ (forall i, (i < 6)%nat -> coord i v = image 6 M c i) /\ holds 6 d' (congruence 6 M g).
Proof.
  intros H S. unfold map_moments, map_cov. destruct (C148_sparse_of_matrix 0 6 6 M) as (m & M' & E & T & _ & AM & _); [lia | lia |]. rewrite E.
  destruct T as (O & I & _). destruct (C148_sparse_moments 6 m c d g O I H S) as (v & d' & E1 & E2 & V & H').
  exists v, d'. split; [exact E1 |]. split; [exact E2 |]. split.
  - intros i Hi. rewrite V by exact Hi. unfold image. apply sum_ext. intros j Hj. apply in_seq in Hj. rewrite (proj1 (AM i j Hi ltac:(lia))). reflexivity.
  - eapply holds_ext; [exact H' |]. intros i j Hi Hj. apply congruence_ext; [| intros x y _ _; reflexivity | exact Hi | exact Hj].
    intros a b Ha Hb. apply AM; assumption.
Qed.
Lemma times_mmul n A B i j : mmul n A B i j = times n A B i j.
Proof. unfold mmul, times. apply msum_sum. Qed.
Lemma congruence_times n A B g : meq n (congruence n A (congruence n B g)) (congruence n (times n A B) g).
Proof.
  intros i j _ _. unfold congruence, times. set (L := seq 0 n).
  transitivity (sum (fun k => sum (fun l => sum (fun p => sum (fun q => (A i k * B k p) * (A j l * B l q) * g p q) L) L) L) L).
  - apply sum_ext. intros k _. apply sum_ext. intros l _. rewrite <- sum_scal, <- sum_scal_r. apply sum_ext. intros p _.
    rewrite <- sum_scal, <- sum_scal_r. apply sum_ext. intros q _. ring.
  - symmetry. transitivity (sum (fun p => sum (fun q => sum (fun k => sum (fun l => (A i k * B k p) * (A j l * B l q) * g p q) L) L) L) L).
    + apply sum_ext. intros p _. apply sum_ext. intros q _.
      transitivity (sum (fun k => A i k * B k p) L * sum (fun k => A j k * B k q) L * g p q); [ring |]. rewrite sum_mult, <- sum_scal_r.
      apply sum_ext. intros k _. rewrite <- sum_scal_r. reflexivity.
    + transitivity (sum (fun p => sum (fun k => sum (fun q => sum (fun l => (A i k * B k p) * (A j l * B l q) * g p q) L) L) L) L);
        [apply sum_ext; intros p _; apply sum_swap |].
      rewrite sum_swap. apply sum_ext. intros k _.
      transitivity (sum (fun p => sum (fun l => sum (fun q => (A i k * B k p) * (A j l * B l q) * g p q) L) L) L);
        [apply sum_ext; intros p _; apply sum_swap | apply sum_swap].
Qed.

(* ---- specification: Twiss parameters ---- *)
Definition expected (t : beam) (D : nat -> R) : mtx :=
  uncoupled_moments (emit_x t) (beta_x t) (alpha_x t) (emit_y t) (beta_y t) (alpha_y t) (sig_z t) (sig_dp t) D.
Definition disp_of (t : beam) : nat -> R := disp_vec (Dx t) (Dxp t) (Dy t) (Dyp t).
Definition uncoupled (t : beam) : Prop := c_xy t = 0 /\ c_xyp t = 0 /\ c_xpy t = 0 /\ c_xpyp t = 0.

Lemma expected_sym t D a b : expected t D a b = expected t D b a.
Proof.
  unfold expected, uncoupled_moments, plane_moments.
  destruct (Nat.eq_dec a 0), (Nat.eq_dec b 0), (Nat.eq_dec a (0 + 1)), (Nat.eq_dec b (0 + 1)), (Nat.eq_dec a 2), (Nat.eq_dec b 2), (Nat.eq_dec a (2 + 1)), (Nat.eq_dec b (2 + 1)), (Nat.eq_dec a 4), (Nat.eq_dec b 4); try (exfalso; lia); ring.
Qed.
(* the matrix of the normal coordinates *)
Definition norm_form (t : beam) : mat :=
  let s := sqrt (beta_x t) in let r := sqrt (beta_y t) in
  tbl [[s; 0; 0; 0; 0; Dx t]; [- alpha_x t / s; 1 / s; 0; 0; 0; Dxp t]; [0; 0; r; 0; 0; Dy t]; [0; 0; - alpha_y t / r; 1 / r; 0; Dyp t]; [0; 0; 0; 0; 1; 0]; [0; 0; 0; 0; 0; 1]].
Lemma coupling_0 : coupling 0 0 0 0 = mid.
Proof. unfold coupling. destruct (Reqb_spec (0 * 0 - 0 * 0) 0) as [_ | N]; [reflexivity | exfalso; apply N; ring]. Qed.
Lemma normal_uncoupled t : 0 < beta_x t -> 0 < beta_y t -> uncoupled t -> exists N, normal_transform t = Ok N /\ meq 6 N (norm_form t).
Proof.
  intros Bx By (C1 & C2 & C3 & C4). unfold normal_transform. destruct (Rltb_spec 0 (beta_x t)); [| lra]. destruct (Rltb_spec 0 (beta_y t)); [| lra]. cbn [andb].
  rewrite C1, C2, C3, C4, coupling_0. eexists. split; [reflexivity |].
  unfold norm_form, dispersion, beta_matrix, alpha_matrix.
  set (s := sqrt (beta_x t)). set (q := sqrt (beta_y t)).
  intros i j Hi Hj. unfold mmul, mset, mid, tbl, msum. six i; six j; cbn [Nat.eqb andb nth]; unfold Rdiv; ring.
Qed.
(* setting the diagonal *)
Definition diag_of (t : beam) (i : nat) : R :=
  match i with 0%nat | 1%nat => emit_x t | 2%nat | 3%nat => emit_y t | 4%nat => sig_z t * sig_z t | _ => sig_dp t * sig_dp t end.
Lemma set_one d g i x : holds 6 d g -> (i < 6)%nat -> exists d', set_sig 6 d (Z.of_nat i) (Z.of_nat i) x = Ok d' /\
  holds 6 d' (fun a b => if Nat.eq_dec a i then if Nat.eq_dec b i then x else g a b else g a b).
Proof.
  intros [L H] Hi. destruct (set_sig_ok 6 d (Z.of_nat i) (Z.of_nat i) x) as (d' & E & L' & W); [lia | lia | exact L |].
  exists d'. split; [exact E |]. split; [exact L' |]. intros a b Hab. change (Z.of_nat 6) with 6%Z.
  rewrite W by lia. change 6%Z with (Z.of_nat 6). rewrite (H a b Hab).
  destruct (Nat.eq_dec a i), (Nat.eq_dec b i), (Z.eqb_spec (Z.of_nat a) (Z.of_nat i)), (Z.eqb_spec (Z.of_nat b) (Z.of_nat i)); try lia; reflexivity.
Qed.
Lemma set_diag_ok t d g : holds 6 d g -> exists d',
  set_diag [(0%Z, emit_x t); (1%Z, emit_x t); (2%Z, emit_y t); (3%Z, emit_y t); (4%Z, sig_z t * sig_z t); (5%Z, sig_dp t * sig_dp t)] d = Ok d' /\
  holds 6 d' (fun a b => if Nat.eq_dec a b then diag_of t a else g a b).
Proof.
  intros H. cbn [set_diag].
  destruct (set_one d g 0 (emit_x t) H ltac:(lia)) as (d0 & E0 & H0). change (Z.of_nat 0) with 0%Z in E0. rewrite E0. cbn [bind].
  destruct (set_one d0 _ 1 (emit_x t) H0 ltac:(lia)) as (d1 & E1 & H1). change (Z.of_nat 1) with 1%Z in E1. rewrite E1. cbn [bind].
  destruct (set_one d1 _ 2 (emit_y t) H1 ltac:(lia)) as (d2 & E2 & H2). change (Z.of_nat 2) with 2%Z in E2. rewrite E2. cbn [bind].
  destruct (set_one d2 _ 3 (emit_y t) H2 ltac:(lia)) as (d3 & E3 & H3). change (Z.of_nat 3) with 3%Z in E3. rewrite E3. cbn [bind].
  destruct (set_one d3 _ 4 (sig_z t * sig_z t) H3 ltac:(lia)) as (d4 & E4 & H4). change (Z.of_nat 4) with 4%Z in E4. rewrite E4. cbn [bind].
  destruct (set_one d4 _ 5 (sig_dp t * sig_dp t) H4 ltac:(lia)) as (d5 & E5 & H5). change (Z.of_nat 5) with 5%Z in E5. rewrite E5.
  exists d5. split; [reflexivity |]. eapply holds_ext; [exact H5 |]. intros i j Hi Hj. cbn beta. six i; six j; reflexivity.
Qed.
Lemma congruence_uncoupled t : 0 < beta_x t -> 0 < beta_y t ->
  meq 6 (congruence 6 (norm_form t) (fun a b => if Nat.eq_dec a b then diag_of t a else 0)) (expected t (disp_of t)).
Proof.
  intros Bx By. pose proof (sqrt_lt_R0 _ Bx) as Sx. pose proof (sqrt_lt_R0 _ By) as Sy.
  pose proof (sqrt_sqrt (beta_x t) ltac:(lra)) as Qx. pose proof (sqrt_sqrt (beta_y t) ltac:(lra)) as Qy.
  unfold norm_form, expected, disp_of. set (s := sqrt (beta_x t)) in *. set (q := sqrt (beta_y t)) in *. rewrite <- Qx, <- Qy. clearbody s q.
  intros i j Hi Hj. unfold congruence, uncoupled_moments, plane_moments, disp_vec, tbl, diag_of. cbn [sum seq].
  six i; six j; cbn [nth Nat.eq_dec Nat.add nat_rect nat_rec sumbool_rect sumbool_rec f_equal]; 
  repeat match goal with |- context [Nat.eq_dec ?a ?b] => destruct (Nat.eq_dec a b); try (exfalso; lia); try discriminate end; try (field; lra); try ring.
Qed.
Lemma expected_tbl t a b c d : let g := sig_dp t * sig_dp t in meq 6 (expected t (disp_vec a b c d)) (tbl
  [[emit_x t * beta_x t + a * a * g; - (emit_x t * alpha_x t) + a * b * g; a * c * g; a * d * g; 0; a * g];
   [- (emit_x t * alpha_x t) + b * a * g; emit_x t * ((1 + alpha_x t * alpha_x t) / beta_x t) + b * b * g; b * c * g; b * d * g; 0; b * g];
   [c * a * g; c * b * g; emit_y t * beta_y t + c * c * g; - (emit_y t * alpha_y t) + c * d * g; 0; c * g];
   [d * a * g; d * b * g; - (emit_y t * alpha_y t) + d * c * g; emit_y t * ((1 + alpha_y t * alpha_y t) / beta_y t) + d * d * g; 0; d * g];
   [0; 0; 0; 0; sig_z t * sig_z t; 0]; [a * g; b * g; c * g; d * g; 0; g]]).
Proof. intros g i j Hi Hj. unfold expected, uncoupled_moments, plane_moments, disp_vec, tbl. fold g. six i; six j; cbn; ring. Qed.
Lemma congruence_disp t a b c d : meq 6 (congruence 6 (dispersion (- a) (- b) (- c) (- d)) (expected t (disp_vec a b c d))) (expected t (disp_vec 0 0 0 0)).
Proof.
  intros i j Hi Hj. rewrite (expected_tbl t 0 0 0 0 i j Hi Hj).
  rewrite (congruence_ext 6 _ _ _ _ (fun a b _ _ => eq_refl) (expected_tbl t a b c d) i j Hi Hj).
  set (g := sig_dp t * sig_dp t). set (ga := (1 + alpha_x t * alpha_x t) / beta_x t). set (gb := (1 + alpha_y t * alpha_y t) / beta_y t). clearbody g ga gb.
  unfold congruence, dispersion, mset, mid, tbl. cbn [sum seq]. six i; six j; cbn [Nat.eqb andb nth]; ring.
Qed.
Lemma congruence_mid g : meq 6 (congruence 6 mid g) g.
Proof. intros i j Hi Hj. unfold congruence, mid. cbn [sum seq]. six i; six j; cbn [Nat.eqb]; ring. Qed.

Lemma coeff_uncoupled d : cel d 0 2 = 0 -> cel d 0 3 = 0 -> cel d 1 2 = 0 -> cel d 1 3 = 0 ->
  cel d 2 2 * cel d 3 3 - cel d 2 3 * cel d 2 3 - (cel d 0 0 * cel d 1 1 - cel d 0 1 * cel d 0 1) <> 0 -> coeff d = Some (0, 0, 0, 0).
Proof.
  intros A B C D N. unfold coeff. cbv zeta. destruct (Reqb_spec (cel d 2 2 * cel d 3 3 - cel d 2 3 * cel d 2 3 - (cel d 0 0 * cel d 1 1 - cel d 0 1 * cel d 0 1)) 0); [contradiction |].
  rewrite A, B, C, D. f_equal. repeat match goal with |- (_, _) = (_, _) => f_equal end; unfold Rdiv; ring.
Qed.
Lemma decouple_uncoupled fuel d g Q : holds 6 d g -> (forall a b, g a b = g b a) ->
  g 0%nat 2%nat = 0 -> g 0%nat 3%nat = 0 -> g 1%nat 2%nat = 0 -> g 1%nat 3%nat = 0 ->
  g 2%nat 2%nat * g 3%nat 3%nat - g 2%nat 3%nat * g 2%nat 3%nat - (g 0%nat 0%nat * g 1%nat 1%nat - g 0%nat 1%nat * g 0%nat 1%nat) <> 0 ->
  exists d', decouple (S fuel) d Q = Some (Ok (d', mmul 6 mid Q)) /\ holds 6 d' g.
Proof.
  intros H S A B C D N. cbn [decouple].
  rewrite coeff_uncoupled; try (rewrite !(cel_holds d g H S) by lia; assumption).
  replace (- 0) with 0 by ring. rewrite coupling_0.
  destruct (map_moments_ok mid vzero d g H S) as (v & d' & _ & -> & _ & H').
  destruct (Rleb_spec (1 / 10000000000) (0 * 0 + 0 * 0 + 0 * 0 + 0 * 0)) as [X | X]; [lra |].
  exists d'. split; [reflexivity |]. eapply holds_ext; [exact H' |]. apply congruence_mid.
Qed.
Lemma zero_holds6 : holds 6 (zero 6) (fun _ _ => 0).
Proof. exact (zero_holds 6). Qed.
