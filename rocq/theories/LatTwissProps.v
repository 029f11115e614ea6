(* C226-C228: phases, periodicity and the invariant of the lattice functions *)
From Coq Require Import ZArith Lia Lra.
From Verif Require Import RBase Bunch BunchSpec Optics Orbit OrbitSpec OrbitProofs LatFun LatFunSpec LatFunProofs LatFunProps.
From Verif Require Mat MatFacts Gauss GaussProps SympProps Rot RotProofs.
Local Open Scope R_scope.

Lemma atan2_range y x : - PI < Rot.atan2 y x <= PI.
Proof.
  pose proof PI_RGT_0 as P. unfold Rot.atan2. pose proof (atan_bound (y / x)) as B.
  destruct (Rltb_spec 0 x); [lra|]. destruct (Rltb_spec x 0).
  - assert (I : / x < 0) by (apply Rinv_lt_0_compat; assumption). destruct (Rleb_spec 0 y).
    + assert (y / x <= 0) by (unfold Rdiv; nra). assert (atan (y / x) <= 0).
      { destruct (Req_dec (y / x) 0) as [->|]; [rewrite atan_0; lra|]. left. rewrite <- atan_0. apply atan_increasing. lra. }
      lra.
    + assert (0 < y / x) by (unfold Rdiv; nra). assert (0 < atan (y / x)) by (rewrite <- atan_0; apply atan_increasing; assumption). lra.
  - destruct (Rltb_spec 0 y); [lra|]. destruct (Rltb_spec y 0); lra.
Qed.
Lemma shift_cos v : cos (2 * PI * (v + 1)) = cos (2 * PI * v) /\ sin (2 * PI * (v + 1)) = sin (2 * PI * v).
Proof.
  pose proof (cos_period (2 * PI * v) 1) as C. pose proof (sin_period (2 * PI * v) 1) as S. cbn [INR] in C, S.
  replace (2 * PI * (v + 1)) with (2 * PI * v + 2 * 1 * PI) by ring. auto.
Qed.
Lemma value_phase n ok s p N k v : (1 <= k)%Z -> (2 * k <= Z.of_nat n)%Z -> value_of n ok s p N 0 0 k = Ok v ->
  let x := N (Z.to_nat (2 * k - 2)) (Z.to_nat (2 * k - 2)) in let y := N (Z.to_nat (2 * k - 2)) (Z.to_nat (2 * k - 1)) in
  x = sqrt (x * x + y * y) * cos (2 * PI * v) /\ y = sqrt (x * x + y * y) * sin (2 * PI * v) /\
  (if Z.eqb k 3 then - (1 / 2) < v <= 1 / 2 else - / 1000000000 <= v < 1 - / 1000000000).
Proof.
  intros K1 K2 H x y. unfold value_of in H. destruct (Z.eqb k 3 && negb ok); [discriminate|]. cbn [Z.eqb andb] in H.
  destruct (Z.ltb_spec 0 k); [|lia]. destruct (Z.leb_spec (2 * k) (Z.of_nat n)); [|lia]. cbn [andb] in H.
  fold x y in H. pose proof (atan2_range y x) as B. pose proof PI_RGT_0 as P. destruct (atan2_polar x y) as [X Y].
  set (a := Rot.atan2 y x) in *. clearbody a.
  assert (E : 2 * PI * (a / (2 * PI)) = a) by (field; lra).
  assert (B1 : - (1 / 2) < a / (2 * PI) <= 1 / 2).
  { split; [apply (Rmult_lt_reg_l (2 * PI)); [lra|]; rewrite E; lra | apply (Rmult_le_reg_l (2 * PI)); [lra|]; rewrite E; lra]. }
  destruct (Z.eqb k 3); cbn [negb andb] in H.
  - inversion H; subst v. rewrite E. auto.
  - unfold tiny in H. destruct (Rltb_spec (a / (2 * PI)) (- / 1000000000)) as [L|L]; inversion H; subst v.
    + destruct (shift_cos (a / (2 * PI))) as [-> ->]. rewrite E. split; [exact X|]. split; [exact Y|]. lra.
    + rewrite E. split; [exact X|]. split; [exact Y|]. lra.
Qed.
Lemma phase_algebra U V x y c s X Y r0 v :
  X = sqrt 2 * (U * c + V * s) -> Y = sqrt 2 * (V * c - U * s) -> c * c + s * s = 1 -> x = r0 * c -> y = r0 * s ->
  X = sqrt (X * X + Y * Y) * cos v -> Y = sqrt (X * X + Y * Y) * sin v ->
  U * x + V * y = sqrt (U * U + V * V) * r0 * cos v /\ V * x - U * y = sqrt (U * U + V * V) * r0 * sin v.
Proof.
  intros EX EY CS Ex Ey PX PY.
  assert (T : sqrt 2 * sqrt 2 = 2) by (apply sqrt_sqrt; lra). assert (T0 : 0 < sqrt 2) by (apply sqrt_lt_R0; lra).
  assert (Q : X * X + Y * Y = 2 * (U * U + V * V)).
  { rewrite EX, EY. transitivity (sqrt 2 * sqrt 2 * (c * c + s * s) * (U * U + V * V)); [ring|]. rewrite T, CS. ring. }
  rewrite Q in PX, PY. rewrite sqrt_mult in PX, PY by nra. split.
  - apply (Rmult_eq_reg_l (sqrt 2)); [|lra]. rewrite Ex, Ey.
    transitivity (r0 * X); [rewrite EX; ring|]. rewrite PX. ring.
  - apply (Rmult_eq_reg_l (sqrt 2)); [|lra]. rewrite Ex, Ey.
    transitivity (r0 * Y); [rewrite EY; ring|]. rewrite PY. ring.
Qed.
Lemma phi_polar re im k : let r0 := sqrt (re k (2 * k)%nat * re k (2 * k)%nat + im k (2 * k)%nat * im k (2 * k)%nat) in
  re k (2 * k)%nat = r0 * cos (phi re im k) /\ im k (2 * k)%nat = r0 * sin (phi re im k).
Proof.
  intros r0. unfold phi. set (x := re k (2 * k)%nat) in *. set (y := im k (2 * k)%nat) in *. clearbody x y.
  assert (T : sqrt 2 * sqrt 2 = 2) by (apply sqrt_sqrt; lra). assert (T0 : 0 < sqrt 2) by (apply sqrt_lt_R0; lra).
  destruct (atan2_polar (sqrt 2 * x) (sqrt 2 * y)) as [X Y]. set (a := Rot.atan2 (sqrt 2 * y) (sqrt 2 * x)) in *. clearbody a.
  replace (sqrt 2 * x * (sqrt 2 * x) + sqrt 2 * y * (sqrt 2 * y)) with (2 * (x * x + y * y)) in X, Y by (transitivity (sqrt 2 * sqrt 2 * (x * x + y * y)); [rewrite T; reflexivity|ring]).
  rewrite sqrt_mult in X, Y by nra. fold r0 in X, Y. split; apply (Rmult_eq_reg_l (sqrt 2)); try lra.
Qed.

Theorem C226_phase : forall factor eig m t pi Mi t' p ok re im, torbit t = false -> calculate factor eig m t pi Mi = Ok t' -> starts factor m t (tscale t) true pi p ->
  tsymp t = false -> coasting m -> says eig (turn_of t m (tscale t) Mi p) ok re im ->
  forall c k r, In c (tcols t') -> (r <= length m)%nat -> (2 * k + 1 < dim ok)%nat -> idx c = (0%Z, 0%Z, Z.of_nat (S k)) ->
    let A := act (dim ok) (slopes (tscale t) m r (tdelta t) p) in
    let u := A (re k) (2 * k)%nat in let v := A (im k) (2 * k)%nat in let x := re k (2 * k)%nat in let y := im k (2 * k)%nat in
    u * x + v * y = sqrt (u * u + v * v) * sqrt (x * x + y * y) * cos (2 * PI * at_row c r) /\
    v * x - u * y = sqrt (u * u + v * v) * sqrt (x * x + y * y) * sin (2 * PI * at_row c r) /\
    (if Nat.eqb k 2 then - (1 / 2) < at_row c r <= 1 / 2 else - / 1000000000 <= at_row c r < 1 - / 1000000000).
Proof.
  intros factor eig m t pi Mi t' p ok re im O H S Y C E c k r Hc Hr Hk Ei A u v x y.
  destruct (calc_cols _ _ _ _ _ _ _ _ O H S) as (M & ok' & re' & im' & Ns & D & EM & TM & _ & V & G & _).
  destruct (says_ok _ _ _ _ _ _ _ _ _ E (TM Y) EM) as (-> & -> & ->).
  destruct (V c Hc) as [_ V']. specialize (V' r Hr). specialize (G Y r Hr).
  destruct (idx_inv _ _ _ _ Ei) as (E1 & E2 & E3). rewrite E1, E2, E3 in V'. apply value_phase in V'; try lia.
  replace (Z.to_nat (2 * Z.of_nat (Datatypes.S k) - 2)) with (2 * k)%nat in V' by lia. replace (Z.to_nat (2 * Z.of_nat (Datatypes.S k) - 1)) with (2 * k + 1)%nat in V' by lia.
  rewrite !G in V' by lia.
  match type of V' with context [Mat.mmul _ ?Q _] => set (QQ := Q) in * end.
  assert (X : forall w a, (a < dim ok)%nat -> act (dim ok) QQ w a = A w a) by (intros w a Ha; apply act_mat_ext; [exact Ha|apply coast_Q; assumption]).
  destruct (carried_cols ok QQ re im k (2 * k) ltac:(lia)) as [c1 c2]. rewrite !X in c1, c2 by lia. fold u v in c1, c2.
  cbv zeta in V'. destruct V' as (V1 & V2 & V3).
  destruct (phi_polar re im k) as [p1 p2]. fold x y in p1, p2.
  destruct (phase_algebra u v x y _ _ _ _ _ _ c1 c2 (LatFunProps.cs1 _) p1 p2 V1 V2) as [R1 R2].
  split; [exact R1|]. split; [exact R2|].
  destruct (Z.eqb_spec (Z.of_nat (Datatypes.S k)) 3); destruct (Nat.eqb_spec k 2); try lia; exact V3.
Qed.
Print Assumptions C226_phase.

Lemma slopes_0 s m d p : d <> 0 -> same_mat 6 (slopes s m 0 d p) delta_.
Proof.
  intros D i j Hi Hj. unfold slopes, arrives. cbn [firstn map journey fold_left].
  do 6 (destruct i as [|i]; [do 6 (destruct j as [|j]; [cbn; field; exact D|]); lia|]). lia.
Qed.
Lemma act_id n A w i : (i < n)%nat -> (forall j, (j < n)%nat -> A i j = delta_ i j) -> act n A w i = w i.
Proof. intros Hi H. unfold act. rewrite (tot_ext n _ (fun j => delta_ i j * w j)) by (intros; rewrite H by assumption; reflexivity). apply tot_delta. exact Hi. Qed.
Lemma at_start ok s m d p w i : d <> 0 -> (i < dim ok)%nat -> act (dim ok) (slopes s m 0 d p) w i = w i.
Proof. intros D Hi. pose proof (dim_le ok). apply act_id; [exact Hi|]. intros j Hj. apply slopes_0; [exact D|lia|lia]. Qed.
Lemma cos_one v : cos (2 * PI * v) = 1 -> -1 < v < 1 -> v = 0.
Proof.
  intros H B. pose proof PI_RGT_0 as P. assert (S : sin (PI * v) = 0).
  { pose proof (cos_2a_sin (PI * v)) as E. replace (2 * (PI * v)) with (2 * PI * v) in E by ring. rewrite H in E. nra. }
  destruct (Rtotal_order v 0) as [L|[L|L]]; [|exact L|].
  - exfalso. assert (0 < sin (- (PI * v))) by (apply sin_gt_0; nra). rewrite sin_neg in *. lra.
  - exfalso. assert (0 < sin (PI * v)) by (apply sin_gt_0; nra). lra.
Qed.
Lemma delta_nz factor eig m t pi Mi t' : torbit t = false -> calculate factor eig m t pi Mi = Ok t' -> tdelta t <> 0.
Proof.
  intros O H. destruct (calc_inv _ _ _ _ _ _ _ O H) as (d & H1). destruct (do_calc_inv _ _ _ _ _ _ _ _ _ H1) as (q & M & ok & re & im & cs & _ & D & _). exact D.
Qed.

Theorem C226_start : forall factor eig m t pi Mi t' p ok re im, torbit t = false -> calculate factor eig m t pi Mi = Ok t' -> starts factor m t (tscale t) true pi p ->
  tsymp t = false -> coasting m -> says eig (turn_of t m (tscale t) Mi p) ok re im ->
  forall c k, In c (tcols t') -> (2 * k + 1 < dim ok)%nat -> idx c = (0%Z, 0%Z, Z.of_nat (S k)) ->
    0 < re k (2 * k)%nat * re k (2 * k)%nat + im k (2 * k)%nat * im k (2 * k)%nat -> at_row c 0 = 0.
Proof.
  intros factor eig m t pi Mi t' p ok re im O H S Y C E c k Hc Hk Ei NZ.
  pose proof (C226_phase _ _ _ _ _ _ _ _ _ _ _ O H S Y C E c k 0%nat Hc ltac:(lia) Hk Ei) as T. cbv zeta in T.
  pose proof (delta_nz _ _ _ _ _ _ _ O H) as D.
  rewrite !(at_start ok _ _ _ _ _ _ D) in T by lia. set (x := re k (2 * k)%nat) in *. set (y := im k (2 * k)%nat) in *. clearbody x y.
  destruct T as (T1 & _ & T3). apply cos_one.
  - rewrite sqrt_sqrt in T1 by lra. nra.
  - destruct (Nat.eqb k 2); lra.
Qed.
Print Assumptions C226_start.

Theorem C227_periodic : forall factor eig m t pi t' p ok re im, torbit t = false -> calculate factor eig m t pi None = Ok t' -> starts factor m t (tscale t) true pi p ->
  tsymp t = false -> tforce t = false -> coasting m -> says eig (turn_of t m (tscale t) None p) ok re im ->
  forall c k mu, In c (tcols t') -> (2 * k + 1 < dim ok)%nat ->
  turns (dim ok) (slopes (tscale t) m (length m) (tdelta t) p) (re k) (im k) mu ->
  (forall i j, (i < dim ok)%nat -> (j < dim ok)%nat -> idx c = (Z.of_nat (S i), Z.of_nat (S j), Z.of_nat (S k)) -> at_row c (length m) = at_row c 0) /\
  (idx c = (0%Z, 0%Z, Z.of_nat (S k)) -> 0 < re k (2 * k)%nat * re k (2 * k)%nat + im k (2 * k)%nat * im k (2 * k)%nat ->
     cos (2 * PI * at_row c (length m)) = cos mu /\ sin (2 * PI * at_row c (length m)) = sin mu).
Proof.
  intros factor eig m t pi t' p ok re im O H S Y Fo C E c k mu Hc Hk TU.
  pose proof (delta_nz _ _ _ _ _ _ _ O H) as D. split.
  - intros i j Hi Hj Ei.
    pose proof (C225_twiss _ _ _ _ _ _ _ _ _ _ _ O H S Y C E c i j k (length m) Hc (le_n _) Hi Hj Hk Ei) as L. cbv zeta in L.
    pose proof (C225_twiss _ _ _ _ _ _ _ _ _ _ _ O H S Y C E c i j k 0%nat Hc ltac:(lia) Hi Hj Hk Ei) as F. cbv zeta in F.
    rewrite !(at_start ok _ _ _ _ _ _ D) in F by lia. rewrite L, F. destruct (TU i Hi) as [-> ->], (TU j Hj) as [-> ->].
    pose proof (LatFunProps.cs1 mu) as CS.
    transitivity (2 * ((cos mu * cos mu + sin mu * sin mu) * (re k i * re k j + im k i * im k j))); [ring|]. rewrite CS. ring.
  - intros Ei NZ. pose proof (C226_phase _ _ _ _ _ _ _ _ _ _ _ O H S Y C E c k (length m) Hc (le_n _) Hk Ei) as T. cbv zeta in T.
    destruct (TU (2 * k)%nat ltac:(lia)) as [TU1 TU2]. rewrite TU1, TU2 in T. set (x := re k (2 * k)%nat) in *. set (y := im k (2 * k)%nat) in *. clearbody x y.
    pose proof (LatFunProps.cs1 mu) as CS.
    replace ((cos mu * x - sin mu * y) * (cos mu * x - sin mu * y) + (sin mu * x + cos mu * y) * (sin mu * x + cos mu * y)) with (x * x + y * y) in T
      by (transitivity ((cos mu * cos mu + sin mu * sin mu) * (x * x + y * y)); [rewrite CS; ring|ring]).
    rewrite sqrt_sqrt in T by lra. destruct T as (T1 & T2 & _). split.
    + apply (Rmult_eq_reg_l (x * x + y * y)); [|lra]. rewrite <- T1. ring.
    + apply (Rmult_eq_reg_l (x * x + y * y)); [|lra]. rewrite <- T2. ring.
Qed.
Print Assumptions C227_periodic.

(* ---- the invariant ---- *)
Lemma area_rotated ok re im k : (2 * k < dim ok)%nat ->
  area (fun i => rotated (dim ok) re im i (2 * k)%nat) (fun i => rotated (dim ok) re im i (2 * k + 1)%nat) = 2 * area (re k) (im k).
Proof.
  intros H. unfold area, tot. cbn [seq sum fold_right map Nat.mul Nat.add]. 
  assert (X : forall a, rotated (dim ok) re im a (2 * k)%nat = sqrt 2 * (re k a * cos (phi re im k) + im k a * sin (phi re im k))) by (intros a; apply rotated_cols; exact H).
  assert (Z : forall a, rotated (dim ok) re im a (2 * k + 1)%nat = sqrt 2 * (im k a * cos (phi re im k) - re k a * sin (phi re im k))) by (intros a; apply rotated_cols; exact H).
  change (k + (k + 0))%nat with (2 * k)%nat. rewrite !X, !Z. pose proof (LatFunProps.cs1 (phi re im k)) as CS. set (c := cos (phi re im k)) in *. set (s := sin (phi re im k)) in *. clearbody c s.
  assert (T : sqrt 2 * sqrt 2 = 2) by (apply sqrt_sqrt; lra). set (w := sqrt 2) in *. clearbody w.
  match goal with |- ?L = 2 * ?A => transitivity (w * w * (c * c + s * s) * A); [|rewrite T, CS; ring] end.
  cbn. ring.
Qed.
Lemma act_col A B a i : act 6 A (fun r => B r a) i = Mat.mmul 6 A B i a.
Proof. symmetry. apply mmul_product. Qed.
Lemma area_twiss (x y : nat -> R) : let T i j := x i * x j + y i * y j in
  tot 3 (fun p => tot 3 (fun q => T (2 * p)%nat (2 * q)%nat * T (2 * p + 1)%nat (2 * q + 1)%nat - T (2 * p)%nat (2 * q + 1)%nat * T (2 * p + 1)%nat (2 * q)%nat))
  = area x y * area x y.
Proof. unfold area, tot. cbn. ring. Qed.

Theorem C228_invariant : forall factor eig m t pi Mi t' p re im, torbit t = false -> calculate factor eig m t pi Mi = Ok t' -> starts factor m t (tscale t) true pi p ->
  (forall B, eig B = Some (true, re, im)) ->
  (tsymp t = true \/ coasting m /\ forall r, (r <= length m)%nat -> keeps_area (slopes (tscale t) m r (tdelta t) p)) ->
  forall k col, (k < 3)%nat -> (forall i j, (i < 6)%nat -> (j < 6)%nat -> In (col i j) (tcols t') /\ idx (col i j) = (Z.of_nat (S i), Z.of_nat (S j), Z.of_nat (S k))) ->
  forall r, (r <= length m)%nat ->
    let T i j := at_row (col i j) r in
    tot 3 (fun p => tot 3 (fun q => T (2 * p)%nat (2 * q)%nat * T (2 * p + 1)%nat (2 * q + 1)%nat - T (2 * p)%nat (2 * q + 1)%nat * T (2 * p + 1)%nat (2 * q)%nat))
    = (2 * area (re k) (im k)) * (2 * area (re k) (im k)).
Proof.
  intros factor eig m t pi Mi t' p re im O H S E W k col Hk HC r Hr T.
  destruct (calc_cols _ _ _ _ _ _ _ _ O H S) as (M & ok' & re' & im' & Ns & D & EM & TM & _ & V & G & K).
  rewrite E in EM. injection EM as EM1 EM2 EM3; subst ok' re' im'. change (dim true) with 6%nat in *.
  assert (TT : forall i j, (i < 6)%nat -> (j < 6)%nat -> T i j = Ns r i (2 * k)%nat * Ns r j (2 * k)%nat + Ns r i (2 * k + 1)%nat * Ns r j (2 * k + 1)%nat).
  { intros i j Hi Hj. destruct (HC i j Hi Hj) as [Hin Hidx]. destruct (V _ Hin) as [_ V']. specialize (V' r Hr). destruct (idx_inv _ _ _ _ Hidx) as (E1 & E2 & E3). rewrite E1, E2, E3 in V'.
    apply value_twiss in V'; try lia. unfold T. rewrite V'.
    replace (Z.to_nat (Z.of_nat (Datatypes.S i) - 1)) with i by lia. replace (Z.to_nat (Z.of_nat (Datatypes.S j) - 1)) with j by lia.
    replace (Z.to_nat (2 * Z.of_nat (Datatypes.S k) - 2)) with (2 * k)%nat by lia. replace (Z.to_nat (2 * Z.of_nat (Datatypes.S k) - 1)) with (2 * k + 1)%nat by lia. reflexivity. }
  assert (AR : area (fun i => Ns r i (2 * k)%nat) (fun i => Ns r i (2 * k + 1)%nat) = 2 * area (re k) (im k)).
  { rewrite <- (area_rotated true re im k) by (cbn [dim]; lia). change (dim true) with 6%nat.
    assert (KS : forall A B, keeps_area A -> area (fun i => Mat.mmul 6 A B i (2 * k)%nat) (fun i => Mat.mmul 6 A B i (2 * k + 1)%nat) = area (fun i => B i (2 * k)%nat) (fun i => B i (2 * k + 1)%nat)).
    { intros A B KA. rewrite <- (KA (fun i => B i (2 * k)%nat) (fun i => B i (2 * k + 1)%nat)). apply area_ext; intros; rewrite act_col; reflexivity. }
    destruct (Bool.bool_dec (tsymp t) true) as [Y|Y].
    - destruct (K Y) as [_ K']. clear - K' KS Hr. induction r as [|r IH].
      + destruct (K' 0%nat Hr) as (A & SA & EA). rewrite EA. apply KS. apply symplectic_keeps. exact SA.
      + destruct (K' (Datatypes.S r) Hr) as (A & SA & EA). rewrite EA. rewrite KS by (apply symplectic_keeps; exact SA). apply IH. lia.
    - destruct W as [W|[C W]]; [contradiction|]. apply Bool.not_true_is_false in Y. specialize (G Y r Hr).
      transitivity (area (fun i => Mat.mmul 6 (slopes (tscale t) m r (tdelta t) p) (rotated 6 re im) i (2 * k)%nat) (fun i => Mat.mmul 6 (slopes (tscale t) m r (tdelta t) p) (rotated 6 re im) i (2 * k + 1)%nat)).
      + apply area_ext; intros i Hi; rewrite G by lia; apply (mmul_meq_l 6); try lia; exact (coast_Q true _ _ _ _ _ C Hr).
      + apply KS. apply W. exact Hr. }
  rewrite <- AR, <- area_twiss. cbv zeta. apply tot_ext. intros a Ha. apply tot_ext. intros b Hb. rewrite !TT by lia. reflexivity.
Qed.
Print Assumptions C228_invariant.
