(* C240-C243: acceleration and counted phases *)
From Coq Require Import ZArith Lia Lra.
From Verif Require Import RBase Bunch BunchSpec Optics Orbit OrbitSpec OrbitProofs LatFun LatFunSpec LatFunProofs LatFunProps LatTwissProps LatTwissEx LatTableProps LatMoreProps.
Local Open Scope R_scope.

(* ---- C240: acceleration on the axis ---- *)
(* a displacement of the first n coordinates grows in proportion *)
Definition scales (n : nat) (s : R) (m : list lcomp) : Prop := forall c a v, In c m -> moved s None (lc c) (swell n a v) = swell n a (moved s None (lc c) v).
Lemma grow_swell n g v : (n <= 6)%nat -> grow_by n g v = swell n (sqrt g) v.
Proof.
  intros N. apply vec_eq. intros i Hi. unfold grow_by. destruct (Reqb_spec g 1) as [->|_].
  - rewrite sqrt_1. unfold swell. do 6 (destruct i as [|i]; [cbn [coord vx vxp vy vyp vct vdp]; match goal with |- context [Nat.ltb ?a ?b] => destruct (Nat.ltb a b) end; ring|]). lia.
  - rewrite coord_vof by exact Hi. unfold swell. do 6 (destruct i as [|i]; [cbn [coord vx vxp vy vyp vct vdp]; match goal with |- context [Nat.ltb ?a ?b] => destruct (Nat.ltb a b) end; ring|]). lia.
Qed.
Lemma swell_coord n a v i : (i < 6)%nat -> coord i (swell n a v) = if Nat.ltb i n then a * coord i v else coord i v.
Proof. intros Hi. unfold swell. do 6 (destruct i as [|i]; [reflexivity|]). lia. Qed.
Lemma swell_swell n a b v : swell n a (swell n b v) = swell n (a * b) v.
Proof. apply vec_eq. intros i Hi. rewrite !swell_coord by exact Hi. destruct (Nat.ltb i n); ring. Qed.
Lemma arrives_swell n s l : scales n s l -> forall a v r, arrives s l r (swell n a v) = swell n a (arrives s l r v).
Proof.
  induction l as [|c l IH]; intros S a v r; destruct r as [|r]; try reflexivity. rewrite !arrives_S.
  rewrite !moved_pass. rewrite (S c) by (left; reflexivity). apply IH. intros x b w Hx. apply S. right. exact Hx.
Qed.
Lemma gains_S c l r : gains (c :: l) (S r) = lgain c * gains l r.
Proof. reflexivity. Qed.
Lemma prun_swell n s l : (n <= 6)%nat -> scales n s l -> Forall (fun c => 0 <= lgain c) l -> forall g v r, 0 <= g -> (r <= length l)%nat -> prun n s l g v r = swell n (sqrt (g * gains l r)) (arrives s l r v).
Proof.
  intros N. induction l as [|c l IH]; intros S P g v r G Hr; destruct r as [|r]; cbn [length] in Hr; try lia.
  - cbn [prun]. rewrite grow_swell by exact N. change (gains [] 0) with 1. rewrite Rmult_1_r. reflexivity.
  - cbn [prun]. rewrite grow_swell by exact N. change (gains (c :: l) 0) with 1. rewrite Rmult_1_r. reflexivity.
  - cbn [prun]. inversion P; subst. rewrite IH; [|intros x b w Hx; apply S; right; exact Hx|assumption|assumption|lia].
    rewrite grow_swell by exact N. rewrite !moved_pass. rewrite (S c) by (left; reflexivity). rewrite (arrives_swell n) by (intros x b w Hx; apply S; right; exact Hx).
    rewrite swell_swell, gains_S, arrives_S. rewrite moved_pass. f_equal. rewrite (sqrt_mult_alt g) by exact G. ring.
Qed.
Lemma gains_pos l : Forall (fun c => 0 <= lgain c) l -> forall r, 0 <= gains l r.
Proof. induction 1 as [|x l Hx _ IH]; intros r; destruct r as [|r]; unfold gains; cbn [firstn fold_right]; try lra. apply Rmult_le_pos; [exact Hx|apply IH]. Qed.
Lemma axis_Q ok d s l : d <> 0 -> scales (dim ok) s l -> Forall (fun c => 0 <= lgain c) l -> forall r, (r <= length l)%nat ->
  same_mat (dim ok) (Qat (dim ok) d s l 1 vzero (fun k => bump k d vzero) r) (fun i j => sqrt (gains l r) * slopes s l r d vzero i j).
Proof.
  intros D S P r Hr i j Hi Hj. pose proof (dim_le ok) as N. unfold Qat, slopes. rewrite prun_swell by (assumption || lra). rewrite Rmult_1_l, grow_swell by exact N.
  rewrite !swell_coord by lia. destruct (Nat.ltb_spec i (dim ok)); [|lia]. rewrite bump_nudge by lia.
  assert (Z : coord i (arrives s l r vzero) = 0).
  { assert (E : vzero = swell (dim ok) 0 vzero) by (apply vec_eq; intros q Hq; rewrite swell_coord by exact Hq; destruct (Nat.ltb q _); [|reflexivity]; do 6 (destruct q as [|q]; [cbn; ring|]); lia).
    rewrite E, (arrives_swell _ _ _ S), swell_coord by lia. destruct (Nat.ltb_spec i (dim ok)); [ring|lia]. }
  rewrite Z. field. exact D.
Qed.
Lemma act_scaled n (A B : nat -> nat -> R) a u i : (i < n)%nat -> same_mat n A (fun i j => a * B i j) -> act n A u i = a * act n B u i.
Proof. intros Hi E. unfold act. rewrite <- tot_scale. apply tot_ext. intros j Hj. rewrite E by assumption. ring. Qed.
Theorem C240_twiss : forall factor eig m t Mi t' ok re im, torbit t = false -> calculate factor eig m t (Some vzero) Mi = Ok t' ->
  tsymp t = false -> scales (dim ok) (tscale t) m -> Forall (fun c => 0 <= lgain c) m -> says eig (turn_of t m (tscale t) Mi vzero) ok re im ->
  forall c i j k r, In c (tcols t') -> (r <= length m)%nat -> (i < dim ok)%nat -> (j < dim ok)%nat -> (2 * k + 1 < dim ok)%nat ->
    idx c = (Z.of_nat (S i), Z.of_nat (S j), Z.of_nat (S k)) ->
    let A := act (dim ok) (slopes (tscale t) m r (tdelta t) vzero) in
    at_row c r = gains m r * (2 * (A (re k) i * A (re k) j + A (im k) i * A (im k) j)).
Proof.
  intros factor eig m t Mi t' ok re im O H Y C P E c i j k r Hc Hr Hi Hj Hk Ei A.
  destruct (calc_cols factor eig m t _ _ _ vzero O H eq_refl) as (M & ok' & re' & im' & Ns & D & EM & TM & _ & V & G & _).
  destruct (says_ok _ _ _ _ _ _ _ _ _ E (TM Y) EM) as (-> & -> & ->).
  destruct (V c Hc) as [_ V']. specialize (V' r Hr). specialize (G Y r Hr).
  destruct (idx_inv _ _ _ _ Ei) as (E1 & E2 & E3). rewrite E1, E2, E3 in V'. apply value_twiss in V'; try lia. rewrite V'.
  replace (Z.to_nat (Z.of_nat (S i) - 1)) with i by lia. replace (Z.to_nat (Z.of_nat (S j) - 1)) with j by lia.
  replace (Z.to_nat (2 * Z.of_nat (S k) - 2)) with (2 * k)%nat by lia. replace (Z.to_nat (2 * Z.of_nat (S k) - 1)) with (2 * k + 1)%nat by lia.
  rewrite !G by lia.
  destruct (carried_cols ok (Qat (dim ok) (tdelta t) (tscale t) m 1 vzero (fun k => bump k (tdelta t) vzero) r) re im k i ltac:(lia)) as [-> ->].
  destruct (carried_cols ok (Qat (dim ok) (tdelta t) (tscale t) m 1 vzero (fun k => bump k (tdelta t) vzero) r) re im k j ltac:(lia)) as [-> ->].
  pose proof (axis_Q ok (tdelta t) (tscale t) m D C P r Hr) as Q.
  rewrite !(act_scaled _ _ _ _ _ _ Hi Q), !(act_scaled _ _ _ _ _ _ Hj Q). fold A. generalize (A (re k) i), (A (re k) j), (A (im k) i), (A (im k) j). intros w x y z.
  pose proof (sqrt_sqrt _ (gains_pos m P r)) as G2. pose proof (sqrt_sqrt 2 ltac:(lra)) as S2. pose proof (cs1 (phi re im k)) as CS. clear Q.
  revert G2. generalize (sqrt (gains m r)). intros g G2. rewrite <- G2. clear G2. generalize dependent (sqrt 2). intros q S2. rewrite <- S2.
  generalize dependent (cos (phi re im k)). intros cc. generalize (sin (phi re im k)). intros ss CS.
  replace (q * (g * w * cc + g * y * ss) * (q * (g * x * cc + g * z * ss)) + q * (g * y * cc - g * w * ss) * (q * (g * z * cc - g * x * ss))) with (g * g * (q * q * ((w * x + y * z) * (cc * cc + ss * ss)))) by ring.
  rewrite CS. ring.
Qed.
Print Assumptions C240_twiss.

(* ---- C241: the same two components that do nothing but raise the momentum, and an orbit beside the axis ---- *)
Definition risers : list lcomp := [mkL (mkC 1 false (fun _ v => v)) 4; mkL (mkC 1 false (fun _ v => v)) 4].
Definition beside : vec6 := V6 1 0 0 0 0 0.
Lemma sqrt4 : sqrt 4 = 2.
Proof. replace 4 with (2 * 2) by ring. apply sqrt_square. lra. Qed.
Lemma riser_arrives r v : arrives 0 risers r v = v.
Proof. destruct r as [|[|[|r]]]; unfold arrives, risers; cbn [firstn map journey fold_left]; unfold moved; cbn; try reflexivity; destruct r; reflexivity. Qed.
Lemma riser_scales : scales 6 0 risers.
Proof. intros c a v [<-|[<-|[]]]; reflexivity. Qed.
Lemma riser_gains : Forall (fun c => 0 <= lgain c) risers.
Proof. repeat constructor; cbn; lra. Qed.
Definition riserQ (d : R) (r i j : nat) : R :=
  match r with
  | O => delta_ i j
  | S O => 2 * delta_ i j
  | _ => 4 * delta_ i j + (if Nat.eqb i 0 then 2 / d else 0)
  end.
Lemma riser_Q d r : d <> 0 -> (r <= 2)%nat -> same_mat 6 (Qat 6 d 0 risers 1 beside (fun k => bump k d beside) r) (riserQ d r).
Proof.
  intros D Hr i j Hi Hj. unfold Qat. rewrite prun_swell; [|lia|exact riser_scales|exact riser_gains|lra|cbn; lia]. rewrite !riser_arrives, grow_swell, !swell_coord by lia.
  destruct (Nat.ltb_spec i 6); [|lia]. rewrite bump_nudge by exact Hj.
  destruct r as [|[|[|r]]]; [| | |lia]; unfold gains, gat, risers; cbn [firstn fold_right lgain]; rewrite ?Rmult_1_l, ?Rmult_1_r, ?sqrt_1, ?sqrt_square by lra; rewrite ?sqrt4;
    (do 6 (destruct i as [|i]; [do 6 (destruct j as [|j]; [cbv [riserQ delta_ Nat.eqb]; cbn [coord nudge beside vx vxp vy vyp vct vdp]; field; exact D|]); lia|])); lia.
Qed.
Lemma riser_inv d r : 0 < d -> (r <= 2)%nat -> Mat.invertible 6 (Qat 6 d 0 risers 1 beside (fun k => bump k d beside) r).
Proof.
  intros D Hr. apply has_inverse_iff. eapply has_inverse_ext; [apply riser_Q; [lra|exact Hr]|].
  exists (match r with O => delta_ | S O => fun i j => / 2 * delta_ i j | _ => fun i j => / 4 * delta_ i j - (if Nat.eqb i 0 then 2 / d / (4 + 2 / d) / 4 else 0) end).
  assert (0 < 2 / d) by (apply Rdiv_lt_0_compat; lra).
  destruct r as [|[|r]]; split; intros i j Hi Hj;
    (do 6 (destruct i as [|i]; [do 6 (destruct j as [|j]; [cbv [product tot seq sum map fold_right riserQ delta_ Nat.eqb]; field; try (split; lra); try lra|]); lia|])); lia.
Qed.

Theorem C241_refuted : exists t1 t2,
  calculate (fun _ _ => None) qeig risers qtable (Some vzero) None = Ok t1 /\ calculate (fun _ _ => None) qeig risers qtable (Some beside) None = Ok t2 /\
  (forall v, arrives 0 risers 2 v = v) /\
  (forall c, In c (tcols t1) -> idx c = (1, 1, 1)%Z -> at_row c 2 = 16) /\
  (forall c, In c (tcols t2) -> idx c = (1, 1, 1)%Z -> at_row c 2 > 10 ^ 16).
Proof.
  pose proof qdelta as D. assert (D0 : 0 < tdelta qtable) by (change (0 < / 100000000); lra).
  assert (K : forall p, (forall r, (r <= 2)%nat -> Mat.invertible 6 (Qat 6 (tdelta qtable) 0 risers 1 p (fun k => bump k (tdelta qtable) p) r)) -> exists t', calculate (fun _ _ => None) qeig risers qtable (Some p) None = Ok t').
  { intros p I. unfold calculate. change (torbit qtable) with false. cbv iota. unfold do_calculate. cbn [bind]. change (tscale qtable) with 0.
    destruct (turn_ok qtable risers 0 p ltac:(discriminate) D) as [M ->]. cbn [bind]. change (tforce qtable) with false. unfold forced. change (tforce qtable) with false. cbv iota. cbn [bind]. change (tsymp qtable) with false. cbv iota. cbn [bind].
    unfold qeig at 1. destruct (Reqb_spec (tdelta qtable) 0); [contradiction|]. unfold risers at 1.
    destruct (walk_ok 6 (tdelta qtable) 0 true risers eq_refl p (fun k => bump k (tdelta qtable) p) Mat.mid (Mat.mmul 6 (norm_matrix qre qim) (phase_matrix (norm_matrix qre qim))) 0 1 (map clear_values (tcols qtable))) as [cs W].
    - rewrite Forall_map. exact qlegal.
    - exact I.
    - rewrite W. cbn. eauto. }
  destruct (K vzero) as [t1 H1].
  { intros r Hr. apply has_inverse_iff. eapply has_inverse_ext; [exact (axis_Q true (tdelta qtable) 0 risers D riser_scales riser_gains r Hr)|].
    assert (S : forall i j, (i < 6)%nat -> (j < 6)%nat -> slopes 0 risers r (tdelta qtable) vzero i j = delta_ i j).
    { intros i j Hi Hj. unfold slopes. rewrite !riser_arrives. do 6 (destruct i as [|i]; [do 6 (destruct j as [|j]; [cbv [delta_ Nat.eqb]; cbn [coord nudge vzero vx vxp vy vyp vct vdp]; field; exact D|]); lia|]). lia. }
    assert (G : 0 < sqrt (gains risers r)) by (apply sqrt_lt_R0; destruct r as [|[|[|r]]]; [| | |lia]; unfold gains; cbn; lra).
    apply (has_inverse_ext 6 _ (fun i j => sqrt (gains risers r) * delta_ i j)); [intros i j Hi Hj; rewrite S by assumption; reflexivity|]. generalize dependent (sqrt (gains risers r)). intros g G.
    exists (fun i j => / g * delta_ i j). split; intros i j Hi Hj; (do 6 (destruct i as [|i]; [do 6 (destruct j as [|j]; [cbv [product tot seq sum map fold_right delta_ Nat.eqb]; field; lra|]); lia|])); lia. }
  destruct (K beside) as [t2 H2]; [intros r Hr; apply riser_inv; assumption|].
  exists t1, t2. split; [exact H1|]. split; [exact H2|]. split; [intros v; apply riser_arrives|].
  assert (W : sqrt 2 * sqrt 2 = 2) by (apply sqrt_sqrt; lra). assert (W0 : 0 < sqrt 2) by (apply sqrt_lt_R0; lra).
  assert (Q : 1 / sqrt 2 * (1 / sqrt 2) = 1 / 2) by (transitivity (1 / (sqrt 2 * sqrt 2)); [field; lra|rewrite W; lra]).
  split.
  - intros c Hc E. rewrite (C240_twiss _ qeig risers qtable _ _ true qre qim eq_refl H1 eq_refl riser_scales riser_gains ltac:(intros B _; reflexivity) c 0 0 0 2 Hc ltac:(cbn; lia) ltac:(cbn; lia) ltac:(cbn; lia) ltac:(cbn; lia) E).
    cbv zeta. cbn [dim]. assert (S : forall u, act 6 (slopes (tscale qtable) risers 2 (tdelta qtable) vzero) u 0 = u 0%nat).
    { intros u. apply act_id; [lia|]. intros j Hj. unfold slopes. change (tscale qtable) with 0. rewrite !riser_arrives. do 6 (destruct j as [|j]; [cbv [delta_ Nat.eqb]; cbn [coord nudge vzero vx vxp vy vyp vct vdp]; field; exact D|]). lia. }
    rewrite !S. unfold qre, qim. cbn [Nat.eqb Nat.mul Nat.add]. rewrite Q. unfold gains. cbn. lra.
  - intros c Hc E. destruct (calc_cols _ qeig risers qtable _ _ _ beside eq_refl H2 eq_refl) as (M & ok' & re' & im' & Ns & _ & EM & TM & _ & V & G & _).
    unfold qeig in EM. injection EM as <- <- <-. destruct (V c Hc) as [_ V']. specialize (V' 2%nat ltac:(cbn; lia)). specialize (G eq_refl 2%nat ltac:(cbn; lia)).
    destruct (idx_inv _ _ _ _ E) as (E1 & E2 & E3). rewrite E1, E2, E3 in V'. apply value_twiss in V'; try (cbn; lia). rewrite V'. cbn [dim] in *.
    change (Z.to_nat (1 - 1)) with 0%nat. change (Z.to_nat (2 * 1 - 2)) with 0%nat. change (Z.to_nat (2 * 1 - 1)) with 1%nat. rewrite !G by lia.
    destruct (carried_cols true (Qat 6 (tdelta qtable) (tscale qtable) risers 1 beside (fun k => bump k (tdelta qtable) beside) 2) qre qim 0 0 ltac:(cbn; lia)) as [C1 C2]. cbn [dim Nat.mul Nat.add] in C1, C2. rewrite C1, C2.
    assert (A1 : forall u, act 6 (Qat 6 (tdelta qtable) (tscale qtable) risers 1 beside (fun k => bump k (tdelta qtable) beside) 2) u 0 = act 6 (riserQ (tdelta qtable) 2) u 0) by (intros u; apply act_mat_ext; [lia|exact (riser_Q _ 2 D (le_n 2))]).
    rewrite !A1. clear C1 C2. pose proof (cs1 (phi qre qim 0)) as CS. generalize dependent (cos (phi qre qim 0)). intros cc. generalize (sin (phi qre qim 0)). intros ss CS.
    assert (B1 : act 6 (riserQ (tdelta qtable) 2) (qre 0) 0 = (4 + 200000000) * (1 / sqrt 2)) by (change (tdelta qtable) with (/ 100000000); cbv [act tot seq sum map fold_right riserQ delta_ qre Nat.eqb Nat.mul Nat.add]; field; lra).
    assert (B2 : act 6 (riserQ (tdelta qtable) 2) (qim 0) 0 = 200000000 * (1 / sqrt 2)) by (change (tdelta qtable) with (/ 100000000); cbv [act tot seq sum map fold_right riserQ delta_ qim Nat.eqb Nat.mul Nat.add]; field; lra).
    rewrite B1, B2. set (h := 1 / sqrt 2) in *.
    replace (sqrt 2 * ((4 + 200000000) * h * cc + 200000000 * h * ss) * (sqrt 2 * ((4 + 200000000) * h * cc + 200000000 * h * ss)) + sqrt 2 * (200000000 * h * cc - (4 + 200000000) * h * ss) * (sqrt 2 * (200000000 * h * cc - (4 + 200000000) * h * ss)))
      with ((sqrt 2 * sqrt 2) * (h * h) * ((4 + 200000000) * (4 + 200000000) + 200000000 * 200000000) * (cc * cc + ss * ss)) by ring.
    rewrite W, Q, CS. replace (10 ^ 16) with 10000000000000000 by ring. lra.
Qed.
Print Assumptions C241_refuted.

(* ---- C242, C243: counted phases ---- *)
(* the table shows the fraction v i of the phase of plane k in rows 0..n *)
Definition shows (t : table) (k : Z) (v : nat -> R) (n : nat) : Prop := forall i, (i <= n)%nat -> table_value 0 0 k (Z.of_nat i) t = Ok (v i).
(* w i whole turns and the fraction v i make up the phase, which starts at 0, never falls, and
   grows by less than a turn from row to row *)
Definition unwinds (ph v : nat -> R) (w : nat -> Z) (n : nat) : Prop :=
  w 0%nat = 0%Z /\ v 0%nat = 0 /\ (forall i, (i <= n)%nat -> ph i = IZR (w i) + v i) /\ (forall i, (1 <= i <= n)%nat -> 0 < v i < 1) /\
  (forall i, (i < n)%nat -> 0 <= ph (S i) - ph i <= 1 - 1 / 10000).
Lemma turn_more ph v w n i : unwinds ph v w n -> (i < n)%nat -> w (S i) = w i \/ w (S i) = (w i + 1)%Z.
Proof.
  intros (W0 & V0 & P & V & I) Hi. pose proof (I i Hi) as Ii. rewrite (P (S i)), (P i) in Ii by lia. pose proof (V (S i) ltac:(lia)) as V1.
  assert (V2 : 0 <= v i < 1) by (destruct i; [rewrite V0; lra|]; pose proof (V (S i) ltac:(lia)); lra).
  assert (A : IZR (w i) - 1 < IZR (w (S i)) < IZR (w i) + 2) by lra. rewrite <- minus_IZR, <- plus_IZR in A. destruct A as [A B]. apply lt_IZR in A, B. lia.
Qed.
Lemma count_ok t k ph v w n : shows t k v n -> unwinds ph v w n -> forall fuel i, (i + fuel <= n)%nat ->
  count_turns k t fuel (Z.of_nat (S i)) (v i) (w i) = Ok (w (i + fuel)%nat).
Proof.
  intros Sh U. induction fuel as [|fuel IH]; intros i Hi; cbn [count_turns]; [rewrite Nat.add_0_r; reflexivity|].
  rewrite Sh by lia. cbn [bind]. replace (Z.of_nat (S i) + 1)%Z with (Z.of_nat (S (S i))) by lia. replace (i + S fuel)%nat with (S i + fuel)%nat by lia. rewrite <- (IH (S i)) by lia. f_equal.
  pose proof (turn_more _ _ _ _ i U ltac:(lia)) as T. destruct U as (W0 & V0 & P & V & I). pose proof (I i ltac:(lia)) as Ii. rewrite (P (S i)), (P i) in Ii by lia. pose proof (V (S i) ltac:(lia)) as V1.
  assert (V2 : 0 <= v i < 1) by (destruct i; [rewrite V0; lra|]; pose proof (V (S i) ltac:(lia)); lra).
  destruct T as [T|T]; rewrite T in Ii |- *.
  - destruct (Reqb_spec (v (S i)) (v i)); cbn [orb]; [reflexivity|]. destruct (Rleb_spec (v (S i)) 0); [reflexivity|]. destruct (Rltb_spec (v (S i)) (v i)); [lra|reflexivity].
  - rewrite plus_IZR in Ii. destruct (Reqb_spec (v (S i)) (v i)); cbn [orb]; [lra|]. destruct (Rleb_spec (v (S i)) 0); [lra|]. destruct (Rltb_spec (v (S i)) (v i)); [|lra]. cbn [andb].
    destruct (Rltb_spec (v (S i) / v i) almost) as [|Q]; [reflexivity|]. exfalso. apply Q. unfold almost. apply (Rmult_lt_reg_r (v i)); [lra|]. unfold Rdiv. rewrite Rmult_assoc, Rinv_l by lra. lra.
Qed.
Lemma phase_is t k ph v w n m : shows t k v n -> unwinds ph v w n -> (m <= n)%nat -> phase_at k (Z.of_nat m) t = Ok (IZR (w (m - 1)%nat) + v m).
Proof.
  intros Sh U Hm. unfold phase_at. replace (Z.to_nat (Z.of_nat m - 1)) with (m - 1)%nat by lia.
  pose proof (count_ok t k ph v w n Sh U (m - 1) 0 ltac:(lia)) as C. destruct U as (W0 & V0 & _). rewrite W0, V0 in C. cbn [Nat.add] in C. change (Z.of_nat 1) with 1%Z in C. rewrite C. cbn [bind]. rewrite Sh by exact Hm. reflexivity.
Qed.
(* no turn is completed between row m and the row before *)
Definition quiet (w : nat -> Z) (m : nat) : Prop := w m = w (m - 1)%nat.
Theorem C242_phase : forall (t : table) (n : nat) phx vx wx phy vy wy (m1 m2 : nat) (h : bool), shows t 1 vx n -> shows t 2 vy n -> unwinds phx vx wx n -> unwinds phy vy wy n ->
  (m1 <= n)%nat -> (m2 <= n)%nat -> quiet (if h then wx else wy) m1 -> quiet (if h then wx else wy) m2 ->
  phase_between (Z.of_nat m1) (Z.of_nat m2) h t = Ok (if h then phx m2 - phx m1 else phy m2 - phy m1).
Proof.
  intros t n phx vx wx phy vy wy m1 m2 h Sx Sy Ux Uy H1 H2 Q1 Q2. unfold phase_between, calc_integer_part.
  rewrite !(phase_is _ _ _ _ _ _ m1 Sx Ux H1), !(phase_is _ _ _ _ _ _ m1 Sy Uy H1), !(phase_is _ _ _ _ _ _ m2 Sx Ux H2), !(phase_is _ _ _ _ _ _ m2 Sy Uy H2). cbn [bind fst snd].
  destruct Ux as (_ & _ & Px & _), Uy as (_ & _ & Py & _). unfold quiet in *. destruct h; rewrite <- Q1, <- Q2.
  - rewrite !Px by assumption. reflexivity.
  - rewrite !Py by assumption. reflexivity.
Qed.
Print Assumptions C242_phase.
Theorem C242_additive : forall t n1 n2 n3 h a b, phase_between n1 n2 h t = Ok a -> phase_between n2 n3 h t = Ok b -> phase_between n1 n3 h t = Ok (a + b).
Proof.
  intros t n1 n2 n3 h a b. unfold phase_between. destruct (calc_integer_part n1 t) as [x| |]; cbn [bind]; try discriminate. destruct (calc_integer_part n2 t) as [y| |]; cbn [bind]; try discriminate.
  destruct (calc_integer_part n3 t) as [z| |]; cbn [bind]; try discriminate. intros A B. injection A as <-. injection B as <-. f_equal. destruct h; ring.
Qed.
Print Assumptions C242_additive.
(* the turn completed just before the last row is lost *)
Theorem C243_refuted : forall t n phx vx wx phy vy wy m1 m2, shows t 1 vx n -> shows t 2 vy n -> unwinds phx vx wx n -> unwinds phy vy wy n ->
  (m1 <= n)%nat -> (m2 <= n)%nat -> quiet wx m1 -> ~ quiet wx m2 -> phase_between (Z.of_nat m1) (Z.of_nat m2) true t = Ok (phx m2 - phx m1 - 1).
Proof.
  intros t n phx vx wx phy vy wy m1 m2 Sx Sy Ux Uy H1 H2 Q1 Q2. unfold phase_between, calc_integer_part.
  rewrite !(phase_is _ _ _ _ _ _ m1 Sx Ux H1), !(phase_is _ _ _ _ _ _ m1 Sy Uy H1), !(phase_is _ _ _ _ _ _ m2 Sx Ux H2), !(phase_is _ _ _ _ _ _ m2 Sy Uy H2). cbn [bind fst snd].
  unfold quiet in *. destruct m2 as [|m2]; [contradiction|]. cbn [Nat.sub] in *. rewrite Nat.sub_0_r in *. destruct (turn_more _ _ _ _ m2 Ux ltac:(lia)) as [T|T]; [contradiction|].
  destruct Ux as (_ & _ & Px & _). rewrite <- Q1, !Px, T, plus_IZR by assumption. f_equal. ring.
Qed.
Print Assumptions C243_refuted.
(* phase 0, 0.7, 1.3, 1.6 in both planes *)
Definition rising : table := mkTab [mkCol 0 0 0 [0; 1; 2; 3]; mkCol 0 0 1 [0; 7 / 10; 3 / 10; 6 / 10]; mkCol 0 0 2 [0; 7 / 10; 3 / 10; 6 / 10]] false 1 0 false false.
Example C243_instance : phase_between 0 3 true rising = Ok (16 / 10) /\ phase_between 0 2 true rising = Ok (3 / 10).
Proof.
  set (v := fun i => nth i [0; 7 / 10; 3 / 10; 6 / 10] 0). set (w := fun i => nth i [0; 0; 1; 1]%Z 0%Z). set (ph := fun i => IZR (w i) + v i).
  assert (S1 : shows rising 1 v 3) by (intros i Hi; do 4 (destruct i as [|i]; [reflexivity|]); lia).
  assert (S2 : shows rising 2 v 3) by (intros i Hi; do 4 (destruct i as [|i]; [reflexivity|]); lia).
  assert (U : unwinds ph v w 3).
  { split; [reflexivity|]. split; [reflexivity|]. split; [reflexivity|]. split.
    - intros i Hi. do 4 (destruct i as [|i]; [cbn; try lia; lra|]). lia.
    - intros i Hi. do 3 (destruct i as [|i]; [unfold ph; cbn; lra|]). lia. }
  split.
  - etransitivity; [exact (C242_phase rising 3 ph v w ph v w 0 3 true S1 S2 U U ltac:(lia) ltac:(lia) eq_refl eq_refl)|]. f_equal. unfold ph. cbn. lra.
  - etransitivity; [exact (C243_refuted rising 3 ph v w ph v w 0 2 S1 S2 U U ltac:(lia) ltac:(lia) eq_refl ltac:(unfold quiet; cbn; discriminate))|]. f_equal. unfold ph. cbn. lra.
Qed.
