(* Examples for C224-C228 *)
From Coq Require Import ZArith Lia Lra.
From Verif Require Import RBase Bunch BunchSpec Optics Orbit OrbitSpec OrbitProofs LatFun LatFunSpec LatFunProofs LatFunProps LatTwissProps.
Local Open Scope R_scope.

(* ---- examples: a ring that turns every plane by a quarter, then a straight ---- *)
Definition quarter (v : vec6) : vec6 := V6 (vxp v) (- vx v) (vyp v) (- vy v) (vdp v) (- vct v).
Definition qring : list lcomp := [mkL (mkC 1 false (fun _ => quarter)) 1; mkL (mkC 2 false (fun _ v => v)) 1].
Definition qre (k i : nat) : R := if Nat.eqb i (2 * k) then 1 / sqrt 2 else 0.
Definition qim (k i : nat) : R := if Nat.eqb i (2 * k + 1) then 1 / sqrt 2 else 0.
Definition qeig : eigsys := fun _ => Some (true, qre, qim).
Definition qtable : table := add_function 0 0 1 new_table.
Definition qmat (i j : nat) : R := if Nat.eqb j (i + 1) && Nat.even i then 1 else if Nat.eqb i (j + 1) && Nat.even j then -1 else 0.
Lemma qslopes r d : d <> 0 -> (r <= 2)%nat -> same_mat 6 (slopes 0 qring r d vzero) (match r with O => delta_ | _ => qmat end).
Proof.
  intros D Hr i j Hi Hj. destruct r as [|r]; [apply slopes_0; assumption|].
  assert (E : forall v, arrives 0 qring (S r) v = quarter v).
  { intros v. destruct r as [|[|r]]; [| |lia]; unfold arrives; cbn [firstn map qring journey fold_left]; unfold moved; cbn; reflexivity. }
  unfold slopes. rewrite !E.
  do 6 (destruct i as [|i]; [do 6 (destruct j as [|j]; [cbn; field; exact D|]); lia|]). lia.
Qed.
Lemma product_ext n A A' B B' : same_mat n A A' -> same_mat n B B' -> same_mat n (product n A B) (product n A' B').
Proof. intros E F i j Hi Hj. unfold product. apply tot_ext. intros k Hk. rewrite E, F by assumption. reflexivity. Qed.
Lemma has_inverse_ext n A B : same_mat n A B -> has_inverse n B -> has_inverse n A.
Proof.
  intros E (I & P & Q). exists I. split; intros i j Hi Hj.
  - rewrite (product_ext n A B I I) by (try assumption; intros ? ? _ _; reflexivity). apply P; assumption.
  - rewrite (product_ext n I I A B) by (try assumption; intros ? ? _ _; reflexivity). apply Q; assumption.
Qed.
Lemma qinv r d : d <> 0 -> (r <= 2)%nat -> has_inverse 6 (slopes 0 qring r d vzero).
Proof.
  intros D Hr. eapply has_inverse_ext; [apply qslopes; assumption|]. destruct r as [|r].
  - exists delta_. split; intros i j Hi Hj; unfold product; apply (tot_delta 6 i (fun k => delta_ k j) Hi).
  - exists (fun i j => qmat j i). split; intros i j Hi Hj;
      do 6 (destruct i as [|i]; [do 6 (destruct j as [|j]; [cbv [product tot seq sum map fold_right qmat delta_ Nat.eqb Nat.even Nat.add andb]; ring|]); lia|]); lia.
Qed.
Lemma qdelta : tdelta qtable <> 0.
Proof. change (/ 100000000 <> 0). apply Rinv_neq_0_compat. lra. Qed.
Lemma qcoast : coasting qring.
Proof. repeat constructor. Qed.
Ltac legals := match goal with |- Forall _ ?l => let v := eval vm_compute in l in change l with v end; repeat (apply Forall_cons; [cbn; lia|]); apply Forall_nil.
Lemma qlegal : Forall (fun c => legal 6 (idx c)) (tcols qtable).
Proof. legals. Qed.
Example C224_instance : exists t', calculate (fun _ _ => None) qeig qring qtable (Some vzero) None = Ok t' /\
  (forall c, In c (tcols t') -> length (cval c) = 3%nat) /\ length (tcols t') = 17%nat.
Proof.
  destruct (C224_total (fun _ _ => None) qeig qring qtable vzero None true qre qim eq_refl ltac:(discriminate) qdelta eq_refl qcoast) as [t' H].
  - discriminate.
  - intros B _. reflexivity.
  - intros r Hr. apply qinv; [exact qdelta|exact Hr].
  - exact qlegal.
  - exists t'. split; [exact H|]. destruct (C224_rows _ _ qring qtable _ _ _ vzero eq_refl H eq_refl) as [I V]. split; [intros c Hc; apply (V c Hc)|].
    rewrite <- (map_length idx (tcols t')), I. reflexivity.
Qed.
Lemma qturns k : (k < 3)%nat -> turns 6 qmat (qre k) (qim k) (PI / 2).
Proof.
  intros Hk i Hi. rewrite cos_PI2, sin_PI2.
  destruct k as [|[|[|k]]]; [| | |lia];
    (do 6 (destruct i as [|i]; [cbv [act tot seq sum map fold_right qmat qre qim Nat.eqb Nat.even Nat.add Nat.mul andb]; split; ring|])); lia.
Qed.
Example C227_instance : forall t', calculate (fun _ _ => None) qeig qring qtable (Some vzero) None = Ok t' ->
  forall c, In c (tcols t') ->
    (idx c = (1, 1, 1)%Z -> at_row c 0 = 1 /\ at_row c 2 = 1) /\ (idx c = (0, 0, 1)%Z -> at_row c 0 = 0 /\ cos (2 * PI * at_row c 2) = 0 /\ sin (2 * PI * at_row c 2) = 1).
Proof.
  intros t' H c Hc.
  assert (SY : says qeig (turn_of qtable qring (tscale qtable) None vzero) true qre qim) by (intros B _; reflexivity).
  assert (TU : turns (dim true) (slopes (tscale qtable) qring (length qring) (tdelta qtable) vzero) (qre 0) (qim 0) (PI / 2)).
  { intros i Hi. cbn [dim] in *. assert (X : forall w, act 6 (slopes (tscale qtable) qring (length qring) (tdelta qtable) vzero) w i = act 6 qmat w i) by (intros w; apply act_mat_ext; [exact Hi|exact (qslopes 2 _ qdelta (le_n 2))]).
    rewrite !X. apply (qturns 0); [lia|exact Hi]. }
  assert (W : sqrt 2 * sqrt 2 = 2) by (apply sqrt_sqrt; lra). assert (W0 : 0 < sqrt 2) by (apply sqrt_lt_R0; lra).
  assert (Q : 1 / sqrt 2 * (1 / sqrt 2) = 1 / 2) by (transitivity (1 / (sqrt 2 * sqrt 2)); [field; lra|rewrite W; lra]).
  destruct (C227_periodic _ _ qring qtable _ _ vzero _ _ _ eq_refl H eq_refl eq_refl eq_refl qcoast SY c 0 (PI / 2) Hc ltac:(cbn; lia) TU) as [B P]. split.
  - intros E. assert (F : at_row c 0 = 1).
    { rewrite (C225_twiss _ _ qring qtable _ _ _ vzero _ _ _ eq_refl H eq_refl eq_refl qcoast SY c 0 0 0 0 Hc ltac:(cbn; lia) ltac:(cbn; lia) ltac:(cbn; lia) ltac:(cbn; lia) E).
      cbv zeta. rewrite !(at_start true _ _ _ _ _ _ qdelta) by (cbn; lia). unfold qre, qim. cbn [Nat.eqb Nat.mul Nat.add]. rewrite Q. field. }
    split; [exact F|]. rewrite <- F. apply (B 0%nat 0%nat); [cbn; lia|cbn; lia|exact E].
  - intros E. assert (NZ : 0 < qre 0 (2 * 0)%nat * qre 0 (2 * 0)%nat + qim 0 (2 * 0)%nat * qim 0 (2 * 0)%nat) by (unfold qre, qim; cbn [Nat.eqb Nat.mul Nat.add]; lra).
    split; [exact (C226_start _ _ qring qtable _ _ _ vzero _ _ _ eq_refl H eq_refl eq_refl qcoast SY c 0 Hc ltac:(cbn; lia) E NZ)|].
    rewrite <- cos_PI2, <- sin_PI2. exact (P E NZ).
Qed.
(* a table with all columns of the first plane *)
Definition qall : table := add_all (flat_map (fun i => map (fun j => (i, j, 1%Z)) [1; 2; 3; 4; 5; 6]%Z) [1; 2; 3; 4; 5; 6]%Z) (remove_all new_table).
Example C228_instance : exists t', calculate (fun _ _ => None) qeig qring qall (Some vzero) None = Ok t' /\
  (forall r, (r <= length qring)%nat -> keeps_area (slopes (tscale qall) qring r (tdelta qall) vzero)) /\
  exists col, forall i j, (i < 6)%nat -> (j < 6)%nat -> In (col i j) (tcols t') /\ idx (col i j) = (Z.of_nat (S i), Z.of_nat (S j), 1%Z).
Proof.
  destruct (C224_total (fun _ _ => None) qeig qring qall vzero None true qre qim eq_refl ltac:(discriminate) qdelta eq_refl qcoast) as [t' H].
  - discriminate.
  - intros B _. reflexivity.
  - intros r Hr. apply qinv; [exact qdelta|exact Hr].
  - legals.
  - exists t'. split; [exact H|]. split.
    + intros r Hr u v. transitivity (area (act 6 (match r with O => delta_ | _ => qmat end) u) (act 6 (match r with O => delta_ | _ => qmat end) v)).
      * apply area_ext; intros i Hi; apply act_mat_ext; try exact Hi; exact (qslopes r _ qdelta Hr).
      * destruct r; unfold area, act, tot, qmat, delta_; cbn; ring.
    + destruct (C224_rows _ _ qring qall _ _ _ vzero eq_refl H eq_refl) as [I _].
      assert (X : forall i j, (i < 6)%nat -> (j < 6)%nat -> exists c, In c (tcols t') /\ idx c = (Z.of_nat (S i), Z.of_nat (S j), 1%Z)).
      { intros i j Hi Hj. assert (IN : In (Z.of_nat (S i), Z.of_nat (S j), 1%Z) (map idx (tcols t'))).
        { rewrite I. do 6 (destruct i as [|i]; [do 6 (destruct j as [|j]; [cbn; repeat (left; reflexivity) || tauto|]); lia|]). lia. }
        apply in_map_iff in IN. destruct IN as (c & A & B). exists c. auto. }
      exists (fun i j => match find (fun c => Z.eqb (ci c) (Z.of_nat (S i)) && Z.eqb (cj c) (Z.of_nat (S j)) && Z.eqb (ck c) 1) (tcols t') with Some c => c | None => mkCol 0 0 0 [] end).
      intros i j Hi Hj. destruct (find _ (tcols t')) as [c|] eqn:F.
      * apply find_some in F. destruct F as [F1 F2]. split; [exact F1|]. apply andb_prop in F2. destruct F2 as [F2 F3]. apply andb_prop in F2. destruct F2 as [F2 F4].
        apply Z.eqb_eq in F2, F3, F4. unfold idx. rewrite F2, F3, F4. reflexivity.
      * exfalso. destruct (X i j Hi Hj) as (c & A & B). apply (find_none _ _ F) in A. destruct (idx_inv _ _ _ _ B) as (B1 & B2 & B3). rewrite B1, B2, B3, !Z.eqb_refl in A. discriminate.
Qed.
