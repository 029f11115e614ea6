(* C29: packed symmetric matrices. *)
From Verif Require Import RBase Cov CovProofs.
From Coq Require Import ZArith Lia.
Local Open Scope Z_scope.

(* writing one element, read back in both orders, nothing else changed *)
Theorem C29_write_read : forall N d i j v, 0 <= i < N -> 0 <= j < N -> length d = room N ->
  exists d', set_sig N d i j v = Ok d' /\ length d' = room N /\
    sig N d' i j = Ok v /\ sig N d' j i = Ok v /\
    forall k l, 0 <= k < N -> 0 <= l < N -> ~ (k = i /\ l = j) -> ~ (k = j /\ l = i) ->
      sig N d' k l = sig N d k l.
Proof.
  intros N d i j v Hi Hj HS. destruct (set_sig_ok N d i j v Hi Hj HS) as (d' & E & S & G).
  exists d'. split; [exact E|]. split; [exact S|].
  split; [rewrite (G i j Hi Hj), !Z.eqb_refl; reflexivity|].
  split; [rewrite (G j i Hj Hi), !Z.eqb_refl, Bool.orb_true_r; reflexivity|].
  intros k l Hk Hl N1 N2. rewrite (G k l Hk Hl).
  destruct (Z.eqb_spec k i), (Z.eqb_spec l j), (Z.eqb_spec k j), (Z.eqb_spec l i); cbn; try reflexivity; exfalso; tauto.
Qed.
Print Assumptions C29_write_read.

(* symmetric, and every read within the dimension succeeds *)
Theorem C29_symmetric : forall N d i j, 0 <= i < N -> 0 <= j < N -> length d = room N ->
  exists x, sig N d i j = Ok x /\ sig N d j i = Ok x.
Proof.
  intros N d i j Hi Hj HS. destruct (sig_ok N d i j Hi Hj HS) as (x & E & _). exists x. split; [exact E|].
  unfold sig in *. rewrite Bool.andb_comm, offset2_sym. exact E.
Qed.
Print Assumptions C29_symmetric.

(* the storage is used completely and without overlap *)
Theorem C29_packing : forall N, 0 <= N ->
  2 * Z.of_nat (room N) = N * (N + 1) /\
  (forall i j, 0 <= i < N -> 0 <= j < N -> 0 <= offset2 i j < Z.of_nat (room N)) /\
  (forall k, 0 <= k < Z.of_nat (room N) -> exists i j, (0 <= j <= i /\ i < N /\ offset2 i j = k) /\
     forall i' j', 0 <= j' <= i' -> offset2 i' j' = k -> i' = i /\ j' = j).
Proof.
  intros N H. rewrite room_tri by exact H. split; [apply tri2, H|]. split; [intros i j; apply offset2_range|].
  intros k Hk. destruct (offset2_onto N H k Hk) as (i & j & A & B & E). exists i, j. split; [tauto|].
  intros i' j' A' E'. apply offset2_inj; try lia.
Qed.
Print Assumptions C29_packing.

(* the variances are the diagonal *)
Theorem C29_diagonal : forall N d i v, 0 <= i < N ->
  var N d i = sig N d i i /\ set_var N d i v = set_sig N d i i v.
Proof.
  intros N d i v H. unfold var, sig, set_var, set_sig. rewrite offset1_diag by lia.
  destruct (Z.ltb_spec i N); [|lia]. split; reflexivity.
Qed.
Print Assumptions C29_diagonal.

(* beyond the dimension reads give 0 and writes are refused *)
Theorem C29_beyond : forall N d i j v, N <= i \/ N <= j ->
  sig N d i j = Ok 0%R /\ set_sig N d i j v = Throw AssertFailed /\ r_ij N d i j = Ok 0%R /\
  (N <= i -> var N d i = Ok 0%R /\ set_var N d i v = Throw AssertFailed /\ std N d i = Ok 0%R).
Proof.
  intros N d i j v H. unfold sig, set_sig, r_ij, var, set_var, std.
  assert (E : (i <? N) && (j <? N) = false).
  { destruct (Z.ltb_spec i N), (Z.ltb_spec j N); try reflexivity; lia. }
  rewrite E. split; [reflexivity|]. split; [reflexivity|]. split; [reflexivity|].
  intros H'. destruct (Z.ltb_spec i N); [lia|]. auto.
Qed.
Print Assumptions C29_beyond.

(* a negative index is not caught: it reads another element, or memory outside *)
Theorem C29_negative_refuted :
  (exists N d x, length d = room N /\ 0 < N /\ sig N d (-1) 2 = Ok x /\ sig N d 1 1 = Ok x /\ x <> 0%R) /\
  (forall N d, 0 < N -> sig N d (-1) 0 = UB).
Proof.
  split.
  - exists 3, [0;0;1;0;0;0]%R, 1%R. repeat split. lra.
  - intros N d H. unfold sig. destruct (Z.ltb_spec (-1) N), (Z.ltb_spec 0 N); try lia. reflexivity.
Qed.
Print Assumptions C29_negative_refuted.

(* equality is equality of all elements *)
Theorem C29_equality : forall N a b, 0 <= N -> length a = room N -> length b = room N ->
  cov_eqb a b = true <-> forall i j, 0 <= i < N -> 0 <= j < N -> sig N a i j = sig N b i j.
Proof.
  intros N a b HN HA HB.
  assert (S : same a b = true <-> a = b).
  { rewrite <- HB in HA. clear HB. revert b HA. induction a as [|x a IH]; intros [|y b] H; cbn in *; try discriminate; [tauto|].
    rewrite Bool.andb_true_iff, IH by congruence. destruct (Reqb_spec x y) as [E|E]; split; intros G; intuition congruence. }
  unfold cov_eqb. rewrite S. split; [intros ->; reflexivity|].
  intros H. apply (nth_ext _ _ 0%R 0%R); [congruence|]. intros n Hn.
  destruct (offset2_onto N HN (Z.of_nat n)) as (i & j & A & B & E).
  { rewrite <- room_tri by exact HN. lia. }
  assert (Hi : 0 <= i < N) by lia. assert (Hj : 0 <= j < N) by lia. specialize (H i j Hi Hj).
  destruct (sig_ok N a i j Hi Hj HA) as (x & X1 & X2), (sig_ok N b i j Hi Hj HB) as (y & Y1 & Y2).
  rewrite X1, Y1 in H. injection H as ->. rewrite E, Nat2Z.id in X2, Y2.
  rewrite (nth_error_nth _ _ _ X2), (nth_error_nth _ _ _ Y2). reflexivity.
Qed.
Print Assumptions C29_equality.

(* a fresh matrix, and one set to zero, is zero everywhere *)
Theorem C29_zero : forall N i j, 0 <= i < N -> 0 <= j < N -> length (zero N) = room N /\ sig N (zero N) i j = Ok 0%R.
Proof.
  intros N i j Hi Hj. assert (L : length (zero N) = room N) by apply repeat_length. split; [exact L|].
  destruct (sig_ok N (zero N) i j Hi Hj L) as (x & E & X). rewrite E. f_equal.
  apply nth_error_In in X. apply repeat_spec in X. exact X.
Qed.
Print Assumptions C29_zero.

(* the correlation coefficient and the standard deviation *)
Theorem C29_derived : forall N d i j s a b, 0 <= i < N -> 0 <= j < N -> length d = room N ->
  sig N d i j = Ok s -> sig N d i i = Ok a -> sig N d j j = Ok b ->
  std N d i = Ok (R_sqrt.sqrt a) /\ r_ij N d i j = Ok (s / R_sqrt.sqrt (a * b))%R /\
  ((0 < a -> 0 < b -> s * s <= a * b -> -1 <= s / R_sqrt.sqrt (a * b) <= 1)%R).
Proof.
  intros N d i j s a b Hi Hj HS E1 E2 E3.
  destruct (C29_diagonal N d i 0%R Hi) as [D1 _]. destruct (C29_diagonal N d j 0%R Hj) as [D2 _].
  unfold std, r_ij. destruct (Z.ltb_spec i N), (Z.ltb_spec j N); try lia. cbn [andb].
  rewrite D1, E2, E1, D2, E3. cbn [bind]. split; [reflexivity|]. split; [reflexivity|].
  intros A B C. assert (AB : (0 < a * b)%R) by (apply Rmult_lt_0_compat; assumption).
  assert (Q : (0 < R_sqrt.sqrt (a * b))%R) by (apply sqrt_lt_R0, AB).
  assert (QQ : (R_sqrt.sqrt (a * b) * R_sqrt.sqrt (a * b) = a * b)%R) by (apply sqrt_sqrt; lra).
  assert (K : (- R_sqrt.sqrt (a * b) <= s <= R_sqrt.sqrt (a * b))%R).
  { rewrite <- QQ in C. set (q := R_sqrt.sqrt (a * b)) in *. clearbody q. split; nra. }
  split; apply (Rmult_le_reg_r (R_sqrt.sqrt (a * b))); auto; unfold Rdiv; rewrite Rmult_assoc, Rinv_l; lra.
Qed.
Print Assumptions C29_derived.

Example C29_ex : exists d d', set_sig 3 (zero 3) 2 1 7%R = Ok d /\ set_sig 3 d 0 2 5%R = Ok d' /\
  d' = [0;0;0;5;7;0]%R /\ sig 3 d' 1 2 = Ok 7%R /\ length d' = room 3.
Proof. do 2 eexists. repeat split. Qed.
