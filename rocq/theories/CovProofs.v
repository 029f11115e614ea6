From Verif Require Import RBase Cov.
From Coq Require Import ZArith Lia.
Local Open Scope Z_scope.

Lemma quot2 a : 0 <= a -> Z.even a = true -> 2 * Z.quot a 2 = a.
Proof.
  intros H E. rewrite Z.quot_div_nonneg by lia. apply Z.even_spec in E. destruct E as [k ->].
  rewrite (Z.mul_comm 2 k), Z.div_mul; lia.
Qed.
Lemma even_succ_mul i : Z.even (i * (i + 1)) = true.
Proof. rewrite Z.even_mul, Z.add_1_r, Z.even_succ, <- Z.negb_even. destruct (Z.even i); reflexivity. Qed.
Definition tri (i : Z) : Z := Z.quot (i * (i + 1)) 2.
Lemma tri2 i : 0 <= i -> 2 * tri i = i * (i + 1).
Proof. intros H. apply quot2; [nia|apply even_succ_mul]. Qed.
Lemma tri_succ i : 0 <= i -> tri (i + 1) = tri i + i + 1.
Proof. intros H. pose proof (tri2 i H). pose proof (tri2 (i + 1)). lia. Qed.
Lemma tri_mono i k : 0 <= i -> i <= k -> tri i <= tri k.
Proof. intros. pose proof (tri2 i). pose proof (tri2 k). nia. Qed.
Lemma tri_0 : tri 0 = 0. Proof. reflexivity. Qed.
Lemma room_tri N : 0 <= N -> Z.of_nat (room N) = tri N.
Proof.
  intros H. unfold room. replace (N * (1 + N)) with (N * (N + 1)) by ring. fold (tri N).
  rewrite Z2Nat.id; auto. pose proof (tri2 N H). nia.
Qed.
Lemma offset2_le i j : j <= i -> offset2 i j = j + tri i.
Proof.
  intros H. unfold offset2, tri. destruct (Z.ltb_spec j i); [reflexivity|]. replace j with i by lia. reflexivity.
Qed.
Lemma offset2_sym i j : offset2 i j = offset2 j i.
Proof.
  unfold offset2. destruct (Z.ltb_spec j i), (Z.ltb_spec i j); try lia. replace j with i by lia. reflexivity.
Qed.
Lemma offset1_diag i : 0 <= i -> offset1 i = offset2 i i.
Proof.
  intros H. rewrite offset2_le by lia. unfold offset1, tri.
  replace (i * (i + 3)) with (i * (i + 1) + i * 2) by ring.
  rewrite Z.quot_add; [ring|lia|nia].
Qed.
Lemma offset2_range N i j : 0 <= i < N -> 0 <= j < N -> 0 <= offset2 i j < tri N.
Proof.
  assert (G : forall i j, 0 <= j -> j <= i -> i < N -> 0 <= offset2 i j < tri N).
  { intros a b H1 H2 H3. rewrite offset2_le by lia. pose proof (tri2 a). pose proof (tri_mono (a + 1) N).
    pose proof (tri_succ a). nia. }
  intros Hi Hj. destruct (Z.le_ge_cases j i); [apply G; lia|]. rewrite offset2_sym. apply G; lia.
Qed.
Lemma offset2_inj i j k l : 0 <= j <= i -> 0 <= l <= k -> offset2 i j = offset2 k l -> i = k /\ j = l.
Proof.
  intros H1 H2. rewrite !offset2_le by lia. intros E.
  assert (i = k).
  { destruct (Z.lt_trichotomy i k) as [C|[C|C]]; [|exact C|]; exfalso.
    - pose proof (tri_mono (i + 1) k). pose proof (tri_succ i). lia.
    - pose proof (tri_mono (k + 1) i). pose proof (tri_succ k). lia. }
  subst. lia.
Qed.
Lemma offset2_onto N : 0 <= N -> forall k, 0 <= k < tri N -> exists i j, 0 <= j <= i /\ i < N /\ offset2 i j = k.
Proof.
  intros HN. pattern N. apply natlike_ind; [| |exact HN].
  - intros k H. change (tri 0) with 0 in H. lia.
  - intros n Hn IH k H. rewrite <- Z.add_1_r, tri_succ in H by lia.
    destruct (Z.lt_ge_cases k (tri n)) as [C|C].
    + destruct (IH k) as (i & j & A & B & E); [lia|]. exists i, j. split; [lia|]. split; [lia|exact E].
    + exists n, (k - tri n). split; [lia|]. split; [lia|]. rewrite offset2_le by lia. lia.
Qed.

Definition sized (N : Z) (d : list R) : Prop := length d = room N.
Lemma sig_ok N d i j : 0 <= i < N -> 0 <= j < N -> sized N d ->
  exists x, sig N d i j = Ok x /\ nth_error d (Z.to_nat (offset2 i j)) = Some x.
Proof.
  intros Hi Hj HS. unfold sig. destruct (Z.ltb_spec i N), (Z.ltb_spec j N); try lia. cbn [andb]. unfold rd.
  pose proof (offset2_range N i j Hi Hj) as HR. destruct (Z.ltb_spec (offset2 i j) 0); [lia|].
  destruct (nth_error d (Z.to_nat (offset2 i j))) eqn:E; [eauto|].
  apply nth_error_None in E. rewrite HS in E. pose proof (room_tri N). lia.
Qed.
Lemma set_sig_ok N d i j v : 0 <= i < N -> 0 <= j < N -> sized N d ->
  exists d', set_sig N d i j v = Ok d' /\ sized N d' /\
    forall k l, 0 <= k < N -> 0 <= l < N ->
      sig N d' k l = if (k =? i) && (l =? j) || (k =? j) && (l =? i) then Ok v else sig N d k l.
Proof.
  intros Hi Hj HS. unfold set_sig. destruct (Z.ltb_spec i N), (Z.ltb_spec j N); try lia. cbn [andb]. unfold wr.
  pose proof (offset2_range N i j Hi Hj) as HR. pose proof (room_tri N) as RT. unfold sized in *.
  destruct (Z.ltb_spec (offset2 i j) 0); [lia|].
  destruct (upd_some _ d (Z.to_nat (offset2 i j)) v) as [d' E]; [lia|]. rewrite E.
  eexists. split; [reflexivity|]. split; [now rewrite (upd_length _ _ _ _ _ E)|].
  intros k l Hk Hl. pose proof (offset2_range N k l Hk Hl) as HR'.
  unfold sig. destruct (Z.ltb_spec k N), (Z.ltb_spec l N); try lia. cbn [andb]. unfold rd.
  destruct (Z.ltb_spec (offset2 k l) 0); [lia|].
  assert (Q : ((k =? i) && (l =? j) || (k =? j) && (l =? i))%bool = Nat.eqb (Z.to_nat (offset2 k l)) (Z.to_nat (offset2 i j))).
  { apply Bool.eq_iff_eq_true. rewrite Bool.orb_true_iff, !Bool.andb_true_iff, !Z.eqb_eq, Nat.eqb_eq.
    assert (P : Z.to_nat (offset2 k l) = Z.to_nat (offset2 i j) <-> offset2 k l = offset2 i j) by lia.
    rewrite P. split.
    - intros [[-> ->] | [-> ->]]; [reflexivity|apply offset2_sym].
    - clear E. intros E. destruct (Z.le_ge_cases j i), (Z.le_ge_cases l k).
      + destruct (offset2_inj k l i j); try lia.
      + rewrite (offset2_sym k l) in E. destruct (offset2_inj l k i j); try lia.
      + rewrite (offset2_sym i j) in E. destruct (offset2_inj k l j i); try lia.
      + rewrite (offset2_sym i j), (offset2_sym k l) in E. destruct (offset2_inj l k j i); try lia. }
  rewrite Q. destruct (Nat.eqb_spec (Z.to_nat (offset2 k l)) (Z.to_nat (offset2 i j))) as [C|C].
  - rewrite C, (upd_nth_same _ _ _ _ _ E). reflexivity.
  - rewrite (upd_nth_other _ _ _ _ _ _ E C). reflexivity.
Qed.
