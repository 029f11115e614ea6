From Verif Require Import Base Ring.
Import Nat.

Lemma pre_inc_mod N k : k < N -> pre_inc (mkRing N k) = Ok (mkRing N ((k + 1) mod N)).
Proof.
  intros H. unfold pre_inc, it_next. cbn [curr cont_size]. destruct (Nat.ltb_spec k N); [|lia]. cbn [bind curr cont_size].
  destruct (Nat.eqb_spec (S k) N) as [E|E].
  - rewrite Nat.add_1_r, E, Nat.mod_same by lia. reflexivity.
  - rewrite Nat.add_1_r, Nat.mod_small by lia. reflexivity.
Qed.

Lemma pre_dec_mod N k : k < N -> pre_dec (mkRing N k) = Ok (mkRing N ((k + (N - 1)) mod N)).
Proof.
  intros H. unfold pre_dec, it_prev. cbn [curr cont_size]. destruct (Nat.eqb_spec k 0) as [->|E]; cbn [curr cont_size].
  - destruct N; [lia|]. rewrite Nat.add_0_l. cbn [Nat.sub]. rewrite Nat.sub_0_r, Nat.mod_small by lia. reflexivity.
  - destruct k; [lia|]. do 2 f_equal. replace (S k + (N - 1)) with (k + 1 * N) by lia.
    rewrite Nat.mod_add, Nat.mod_small by lia. reflexivity.
Qed.

(** ** C12 *)
Theorem C12_ring_steps :
  forall N k n, k < N ->
  inc_n n (mkRing N k) = Ok (mkRing N ((k + n) mod N)) /\
  dec_n n (mkRing N k) = Ok (mkRing N ((k + (N - 1) * n) mod N)).
Proof.
  intros N k n H. induction n as [|n [IH1 IH2]].
  - rewrite Nat.add_0_r, Nat.mul_0_r, Nat.add_0_r, Nat.mod_small by assumption. auto.
  - cbn [inc_n dec_n]. rewrite IH1, IH2. cbn [bind].
    rewrite pre_inc_mod, pre_dec_mod by (apply Nat.mod_upper_bound; lia).
    rewrite !Nat.add_mod_idemp_l by lia. split; do 3 f_equal; lia.
Qed.
Print Assumptions C12_ring_steps.

Theorem C12_ring_inverse :
  forall N k, k < N ->
  (do r <- pre_inc (mkRing N k); pre_dec r) = Ok (mkRing N k) /\
  (do r <- pre_dec (mkRing N k); pre_inc r) = Ok (mkRing N k).
Proof.
  intros N k H. rewrite pre_inc_mod, pre_dec_mod by assumption. cbn [bind].
  rewrite pre_dec_mod, pre_inc_mod by (apply Nat.mod_upper_bound; lia).
  rewrite !Nat.add_mod_idemp_l by lia.
  replace (k + 1 + (N - 1)) with (k + 1 * N) by lia. replace (k + (N - 1) + 1) with (k + 1 * N) by lia.
  rewrite Nat.mod_add, Nat.mod_small by lia. auto.
Qed.
Print Assumptions C12_ring_inverse.

(** the postfix forms move the same way and return the old position *)
Theorem C12_ring_postfix :
  forall r, (forall r1, pre_inc r = Ok r1 -> post_inc r = Ok (r1, r)) /\
            (forall r1, pre_dec r = Ok r1 -> post_dec r = Ok (r1, r)).
Proof.
  intros r. unfold pre_inc, post_inc, pre_dec, post_dec. split; intros r1.
  - destruct (it_next r); simpl; try discriminate. intros E. injection E as <-. reflexivity.
  - destruct (it_prev _); simpl; try discriminate. intros E. injection E as <-. reflexivity.
Qed.
Print Assumptions C12_ring_postfix.

Lemma skipn_len {A} (l m : list A) : skipn (length l) (l ++ m) = m.
Proof. induction l; simpl; auto. Qed.
Lemma firstn_len {A} (l m : list A) : firstn (length l) (l ++ m) = l.
Proof. induction l; simpl; congruence. Qed.

Lemma read_n_rot {A} (l : list A) : forall n k, k < length l -> n <= length l ->
  read_n l n (mkRing (length l) k)
  = Ok (firstn n (skipn k l ++ firstn k l), mkRing (length l) ((k + n) mod length l)).
Proof.
  induction n as [|n IH]; intros k Hk Hn; cbn [read_n].
  - rewrite Nat.add_0_r, Nat.mod_small by assumption. reflexivity.
  - pose proof (pre_inc_mod (length l) k Hk) as E.
    rewrite (proj1 (C12_ring_postfix _) _ E). cbn [bind fst snd]. unfold deref. simpl curr.
    destruct (nth_error l k) as [a|] eqn:Ea; [|apply nth_error_None in Ea; lia]. cbn [bind].
    rewrite IH by (try lia; apply Nat.mod_upper_bound; lia). cbn [bind fst snd].
    rewrite Nat.add_mod_idemp_l by lia. replace (k + 1 + n) with (k + S n) by lia.
    do 2 f_equal.
    assert (Hsplit : exists l1 l2, l = l1 ++ a :: l2 /\ length l1 = k) by (apply nth_error_split; exact Ea).
    destruct Hsplit as (l1 & l2 & -> & Hl1).
    subst k. rewrite (skipn_len l1), (firstn_len l1). cbn [app firstn]. f_equal.
    rewrite app_length in *. simpl length in *.
    destruct (Nat.eq_dec (length l1 + 1) (length l1 + S (length l2))) as [Ee|Ee].
    + rewrite Ee, Nat.mod_same by lia. cbn [skipn firstn]. rewrite app_nil_r.
      assert (l2 = []) by (destruct l2; [reflexivity|simpl in Ee; lia]). subst l2. simpl app.
      rewrite firstn_app. replace (n - length l1) with 0 by (simpl in Hn; lia). rewrite firstn_O, app_nil_r. reflexivity.
    + rewrite Nat.mod_small by lia.
      replace (length l1 + 1) with (length (l1 ++ [a])) by (rewrite app_length; reflexivity).
      replace (l1 ++ a :: l2) with ((l1 ++ [a]) ++ l2) by (rewrite <- app_assoc; reflexivity).
      rewrite skipn_len, firstn_len.
      rewrite (app_assoc l2 l1 [a]). rewrite (firstn_app n (l2 ++ l1) [a]).
      rewrite app_length. replace (n - (length l2 + length l1)) with 0 by lia. rewrite firstn_O, app_nil_r. reflexivity.
Qed.

(** one turn reads every element once, in order from the start position, and ends where it began *)
Theorem C12_one_turn :
  forall A (l : list A) k, k < length l ->
  read_n l (length l) (mkRing (length l) k) = Ok (skipn k l ++ firstn k l, mkRing (length l) k).
Proof.
  intros A l k Hk. rewrite read_n_rot by lia. do 2 f_equal.
  - replace (length l) with (length (skipn k l ++ firstn k l)) by (rewrite app_length, skipn_length, firstn_length; lia).
    rewrite firstn_all. reflexivity.
  - replace (k + length l) with (k + 1 * length l) by lia. rewrite Nat.mod_add, Nat.mod_small by lia. reflexivity.
Qed.
Print Assumptions C12_one_turn.

Example C12_case : read_n [10; 20; 30] 3 (mkRing 3 2) = Ok ([30; 10; 20], mkRing 3 2).
Proof. reflexivity. Qed.
