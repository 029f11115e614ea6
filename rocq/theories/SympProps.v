(* C112: Symplectify (utility/LinearAlgebra.cpp), specification and theorems. *)
From Coq Require Import List Lia Morphisms.
From Verif Require Import Base RBase Mat MatFacts Gauss GaussProps.
Import ListNotations.
Open Scope R_scope.

Definition symplectic (a : mat) : Prop := meq 6 (mmul 6 (mmul 6 (mtr a) symp_s) a) symp_s.
Definition mneg (A : mat) : mat := fun i j => - A i j.
Global Instance mneg_proper n : Morphisms.Proper (Morphisms.respectful (meq n) (meq n)) mneg.
Proof. intros A B H i j Hi Hj. unfold mneg. rewrite H by assumption. reflexivity. Qed.
Lemma mul_neg_l : forall n A B, meq n (mmul n (mneg A) B) (mneg (mmul n A B)).
Proof.
  intros n A B i j _ _. unfold mneg, mmul.
  rewrite (sumn_ext n _ (fun k => -1 * (A i k * B k j))) by (intros; ring). rewrite sumn_scal. ring.
Qed.
Lemma mul_neg_r : forall n A B, meq n (mmul n A (mneg B)) (mneg (mmul n A B)).
Proof.
  intros n A B i j _ _. unfold mneg, mmul.
  rewrite (sumn_ext n _ (fun k => -1 * (A i k * B k j))) by (intros; ring). rewrite sumn_scal. ring.
Qed.
Lemma neg_neg : forall n A, meq n (mneg (mneg A)) A.
Proof. intros n A i j _ _. unfold mneg. ring. Qed.

Lemma s_tr : meq 6 (mtr symp_s) (mneg symp_s).
Proof.
  intros i j Hi Hj. unfold mtr, mneg, symp_s.
  do 6 (destruct i as [| i]; [do 6 (destruct j as [| j]; [cbn; ring |]); lia |]). lia.
Qed.
Lemma s_s : meq 6 (mmul 6 symp_s symp_s) (mneg mid).
Proof.
  intros i j Hi Hj. unfold mmul, mneg, symp_s, mid.
  do 6 (destruct i as [| i]; [do 6 (destruct j as [| j]; [cbn; ring |]); lia |]). lia.
Qed.

Ltac pw := let i := fresh "i" in let j := fresh "j" in
  intros i j ? ?; unfold madd, msub, mneg.

(* (I+K)^T S (I+K) and (I-K)^T S (I-K) *)
Lemma quad_plus : forall n S K, meq n (mmul n (mmul n (mtr (madd mid K)) S) (madd mid K))
  (madd (madd S (mmul n S K)) (madd (mmul n (mtr K) S) (mmul n (mmul n (mtr K) S) K))).
Proof.
  intros n S K. rewrite tr_add, tr_id, mul_add_l, mul_id_l, mul_add_r, mul_id_r, mul_add_l.
  pw. ring.
Qed.
Lemma quad_minus : forall n S K, meq n (mmul n (mmul n (mtr (msub mid K)) S) (msub mid K))
  (madd (msub S (mmul n S K)) (msub (mmul n (mmul n (mtr K) S) K) (mmul n (mtr K) S))).
Proof.
  intros n S K. rewrite tr_sub, tr_id, mul_sub_l, mul_id_l, mul_sub_r, mul_id_r, mul_sub_l.
  pw. ring.
Qed.

Lemma commute : forall n K, meq n (mmul n (madd mid K) (msub mid K)) (mmul n (msub mid K) (madd mid K)).
Proof.
  intros n K. rewrite mul_add_l, mul_sub_l, !mul_id_l, mul_sub_r, mul_add_r, !mul_id_r. pw. ring.
Qed.

Lemma cayley : forall K B, meq 6 (mmul 6 (mtr K) symp_s) (mneg (mmul 6 symp_s K)) ->
  inverse_of 6 B (msub mid K) -> symplectic (mmul 6 B (madd mid K)).
Proof.
  intros K B HK [BL BR]. unfold symplectic.
  assert (QP : meq 6 (mmul 6 (mmul 6 (mtr (madd mid K)) symp_s) (madd mid K))
                     (mmul 6 (mmul 6 (mtr (msub mid K)) symp_s) (msub mid K))).
  { rewrite quad_plus, quad_minus, HK. pw. ring. }
  assert (CB : meq 6 (mmul 6 B (madd mid K)) (mmul 6 (madd mid K) B)).
  { set (P := msub mid K) in *. set (Q := madd mid K) in *.
    assert (C : meq 6 (mmul 6 Q P) (mmul 6 P Q)) by apply commute.
    rewrite <- (mul_id_r 6 (mmul 6 B Q)), <- BR, mul_assoc, <- (mul_assoc 6 Q P B), C,
      mul_assoc, <- (mul_assoc 6 B P), BL, mul_id_l. reflexivity. }
  set (P := msub mid K) in *. set (Q := madd mid K) in *.
  rewrite CB, tr_mul.
  rewrite (mul_assoc 6 (mtr B)), <- (mul_assoc 6 _ Q B), (mul_assoc 6 (mtr B)).
  rewrite QP.
  transitivity (mmul 6 (mmul 6 (mtr (mmul 6 P B)) symp_s) (mmul 6 P B)).
  - rewrite tr_mul. rewrite !mul_assoc. reflexivity.
  - rewrite BR, tr_id, mul_id_l, mul_id_r. reflexivity.
Qed.

Lemma generator : forall w, meq 6 (mtr w) w ->
  let K := mmul 6 symp_s w in meq 6 (mmul 6 (mtr K) symp_s) (mneg (mmul 6 symp_s K)).
Proof.
  intros w H K. unfold K. rewrite tr_mul, H, s_tr, mul_assoc, mul_neg_l, s_s.
  rewrite neg_neg, mul_id_r. rewrite <- mul_assoc, s_s, mul_neg_l, mul_id_l, neg_neg. reflexivity.
Qed.

Lemma inverse_ok : forall n A B p, inverse n n A = Ok (B, p) -> inverse_of n B A.
Proof.
  intros n A B p H. destruct (C111_outcomes n A) as [(B' & p' & E & I & _) | (E & _)];
    rewrite E in H; [| discriminate].
  apply (f_equal (fun r => match r with Ok v => fst v | _ => mid end)) in H. cbn in H. subst. exact I.
Qed.

Lemma symp_is : forall a, symplectify a = symp_with (inverse 6 6) a.
Proof. intros a. unfold symplectify. reflexivity. Qed.

Lemma symp_with_ok : forall inv a b, (forall A B p, inv A = Ok (B, p) -> inverse_of 6 B A) ->
  symp_with inv a = Ok b -> symplectic b.
Proof.
  intros inv a b I H. unfold symp_with in H.
  destruct (inv (madd mid a)) as [[B1 p1] | e |] eqn:E1; cbn [bind fst] in H; try discriminate.
  set (v := mmul 6 _ B1) in H. set (w := fun i j => (v i j + v j i) / 2) in H.
  destruct (inv (msub mid (mmul 6 symp_s w))) as [[B2 p2] | e |] eqn:E2; cbn [bind fst] in H;
    try discriminate.
  assert (Eb : mmul 6 B2 (madd mid (mmul 6 symp_s w)) = b) by congruence.
  rewrite <- Eb. apply I in E2. apply cayley; [| exact E2].
  apply generator. intros i j _ _. unfold mtr, w. field.
Qed.

Theorem C112_symplectic : forall a b, symplectify a = Ok b -> symplectic b.
Proof.
  intros a b H. rewrite symp_is in H. eapply symp_with_ok; [| exact H]. apply inverse_ok.
Qed.
Print Assumptions C112_symplectic.

Lemma symp_with_unchanged : forall inv a,
  (forall A, invertible 6 A -> exists B p, inv A = Ok (B, p) /\ inverse_of 6 B A) ->
  symplectic a -> invertible 6 (madd mid a) ->
  exists b, symp_with inv a = Ok b /\ meq 6 b a.
Proof.
  intros inv a INV SA I. unfold symp_with.
  destruct (INV _ I) as (Y & p1 & E1 & [YL YR]). rewrite E1. cbn [bind fst].
  set (v := mmul 6 (mmul 6 symp_s (msub mid a)) Y).
  set (w := fun i j => (v i j + v j i) / 2).
  set (C := mmul 6 (msub mid a) Y).
  assert (Hv : meq 6 v (mmul 6 symp_s C)) by apply mul_assoc.
  assert (HC : meq 6 (mmul 6 C (madd mid a)) (msub mid a)).
  { unfold C. rewrite mul_assoc, YL, mul_id_r. reflexivity. }
  (* S C is symmetric *)
  assert (SY : meq 6 (mneg (mmul 6 (mtr C) symp_s)) (mmul 6 symp_s C)).
  { set (Z := madd mid a) in *.
    assert (K : meq 6 (mmul 6 (mmul 6 (mtr Z) (mneg (mmul 6 (mtr C) symp_s))) Z)
                      (mmul 6 (mmul 6 (mtr Z) (mmul 6 symp_s C)) Z)).
    { rewrite mul_neg_r, mul_neg_l. rewrite <- (mul_assoc 6 (mtr Z) (mtr C)), <- tr_mul, HC.
      rewrite (mul_assoc 6 (mtr Z)), (mul_assoc 6 symp_s), HC.
      unfold Z. rewrite tr_add, tr_sub, tr_id.
      rewrite mul_sub_l, mul_id_l, mul_add_r, mul_id_r, mul_sub_l.
      rewrite mul_add_l, mul_id_l, !mul_sub_r, !mul_id_r.
      unfold symplectic in SA. rewrite <- (mul_assoc 6 (mtr a) symp_s a), SA. pw. ring. }
    assert (L : forall X, meq 6 (mmul 6 (mmul 6 (mtr Y) (mmul 6 (mmul 6 (mtr Z) X) Z)) Y) X).
    { intros X. rewrite <- (mul_assoc 6 (mtr Y)), <- (mul_assoc 6 (mtr Y) (mtr Z)), <- tr_mul, YR, tr_id,
        mul_id_l, mul_assoc, YR, mul_id_r. reflexivity. }
    rewrite <- (L (mneg (mmul 6 (mtr C) symp_s))), K, L. reflexivity. }
  assert (Hw : meq 6 w v).
  { intros i j Hi Hj. unfold w.
    assert (T : v j i = v i j).
    { rewrite !Hv by assumption. rewrite <- (SY i j) by assumption.
      change (mmul 6 symp_s C j i) with (mtr (mmul 6 symp_s C) i j).
      rewrite (tr_mul 6 symp_s C i j Hi Hj).
      rewrite (mmul_proper 6 _ _ (meq_refl 6 (mtr C)) _ _ s_tr i j Hi Hj).
      apply mul_neg_r; assumption. }
    rewrite T. field. }
  assert (HS : meq 6 (mmul 6 symp_s w) (mneg C)).
  { rewrite Hw, Hv, <- mul_assoc, s_s, mul_neg_l, mul_id_l. reflexivity. }
  set (K := mmul 6 symp_s w) in *.
  assert (H1 : meq 6 (msub mid K) (fun i j => 2 * Y i j)).
  { rewrite HS. intros i j Hi Hj. unfold C.
    pose proof (mul_sub_l 6 mid a Y i j Hi Hj) as E. pose proof (mul_id_l 6 Y i j Hi Hj) as E'.
    pose proof (mul_add_l 6 mid a Y i j Hi Hj) as E2. rewrite (YR i j Hi Hj) in E2.
    unfold msub, madd, mneg in *. lra. }
  assert (H2 : meq 6 (madd mid K) (fun i j => 2 * mmul 6 a Y i j)).
  { rewrite HS. intros i j Hi Hj. unfold C.
    pose proof (mul_sub_l 6 mid a Y i j Hi Hj) as E. pose proof (mul_id_l 6 Y i j Hi Hj) as E'.
    pose proof (mul_add_l 6 mid a Y i j Hi Hj) as E2. rewrite (YR i j Hi Hj) in E2.
    unfold msub, madd, mneg in *. lra. }
  assert (HI : inverse_of 6 (fun i j => madd mid a i j / 2) (msub mid K)).
  { split.
    - rewrite H1. intros i j Hi Hj. rewrite <- (YR i j Hi Hj). unfold mmul. apply sumn_ext.
      intros. field.
    - rewrite H1. intros i j Hi Hj. rewrite <- (YL i j Hi Hj). unfold mmul. apply sumn_ext.
      intros. field. }
  destruct (INV (msub mid K)) as (B & p2 & E2 & [BL BR]); [eexists; exact HI |].
  rewrite E2. cbn [bind fst]. eexists. split; [reflexivity |].
  rewrite (inverse_unique 6 _ _ _ BL (proj2 HI)), H2.
  transitivity (mmul 6 (madd mid a) (mmul 6 a Y)).
  { intros i j Hi Hj. unfold mmul. apply sumn_ext. intros k Hk.
    set (z := sumn 6 _). field. }
  rewrite <- mul_assoc, mul_add_l, mul_id_l.
  transitivity (mmul 6 (mmul 6 a (madd mid a)) Y).
  { apply mmul_proper; [| reflexivity]. rewrite mul_add_r, mul_id_r. reflexivity. }
  rewrite mul_assoc, YR, mul_id_r. reflexivity.
Qed.
Theorem C112_unchanged : forall a, symplectic a -> invertible 6 (madd mid a) ->
  exists b, symplectify a = Ok b /\ meq 6 b a.
Proof.
  intros a SA I. rewrite symp_is. apply symp_with_unchanged; [| exact SA | exact I].
  intros A HA. destruct (C111_inverse 6 _ HA) as (B & p & E & IB & _). eauto.
Qed.
Print Assumptions C112_unchanged.

Example C112_case : symplectic mid /\ invertible 6 (madd mid mid).
Proof.
  split.
  - unfold symplectic. rewrite tr_id, mul_id_l, mul_id_r. reflexivity.
  - exists (fun i j => mid i j / 2). split; intros i j Hi Hj.
    + rewrite <- (mmul_id_l 6 mid i j Hi). unfold mmul, madd. apply sumn_ext. intros. field.
    + rewrite <- (mmul_id_l 6 mid i j Hi). unfold mmul, madd. apply sumn_ext. intros. field.
Qed.

(* Minus the identity is symplectic, yet refused. *)
Theorem C112_half_turn_refuted : symplectic (mneg mid) /\
  symplectify (mneg mid) = Throw SingularMatrix.
Proof.
  split.
  - unfold symplectic. intros i j Hi Hj.
    assert (E : meq 6 (mtr (mneg mid)) (mneg mid)).
    { intros x y Hx Hy. unfold mtr, mneg. rewrite <- (tr_id 6 x y Hx Hy). reflexivity. }
    assert (G : meq 6 (mmul 6 (mmul 6 (mtr (mneg mid)) symp_s) (mneg mid)) symp_s).
    { rewrite E, mul_neg_l, mul_neg_r, mul_neg_l, neg_neg, mul_id_r, mul_id_l. reflexivity. }
    apply G; assumption.
  - rewrite symp_is. unfold symp_with.
    destruct (C111_outcomes 6 (madd mid (mneg mid))) as [(B & p & _ & [_ I] & _) | (E & _)].
    + exfalso. specialize (I 0%nat 0%nat ltac:(lia) ltac:(lia)). unfold mmul, madd, mneg in I.
      rewrite sumn_0 in I by (intros; ring). rewrite mid_diag in I. lra.
    + rewrite E. reflexivity.
Qed.
Print Assumptions C112_half_turn_refuted.
