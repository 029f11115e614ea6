From Coq Require Import Setoid Morphisms.
From Verif Require Import RBase Mat.
Local Open Scope R_scope.

Lemma sumn_ext : forall n f g, (forall k, (k < n)%nat -> f k = g k) -> sumn n f = sumn n g.
Proof.
  induction n as [| n IH]; intros f g H; [reflexivity |]. cbn. rewrite (IH f g), (H n); auto.
Qed.
Lemma sumn_S : forall n f, sumn (Datatypes.S n) f = sumn n f + f n.
Proof. reflexivity. Qed.
Lemma sumn_scal : forall n c f, sumn n (fun k => c * f k) = c * sumn n f.
Proof. induction n as [| n IH]; intros; cbn; [ring | rewrite IH; ring]. Qed.
Lemma sumn_scal_r : forall n c f, sumn n (fun k => f k * c) = sumn n f * c.
Proof. induction n as [| n IH]; intros; cbn; [ring | rewrite IH; ring]. Qed.
Lemma sumn_plus : forall n f g, sumn n (fun k => f k + g k) = sumn n f + sumn n g.
Proof. induction n as [| n IH]; intros; cbn; [ring | rewrite IH; ring]. Qed.
Lemma sumn_minus : forall n f g, sumn n (fun k => f k - g k) = sumn n f - sumn n g.
Proof. induction n as [| n IH]; intros; cbn; [ring | rewrite IH; ring]. Qed.
Lemma sumn_zero : forall n, sumn n (fun _ => 0) = 0.
Proof. induction n as [| n IH]; cbn; [ring | rewrite IH; ring]. Qed.
Lemma sumn_0 : forall n f, (forall k, (k < n)%nat -> f k = 0) -> sumn n f = 0.
Proof. intros n f H. rewrite (sumn_ext n f (fun _ => 0)) by exact H. apply sumn_zero. Qed.
Lemma sumn_swap : forall n m (f : nat -> nat -> R),
  sumn n (fun i => sumn m (fun j => f i j)) = sumn m (fun j => sumn n (fun i => f i j)).
Proof.
  induction n as [| n IH]; intros m f; cbn; [rewrite sumn_zero; reflexivity |].
  rewrite IH, <- sumn_plus. reflexivity.
Qed.
Lemma sumn_single : forall n i f, (i < n)%nat -> (forall k, (k < n)%nat -> k <> i -> f k = 0) ->
  sumn n f = f i.
Proof.
  induction n as [| n IH]; intros i f H Z; [lia |]. cbn.
  destruct (Nat.eq_dec i n) as [-> | D].
  - rewrite sumn_0; [ring |]. intros k Hk. apply Z; lia.
  - rewrite (IH i) by (lia || (intros; apply Z; lia)). rewrite (Z n) by lia. ring.
Qed.
Lemma sumn_split : forall n m f, (m <= n)%nat ->
  sumn n f = sumn m f + sumn (n - m) (fun k => f (m + k)%nat).
Proof.
  induction n as [| n IH]; intros m f H.
  - assert (m = 0)%nat as -> by lia. cbn. ring.
  - destruct (Nat.eq_dec m (Datatypes.S n)) as [-> | D].
    + rewrite Nat.sub_diag. cbn. ring.
    + replace (Datatypes.S n - m)%nat with (Datatypes.S (n - m)) by lia. cbn [sumn].
      rewrite (IH m) by lia. replace (m + (n - m))%nat with n by lia. ring.
Qed.

Lemma mid_diag : forall i, mid i i = 1.
Proof. intros i. unfold mid. rewrite Nat.eqb_refl. reflexivity. Qed.
Lemma mid_off : forall i j, i <> j -> mid i j = 0.
Proof. intros i j H. unfold mid. destruct (Nat.eqb_spec i j); [contradiction | reflexivity]. Qed.

Lemma mmul_id_l : forall n A i j, (i < n)%nat -> mmul n mid A i j = A i j.
Proof.
  intros n A i j H. unfold mmul. rewrite (sumn_single n i) by
    (assumption || (intros; rewrite mid_off by lia; ring)).
  rewrite mid_diag. ring.
Qed.
Lemma mmul_id_r : forall n A i j, (j < n)%nat -> mmul n A mid i j = A i j.
Proof.
  intros n A i j H. unfold mmul. rewrite (sumn_single n j) by
    (assumption || (intros; rewrite mid_off by lia; ring)).
  rewrite mid_diag. ring.
Qed.
Lemma mvec_id : forall n x i, (i < n)%nat -> mvec n mid x i = x i.
Proof.
  intros n x i H. unfold mvec. rewrite (sumn_single n i) by
    (assumption || (intros; rewrite mid_off by lia; ring)).
  rewrite mid_diag. ring.
Qed.
Lemma mmul_assoc : forall n A B C i j,
  mmul n (mmul n A B) C i j = mmul n A (mmul n B C) i j.
Proof.
  intros n A B C i j. unfold mmul.
  rewrite (sumn_ext n _ (fun k => sumn n (fun l => A i l * B l k * C k j)))
    by (intros; rewrite sumn_scal_r; reflexivity).
  rewrite sumn_swap. apply sumn_ext. intros l Hl.
  rewrite <- sumn_scal. apply sumn_ext. intros k Hk. ring.
Qed.
Lemma mvec_mmul : forall n A B x i, mvec n (mmul n A B) x i = mvec n A (mvec n B x) i.
Proof.
  intros n A B x i. unfold mvec, mmul.
  rewrite (sumn_ext n _ (fun k => sumn n (fun l => A i l * B l k * x k)))
    by (intros; rewrite sumn_scal_r; reflexivity).
  rewrite sumn_swap. apply sumn_ext. intros l Hl.
  rewrite <- sumn_scal. apply sumn_ext. intros k Hk. ring.
Qed.
Lemma mmul_add_l : forall n A B C i j, mmul n (madd A B) C i j = mmul n A C i j + mmul n B C i j.
Proof. intros. unfold mmul, madd. rewrite <- sumn_plus. apply sumn_ext. intros. ring. Qed.
Lemma mmul_add_r : forall n A B C i j, mmul n A (madd B C) i j = mmul n A B i j + mmul n A C i j.
Proof. intros. unfold mmul, madd. rewrite <- sumn_plus. apply sumn_ext. intros. ring. Qed.
Lemma mmul_sub_l : forall n A B C i j, mmul n (msub A B) C i j = mmul n A C i j - mmul n B C i j.
Proof. intros. unfold mmul, msub. rewrite <- sumn_minus. apply sumn_ext. intros. ring. Qed.
Lemma mmul_sub_r : forall n A B C i j, mmul n A (msub B C) i j = mmul n A B i j - mmul n A C i j.
Proof. intros. unfold mmul, msub. rewrite <- sumn_minus. apply sumn_ext. intros. ring. Qed.
Lemma mtr_mmul : forall n A B i j, mtr (mmul n A B) i j = mmul n (mtr B) (mtr A) i j.
Proof. intros. unfold mtr, mmul. apply sumn_ext. intros. ring. Qed.

(* Matrices up to their size, for rewriting. *)
Lemma meq_refl : forall n A, meq n A A.
Proof. intros n A i j _ _. reflexivity. Qed.
Lemma meq_sym : forall n A B, meq n A B -> meq n B A.
Proof. intros n A B H i j Hi Hj. symmetry. apply H; assumption. Qed.
Lemma meq_trans : forall n A B C, meq n A B -> meq n B C -> meq n A C.
Proof. intros n A B C H K i j Hi Hj. rewrite H, K by assumption. reflexivity. Qed.
Global Instance meq_equiv n : Equivalence (meq n).
Proof.
  split; [exact (meq_refl n) | exact (meq_sym n) | exact (meq_trans n)].
Qed.
Global Instance mmul_proper n : Proper (meq n ==> meq n ==> meq n) (mmul n).
Proof.
  intros A A' HA B B' HB i j Hi Hj. unfold mmul. apply sumn_ext. intros k Hk.
  rewrite HA, HB by assumption. reflexivity.
Qed.
Global Instance madd_proper n : Proper (meq n ==> meq n ==> meq n) madd.
Proof. intros A A' HA B B' HB i j Hi Hj. unfold madd. rewrite HA, HB by assumption. reflexivity. Qed.
Global Instance msub_proper n : Proper (meq n ==> meq n ==> meq n) msub.
Proof. intros A A' HA B B' HB i j Hi Hj. unfold msub. rewrite HA, HB by assumption. reflexivity. Qed.
Global Instance mtr_proper n : Proper (meq n ==> meq n) mtr.
Proof. intros A A' HA i j Hi Hj. unfold mtr. apply HA; assumption. Qed.

Lemma mul_id_l : forall n A, meq n (mmul n mid A) A.
Proof. intros n A i j Hi Hj. apply mmul_id_l. exact Hi. Qed.
Lemma mul_id_r : forall n A, meq n (mmul n A mid) A.
Proof. intros n A i j Hi Hj. apply mmul_id_r. exact Hj. Qed.
Lemma mul_assoc : forall n A B C, meq n (mmul n (mmul n A B) C) (mmul n A (mmul n B C)).
Proof. intros n A B C i j _ _. apply mmul_assoc. Qed.
Lemma mul_add_l : forall n A B C, meq n (mmul n (madd A B) C) (madd (mmul n A C) (mmul n B C)).
Proof. intros n A B C i j _ _. apply mmul_add_l. Qed.
Lemma mul_add_r : forall n A B C, meq n (mmul n A (madd B C)) (madd (mmul n A B) (mmul n A C)).
Proof. intros n A B C i j _ _. apply mmul_add_r. Qed.
Lemma mul_sub_l : forall n A B C, meq n (mmul n (msub A B) C) (msub (mmul n A C) (mmul n B C)).
Proof. intros n A B C i j _ _. apply mmul_sub_l. Qed.
Lemma mul_sub_r : forall n A B C, meq n (mmul n A (msub B C)) (msub (mmul n A B) (mmul n A C)).
Proof. intros n A B C i j _ _. apply mmul_sub_r. Qed.
Lemma tr_mul : forall n A B, meq n (mtr (mmul n A B)) (mmul n (mtr B) (mtr A)).
Proof. intros n A B i j _ _. apply mtr_mmul. Qed.
Lemma tr_id : forall n, meq n (mtr mid) mid.
Proof. intros n i j _ _. unfold mtr, mid. rewrite Nat.eqb_sym. reflexivity. Qed.
Lemma tr_add : forall n A B, meq n (mtr (madd A B)) (madd (mtr A) (mtr B)).
Proof. intros n A B i j _ _. reflexivity. Qed.
Lemma tr_sub : forall n A B, meq n (mtr (msub A B)) (msub (mtr A) (mtr B)).
Proof. intros n A B i j _ _. reflexivity. Qed.

Lemma inverse_unique : forall n A B C, meq n (mmul n B A) mid -> meq n (mmul n A C) mid -> meq n B C.
Proof.
  intros n A B C HB HC. rewrite <- (mul_id_r n B), <- HC, <- mul_assoc, HB. apply mul_id_l.
Qed.
Lemma left_inverse_is : forall n A B, invertible n A -> meq n (mmul n B A) mid -> inverse_of n B A.
Proof.
  intros n A B (C & C1 & C2) H. split; [exact H |].
  rewrite (inverse_unique n A B C H C2). exact C2.
Qed.
Lemma invertible_injective : forall n A x, invertible n A ->
  (forall i, (i < n)%nat -> mvec n A x i = 0) -> forall i, (i < n)%nat -> x i = 0.
Proof.
  intros n A x (B & HB & _) H i Hi.
  rewrite <- (mvec_id n x i Hi).
  transitivity (mvec n (mmul n B A) x i).
  { unfold mvec. apply sumn_ext. intros k Hk. rewrite HB by assumption. reflexivity. }
  rewrite mvec_mmul. unfold mvec at 1. apply sumn_0. intros k Hk. rewrite H by exact Hk. ring.
Qed.
Lemma invertible_row : forall n A i, invertible n A -> (i < n)%nat ->
  ~ (forall j, (j < n)%nat -> A i j = 0).
Proof.
  intros n A i (B & _ & HB) Hi H. specialize (HB i i Hi Hi). unfold mmul in HB.
  rewrite sumn_0, mid_diag in HB by (intros k Hk; rewrite H by exact Hk; ring). lra.
Qed.

(* Loops. *)
Lemma loop_0 : forall S lo (f : nat -> S -> S) s, loop lo 0 f s = s.
Proof. reflexivity. Qed.
Lemma loop_S : forall S lo len (f : nat -> S -> S) s,
  loop lo (Datatypes.S len) f s = f (lo + len)%nat (loop lo len f s).
Proof.
  intros S lo len f s. unfold loop. rewrite seq_S, fold_left_app. reflexivity.
Qed.
Lemma set1_eq : forall v i x, set1 v i x i = x.
Proof. intros. unfold set1. rewrite Nat.eqb_refl. reflexivity. Qed.
Lemma set1_neq : forall v i x a, a <> i -> set1 v i x a = v a.
Proof. intros v i x a H. unfold set1. destruct (Nat.eqb_spec a i); [contradiction | reflexivity]. Qed.
Lemma set2_eq : forall M i j x, set2 M i j x i j = x.
Proof. intros. unfold set2. rewrite !Nat.eqb_refl. reflexivity. Qed.
Lemma set2_neq : forall M i j x a b, a <> i \/ b <> j -> set2 M i j x a b = M a b.
Proof.
  intros M i j x a b H. unfold set2.
  destruct (Nat.eqb_spec a i), (Nat.eqb_spec b j); cbn; try reflexivity. lia.
Qed.
