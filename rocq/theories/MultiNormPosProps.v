(* C456: every positive definite covariance is taken *)
From Verif Require Import RBase Base MultiNorm MultiNormSpec MultiNormProps.
From Coq Require Import List Lia Lra Bool PeanoNat.
Import ListNotations.
Local Open Scope R_scope.
Notation S := Datatypes.S.

(* specification: the form v' c v of n dimensions *)
Definition form (n : nat) (c : mtx) (v : nat -> R) : R := sumf n (fun i => sumf n (fun j => v i * v j * c i j)).
Definition posdef (n : nat) (c : mtx) : Prop := forall v, (exists i, (i < n)%nat /\ v i <> 0) -> 0 < form n c v.

Lemma sumf_plus g h : forall m, sumf m (fun j => g j + h j) = sumf m g + sumf m h.
Proof. induction m as [|m IH]; cbn [sumf]; [ring|rewrite IH; ring]. Qed.
Lemma sumf_zero f n : (forall k, (k < n)%nat -> f k = 0) -> sumf n f = 0.
Proof. induction n as [|n IH]; intros H; cbn [sumf]; [reflexivity|]. rewrite IH, H by (auto; lia). ring. Qed.
Lemma sumf_trunc f n m : (m <= n)%nat -> (forall k, (m <= k)%nat -> f k = 0) -> sumf n f = sumf m f.
Proof.
  intros L Z. assert (H : forall d, sumf (m + d) f = sumf m f).
  { induction d as [|d IH]; [now rewrite Nat.add_0_r|]. replace (m + S d)%nat with (S (m + d)) by lia. cbn [sumf]. rewrite IH, Z by lia. ring. }
  replace n with (m + (n - m))%nat by lia. apply H.
Qed.
Lemma sumf_put v g k t : forall n, (k < n)%nat -> sumf n (fun a => put_at v k t a * g a) = sumf n (fun a => v a * g a) + (t - v k) * g k.
Proof.
  intros n K. rewrite (sumf_ext n _ (fun a => v a * g a + ((t - v k) * g a) * (if Nat.eqb k a then 1 else 0))).
  - rewrite sumf_plus. now rewrite (sumf_delta k (fun a => (t - v k) * g a) n K).
  - intros a A. unfold put_at. rewrite (Nat.eqb_sym a k). destruct (Nat.eqb_spec k a) as [->|]; ring.
Qed.
Lemma low_dot l n a b : (b <= a)%nat -> (b < n)%nat -> sumf n (fun k => low l a k * low l b k) = dot l a b.
Proof.
  intros B N. rewrite (sumf_trunc _ n (S b)).
  - unfold dot. apply sumf_ext. intros k K. unfold low. rewrite !(proj2 (Nat.leb_le _ _)) by lia. reflexivity.
  - lia.
  - intros k K. unfold low at 2. rewrite (proj2 (Nat.leb_gt _ _)) by lia. ring.
Qed.
Lemma quad n p v (g : nat -> nat -> R) : sumf n (fun a => sumf n (fun b => v a * v b * sumf p (fun k => g a k * g b k))) = sumf p (fun k => sumf n (fun a => v a * g a k) * sumf n (fun a => v a * g a k)).
Proof.
  rewrite (sumf_ext n _ (fun a => sumf p (fun k => sumf n (fun b => (v a * g a k) * (v b * g b k))))).
  - rewrite sumf_swap. apply sumf_ext. intros k K. rewrite <- sumf_scal. apply sumf_ext. intros a A. rewrite sumf_scal. ring.
  - intros a A. rewrite <- sumf_swap. apply sumf_ext. intros b B. rewrite <- sumf_scal. apply sumf_ext. intros k K. ring.
Qed.
(* a vector that the columns before i do not see *)
Lemma back l i : (forall k, (k < i)%nat -> l k k <> 0) -> forall d, (d <= i)%nat -> exists v : nat -> R, v i = 1 /\ (forall a, (i < a)%nat -> v a = 0) /\ (forall a, (a < i - d)%nat -> v a = 0) /\
  forall k, (i - d <= k)%nat -> (k < i)%nat -> sumf (S i) (fun a => v a * low l a k) = 0.
Proof.
  intros NZ. induction d as [|d IH]; intros D.
  - exists (fun a => if Nat.eqb a i then 1 else 0). split; [now rewrite Nat.eqb_refl|]. split; [intros a A; replace (Nat.eqb a i) with false by (symmetry; apply Nat.eqb_neq; lia); reflexivity|]. split; [intros a A; replace (Nat.eqb a i) with false by (symmetry; apply Nat.eqb_neq; lia); reflexivity|]. intros; lia.
  - destruct IH as (v & V1 & V2 & V3 & V4); [lia|]. set (k0 := (i - S d)%nat). set (t := - sumf (S i) (fun a => v a * low l a k0) / l k0 k0). exists (put_at v k0 t).
    assert (P : forall a, a <> k0 -> put_at v k0 t a = v a) by (intros a A; unfold put_at; now rewrite (proj2 (Nat.eqb_neq a k0) A)).
    split; [rewrite P by (unfold k0; lia); exact V1|]. split; [intros a A; rewrite P by (unfold k0; lia); now apply V2|]. split; [intros a A; rewrite P by (unfold k0; lia); apply V3; lia|].
    intros k K1 K2. rewrite (sumf_put v (fun a => low l a k) k0 t (S i)) by (unfold k0; lia). destruct (Nat.eq_dec k k0) as [->|NE].
    + rewrite (V3 k0) by (unfold k0; lia). unfold low at 2. rewrite Nat.leb_refl. unfold t. field. apply NZ. unfold k0; lia.
    + rewrite V4 by (unfold k0 in *; lia). unfold low. rewrite (proj2 (Nat.leb_gt _ _)) by (unfold k0 in *; lia). ring.
Qed.
Definition pos (m : mtx) (i j : nat) : Prop := forall b, done i j b b -> 0 < m b b.
Lemma rest_pos n c m i : (forall a b, c a b = c b a) -> posdef n c -> (i < n)%nat -> inv c m i i -> pos m i i -> 0 < m i i - sumf i (fun k => m i k * m i k).
Proof.
  intros Y PD N (U & D & P) Q. rewrite D by (unfold done; lia). set (x := c i i - sumf i (fun k => m i k * m i k)).
  destruct (back m i) with (d := i) as (v & V1 & V2 & _ & V4); [intros k K; apply Rgt_not_eq, Q; unfold done; lia|lia|].
  assert (C : forall a b, (b <= a)%nat -> (a <= i)%nat -> c a b = sumf i (fun k => low m a k * low m b k) + x * ((if Nat.eqb i a then 1 else 0) * (if Nat.eqb i b then 1 else 0))).
  { intros a b B A. destruct (Nat.eq_dec b i) as [->|NE].
    - replace a with i by lia. rewrite Nat.eqb_refl. unfold x. rewrite (sumf_ext i (fun k => low m i k * low m i k) (fun k => m i k * m i k)); [ring|]. intros k K. unfold low. rewrite (proj2 (Nat.leb_le _ _)) by lia. reflexivity.
    - rewrite low_dot by lia. replace (Nat.eqb i b) with false by (symmetry; apply Nat.eqb_neq; lia). rewrite (proj1 (P a b ltac:(unfold done; lia))). rewrite Y. ring. }
  assert (C2 : forall a b, (a <= i)%nat -> (b <= i)%nat -> c a b = sumf i (fun k => low m a k * low m b k) + x * ((if Nat.eqb i a then 1 else 0) * (if Nat.eqb i b then 1 else 0))).
  { intros a b A B. destruct (Nat.le_ge_cases b a) as [L|L]; [now apply C|]. rewrite Y, (C b a L B). rewrite (sumf_ext i (fun k => low m b k * low m a k) (fun k => low m a k * low m b k)) by (intros; ring). ring. }
  assert (F : form n c v = x).
  { unfold form. rewrite (sumf_trunc _ n (S i)) by (try lia; intros a A; apply sumf_zero; intros b B; rewrite (V2 a) by lia; ring).
    rewrite (sumf_ext (S i) _ (fun a => sumf (S i) (fun b => v a * v b * sumf i (fun k => low m a k * low m b k)) + (x * v a) * (if Nat.eqb i a then 1 else 0))).
    - rewrite sumf_plus, quad. rewrite (sumf_zero (fun k => _ * _) i) by (intros k K; rewrite V4 by lia; ring). rewrite (sumf_delta i (fun a => x * v a) (S i)) by lia. rewrite V1. ring.
    - intros a A. rewrite (sumf_trunc _ n (S i)) by (try lia; intros b B; rewrite (V2 b) by lia; ring).
      rewrite (sumf_ext (S i) _ (fun b => v a * v b * sumf i (fun k => low m a k * low m b k) + (x * v a * (if Nat.eqb i a then 1 else 0) * v b) * (if Nat.eqb i b then 1 else 0))) by (intros b B; rewrite (C2 a b) by lia; ring).
      rewrite sumf_plus. rewrite (sumf_delta i (fun b => x * v a * (if Nat.eqb i a then 1 else 0) * v b) (S i)) by lia. rewrite V1. ring. }
  rewrite <- F. apply PD. exists i. split; [exact N|]. rewrite V1. apply R1_neq_R0.
Qed.
Lemma at_ok n c m i j : (forall a b, c a b = c b a) -> posdef n c -> (i < n)%nat -> (j <= i)%nat -> inv c m i j -> pos m i j -> exists m', chol_at m i j = Ok m' /\ inv c m' i (S j) /\ pos m' i (S j).
Proof.
  intros Y PD N J I Q. assert (H : exists m', chol_at m i j = Ok m' /\ pos m' i (S j)).
  { unfold chol_at. cbv zeta. destruct (Nat.eqb_spec i j) as [<-|NE].
    - assert (X := rest_pos n c m i Y PD N I Q). rewrite Rltb_false by lra. eexists. split; [reflexivity|]. intros b B. destruct (Nat.eq_dec b i) as [->|]; [rewrite set_same; now apply sqrt_lt_R0|]. rewrite set_other by lia. apply Q. unfold done in *. lia.
    - assert (Z : 0 < m j j) by (apply Q; unfold done; lia). rewrite Reqb_false by lra. eexists. split; [reflexivity|]. intros b B. rewrite set_other by lia. apply Q. unfold done in *. lia. }
  destruct H as (m' & E & P). exists m'. split; [exact E|]. split; [|exact P]. apply (step_inv c m m' i j J I E).
Qed.
Lemma cols_ok n c i : (forall a b, c a b = c b a) -> posdef n c -> (i < n)%nat -> forall k m j, (j + k = S i)%nat -> inv c m i j -> pos m i j -> exists m', chol_cols m i j k = Ok m' /\ pos m' i (S i).
Proof.
  intros Y PD N. induction k as [|k IH]; intros m j H I Q; cbn [chol_cols]; [exists m; split; [reflexivity|]; replace (S i) with j by lia; exact Q|].
  destruct (at_ok n c m i j Y PD N ltac:(lia) I Q) as (m1 & E & I1 & Q1). rewrite E. cbn [bind]. apply IH; [lia|exact I1|exact Q1].
Qed.
Lemma rows_ok n c : (forall a b, c a b = c b a) -> posdef n c -> forall k m i, (i + k = n)%nat -> inv c m i 0 -> pos m i 0 -> exists m', chol_rows m i k = Ok m' /\ pos m' n 0.
Proof.
  intros Y PD. induction k as [|k IH]; intros m i H I Q; cbn [chol_rows]; [exists m; split; [reflexivity|]; replace n with i by lia; exact Q|].
  destruct (cols_ok n c i Y PD ltac:(lia) (S i) m 0%nat eq_refl I Q) as (m1 & E & Q1). rewrite E. cbn [bind]. destruct (cols_inv c i (S i) m m1 0 eq_refl I E) as (A & B & D). apply IH; [lia| |].
  - split; [exact A|]. split; [intros a X; apply B; intros X'; apply X; unfold done in *; lia|]. intros a b X. apply D. unfold done in *. lia.
  - intros b X. apply Q1. unfold done in *. lia.
Qed.
Theorem C456_taken : forall n nr ms c, (0 < n)%nat -> (n <= nr)%nat -> (n <= ms)%nat -> (forall i j, c i j = c j i) -> posdef n c -> exists l, make_normal n nr nr ms c = Ok l /\ forall i, (i < n)%nat -> 0 < l i i.
Proof.
  intros n nr ms c N R M Y PD. unfold make_normal. replace (Nat.eqb n 0) with false by (symmetry; apply Nat.eqb_neq; lia). replace (Nat.ltb nr n) with false by (symmetry; apply Nat.ltb_ge; lia). rewrite Nat.eqb_refl. replace (Nat.ltb ms n) with false by (symmetry; apply Nat.ltb_ge; lia). cbn [orb negb].
  destruct (rows_ok n c Y PD n c 0%nat eq_refl) as (l & E & Q); [split; [reflexivity|]; split; [reflexivity|]; unfold done; intros; lia|unfold pos, done; intros; lia|]. exists l. split; [exact E|]. intros i I. apply Q. unfold done. lia.
Qed.
Print Assumptions C456_taken.
Example C456_ex : posdef 2 (fun i j => if Nat.eqb i j then 2 else 1).
Proof.
  intros v (i & I & V). unfold form. cbn [sumf Nat.eqb]. assert (H : v 0%nat <> 0 \/ v 1%nat <> 0) by (destruct i as [|[|i]]; [now left|now right|lia]).
  assert (A : 0 <= v 0%nat * v 0%nat) by apply Rle_0_sqr. assert (B : 0 <= v 1%nat * v 1%nat) by apply Rle_0_sqr. assert (C : 0 <= (v 0%nat + v 1%nat) * (v 0%nat + v 1%nat)) by apply Rle_0_sqr.
  destruct H as [H|H]; [assert (0 < v 0%nat * v 0%nat) by (now apply Rsqr_pos_lt)|assert (0 < v 1%nat * v 1%nat) by (now apply Rsqr_pos_lt)]; lra.
Qed.
