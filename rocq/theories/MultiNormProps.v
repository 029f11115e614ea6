(* C452-C455: random vectors with given covariances *)
From Verif Require Import RBase Base MultiNorm MultiNormSpec.
From Coq Require Import List Lia Lra Bool PeanoNat.
Import ListNotations.
Local Open Scope R_scope.
Notation S := Datatypes.S.

Lemma sumf_ext n f g : (forall k, (k < n)%nat -> f k = g k) -> sumf n f = sumf n g.
Proof. induction n as [|n IH]; intros H; cbn [sumf]; [reflexivity|]. rewrite IH, H by (auto; lia). reflexivity. Qed.
Lemma set_same m i j v : set_at m i j v i j = v.
Proof. unfold set_at. now rewrite !Nat.eqb_refl. Qed.
Lemma set_other m i j v a b : a <> i \/ b <> j -> set_at m i j v a b = m a b.
Proof. intros H. unfold set_at. destruct (Nat.eqb_spec a i), (Nat.eqb_spec b j); cbn [andb]; try reflexivity. lia. Qed.
(* entry (a, b) of the product of the lower part with its transpose, b <= a *)
Definition dot (m : mtx) (a b : nat) : R := sumf (S b) (fun k => m a k * m b k).
Definition done (i j a b : nat) : Prop := (b <= a)%nat /\ ((a < i)%nat \/ a = i /\ (b < j)%nat).
Definition inv (c m : mtx) (i j : nat) : Prop :=
  (forall a b, (a < b)%nat -> m a b = c a b) /\ (forall a, ~ done i j a a -> m a a = c a a) /\ forall a b, done i j a b -> dot m a b = c b a /\ 0 <= m b b.
Lemma step_inv c m m' i j : (j <= i)%nat -> inv c m i j -> chol_at m i j = Ok m' -> inv c m' i (S j).
Proof.
  intros J (U & D & P) E. unfold chol_at in E. cbv zeta in E.
  assert (G : forall v, (forall a b, (a < b)%nat -> set_at m i j v a b = c a b) /\ (forall a, ~ done i (S j) a a -> set_at m i j v a a = c a a) /\ (forall a b, done i j a b -> dot (set_at m i j v) a b = c b a)).
  { intros v. split; [intros a b L; rewrite set_other by lia; now apply U|]. split.
    - intros a N. destruct (Nat.eq_dec a i) as [->|NE].
      + destruct (Nat.eq_dec i j) as [->|]; [exfalso; apply N; unfold done; lia|]. rewrite set_other by lia. apply D. intros X. apply N. unfold done in *. lia.
      + rewrite set_other by lia. apply D. intros X. apply N. unfold done in *. lia.
    - intros a b X. rewrite <- (proj1 (P a b X)). unfold dot. apply sumf_ext. intros k K. unfold done in X. rewrite !set_other by lia. reflexivity. }
  assert (Q : forall v, sumf j (fun k => set_at m i j v i k * set_at m i j v j k) = sumf j (fun k => m i k * m j k)) by (intros v; apply sumf_ext; intros k K; now rewrite !set_other by lia).
  set (stot := sumf j (fun k => m i k * m j k)) in *.
  destruct (Nat.eqb_spec i j) as [<-|NE].
  - destruct (Rltb_spec (m i i - stot) 0) as [|NN]; [discriminate|]. injection E as <-. destruct (G (sqrt (m i i - stot))) as (G1 & G2 & G3). split; [exact G1|]. split; [exact G2|]. intros a b X.
    destruct (Nat.eq_dec a i) as [->|AN]; [destruct (Nat.eq_dec b i) as [->|BN]|].
    + split; [|rewrite set_same; apply sqrt_pos]. unfold dot. cbn [sumf]. rewrite Q, !set_same. rewrite sqrt_sqrt by lra. rewrite D by (unfold done; lia). ring.
    + assert (X' : done i i i b) by (unfold done in *; lia). split; [now apply G3|]. rewrite set_other by lia. apply (P i b X').
    + assert (X' : done i i a b) by (unfold done in *; lia). split; [now apply G3|]. rewrite set_other by (unfold done in *; lia). apply (P a b X').
  - destruct (Reqb_spec (m j j) 0) as [|NZ]; [discriminate|]. injection E as <-. match goal with |- inv _ (set_at _ _ _ ?w) _ _ => set (v := w) in * end. destruct (G v) as (G1 & G2 & G3). split; [exact G1|]. split; [exact G2|]. intros a b X.
    destruct (Nat.eq_dec a i) as [->|AN]; [destruct (Nat.eq_dec b j) as [->|BN]|].
    + split; [|rewrite set_other by lia; apply (P j j); unfold done; lia]. unfold dot. cbn [sumf]. rewrite Q, set_same, (set_other m i j v j j) by lia. unfold v. rewrite U by lia. fold stot. field. exact NZ.
    + assert (X' : done i j i b) by (unfold done in *; lia). split; [now apply G3|]. rewrite set_other by lia. apply (P i b X').
    + assert (X' : done i j a b) by (unfold done in *; lia). split; [now apply G3|]. rewrite set_other by (unfold done in *; lia). apply (P a b X').
Qed.
Lemma cols_inv c i : forall n m m' j, (j + n = S i)%nat -> inv c m i j -> chol_cols m i j n = Ok m' -> inv c m' i (S i).
Proof.
  induction n as [|n IH]; intros m m' j H I E; cbn [chol_cols] in E; [injection E as <-; replace (S i) with j by lia; exact I|].
  destruct (chol_at m i j) as [m1| |] eqn:E1; cbn [bind] in E; try discriminate. apply (IH m1 m' (S j)); [lia| |exact E]. apply (step_inv c m m1 i j); [lia|exact I|exact E1].
Qed.
Lemma rows_inv c : forall n m m' i, inv c m i 0 -> chol_rows m i n = Ok m' -> inv c m' (i + n) 0.
Proof.
  induction n as [|n IH]; intros m m' i I E; cbn [chol_rows] in E; [injection E as <-; now rewrite Nat.add_0_r|].
  destruct (chol_cols m i 0 (S i)) as [m1| |] eqn:E1; cbn [bind] in E; try discriminate. replace (i + S n)%nat with (S i + n)%nat by lia. apply (IH m1 m' (S i)); [|exact E]. destruct (cols_inv c i (S i) m m1 0 eq_refl I E1) as (A & B & D). split; [exact A|]. split.
  - intros a N. apply B. intros X. apply N. unfold done in *. lia.
  - intros a b X. apply D. unfold done in *. lia.
Qed.
Lemma chol_ok n c l : chol_rows c 0 n = Ok l -> forall a b, (b <= a)%nat -> (a < n)%nat -> dot l a b = c b a /\ 0 <= l b b.
Proof.
  intros E. assert (I : inv c c 0 0) by (split; [reflexivity|]; split; [reflexivity|]; unfold done; intros; lia). destruct (rows_inv c n c l 0 I E) as (_ & _ & P). intros a b B A. apply P. unfold done. lia.
Qed.
(* C452: the lower part times its transpose is the covariance; only the part on and above the diagonal counts *)
Definition low (l : mtx) (a k : nat) : R := if Nat.leb k a then l a k else 0.
Lemma sumf_low l n a b : (b <= a)%nat -> (a < n)%nat -> sumf n (fun k => low l a k * low l b k) = dot l a b.
Proof.
  intros B A. unfold dot. assert (H : forall d, sumf (S b + d) (fun k => low l a k * low l b k) = sumf (S b) (fun k => l a k * l b k)).
  { induction d as [|d IH].
    - rewrite Nat.add_0_r. apply sumf_ext. intros k K. unfold low. rewrite !(proj2 (Nat.leb_le _ _)) by lia. reflexivity.
    - replace (S b + S d)%nat with (S (S b + d)) by lia. cbn [sumf] in IH |- *. rewrite IH. unfold low at 2. rewrite (proj2 (Nat.leb_gt _ _)) by lia. ring. }
  replace n with (S b + (n - S b))%nat by lia. apply H.
Qed.
Theorem C452_factor : forall n nr nc ms c l, make_normal n nr nc ms c = Ok l -> (0 < n)%nat /\ (n <= nc)%nat /\ nc = nr /\ (n <= ms)%nat /\
  forall i j, (i <= j)%nat -> (j < n)%nat -> sumf n (fun k => low l i k * low l j k) = c i j /\ 0 <= l i i.
Proof.
  intros n nr nc ms c l E. unfold make_normal in E. destruct (Nat.eqb_spec n 0); cbn [orb] in E; [discriminate|]. destruct (Nat.ltb_spec nc n); cbn [orb] in E; [discriminate|]. destruct (Nat.eqb_spec nc nr); cbn [orb negb] in E; [|discriminate]. destruct (Nat.ltb_spec ms n); cbn [orb] in E; [discriminate|]. repeat split; try lia.
  - rewrite (sumf_ext n _ (fun k => low l j k * low l i k)) by (intros; ring). rewrite sumf_low by lia. apply (chol_ok n c l E j i); lia.
  - apply (chol_ok n c l E j i); lia.
Qed.
Print Assumptions C452_factor.
Theorem C452_dimension : forall n nr nc ms c, (n = 0 \/ nc < n \/ nc <> nr \/ ms < n)%nat <-> make_normal n nr nc ms c = Throw Dimension.
Proof.
  assert (A : forall n c i, chol_rows c i n <> Throw Dimension).
  { assert (K : forall n m i j, chol_cols m i j n <> Throw Dimension).
    { induction n as [|n IH]; intros m i j; cbn [chol_cols]; [discriminate|]. unfold chol_at. cbv zeta. destruct (Nat.eqb i j); [destruct (Rltb _ _)|destruct (Reqb _ _)]; cbn [bind]; try discriminate; apply IH. }
    induction n as [|n IH]; intros c i; cbn [chol_rows]; [discriminate|]. specialize (K (S i) c i 0%nat). destruct (chol_cols c i 0 (S i)) as [m|e|]; cbn [bind]; [apply IH|exact K|discriminate]. }
  intros n nr nc ms c. unfold make_normal. destruct (Nat.eqb_spec n 0), (Nat.ltb_spec nc n), (Nat.eqb_spec nc nr), (Nat.ltb_spec ms n); cbn [orb negb]; split; intros HD; try reflexivity; try lia; now apply A in HD.
Qed.
Print Assumptions C452_dimension.
(* C453: the moments of the vectors *)
Lemma rand_eq l mean : forall n x i, rand_loop l mean x n i = if Nat.ltb i n then mean i + sumf (S i) (fun j => l i j * x j) else x i.
Proof.
  induction n as [|n IH]; intros x i; cbn [rand_loop]; [reflexivity|]. rewrite IH. destruct (Nat.ltb_spec i n).
  - replace (Nat.ltb i (S n)) with true by (symmetry; apply Nat.ltb_lt; lia). f_equal. apply sumf_ext. intros k K. unfold put_at. replace (Nat.eqb k n) with false by (symmetry; apply Nat.eqb_neq; lia). reflexivity.
  - unfold put_at. destruct (Nat.eqb_spec i n) as [->|].
    + replace (Nat.ltb n (S n)) with true by (symmetry; apply Nat.ltb_lt; lia). cbn [sumf]. ring.
    + replace (Nat.ltb i (S n)) with false by (symmetry; apply Nat.ltb_ge; lia). reflexivity.
Qed.
Lemma av_ext {A} (f g : A -> R) e : (forall z, f z = g z) -> av f e = av g e.
Proof. intros H. induction e as [|(w, x) e IH]; cbn [av]; [reflexivity|]. now rewrite H, IH. Qed.
Lemma av_plus {A} (f g : A -> R) e : av (fun z => f z + g z) e = av f e + av g e.
Proof. induction e as [|(w, x) e IH]; cbn [av]; [ring|]. rewrite IH. ring. Qed.
Lemma av_scal {A} (f : A -> R) c e : av (fun z => c * f z) e = c * av f e.
Proof. induction e as [|(w, x) e IH]; cbn [av]; [ring|]. rewrite IH. ring. Qed.
Lemma av_sum {A} (f : nat -> A -> R) e : forall n, av (fun z => sumf n (fun k => f k z)) e = sumf n (fun k => av (f k) e).
Proof. induction n as [|n IH]; cbn [sumf]; [induction e as [|(w, x) e IH]; cbn [av]; [reflexivity|rewrite IH; ring]|]. rewrite av_plus, IH. reflexivity. Qed.
Lemma sumf_scal c f : forall n, sumf n (fun k => c * f k) = c * sumf n f.
Proof. induction n as [|n IH]; cbn [sumf]; [ring|]. rewrite IH. ring. Qed.
Lemma sumf_delta a f : forall n, (a < n)%nat -> sumf n (fun k => f k * (if Nat.eqb a k then 1 else 0)) = f a.
Proof.
  assert (Z : forall n, (n <= a)%nat -> sumf n (fun k => f k * (if Nat.eqb a k then 1 else 0)) = 0).
  { induction n as [|n IH]; intros N; cbn [sumf]; [reflexivity|]. rewrite IH by lia. replace (Nat.eqb a n) with false by (symmetry; apply Nat.eqb_neq; lia). ring. }
  induction n as [|n IH]; intros N; [lia|]. cbn [sumf]. destruct (Nat.eqb_spec a n) as [->|]; [rewrite Z by lia; ring|]. rewrite IH by lia. ring.
Qed.
Lemma low_sum l x i : forall n, (i < n)%nat -> sumf (S i) (fun j => l i j * x j) = sumf n (fun j => low l i j * x j).
Proof.
  intros n N. assert (H : forall d, sumf (S i + d) (fun j => low l i j * x j) = sumf (S i) (fun j => l i j * x j)).
  { induction d as [|d IH].
    - rewrite Nat.add_0_r. apply sumf_ext. intros k K. unfold low. rewrite (proj2 (Nat.leb_le _ _)) by lia. reflexivity.
    - replace (S i + S d)%nat with (S (S i + d)) by lia. cbn [sumf] in IH |- *. rewrite IH. unfold low. rewrite (proj2 (Nat.leb_gt _ _)) by lia. ring. }
  replace n with (S i + (n - S i))%nat by lia. symmetry. apply H.
Qed.
Theorem C453_moments : forall n nr nc ms c l mean e, make_normal n nr nc ms c = Ok l -> standard n e ->
  (forall i, (i < n)%nat -> av (fun z => rand_loop l mean z n i) e = mean i) /\
  forall i j, (i <= j)%nat -> (j < n)%nat -> av (fun z => (rand_loop l mean z n i - mean i) * (rand_loop l mean z n j - mean j)) e = c i j.
Proof.
  intros n nr nc ms c l mean e E (W & M & V). destruct (C452_factor n nr nc ms c l E) as (_ & _ & _ & _ & F).
  assert (Q : forall i z, (i < n)%nat -> rand_loop l mean z n i = mean i * 1 + sumf n (fun k => low l i k * z k)) by (intros i z I; rewrite rand_eq; apply Nat.ltb_lt in I as I'; rewrite I', (low_sum l z i n I); ring). split.
  - intros i I. rewrite (av_ext _ _ e (fun z => Q i z I)), av_plus, av_scal, W, av_sum. rewrite (sumf_ext n _ (fun _ => 0 * 0)); [rewrite sumf_scal; ring|]. intros k K. rewrite av_scal, M by exact K. ring.
  - intros i j J N. rewrite <- (proj1 (F i j J N)). rewrite (av_ext _ (fun z => sumf n (fun k => sumf n (fun h => (low l i k * low l j h) * (z k * z h)))) e).
    + rewrite av_sum. apply sumf_ext. intros k K. rewrite av_sum. rewrite (sumf_ext n _ (fun h => low l i k * low l j h * (if Nat.eqb k h then 1 else 0))); [now apply sumf_delta|]. intros h H. now rewrite av_scal, V.
    + intros z. rewrite !Q by lia. replace (mean i * 1 + sumf n (fun k => low l i k * z k) - mean i) with (sumf n (fun k => low l i k * z k)) by ring. replace (mean j * 1 + sumf n (fun k => low l j k * z k) - mean j) with (sumf n (fun k => low l j k * z k)) by ring. rewrite Rmult_comm, <- sumf_scal. apply sumf_ext. intros k K. rewrite Rmult_comm, <- sumf_scal. apply sumf_ext. intros h H. ring.
Qed.
Print Assumptions C453_moments.
Example C453_ex : (exists l, make_normal 1 1 1 1 (fun _ _ => 4) = Ok l) /\ standard 1 [(1 / 2, fun _ => 1); (1 / 2, fun _ => -1)].
Proof.
  split.
  - unfold make_normal. cbn [Nat.eqb Nat.ltb Nat.leb negb orb chol_rows chol_cols]. unfold chol_at. cbn [sumf Nat.eqb]. cbv zeta. rewrite Rltb_false by lra. cbn [bind]. eexists. reflexivity.
  - unfold standard. cbn [av]. split; [lra|]. split; [intros; lra|]. intros i j I J. replace i with 0%nat by lia. replace j with 0%nat by lia. cbn [Nat.eqb]. lra.
Qed.
(* C454: a coordinate without spread *)
Theorem C454_flat_refuted : forall n nr ms c, (2 <= n)%nat -> (n <= nr)%nat -> (n <= ms)%nat -> c 0%nat 0%nat = 0 -> make_normal n nr nr ms c = Throw NoNumber.
Proof.
  intros n nr ms c N R M Z. unfold make_normal. replace (Nat.eqb n 0) with false by (symmetry; apply Nat.eqb_neq; lia). replace (Nat.ltb nr n) with false by (symmetry; apply Nat.ltb_ge; lia). rewrite Nat.eqb_refl. replace (Nat.ltb ms n) with false by (symmetry; apply Nat.ltb_ge; lia). cbn [orb negb].
  destruct n as [|[|n]]; try lia. cbn [chol_rows chol_cols]. unfold chol_at at 1. cbn [sumf Nat.eqb]. cbv zeta. rewrite Rltb_false by lra. cbn [bind]. unfold chol_at at 1. cbn [sumf Nat.eqb]. cbv zeta. rewrite set_same. rewrite Reqb_true; [reflexivity|]. rewrite Z, Rminus_0_r. apply sqrt_0.
Qed.
Print Assumptions C454_flat_refuted.
(* C455: what is taken is a covariance *)
Lemma sumf_swap f : forall n m, sumf n (fun i => sumf m (fun j => f i j)) = sumf m (fun j => sumf n (fun i => f i j)).
Proof.
  assert (P : forall g h m, sumf m (fun j => g j + h j) = sumf m g + sumf m h) by (intros g h; induction m as [|m IH]; cbn [sumf]; [ring|rewrite IH; ring]).
  induction n as [|n IH]; intros m; cbn [sumf]; [induction m as [|m IH]; cbn [sumf]; [reflexivity|rewrite <- IH; ring]|]. rewrite IH, P. reflexivity.
Qed.
Lemma sumf_sq g : forall n, 0 <= sumf n (fun k => g k * g k).
Proof. induction n as [|n IH]; cbn [sumf]; [lra|]. assert (0 <= g n * g n) by apply Rle_0_sqr. lra. Qed.
Theorem C455_positive : forall n nr nc ms c l v, (forall i j, c i j = c j i) -> make_normal n nr nc ms c = Ok l -> 0 <= sumf n (fun i => sumf n (fun j => v i * v j * c i j)).
Proof.
  intros n nr nc ms c l v Y E. destruct (C452_factor n nr nc ms c l E) as (_ & _ & _ & _ & F).
  assert (G : forall i j, (i < n)%nat -> (j < n)%nat -> c i j = sumf n (fun k => low l i k * low l j k)).
  { intros i j I J. destruct (Nat.le_ge_cases i j) as [L|L]; [symmetry; now apply F|]. rewrite Y, <- (proj1 (F j i L I)). apply sumf_ext. intros; ring. }
  rewrite (sumf_ext n _ (fun i => sumf n (fun k => (v i * low l i k) * sumf n (fun j => v j * low l j k)))).
  - rewrite sumf_swap. rewrite (sumf_ext n _ (fun k => sumf n (fun j => v j * low l j k) * sumf n (fun j => v j * low l j k))).
    + apply (sumf_sq (fun k => sumf n (fun j => v j * low l j k))).
    + intros k K. rewrite <- sumf_scal. apply sumf_ext. intros i I. ring.
  - intros i I. rewrite (sumf_ext n (fun k => v i * low l i k * _) (fun k => sumf n (fun j => v i * low l i k * (v j * low l j k)))) by (intros; now rewrite sumf_scal). rewrite sumf_swap. apply sumf_ext. intros j J. rewrite (G i j I J), <- sumf_scal. apply sumf_ext. intros k K. ring.
Qed.
Print Assumptions C455_positive.
Example C455_ex : make_normal 1 1 1 1 (fun _ _ => -1) = Throw NegativeRoot.
Proof. unfold make_normal. cbn [Nat.eqb Nat.ltb Nat.leb negb orb chol_rows chol_cols]. unfold chol_at. cbn [sumf Nat.eqb]. cbv zeta. now rewrite Rltb_true by lra. Qed.
