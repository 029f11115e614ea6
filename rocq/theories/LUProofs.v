(* Lemmas on LU.v *)
From Coq Require Import Lia.
From Verif Require Import RBase Mat MatFacts Gauss LU.
Local Open Scope R_scope.

Lemma loop_split : forall T lo m (f : nat -> T -> T) (P : nat -> T -> Prop) s,
  P 0%nat s -> (forall k t, (k < m)%nat -> P k t -> P (Datatypes.S k) (f (lo + k)%nat t)) ->
  P m (loop lo m f s).
Proof.
  intros T lo m f P s H0 HS.
  assert (G : forall k, (k <= m)%nat -> P k (loop lo k f s)).
  { induction k as [| k IH]; intros Hk; [exact H0 |]. rewrite loop_S. apply HS; [lia |]. apply IH. lia. }
  apply G. lia.
Qed.

Lemma loop_sub : forall lo m (g : nat -> R) s,
  loop lo m (fun j t => t - g j) s = s - sumn m (fun k => g (lo + k)%nat).
Proof.
  intros lo m g s. apply (loop_split R lo m (fun j t => t - g j)
    (fun k t => t = s - sumn k (fun k => g (lo + k)%nat))).
  - cbn. ring.
  - intros k t _ ->. rewrite sumn_S. ring.
Qed.

Lemma reduce_ok : forall i j m M, (m <= i)%nat -> (m <= j)%nat ->
  reduce i j m M i j = M i j - sumn m (fun k => M i k * M k j) /\
  forall a b, a <> i \/ b <> j -> reduce i j m M a b = M a b.
Proof.
  intros i j m M Hi Hj. unfold reduce.
  apply (loop_split _ 0 m _ (fun k M' => M' i j = M i j - sumn k (fun k => M i k * M k j) /\
    forall a b, a <> i \/ b <> j -> M' a b = M a b)).
  - split; [cbn; ring | auto].
  - intros k t Hk [H1 H2]. cbn [Nat.add]. split.
    + rewrite set2_eq, H1, sumn_S, (H2 i k), (H2 k j) by lia. ring.
    + intros a b H. rewrite set2_neq by assumption. auto.
Qed.

Lemma upper_ok : forall j M,
  (forall a, (a < j)%nat -> upper j M a j = M a j - sumn a (fun k => M a k * upper j M k j)) /\
  (forall a b, (j <= a)%nat \/ b <> j -> upper j M a b = M a b).
Proof.
  intros j M. unfold upper.
  enough (G : forall m, (m <= j)%nat -> let M' := loop 0 m (fun i M => reduce i j i M) M in
    (forall a, (a < m)%nat -> M' a j = M a j - sumn a (fun k => M a k * M' k j)) /\
    (forall a b, (m <= a)%nat \/ b <> j -> M' a b = M a b)) by (apply G; lia).
  intros m Hm. cbn zeta.
  apply (loop_split _ 0 m _ (fun k M' => (forall a, (a < k)%nat -> M' a j = M a j - sumn a (fun k => M a k * M' k j)) /\
    (forall a b, (k <= a)%nat \/ b <> j -> M' a b = M a b))).
  - split; [intros; lia | auto].
  - intros k t Hk [H1 H2]. cbn [Nat.add]. destruct (reduce_ok k j k t) as [R1 R2]; [lia | lia |]. split.
    + intros a Ha. destruct (Nat.eq_dec a k) as [-> | N].
      * rewrite R1, (H2 k j) by lia. f_equal. apply sumn_ext. intros q Hq. rewrite (H2 k q), (R2 q j) by lia. reflexivity.
      * rewrite R2, H1 by lia. f_equal. apply sumn_ext. intros q Hq. rewrite (R2 q j) by lia. reflexivity.
    + intros a b H. rewrite R2, H2 by lia. reflexivity.
Qed.

Lemma lower_ok : forall n j sc M, (j < n)%nat -> (forall i, (i < n)%nat -> 0 < sc i) ->
  exists M' big im, lower n j sc M = (M', big, im) /\ (j <= im < n)%nat /\
  (forall a, (j <= a < n)%nat -> M' a j = M a j - sumn j (fun k => M a k * M k j)) /\
  (forall a b, (a < j)%nat \/ b <> j -> M' a b = M a b) /\
  (M' im j = 0 -> forall a, (j <= a < n)%nat -> M' a j = 0).
Proof.
  intros n j sc M Hj Hs. unfold lower.
  set (f := fun i (s : mat * R * nat) => _).
  assert (G : let r := loop j (n - j) f (M, 0, 0%nat) in
    (forall a, (j <= a < j + (n - j))%nat -> fst (fst r) a j = M a j - sumn j (fun k => M a k * M k j)) /\
    (forall a b, (a < j)%nat \/ (j + (n - j) <= a)%nat \/ b <> j -> fst (fst r) a b = M a b) /\
    ((n - j = 0)%nat /\ snd (fst r) = 0 \/
     (j <= snd r < j + (n - j))%nat /\ snd (fst r) = sc (snd r) * Rabs (fst (fst r) (snd r) j)) /\
    (forall a, (j <= a < j + (n - j))%nat -> sc a * Rabs (fst (fst r) a j) <= snd (fst r))).
  { cbn zeta.
    apply (loop_split _ j (n - j) f (fun m r => 
    (forall a, (j <= a < j + m)%nat -> fst (fst r) a j = M a j - sumn j (fun k => M a k * M k j)) /\
    (forall a b, (a < j)%nat \/ (j + m <= a)%nat \/ b <> j -> fst (fst r) a b = M a b) /\
    ((m = 0)%nat /\ snd (fst r) = 0 \/
     (j <= snd r < j + m)%nat /\ snd (fst r) = sc (snd r) * Rabs (fst (fst r) (snd r) j)) /\
    (forall a, (j <= a < j + m)%nat -> sc a * Rabs (fst (fst r) a j) <= snd (fst r)))).
    - cbn. split; [intros; lia |]. split; [auto |]. split; [auto | intros; lia].
    - intros m [[t big] im] Hm (H1 & H2 & H3 & H4). cbn [fst snd] in *.
      unfold f. set (i := (j + m)%nat) in *.
      destruct (reduce_ok i j j t) as [R1 R2]; [lia | lia |]. set (t' := reduce i j j t) in *.
      assert (E1 : forall a, (j <= a < j + Datatypes.S m)%nat -> t' a j = M a j - sumn j (fun k => M a k * M k j)).
      { intros a Ha. destruct (Nat.eq_dec a i) as [-> | N].
        - rewrite R1, (H2 i j) by lia. f_equal. apply sumn_ext. intros q Hq. rewrite (H2 i q), (H2 q j) by lia. reflexivity.
        - rewrite R2 by lia. apply H1. lia. }
      assert (E2 : forall a b, (a < j)%nat \/ (j + Datatypes.S m <= a)%nat \/ b <> j -> t' a b = M a b).
      { intros a b H. destruct H as [H | [H | H]].
        - rewrite R2 by lia. apply H2. lia.
        - rewrite R2 by lia. apply H2. lia.
        - rewrite R2 by lia. apply H2. lia. }
      assert (E3 : forall a, (j <= a < j + m)%nat -> sc a * Rabs (t' a j) <= big).
      { intros a Ha. rewrite R2 by lia. apply H4. exact Ha. }
      destruct (Rleb_spec big (sc i * Rabs (t' i j))) as [L | L]; cbn [fst snd]; (split; [exact E1 |]; split; [exact E2 |]).
      + split; [right; split; [lia | reflexivity] |]. intros a Ha. destruct (Nat.eq_dec a i) as [-> | N]; [lra |].
        pose proof (E3 a ltac:(lia)). lra.
      + assert (Z : sc i * Rabs (t' i j) < big) by lra.
        split.
        * right. destruct H3 as [[-> H3] | [H3 H5]].
          { exfalso. pose proof (Hs i ltac:(lia)). pose proof (Rabs_pos (t' i j)). subst big. nra. }
          split; [lia |]. rewrite H5. f_equal. f_equal. symmetry. apply R2. lia.
        * intros a Ha. destruct (Nat.eq_dec a i) as [-> | N]; [lra |]. apply E3. lia. }
  destruct (loop j (n - j) f (M, 0, 0%nat)) as [[M' big] im]. cbn [fst snd] in G. cbn zeta in G.
  destruct G as (G1 & G2 & G3 & G4). destruct G3 as [[Z _] | [G3 G5]]; [lia |].
  exists M', big, im. split; [reflexivity |]. split; [lia |].
  split; [intros a Ha; apply G1; lia |]. split; [intros a b H; apply G2; lia |].
  intros Z a Ha. rewrite Z, Rabs_R0, Rmult_0_r in G5. specialize (G4 a ltac:(lia)). specialize (Hs a ltac:(lia)).
  pose proof (Rabs_pos (M' a j)). destruct (Req_dec (M' a j) 0) as [| N]; [assumption |].
  apply Rabs_pos_lt in N. nra.
Qed.

Lemma divide_ok : forall lo m j d M, (j < lo)%nat -> let M' := loop lo m (fun i M => set2 M i j (M i j * d)) M in
  (forall a, (lo <= a < lo + m)%nat -> M' a j = M a j * d) /\
  (forall a b, (a < lo)%nat \/ (lo + m <= a)%nat \/ b <> j -> M' a b = M a b).
Proof.
  intros lo m j d M Hj. cbn zeta.
  apply (loop_split _ lo m _ (fun k M' => (forall a, (lo <= a < lo + k)%nat -> M' a j = M a j * d) /\
    (forall a b, (a < lo)%nat \/ (lo + k <= a)%nat \/ b <> j -> M' a b = M a b))).
  - split; [intros; lia | auto].
  - intros k t Hk [H1 H2]. split.
    + intros a Ha. destruct (Nat.eq_dec a (lo + k)) as [-> | N].
      * rewrite set2_eq, H2 by lia. reflexivity.
      * rewrite set2_neq by lia. apply H1. lia.
    + intros a b H. rewrite set2_neq by lia. apply H2. lia.
Qed.

(* scales *)
Lemma row_max_ok : forall n M i,
  (forall j, (j < n)%nat -> Rabs (M i j) <= row_max n M i) /\ 0 <= row_max n M i /\
  (row_max n M i = 0 \/ exists j, (j < n)%nat /\ row_max n M i = Rabs (M i j)).
Proof.
  intros n M i. unfold row_max.
  apply (loop_split _ 0 n _ (fun k b => (forall j, (j < k)%nat -> Rabs (M i j) <= b) /\ 0 <= b /\
    (b = 0 \/ exists j, (j < k)%nat /\ b = Rabs (M i j)))).
  - split; [intros; lia |]. split; [lra | auto].
  - intros k b Hk (H1 & H2 & H3). cbn [Nat.add].
    pose proof (Rmax_l (Rabs (M i k)) b). pose proof (Rmax_r (Rabs (M i k)) b).
    split; [| split; [lra |]].
    + intros j Hj. destruct (Nat.eq_dec j k) as [-> | N]; [assumption |]. specialize (H1 j ltac:(lia)). lra.
    + unfold Rmax. destruct (Rle_dec (Rabs (M i k)) b) as [L | L].
      * destruct H3 as [H3 | (j & Hj & H3)]; [auto | right; exists j; split; [lia | exact H3]].
      * right. exists k. split; [lia | reflexivity].
Qed.
Lemma row_max_zero : forall n M i, row_max n M i = 0 <-> (forall j, (j < n)%nat -> M i j = 0).
Proof.
  intros n M i. destruct (row_max_ok n M i) as (H1 & H2 & H3). split.
  - intros Z j Hj. specialize (H1 j Hj). rewrite Z in H1. destruct (Req_dec (M i j) 0) as [| N]; [assumption |].
    apply Rabs_pos_lt in N. lra.
  - intros H. destruct H3 as [H3 | (j & Hj & H3)]; [exact H3 |]. rewrite H3, H, Rabs_R0 by exact Hj. reflexivity.
Qed.
Lemma scales_ok : forall n m M,
  (exists i, (i < m)%nat /\ (forall j, (j < n)%nat -> M i j = 0)) /\ scales n m M = Throw LUSingularMatrix \/
  (forall i, (i < m)%nat -> exists j, (j < n)%nat /\ M i j <> 0) /\
  exists sc, scales n m M = Ok sc /\ forall i, (i < m)%nat -> 0 < sc i.
Proof.
  intros n m M. induction m as [| m IH]; cbn [scales].
  - right. split; [intros; lia |]. eexists. split; [reflexivity | intros; lia].
  - destruct IH as [[(i & Hi & Z) ->] | [NZ (sc & -> & P)]]; cbn [bind].
    + left. split; [exists i; split; [lia | exact Z] | reflexivity].
    + destruct (Reqb_spec (row_max n M m) 0) as [E | E].
      * left. split; [exists m; split; [lia |] | reflexivity]. apply row_max_zero. exact E.
      * right. split.
        -- intros i Hi. destruct (Nat.eq_dec i m) as [-> | N]; [| apply NZ; lia].
           destruct (row_max_ok n M m) as (_ & _ & [Z | (j & Hj & Z)]); [contradiction |].
           exists j. split; [exact Hj |]. intros Z'. rewrite Z', Rabs_R0 in Z. contradiction.
        -- eexists. split; [reflexivity |]. intros i Hi. destruct (Nat.eq_dec i m) as [-> | N].
           ++ rewrite set1_eq. destruct (row_max_ok n M m) as (_ & P0 & _).
              apply Rdiv_lt_0_compat; lra.
           ++ rewrite set1_neq by exact N. apply P. lia.
Qed.

(* Back substitution *)
Lemma back_ok : forall n M m v, (m <= n)%nat -> (forall i, (i < m)%nat -> M i i <> 0) ->
  (forall i, (m <= i < n)%nat -> back n m M v i = v i) /\
  (forall i, (i < m)%nat ->
    M i i * back n m M v i + sumn (n - (i + 1)) (fun k => M i (i + 1 + k)%nat * back n m M v (i + 1 + k)%nat) = v i).
Proof.
  intros n M. induction m as [| m IH]; intros v Hm D; cbn [back].
  - split; [reflexivity | intros; lia].
  - destruct (IH (back1 n M m v)) as [I1 I2]; [lia | intros; apply D; lia |].
    assert (U : forall i, i <> m -> back1 n M m v i = v i) by (intros; apply set1_neq; assumption).
    split.
    + intros i Hi. rewrite I1, U by lia. reflexivity.
    + intros i Hi. destruct (Nat.eq_dec i m) as [-> | N].
      * rewrite I1 by lia. unfold back1 at 1. rewrite set1_eq, loop_sub.
        rewrite (sumn_ext _ (fun k => M m (m + 1 + k)%nat * back n m M (back1 n M m v) (m + 1 + k)%nat)
          (fun k => M m (m + 1 + k)%nat * v (m + 1 + k)%nat)).
        2:{ intros k Hk. rewrite I1, U by lia. reflexivity. }
        field. apply D. lia.
      * rewrite I2 by lia. apply U. exact N.
Qed.

(* Lower and upper factors *)
Definition lf (M : mat) : mat := fun i k => if Nat.ltb k i then M i k else if Nat.eqb k i then 1 else 0.
Definition uf (M : mat) : mat := fun k c => if Nat.leb k c then M k c else 0.

Lemma back_uf : forall n M v, (forall i, (i < n)%nat -> M i i <> 0) ->
  forall i, (i < n)%nat -> mvec n (uf M) (back n n M v) i = v i.
Proof.
  intros n M v D i Hi. destruct (back_ok n M n v (le_n n) D) as [_ H]. rewrite <- (H i Hi).
  unfold mvec. rewrite (sumn_split n (i + 1)) by lia.
  replace (i + 1)%nat with (Datatypes.S i) at 1 by lia. rewrite sumn_S.
  rewrite (sumn_0 i). 2:{ intros k Hk. unfold uf. destruct (Nat.leb_spec i k); [lia | ring]. }
  unfold uf at 1. rewrite Nat.leb_refl, Rplus_0_l. f_equal. apply sumn_ext. intros k Hk. unfold uf.
  destruct (Nat.leb_spec i (i + 1 + k)); [reflexivity | lia].
Qed.

(* lf times a vector *)
Lemma lf_vec : forall n M y i, (i < n)%nat -> mvec n (lf M) y i = sumn i (fun k => M i k * y k) + y i.
Proof.
  intros n M y i Hi. unfold mvec. rewrite (sumn_split n (i + 1)) by lia.
  replace (i + 1)%nat with (Datatypes.S i) at 1 by lia. rewrite sumn_S.
  rewrite (sumn_0 (n - (i + 1))).
  2:{ intros k Hk. unfold lf. destruct (Nat.ltb_spec (i + 1 + k) i); [lia |].
      destruct (Nat.eqb_spec (i + 1 + k) i); [lia | ring]. }
  unfold lf at 2. rewrite Nat.ltb_irrefl, Nat.eqb_refl.
  rewrite (sumn_ext i _ (fun k => M i k * y k)). 2:{ intros k Hk. unfold lf. destruct (Nat.ltb_spec k i); [reflexivity | lia]. }
  ring.
Qed.
(* the product of the factors, column c, does not look at rows below c except
   in the left factor *)
Lemma lu_upper : forall n M i c, (i <= c)%nat -> (c < n)%nat ->
  mmul n (lf M) (uf M) i c = sumn i (fun k => M i k * M k c) + M i c.
Proof.
  intros n M i c Hc Hn. change (mmul n (lf M) (uf M) i c) with (mvec n (lf M) (fun k => uf M k c) i).
  rewrite lf_vec by lia. f_equal.
  - apply sumn_ext. intros k Hk. unfold uf. destruct (Nat.leb_spec k c); [reflexivity | lia].
  - unfold uf. destruct (Nat.leb_spec i c); [reflexivity | lia].
Qed.
Lemma lu_lower : forall n M i c, (c < i)%nat -> (i < n)%nat ->
  mmul n (lf M) (uf M) i c = sumn (Datatypes.S c) (fun k => M i k * M k c).
Proof.
  intros n M i c Hc Hn. change (mmul n (lf M) (uf M) i c) with (mvec n (lf M) (fun k => uf M k c) i).
  rewrite lf_vec by lia. unfold uf at 2. destruct (Nat.leb_spec i c); [lia |].
  rewrite (sumn_split i (Datatypes.S c)) by lia.
  rewrite (sumn_0 (i - Datatypes.S c)). 2:{ intros k Hk. unfold uf. destruct (Nat.leb_spec (Datatypes.S c + k) c); [lia | ring]. }
  rewrite !Rplus_0_r. apply sumn_ext. intros k Hk. unfold uf. destruct (Nat.leb_spec k c); [reflexivity | lia].
Qed.

(* Row exchanges: the j-th exchanges rows j and p_j *)
Definition exch (a b i : nat) : nat := if Nat.eqb i a then b else if Nat.eqb i b then a else i.
Fixpoint perm (m : nat) (p : nat -> nat) (i : nat) : nat :=
  match m with O => i | Datatypes.S k => perm k p (exch k (p k) i) end.
Lemma exch_exch : forall a b i, exch a b (exch a b i) = i.
Proof.
  intros a b i. unfold exch. destruct (Nat.eqb_spec i a) as [-> | N1].
  - destruct (Nat.eqb_spec b a); [congruence |]. rewrite Nat.eqb_refl. reflexivity.
  - destruct (Nat.eqb_spec i b) as [-> | N2]; [rewrite Nat.eqb_refl; reflexivity |].
    destruct (Nat.eqb_spec i a); [contradiction |]. destruct (Nat.eqb_spec i b); [contradiction | reflexivity].
Qed.
Lemma exch_lt : forall n a b i, (a < n)%nat -> (b < n)%nat -> (i < n)%nat -> (exch a b i < n)%nat.
Proof. intros n a b i Ha Hb Hi. unfold exch. destruct (Nat.eqb i a), (Nat.eqb i b); assumption. Qed.
Lemma exch_below : forall a b i, (i < a)%nat -> (a <= b)%nat -> exch a b i = i.
Proof.
  intros a b i H K. unfold exch. destruct (Nat.eqb_spec i a); [lia |]. destruct (Nat.eqb_spec i b); [lia | reflexivity].
Qed.
Lemma perm_lt : forall n p m i, (m <= n)%nat -> (forall k, (k < m)%nat -> (p k < n)%nat) -> (i < n)%nat -> (perm m p i < n)%nat.
Proof.
  intros n p. induction m as [| m IH]; intros i Hm Hp Hi; cbn [perm]; [exact Hi |].
  apply IH; [lia | intros; apply Hp; lia |]. apply exch_lt; [lia | apply Hp; lia | exact Hi].
Qed.
Lemma perm_onto : forall n p m r, (m <= n)%nat -> (forall k, (k < m)%nat -> (p k < n)%nat) -> (r < n)%nat ->
  exists i, (i < n)%nat /\ perm m p i = r.
Proof.
  intros n p. induction m as [| m IH]; intros r Hm Hp Hr; cbn [perm]; [exists r; auto |].
  destruct (IH r) as (i & Hi & E); [lia | intros; apply Hp; lia | exact Hr |].
  exists (exch m (p m) i). split; [apply exch_lt; [lia | apply Hp; lia | exact Hi] |]. rewrite exch_exch. exact E.
Qed.
Lemma perm_ext : forall p q m i, (forall k, (k < m)%nat -> p k = q k) -> perm m p i = perm m q i.
Proof.
  intros p q. induction m as [| m IH]; intros i H; cbn [perm]; [reflexivity |].
  rewrite (H m) by lia. apply IH. intros; apply H; lia.
Qed.
(* later exchanges leave the rows that are done alone *)
Lemma perm_more : forall p m d i, (forall k, (k < m + d)%nat -> (k <= p k)%nat) -> (i < m)%nat ->
  perm (m + d) p i = perm m p i.
Proof.
  intros p m. induction d as [| d IH]; intros i H Hi; [rewrite Nat.add_0_r; reflexivity |].
  rewrite Nat.add_succ_r. cbn [perm]. rewrite exch_below by (try lia; apply H; lia). apply IH; [intros; apply H; lia | exact Hi].
Qed.
Lemma swap_is : forall a b M i j, swap_rows a b M i j = M (exch a b i) j.
Proof. intros. unfold swap_rows, exch. destruct (Nat.eqb i a), (Nat.eqb i b); reflexivity. Qed.
Lemma exch_sym : forall a b i, exch a b i = exch b a i.
Proof.
  intros a b i. unfold exch. destruct (Nat.eqb_spec i a), (Nat.eqb_spec i b); subst; reflexivity || congruence.
Qed.
Lemma exch_same : forall a i, exch a a i = i.
Proof. intros a i. unfold exch. destruct (Nat.eqb_spec i a); congruence. Qed.

Definition pv_at (p : list nat) (k : nat) : nat := nth k p 0%nat.

(* Invariant: columns below j are factorised *)
Record linv (n j : nat) (A : mat) (s : lus) : Prop := {
  li_piv : forall k, (k < j)%nat -> (k <= pv_at (lpivot s) k < n)%nat;
  li_scale : forall i, (i < n)%nat -> 0 < lscale s i;
  li_todo : forall i c, (i < n)%nat -> (j <= c < n)%nat -> lm s i c = A (perm j (pv_at (lpivot s)) i) c;
  li_done : forall i c, (i < n)%nat -> (c < j)%nat ->
    mmul n (lf (lm s)) (uf (lm s)) i c = A (perm j (pv_at (lpivot s)) i) c;
  li_diag : forall c, (c < j)%nat -> lm s c c <> 0 }.

(* Columns below j, with the column j written as a combination of them:
   the matrix is singular. *)
Lemma dependent : forall n j A M u (sg : nat -> nat), (j < n)%nat ->
  (forall r, (r < n)%nat -> exists i, (i < n)%nat /\ sg i = r) ->
  (forall c, (c < j)%nat -> M c c <> 0) ->
  (forall i c, (i < n)%nat -> (c < j)%nat -> mmul n (lf M) (uf M) i c = A (sg i) c) ->
  (forall i, (i < n)%nat -> A (sg i) j = sumn (Nat.min i j) (fun k => M i k * u k) + (if Nat.ltb i j then u i else 0)) ->
  ~ invertible n A.
Proof.
  intros n j A M u sg Hj SO D E C I.
  set (x := back j j M u).
  assert (X : forall i, (i < j)%nat -> mvec j (uf M) x i = u i) by (apply back_uf; exact D).
  set (z := fun c => if Nat.ltb c j then x c else if Nat.eqb c j then -1 else 0).
  assert (K : forall r, (r < n)%nat -> mvec n A z r = 0).
  { intros r Hr. destruct (SO r Hr) as (i & Hi & <-). unfold mvec.
    rewrite (sumn_split n (Datatypes.S j)) by lia. rewrite sumn_S.
    rewrite (sumn_0 (n - Datatypes.S j)).
    2:{ intros k Hk. unfold z. destruct (Nat.ltb_spec (Datatypes.S j + k) j); [lia |]. destruct (Nat.eqb_spec (Datatypes.S j + k) j); [lia | ring]. }
    unfold z at 2. rewrite Nat.ltb_irrefl, Nat.eqb_refl, C by exact Hi.
    rewrite (sumn_ext j _ (fun c => sumn n (fun k => lf M i k * uf M k c) * x c)).
    2:{ intros c Hc. rewrite <- (E i c Hi Hc). unfold z. destruct (Nat.ltb_spec c j); [reflexivity | lia]. }
    rewrite (sumn_ext j _ (fun c => sumn n (fun k => lf M i k * (uf M k c * x c)))).
    2:{ intros c Hc. rewrite <- sumn_scal_r. apply sumn_ext. intros. ring. }
    rewrite sumn_swap.
    rewrite (sumn_ext n _ (fun k => lf M i k * mvec j (uf M) x k)).
    2:{ intros k Hk. unfold mvec. rewrite <- sumn_scal. reflexivity. }
    change (sumn n (fun k => lf M i k * mvec j (uf M) x k)) with (mvec n (lf M) (mvec j (uf M) x) i).
    rewrite lf_vec by exact Hi.
    assert (Z : forall k, (j <= k)%nat -> mvec j (uf M) x k = 0).
    { intros k Hk. unfold mvec. apply sumn_0. intros c Hc. unfold uf. destruct (Nat.leb_spec k c); [lia | ring]. }
    destruct (Nat.ltb_spec i j) as [L | L].
    - rewrite Nat.min_l by lia. rewrite X by exact L.
      rewrite (sumn_ext i _ (fun k => M i k * u k)). 2:{ intros k Hk. rewrite X by lia. reflexivity. } ring.
    - rewrite Nat.min_r by lia. rewrite Z by exact L. rewrite (sumn_split i j) by lia.
      rewrite (sumn_0 (i - j)). 2:{ intros k Hk. rewrite Z by lia. ring. }
      rewrite (sumn_ext j _ (fun k => M i k * u k)). 2:{ intros k Hk. rewrite X by lia. reflexivity. } ring. }
  pose proof (invertible_injective n A z I K j Hj) as Q. unfold z in Q.
  rewrite Nat.ltb_irrefl, Nat.eqb_refl in Q. lra.
Qed.

Lemma pv_set : forall p j q k, (j < length p)%nat ->
  pv_at (firstn j p ++ q :: skipn (j + 1) p) k = if Nat.eqb k j then q else pv_at p k.
Proof.
  intros p j q k H. unfold pv_at. assert (L : length (firstn j p) = j) by (apply firstn_length_le; lia).
  destruct (Nat.eqb_spec k j) as [-> | N].
  - rewrite app_nth2 by lia. rewrite L, Nat.sub_diag. reflexivity.
  - destruct (Nat.lt_ge_cases k j) as [K | K].
    + rewrite app_nth1 by lia. rewrite <- (firstn_skipn j p) at 2. rewrite app_nth1 by lia. reflexivity.
    + rewrite app_nth2 by lia. rewrite L. destruct (k - j)%nat as [| d] eqn:E; [lia |]. cbn [nth].
      rewrite <- (firstn_skipn (j + 1) p) at 2.
      assert (L1 : length (firstn (j + 1) p) = (j + 1)%nat) by (apply firstn_length_le; lia).
      rewrite app_nth2 by lia. rewrite L1. f_equal. lia.
Qed.
Lemma pv_set_len : forall (p : list nat) j q, (j < length p)%nat ->
  length (firstn j p ++ q :: skipn (j + 1) p) = length p.
Proof.
  intros p j q H. rewrite app_length. cbn [length]. rewrite firstn_length_le, skipn_length by lia. lia.
Qed.

Lemma column_ok : forall n j A s, (j < n)%nat -> (j < length (lpivot s))%nat -> invertible n A -> linv n j A s ->
  exists s', column n j s = Ok s' /\ linv n (Datatypes.S j) A s' /\ length (lpivot s') = length (lpivot s).
Proof.
  intros n j A s Hj Hp I [P1 P2 P3 P4 P5]. unfold column.
  set (U := upper j (lm s)). destruct (upper_ok j (lm s)) as [U1 U2]. fold U in U1, U2.
  destruct (lower_ok n j (lscale s) U Hj P2) as (M1 & big & im & E & Him & L1 & L2 & L3). rewrite E.
  set (sg := perm j (pv_at (lpivot s))) in *.
  set (u := fun k => U k j).
  set (M2 := if Nat.eqb j im then M1 else swap_rows im j M1).
  assert (S2 : forall i c, M2 i c = M1 (exch j im i) c).
  { intros i c. unfold M2. destruct (Nat.eqb_spec j im) as [<- | N]; [rewrite exch_same; reflexivity |].
    rewrite swap_is, exch_sym. reflexivity. }
  (* columns other than j *)
  assert (M1o : forall i c, c <> j -> M1 i c = lm s i c).
  { intros i c N. rewrite L2, U2 by lia. reflexivity. }
  assert (M1u : forall i, (i < j)%nat -> M1 i j = u i).
  { intros i Hi. rewrite L2 by lia. reflexivity. }
  assert (UU : forall i, (i < j)%nat -> u i = A (sg i) j - sumn i (fun k => lm s i k * u k)).
  { intros i Hi. unfold u. rewrite U1, P3 by lia. reflexivity. }
  assert (MW : forall i, (j <= i < n)%nat -> M1 i j = A (sg i) j - sumn j (fun k => lm s i k * u k)).
  { intros i Hi. rewrite L1 by lia. rewrite U2, P3 by lia. f_equal. apply sumn_ext. intros k Hk.
    rewrite (U2 i k) by lia. reflexivity. }
  (* the pivot is not zero *)
  assert (PZ : M2 j j <> 0).
  { rewrite S2. unfold exch. rewrite Nat.eqb_refl. intros Z.
    apply (dependent n j A (lm s) u sg Hj); auto.
    - intros r Hr. apply perm_onto; [lia | intros k Hk; apply P1 in Hk; lia | exact Hr].
    - intros i Hi. destruct (Nat.ltb_spec i j) as [L | L].
      + rewrite Nat.min_l by lia. rewrite UU by exact L. ring.
      + rewrite Nat.min_r by lia. pose proof (L3 Z i ltac:(lia)) as W. rewrite MW in W by lia. lra. }
  destruct (Nat.ltb_spec j (length (lpivot s))); [| lia].
  destruct (Reqb_spec (M2 j j) 0); [contradiction |].
  eexists. split; [reflexivity |]. cbn [lm lpivot]. split; [| apply pv_set_len; exact Hp].
  destruct (divide_ok (j + 1) (n - (j + 1)) j (1 / M2 j j) M2) as [D1 D2]; [lia |].
  set (M4 := loop (j + 1) (n - (j + 1)) _ M2) in *.
  assert (PV : forall k, pv_at (firstn j (lpivot s) ++ im :: skipn (j + 1) (lpivot s)) k = if Nat.eqb k j then im else pv_at (lpivot s) k)
    by (intros; apply pv_set; exact Hp).
  assert (PM : forall i, perm (Datatypes.S j) (pv_at (firstn j (lpivot s) ++ im :: skipn (j + 1) (lpivot s))) i = sg (exch j im i)).
  { intros i. cbn [perm]. rewrite PV, Nat.eqb_refl. apply perm_ext. intros k Hk. rewrite PV. destruct (Nat.eqb_spec k j); [lia | reflexivity]. }
  assert (XL : forall i, (i < n)%nat -> (exch j im i < n)%nat) by (intros; apply exch_lt; lia).
  assert (XB : forall i, (i < j)%nat -> exch j im i = i) by (intros; apply exch_below; lia).
  assert (XG : forall i, (j <= i)%nat -> (j <= exch j im i)%nat).
  { intros i Hi. unfold exch. destruct (Nat.eqb i j); [lia |]. destruct (Nat.eqb i im); lia. }
  assert (M4o : forall i c, c <> j -> M4 i c = lm s (exch j im i) c).
  { intros i c N. rewrite D2, S2, M1o by lia. reflexivity. }
  assert (M4u : forall i, (i < j)%nat -> M4 i j = u i).
  { intros i Hi. rewrite D2, S2, XB, M1u by lia. reflexivity. }
  assert (M4j : M4 j j = M2 j j) by (apply D2; lia).
  constructor; cbn [lm lpivot lscale].
  - intros k Hk. rewrite PV. destruct (Nat.eqb_spec k j) as [-> | N]; [lia |]. apply P1. lia.
  - intros i Hi. destruct (Nat.eqb_spec j im) as [<- | N]; [apply P2; exact Hi |].
    unfold set1. destruct (Nat.eqb_spec i im); apply P2; lia.
  - intros i c Hi Hc. rewrite PM, M4o, P3 by (try lia; auto). reflexivity.
  - intros i c Hi Hc. rewrite PM. destruct (Nat.eq_dec c j) as [-> | Nc].
    + destruct (Nat.lt_ge_cases j i) as [L | L].
      * rewrite lu_lower by lia. rewrite sumn_S, M4j, D1, S2 by lia.
        assert (XI : (j <= exch j im i < n)%nat) by (split; [apply XG; lia | apply XL; lia]).
        rewrite MW by exact XI.
        rewrite (sumn_ext j _ (fun k => lm s (exch j im i) k * u k)).
        2:{ intros k Hk. rewrite M4o, M4u by lia. reflexivity. }
        field. exact PZ.
      * rewrite lu_upper by lia.
        rewrite (sumn_ext i _ (fun k => lm s (exch j im i) k * u k)).
        2:{ intros k Hk. rewrite M4o, M4u by lia. reflexivity. }
        destruct (Nat.eq_dec i j) as [-> | N].
        -- rewrite M4j, S2.
           assert (XI : (j <= exch j im j < n)%nat) by (split; [apply XG; lia | apply XL; lia]).
           rewrite MW by exact XI. ring.
        -- rewrite M4u, XB, UU by lia. ring.
    + rewrite <- P4 by (try lia; auto).
      destruct (Nat.lt_ge_cases c i) as [L | L].
      * assert (XC : (c < exch j im i)%nat).
        { unfold exch. destruct (Nat.eqb i j); [lia |]. destruct (Nat.eqb i im); lia. }
        rewrite !lu_lower by (try lia; apply XL; lia). apply sumn_ext. intros k Hk.
        rewrite !M4o by lia. rewrite (XB k) by lia. reflexivity.
      * rewrite (XB i) by lia. rewrite !lu_upper by lia. rewrite !M4o by lia. rewrite XB by lia. f_equal.
        apply sumn_ext. intros k Hk. rewrite !M4o by lia. rewrite !XB by lia. reflexivity.
  - intros c Hc. destruct (Nat.eq_dec c j) as [-> | N]; [rewrite M4j; exact PZ |].
    rewrite M4o, XB by lia. apply P5. lia.
Qed.

Lemma columns_ok : forall n A sc p m, invertible n A -> (m <= n)%nat -> (n <= length p)%nat ->
  (forall i, (i < n)%nat -> 0 < sc i) ->
  exists s, columns n m (mkLU A sc p 1) = Ok s /\ linv n m A s /\ length (lpivot s) = length p.
Proof.
  intros n A sc p m I. induction m as [| m IH]; intros Hm Hp Hs; cbn [columns].
  - eexists. split; [reflexivity |]. split; [| reflexivity]. constructor; cbn; intros; try lia; auto.
  - destruct IH as (s & E & V & L); [lia | exact Hp | exact Hs |]. rewrite E. cbn [bind].
    destruct (column_ok n m A s) as (s' & E' & V' & L'); [lia | lia | exact I | exact V |].
    exists s'. split; [exact E' |]. split; [exact V' | congruence].
Qed.

(* Forward substitution *)
Lemma forward_ok : forall n M p v m, (m <= n)%nat -> (n <= length p)%nat ->
  (forall k, (k < n)%nat -> (k <= pv_at p k < n)%nat) ->
  exists y f, forward n m M p v = Ok (y, f) /\
    (forall i, (m <= i < n)%nat -> y i = v (perm m (pv_at p) i)) /\
    (forall i, (i < m)%nat -> sumn i (fun k => M i k * y k) + y i = v (perm m (pv_at p) i)) /\
    match f with
    | None => forall i, (i < m)%nat -> y i = 0
    | Some q => (q < m)%nat /\ forall i, (i < q)%nat -> y i = 0
    end.
Proof.
  intros n M p v. induction m as [| m IH]; intros Hm Hp HP; cbn [forward].
  - exists v, None. split; [reflexivity |]. split; [reflexivity |]. split; intros; lia.
  - destruct IH as (y & f & -> & I1 & I2 & I3); [lia | exact Hp | exact HP |]. cbn [bind].
    unfold forward1. pose proof (HP m ltac:(lia)) as Pm.
    assert (NP : nth_error p m = Some (pv_at p m)) by (apply nth_error_nth'; lia). rewrite NP. cbn [bind].
    destruct (Nat.ltb_spec (pv_at p m) n); [| lia]. destruct (Nat.ltb_spec m n); [| lia].
    set (q := pv_at p m) in *. set (v1 := set1 y q (y m)).
    (* the elements below m are not touched *)
    assert (V1 : forall i, (i < m)%nat -> v1 i = y i) by (intros; apply set1_neq; lia).
    assert (V2 : forall i, (Datatypes.S m <= i < n)%nat -> v1 i = v (perm (Datatypes.S m) (pv_at p) i)).
    { intros i Hi. cbn [perm]. fold q. unfold v1, set1. destruct (Nat.eqb_spec i q) as [-> | N].
      - unfold exch. destruct (Nat.eqb_spec q m); [lia |]. rewrite Nat.eqb_refl. apply I1. lia.
      - unfold exch. destruct (Nat.eqb_spec i m); [lia |]. destruct (Nat.eqb_spec i q); [contradiction |]. apply I1. lia. }
    assert (Vm : y q = v (perm (Datatypes.S m) (pv_at p) m)).
    { cbn [perm]. fold q. unfold exch. rewrite Nat.eqb_refl. apply I1. lia. }
    assert (Vl : forall i, (i < m)%nat -> perm (Datatypes.S m) (pv_at p) i = perm m (pv_at p) i).
    { intros i Hi. cbn [perm]. fold q. rewrite exch_below by lia. reflexivity. }
    assert (REST : forall z, (forall i, (Datatypes.S m <= i < n)%nat -> set1 v1 m z i = v (perm (Datatypes.S m) (pv_at p) i)) /\
      (forall i, (i < m)%nat -> set1 v1 m z i = y i)).
    { intros z. split; intros i Hi; rewrite set1_neq by lia; [apply V2 | apply V1]; exact Hi. }
    destruct f as [f |].
    + destruct I3 as [I3 I4]. rewrite loop_sub.
      assert (SM : sumn (m - f) (fun k => M m (f + k)%nat * v1 (f + k)%nat) = sumn m (fun k => M m k * y k)).
      { rewrite (sumn_split m f) by lia. rewrite (sumn_0 f) by (intros k Hk; rewrite I4 by exact Hk; ring).
        rewrite Rplus_0_l. apply sumn_ext. intros k Hk. rewrite V1 by lia. reflexivity. }
      rewrite SM. set (z := y q - _). destruct (REST z) as [R1 R2].
      eexists _, _. split; [reflexivity |]. split; [exact R1 |]. split.
      * intros i Hi. destruct (Nat.eq_dec i m) as [-> | N].
        -- rewrite set1_eq. rewrite (sumn_ext m _ (fun k => M m k * y k)) by (intros; rewrite R2 by assumption; reflexivity).
           unfold z. rewrite Vm. ring.
        -- rewrite R2, Vl by lia. rewrite (sumn_ext i _ (fun k => M i k * y k)) by (intros; rewrite R2 by lia; reflexivity).
           apply I2. lia.
      * split; [lia |]. intros i Hi. rewrite R2 by lia. apply I4. exact Hi.
    + destruct (REST (y q)) as [R1 R2].
      eexists _, _. split; [reflexivity |]. split; [exact R1 |]. split.
      * intros i Hi. destruct (Nat.eq_dec i m) as [-> | N].
        -- rewrite set1_eq. rewrite (sumn_0 m) by (intros; rewrite R2, I3 by assumption; ring). rewrite Vm. ring.
        -- rewrite R2, Vl by lia. rewrite (sumn_ext i _ (fun k => M i k * y k)) by (intros; rewrite R2 by lia; reflexivity).
           apply I2. lia.
      * destruct (Reqb_spec (y q) 0) as [Z | Z].
        -- intros i Hi. destruct (Nat.eq_dec i m) as [-> | N]; [rewrite set1_eq; exact Z |]. rewrite R2, I3 by lia. reflexivity.
        -- split; [lia |]. intros i Hi. rewrite R2, I3 by lia. reflexivity.
Qed.
