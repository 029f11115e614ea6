(* C52, C116, C117: vectors, matrices, views and products *)
From Coq Require Import Lia.
From Verif Require Import RBase Mat MatFacts TMat.
Local Open Scope R_scope.

(* ---- specification ---- *)
Definition el (A : tmat) (i j : nat) : R := nth (i * tnc A + j) (tarr A) 0.
Definition wf (A : tmat) : Prop := length (tarr A) = (tnr A * tnc A)%nat.
Definition vel (v : list R) (i : nat) : R := nth i v 0.
(* the shape and elements of a matrix *)
Definition is_matrix (A : tmat) (n m : nat) (f : nat -> nat -> R) : Prop :=
  tnr A = n /\ tnc A = m /\ wf A /\ forall i j, (i < n)%nat -> (j < m)%nat -> el A i j = f i j.
Definition is_vector (v : list R) (n : nat) (f : nat -> R) : Prop :=
  length v = n /\ forall i, (i < n)%nat -> vel v i = f i.

(* ---- lemmas ---- *)
Lemma mfor_inv : forall S n (f : nat -> S -> tres S) (P : nat -> S -> Prop) s, P 0%nat s ->
  (forall k t, (k < n)%nat -> P k t -> exists t', f k t = Ok t' /\ P (Datatypes.S k) t') ->
  exists t, mfor n f s = Ok t /\ P n t.
Proof.
  intros S n f P s H0 HS.
  assert (G : forall m, (m <= n)%nat -> exists t, mfor m f s = Ok t /\ P m t).
  { induction m as [| m IH]; intros Hm; cbn [mfor]; [eauto |].
    destruct IH as (t & -> & Pt); [lia |]. cbn [bind]. apply HS; [lia | exact Pt]. }
  apply G. lia.
Qed.
Lemma mfor_ext : forall S n (f g : nat -> S -> tres S) s, (forall k t, (k < n)%nat -> f k t = g k t) -> mfor n f s = mfor n g s.
Proof.
  intros S. induction n as [| n IH]; intros f g s H; cbn [mfor]; [reflexivity |].
  rewrite (IH f g) by (intros; apply H; lia). destruct (mfor n g s); cbn [bind]; auto.
Qed.
Lemma mfor_throw : forall S n (f : nat -> S -> tres S) s e m, (m < n)%nat ->
  (exists t, mfor m f s = Ok t /\ f m t = Throw e) -> mfor n f s = Throw e.
Proof.
  intros S. induction n as [| n IH]; intros f s e m Hm (t & E & F); [lia |]. cbn [mfor].
  destruct (Nat.eq_dec m n) as [-> | N]; [rewrite E; cbn; apply F |].
  rewrite (IH f s e m); [reflexivity | lia | eauto].
Qed.

Lemma aget_ok : forall a i, (i < length a)%nat -> aget a i = Ok (nth i a 0).
Proof. intros a i H. unfold aget. rewrite (nth_error_nth' a 0 H). reflexivity. Qed.
Lemma upd_is : forall (a : list R) i x, (i < length a)%nat ->
  exists a', upd a i x = Some a' /\ length a' = length a /\ nth i a' 0 = x /\
  forall k, k <> i -> nth k a' 0 = nth k a 0.
Proof.
  induction a as [| y a IH]; intros [| i] x H; cbn in *; try lia.
  - eexists. split; [reflexivity |]. repeat split; auto. intros [| k] Hk; [congruence | reflexivity].
  - destruct (IH i x ltac:(lia)) as (a' & -> & L & E & O). eexists. split; [reflexivity |]. cbn. repeat split; auto.
    intros [| k] Hk; [reflexivity |]. apply O. congruence.
Qed.
Lemma aset_ok : forall a i x, (i < length a)%nat -> exists a', aset a i x = Ok a' /\ length a' = length a /\
  nth i a' 0 = x /\ forall k, k <> i -> nth k a' 0 = nth k a 0.
Proof.
  intros a i x H. destruct (upd_is a i x H) as (a' & E & R). exists a'. unfold aset. rewrite E. auto.
Qed.
Lemma idx_lt : forall n m i j, (i < n)%nat -> (j < m)%nat -> (i * m + j < n * m)%nat.
Proof. intros. nia. Qed.
Lemma idx_inj : forall m i j i' j', (j < m)%nat -> (j' < m)%nat -> (i * m + j = i' * m + j')%nat -> i = i' /\ j = j'.
Proof. intros. assert (i = i') by nia. subst. split; [reflexivity | lia]. Qed.

Lemma get_ok : forall A i j, wf A -> (i < tnr A)%nat -> (j < tnc A)%nat -> tm_get A i j = Ok (el A i j).
Proof.
  intros A i j W Hi Hj. unfold tm_get, tm_index, in_range.
  destruct (Nat.leb_spec (tnr A) i); [lia |]. destruct (Nat.leb_spec (tnc A) j); [lia |]. cbn [bind].
  apply aget_ok. unfold wf in W. rewrite W. apply idx_lt; assumption.
Qed.
Lemma set_ok : forall A i j x, wf A -> (i < tnr A)%nat -> (j < tnc A)%nat ->
  exists A', tm_set A i j x = Ok A' /\ tnr A' = tnr A /\ tnc A' = tnc A /\ wf A' /\ el A' i j = x /\
  forall a b, (b < tnc A)%nat -> a <> i \/ b <> j -> el A' a b = el A a b.
Proof.
  intros A i j x W Hi Hj. unfold tm_set, tm_index, in_range.
  destruct (Nat.leb_spec (tnr A) i); [lia |]. destruct (Nat.leb_spec (tnc A) j); [lia |]. cbn [bind].
  destruct (aset_ok (tarr A) (i * tnc A + j) x) as (a & -> & L & E & O).
  { unfold wf in W. rewrite W. apply idx_lt; assumption. }
  cbn [bind]. eexists. split; [reflexivity |]. unfold el, wf in *. cbn [tnr tnc tarr].
  repeat split; auto; [congruence |]. intros a' b' Hb N. apply O. intros Q. apply idx_inj in Q; lia.
Qed.

(* ---- C52: element access and elementwise operators ---- *)
Theorem C118_access : forall v i x,
  ((i < length v)%nat -> vec_get v i = Ok (vel v i) /\
    exists v', vec_set v i x = Ok v' /\ length v' = length v /\ forall k, vel v' k = if Nat.eqb k i then x else vel v k) /\
  ((length v <= i)%nat -> vec_get v i = Throw RangeError /\ vec_set v i x = Throw RangeError).
Proof.
  intros v i x. unfold vec_get, vec_set, in_range. split; intros H.
  - destruct (Nat.leb_spec (length v) i); [lia |]. cbn [bind]. rewrite aget_ok by exact H. split; [reflexivity |].
    destruct (aset_ok v i x H) as (v' & -> & L & E & O). eexists. split; [reflexivity |]. split; [exact L |].
    intros k. unfold vel. destruct (Nat.eqb_spec k i) as [-> | N]; auto.
  - destruct (Nat.leb_spec (length v) i); [| lia]. auto.
Qed.
Print Assumptions C118_access.
Theorem C118_matrix_access : forall A i j x, wf A ->
  ((i < tnr A)%nat /\ (j < tnc A)%nat -> tm_get A i j = Ok (el A i j) /\ exists A', tm_set A i j x = Ok A' /\
     is_matrix A' (tnr A) (tnc A) (fun a b => if Nat.eqb a i && Nat.eqb b j then x else el A a b)) /\
  ((tnr A <= i)%nat \/ (tnc A <= j)%nat -> tm_get A i j = Throw RangeError /\ tm_set A i j x = Throw RangeError).
Proof.
  intros A i j x W. split.
  - intros [Hi Hj]. split; [apply get_ok; assumption |]. destruct (set_ok A i j x W Hi Hj) as (A' & E & N & M & W' & S & O).
    exists A'. split; [exact E |]. unfold is_matrix. repeat split; auto. intros a b Ha Hb.
    destruct (Nat.eqb_spec a i) as [-> |], (Nat.eqb_spec b j) as [-> |]; cbn; auto; apply O; auto.
  - intros H. unfold tm_get, tm_set, tm_index, in_range.
    destruct (Nat.leb_spec (tnr A) i); [auto |]. destruct (Nat.leb_spec (tnc A) j); [auto | lia].
Qed.
Print Assumptions C118_matrix_access.

Lemma zip_is : forall op u v, length u = length v -> is_vector (zip op u v) (length u) (fun i => op (vel u i) (vel v i)).
Proof.
  intros op. induction u as [| x u IH]; intros [| y v] L; try discriminate; cbn [zip length].
  - split; [reflexivity | intros; cbn in *; lia].
  - destruct (IH v) as [L' E]; [cbn in L; lia |]. split; [cbn; rewrite L'; reflexivity |]. intros [| i] Hi; [reflexivity |].
    unfold vel in *. cbn. apply E. lia.
Qed.
Theorem C118_vector_ops : forall op u v s,
  is_vector (vec_scalar op v s) (length v) (fun i => op (vel v i) s) /\
  (length u = length v -> exists w, vec_vector op u v = Ok w /\ is_vector w (length u) (fun i => op (vel u i) (vel v i))) /\
  (length u <> length v -> vec_vector op u v = Throw DimensionError).
Proof.
  intros op u v s. split; [| split].
  - split; [apply map_length |]. intros i Hi. unfold vel, vec_scalar.
    rewrite (nth_indep _ 0 (op 0 s)) by (rewrite map_length; exact Hi). apply (map_nth (fun x => op x s)).
  - intros L. unfold vec_vector, equal_length. rewrite L, Nat.eqb_refl. cbn [bind]. eexists. split; [reflexivity |].
    rewrite <- L. apply zip_is. exact L.
  - intros N. unfold vec_vector, equal_length. destruct (Nat.eqb_spec (length u) (length v)); [contradiction | reflexivity].
Qed.
Print Assumptions C118_vector_ops.
(* the named operators *)
Theorem C118_named : forall u v s,
  is_vector (scalar_plus s v) (length v) (fun i => s + vel v i) /\ is_vector (vec_plus v s) (length v) (fun i => vel v i + s) /\
  is_vector (scalar_minus s v) (length v) (fun i => s - vel v i) /\ is_vector (vec_times v s) (length v) (fun i => vel v i * s) /\
  is_vector (vec_over v s) (length v) (fun i => vel v i / s) /\
  (length u = length v -> exists a b c, vec_add u v = Ok a /\ vec_sub u v = Ok b /\ vec_div u v = Ok c /\
    is_vector a (length u) (fun i => vel u i + vel v i) /\ is_vector b (length u) (fun i => vel u i - vel v i) /\
    is_vector c (length u) (fun i => vel u i / vel v i)).
Proof.
  intros u v s.
  assert (W : forall f g (w : list R), (forall i, f i = g i) -> is_vector w (length v) f -> is_vector w (length v) g).
  { intros f g w H [L E]. split; [exact L |]. intros i Hi. rewrite E by exact Hi. apply H. }
  pose proof (fun op => proj1 (C118_vector_ops op u v s)) as A.
  pose proof (fun op => proj1 (proj2 (C118_vector_ops op u v s))) as B.
  split; [eapply W; [| apply (A Rplus)]; intros i; cbv beta; ring |]. split; [apply (A Rplus) |].
  split.
  { unfold scalar_minus. destruct (A Rmult) as [L E].
    destruct (proj1 (C118_vector_ops Rplus u (vec_scalar Rmult v (-1)) s)) as [L1 E1].
    assert (L2 : length (vec_scalar Rmult v (-1)) = length v) by (unfold vec_scalar; apply map_length).
    rewrite L2 in *. split; [exact L1 |]. intros i Hi. rewrite E1 by exact Hi.
    destruct (proj1 (C118_vector_ops Rmult u v (-1))) as [_ E2]. rewrite E2 by exact Hi. ring. }
  split; [apply (A Rmult) |]. split; [apply (A Rdiv) |].
  intros L. destruct (B Rplus L) as (a & Ea & Va). destruct (B Rminus L) as (b & Eb & Vb). destruct (B Rdiv L) as (c & Ec & Vc).
  exists a, b, c. auto 7.
Qed.
Print Assumptions C118_named.
(* vector minus scalar adds *)
Theorem C52_minus_refuted : forall v s, (0 < length v)%nat -> s <> 0 -> 
  ~ is_vector (vec_minus v s) (length v) (fun i => vel v i - s).
Proof.
  intros v s L N [_ E]. specialize (E 0%nat L).
  destruct (proj1 (C118_vector_ops Rplus v v s)) as [_ E1]. unfold vec_minus in E. rewrite E1 in E by exact L. lra.
Qed.
Print Assumptions C52_minus_refuted.
Theorem C118_compare : forall u v, (length u = length v -> exists b, vec_eq u v = Ok b /\ vec_ne u v = Ok (negb b) /\ (b = true <-> u = v)) /\
  (length u <> length v -> vec_eq u v = Throw DimensionError /\ vec_ne u v = Throw DimensionError) /\
  (length u = length v -> vec_assign u v = Ok v) /\ (length u <> length v -> vec_assign u v = Throw DimensionError).
Proof.
  intros u v. unfold vec_ne, vec_eq, vec_assign, equal_length. destruct (Nat.eqb_spec (length u) (length v)) as [L | L]; cbn [bind].
  - repeat split; try contradiction; auto. intros _. eexists. split; [reflexivity |]. split; [reflexivity |]. revert v L.
    induction u as [| x u IH]; intros [| y v] L; try discriminate; cbn; [tauto |].
    destruct (Reqb_spec x y) as [-> | N].
    + rewrite IH by (cbn in L; lia). split; intros E; congruence.
    + split; [discriminate | congruence].
  - repeat split; auto; contradiction.
Qed.
Print Assumptions C118_compare.
Theorem C118_matrix_ops : forall op A B s, wf A -> wf B ->
  is_matrix (tm_scalar op A s) (tnr A) (tnc A) (fun i j => op (el A i j) s) /\
  (tnr A = tnr B /\ tnc A = tnc B -> exists C, tm_op op A B = Ok C /\ is_matrix C (tnr A) (tnc A) (fun i j => op (el A i j) (el B i j))) /\
  (tnr A <> tnr B \/ tnc A <> tnc B -> tm_op op A B = Throw DimensionError /\ tm_assign A B = Throw DimensionError) /\
  (tnr A = tnr B /\ tnc A = tnc B -> tm_assign A B = Ok B).
Proof.
  intros op A B s WA WB. split; [| split; [| split]].
  - unfold tm_scalar, is_matrix, wf, el. cbn [tnr tnc tarr]. rewrite map_length. repeat split; auto. intros i j Hi Hj.
    destruct (proj1 (C118_vector_ops op (tarr A) (tarr A) s)) as [_ E]. apply E. unfold wf in WA. rewrite WA. apply idx_lt; assumption.
  - intros [Hr Hc]. unfold tm_op, same_dim. rewrite <- Hr, <- Hc, !Nat.eqb_refl. cbn [andb bind]. eexists. split; [reflexivity |].
    assert (L : length (tarr A) = length (tarr B)) by (unfold wf in *; congruence).
    destruct (zip_is op (tarr A) (tarr B) L) as [L1 E]. unfold is_matrix, wf, el. cbn [tnr tnc tarr]. repeat split; auto; [unfold wf in WA; congruence |].
    intros i j Hi Hj. rewrite <- Hc. apply E. unfold wf in WA. rewrite WA. apply idx_lt; assumption.
  - intros H. unfold tm_op, tm_assign, same_dim. destruct (Nat.eqb_spec (tnr A) (tnr B)), (Nat.eqb_spec (tnc A) (tnc B)); cbn; auto; lia.
  - intros [Hr Hc]. unfold tm_assign, same_dim. rewrite <- Hr, <- Hc, !Nat.eqb_refl. reflexivity.
Qed.
Print Assumptions C118_matrix_ops.

(* the inner product does not look at the length of the second factor *)
Theorem C118_dot : forall u v, (length u <= length v)%nat -> dot u v = Ok (sumn (length u) (fun i => vel u i * vel v i)).
Proof.
  intros u v L. unfold dot.
  destruct (mfor_inv _ (length u) (fun i al => do x <- vec_get u i ; do y <- vec_get v i ; Ok (al + x * y))
    (fun k s => s = sumn k (fun i => vel u i * vel v i)) 0) as (t & E & P); [reflexivity | | rewrite E, P; reflexivity].
  intros k t Hk ->. destruct (C118_access u k 0) as [A _]. destruct (C118_access v k 0) as [B _].
  rewrite (proj1 (A Hk)), (proj1 (B ltac:(lia))). cbn [bind]. eauto.
Qed.
Print Assumptions C118_dot.
Theorem C52_dot_lengths_refuted : forall u v,
  ((length v < length u)%nat -> dot u v = Throw RangeError) /\
  (forall w, length u = length v -> dot u (v ++ w) = dot u v).
Proof.
  intros u v. split.
  - intros L. unfold dot. apply (mfor_throw _ _ _ _ _ (length v)); [exact L |].
    destruct (mfor_inv _ (length v) (fun i al => do x <- vec_get u i ; do y <- vec_get v i ; Ok (al + x * y)) (fun _ _ => True) 0) as (t & E & _); [exact I | |].
    + intros k t Hk _. destruct (C118_access u k 0) as [A _]. destruct (C118_access v k 0) as [B _].
      rewrite (proj1 (A ltac:(lia))), (proj1 (B Hk)). cbn [bind]. eauto.
    + exists t. split; [exact E |]. destruct (C118_access u (length v) 0) as [A _]. destruct (C118_access v (length v) 0) as [_ B].
      rewrite (proj1 (A L)), (proj1 (B (le_n _))). reflexivity.
  - intros w L. rewrite !C118_dot by (rewrite ?app_length; lia). f_equal. apply sumn_ext. intros k Hk. unfold vel.
    rewrite (app_nth1 v w) by lia. reflexivity.
Qed.
Print Assumptions C52_dot_lengths_refuted.

(* ---- C116: views ---- *)
Definition rebuild (A : tmat) (r : tres (list R)) : tres tmat := do a <- r ; Ok (mkTM (tnr A) (tnc A) a).

Theorem C116_row : forall A i j x, 
  (do w <- tm_row A i ; view_get (tarr A) w j) = tm_get A i j /\
  (do w <- tm_row A i ; rebuild A (view_set (tarr A) w j x)) = tm_set A i j x.
Proof.
  intros A i j x. unfold tm_row, view_get, view_set, in_view, tm_get, tm_set, tm_index, in_range, rebuild.
  destruct (Nat.leb (tnr A) i); cbn [bind vlen vstart vstride]; [auto |]. destruct (Nat.leb (tnc A) j); cbn [bind]; [auto |].
  rewrite Nat.mul_1_r. auto.
Qed.
Print Assumptions C116_row.
Theorem C116_column : forall A i j x, 
  (do w <- tm_column A j ; view_get (tarr A) w i) = tm_get A i j /\
  (do w <- tm_column A j ; rebuild A (view_set (tarr A) w i x)) = tm_set A i j x.
Proof.
  intros A i j x. unfold tm_column, view_get, view_set, in_view, tm_get, tm_set, tm_index, in_range, rebuild.
  destruct (Nat.leb (tnc A) j); cbn [bind vlen vstart vstride].
  - destruct (Nat.leb (tnr A) i); auto.
  - destruct (Nat.leb (tnr A) i); cbn [bind]; [auto |]. rewrite Nat.add_comm. auto.
Qed.
Print Assumptions C116_column.
(* parts of rows and columns, blocks; a range is [first, last] with first <= last *)
Theorem C116_ranges : forall A i j f l x, (f <= l)%nat ->
  ((l < tnc A)%nat -> (j < l + 1 - f)%nat ->
    (do w <- tm_row_range A i (f, l) ; view_get (tarr A) w j) = tm_get A i (f + j) /\
    (do w <- tm_row_range A i (f, l) ; rebuild A (view_set (tarr A) w j x)) = tm_set A i (f + j) x) /\
  ((l < tnr A)%nat -> (i < l + 1 - f)%nat ->
    (do w <- tm_col_range A (f, l) j ; view_get (tarr A) w i) = tm_get A (f + i) j /\
    (do w <- tm_col_range A (f, l) j ; rebuild A (view_set (tarr A) w i x)) = tm_set A (f + i) j x).
Proof.
  intros A i j f l x FL.
  assert (RL : range_length (f, l) = Some (l + 1 - f)%nat) by (unfold range_length; cbn; destruct (Nat.leb_spec f (l + 1)); [reflexivity | lia]).
  split; intros HL HJ.
  - unfold tm_row_range, view_get, view_set, in_view, tm_get, tm_set, tm_index, in_range, range_in, rebuild. cbn [fst snd].
    destruct (Nat.leb (tnr A) i); cbn [bind]; [auto |].
    destruct (Nat.leb_spec (tnc A) f); [lia |]. destruct (Nat.leb_spec (tnc A) l); [lia |]. cbn [orb bind vlen vstart vstride]. rewrite RL.
    destruct (Nat.leb_spec (l + 1 - f) j); [lia |]. destruct (Nat.leb_spec (tnc A) (f + j)); [lia |]. cbn [bind].
    replace (tnc A * i + f + j * 1)%nat with (i * tnc A + (f + j))%nat by lia. auto.
  - unfold tm_col_range, view_get, view_set, in_view, tm_get, tm_set, tm_index, in_range, range_in, rebuild. cbn [fst snd].
    destruct (Nat.leb_spec (tnr A) f); [lia |]. destruct (Nat.leb_spec (tnr A) l); [lia |]. cbn [orb bind].
    destruct (Nat.leb_spec (tnr A) (f + i)); [lia |]. cbn [bind].
    destruct (Nat.leb (tnc A) j); cbn [bind]; [auto |]. cbn [vlen vstart vstride]. rewrite RL.
    destruct (Nat.leb_spec (l + 1 - f) i); [lia |]. cbn [bind].
    replace (j + f * tnc A + i * tnc A)%nat with ((f + i) * tnc A + j)%nat by lia. auto.
Qed.
Print Assumptions C116_ranges.
Theorem C116_block : forall A rf rl cf cl i j x, (rf <= rl < tnr A)%nat -> (cf <= cl < tnc A)%nat ->
  ((i < rl + 1 - rf)%nat -> (j < cl + 1 - cf)%nat ->
    (do b <- tm_block A (rf, rl) (cf, cl) ; block_get (tarr A) b i j) = tm_get A (rf + i) (cf + j) /\
    (do b <- tm_block A (rf, rl) (cf, cl) ; rebuild A (block_set (tarr A) b i j x)) = tm_set A (rf + i) (cf + j) x) /\
  ((rl + 1 - rf <= i)%nat \/ (cl + 1 - cf <= j)%nat ->
    (do b <- tm_block A (rf, rl) (cf, cl) ; block_get (tarr A) b i j) = Throw RangeError).
Proof.
  intros A rf rl cf cl i j x HR HC.
  unfold tm_block, range_in, tm_index, in_range. cbn [fst snd].
  destruct (Nat.leb_spec (tnr A) rf); [lia |]. destruct (Nat.leb_spec (tnr A) rl); [lia |].
  destruct (Nat.leb_spec (tnc A) cf); [lia |]. destruct (Nat.leb_spec (tnc A) cl); [lia |]. cbn [orb bind].
  assert (RL : range_length (rf, rl) = Some (rl + 1 - rf)%nat) by (unfold range_length; cbn; destruct (Nat.leb_spec rf (rl + 1)); [reflexivity | lia]).
  assert (CL : range_length (cf, cl) = Some (cl + 1 - cf)%nat) by (unfold range_length; cbn; destruct (Nat.leb_spec cf (cl + 1)); [reflexivity | lia]).
  unfold block_get, block_set, in_opt, in_range, rebuild, tm_get, tm_set, tm_index, in_range. cbn [brows bcols bstart bstride]. rewrite RL, CL. split.
  - intros Hi Hj. destruct (Nat.leb_spec (rl + 1 - rf) i); [lia |]. destruct (Nat.leb_spec (cl + 1 - cf) j); [lia |].
    destruct (Nat.leb_spec (tnr A) (rf + i)); [lia |]. destruct (Nat.leb_spec (tnc A) (cf + j)); [lia |]. cbn [bind].
    replace (rf * tnc A + cf + i * tnc A + j)%nat with ((rf + i) * tnc A + (cf + j))%nat by lia. auto.
  - intros H3. destruct (Nat.leb_spec (rl + 1 - rf) i); cbn [bind]; [reflexivity |]. destruct (Nat.leb_spec (cl + 1 - cf) j); cbn [bind]; [reflexivity | lia].
Qed.
Print Assumptions C116_block.
(* indices outside the range are reported *)
Theorem C116_reported : forall A f l i j, (f <= l)%nat ->
  ((tnc A <= l)%nat -> (i < tnr A)%nat -> tm_row_range A i (f, l) = Throw RangeError) /\
  ((tnr A <= l)%nat -> tm_col_range A (f, l) j = Throw RangeError) /\
  ((l + 1 - f <= j)%nat -> (l < tnc A)%nat -> (i < tnr A)%nat -> (do w <- tm_row_range A i (f, l) ; view_get (tarr A) w j) = Throw RangeError).
Proof.
  intros A f l i j FL. unfold tm_row_range, tm_col_range, range_in, in_range. cbn [fst snd]. repeat split.
  - intros H Hi. destruct (Nat.leb_spec (tnr A) i); [lia |]. cbn [bind]. destruct (Nat.leb_spec (tnc A) l); [| lia]. rewrite orb_true_r. reflexivity.
  - intros H. destruct (Nat.leb_spec (tnr A) l); [| lia]. rewrite orb_true_r. reflexivity.
  - intros H HL Hi. destruct (Nat.leb_spec (tnr A) i); [lia |]. cbn [bind]. destruct (Nat.leb_spec (tnc A) l); [lia |]. destruct (Nat.leb_spec (tnc A) f); [lia |]. cbn [orb bind].
    unfold view_get, in_view, range_length, in_range. cbn [vlen fst snd]. destruct (Nat.leb_spec f (l + 1)); [| lia]. destruct (Nat.leb_spec (l + 1 - f) j); [reflexivity | lia].
Qed.
Print Assumptions C116_reported.
(* a reversed range is accepted and leads out of the array *)
Theorem C116_reversed_refuted : forall v f l, (l + 1 < f)%nat -> (f < length v)%nat ->
  exists w, vec_range v (f, l) = Ok w /\ view_get v w (length v - f) = UB /\ view_vector v w = UB.
Proof.
  intros v f l FL Hf. unfold vec_range, range_in. cbn [fst snd]. destruct (Nat.leb_spec (length v) f); [lia |].
  destruct (Nat.leb_spec (length v) l); [lia |]. cbn [orb bind]. eexists. split; [reflexivity |].
  unfold view_get, view_vector, in_view, range_length. cbn [fst snd vlen vstart vstride]. destruct (Nat.leb_spec f (l + 1)); [lia |]. cbn [bind].
  split; [| reflexivity]. unfold aget. replace (f + (length v - f) * 1)%nat with (length v) by lia.
  assert (E : nth_error v (length v) = None) by (apply nth_error_None; lia). rewrite E. reflexivity.
Qed.
Print Assumptions C116_reversed_refuted.

(* whole views: every element of the view is changed, nothing else *)
Lemma view_update_ok : forall a w n f, vlen w = Some n -> (0 < vstride w)%nat ->
  (forall i, (i < n)%nat -> (vstart w + i * vstride w < length a)%nat) ->
  (forall i x, (i < n)%nat -> exists y, f i x = Ok y) ->
  exists a', view_update a w f = Ok a' /\ length a' = length a /\
  (forall i, (i < n)%nat -> f i (nth (vstart w + i * vstride w) a 0) = Ok (nth (vstart w + i * vstride w) a' 0)) /\
  (forall k, (forall i, (i < n)%nat -> k <> (vstart w + i * vstride w)%nat) -> nth k a' 0 = nth k a 0).
Proof.
  intros a w n f HN ST IN TOT. unfold view_update. rewrite HN.
  set (ix := fun i => (vstart w + i * vstride w)%nat) in *.
  assert (INJ : forall i j, ix i = ix j -> i = j) by (intros i j E; unfold ix in E; nia).
  destruct (mfor_inv _ n (fun i a => do x <- aget a (vstart w + i * vstride w) ; do y <- f i x ; aset a (vstart w + i * vstride w) y)
    (fun m a' => length a' = length a /\ (forall i, (i < m)%nat -> f i (nth (ix i) a 0) = Ok (nth (ix i) a' 0)) /\
       (forall k, (forall i, (i < m)%nat -> k <> ix i) -> nth k a' 0 = nth k a 0)) a) as (a' & E & P).
  - split; [reflexivity |]. split; [intros; lia | auto].
  - intros k t Hk (L & D & U). change (vstart w + k * vstride w)%nat with (ix k).
    rewrite aget_ok by (rewrite L; apply IN; exact Hk). cbn [bind].
    destruct (TOT k (nth (ix k) t 0) Hk) as (y & Ey). rewrite Ey. cbn [bind].
    destruct (aset_ok t (ix k) y) as (t' & Et & L' & S & O); [rewrite L; apply IN; exact Hk |]. exists t'. split; [exact Et |].
    split; [congruence |]. split.
    + intros i Hi. destruct (Nat.eq_dec i k) as [-> | N].
      * rewrite S, <- Ey. f_equal. symmetry. apply U. intros j Hj Q. apply INJ in Q. lia.
      * rewrite O by (intros Q; apply INJ in Q; lia). apply D. lia.
    + intros m Hm. rewrite O by (apply Hm; lia). apply U. intros i Hi. apply Hm. lia.
  - exists a'. split; [exact E |]. exact P.
Qed.
(* rows and columns of a matrix: assignment, filling and op= *)
Definition by_row (A : tmat) (i : nat) (g : nat -> R -> R) : nat -> nat -> R := fun a b => if Nat.eqb a i then g b (el A a b) else el A a b.
Definition by_column (A : tmat) (j : nat) (g : nat -> R -> R) : nat -> nat -> R := fun a b => if Nat.eqb b j then g a (el A a b) else el A a b.
Lemma row_update : forall A i f g, wf A -> (i < tnr A)%nat -> (forall j x, (j < tnc A)%nat -> f j x = Ok (g j x)) ->
  exists B, (do w <- tm_row A i ; rebuild A (view_update (tarr A) w f)) = Ok B /\ is_matrix B (tnr A) (tnc A) (by_row A i g).
Proof.
  intros A i f g W Hi F. unfold tm_row, in_range. destruct (Nat.leb_spec (tnr A) i); [lia |]. cbn [bind].
  destruct (view_update_ok (tarr A) (mkView (i * tnc A) (Some (tnc A)) 1) (tnc A) f eq_refl) as (a & E & L & D & U); cbn [vstart vstride] in *; [lia | | |].
  - intros j Hj. rewrite W, Nat.mul_1_r. apply idx_lt; assumption.
  - intros j x Hj. rewrite F by exact Hj. eauto.
  - rewrite E. unfold rebuild. cbn [bind]. eexists. split; [reflexivity |]. unfold is_matrix, wf, el, by_row. cbn [tnr tnc tarr].
    repeat split; [rewrite L; exact W |]. intros a' b Ha Hb. destruct (Nat.eqb_spec a' i) as [-> | N].
    + specialize (D b Hb). rewrite Nat.mul_1_r, F in D by exact Hb. unfold el. congruence.
    + apply U. intros j Hj Q. rewrite Nat.mul_1_r in Q. apply idx_inj in Q; lia.
Qed.
Lemma column_update : forall A j f g, wf A -> (j < tnc A)%nat -> (forall i x, (i < tnr A)%nat -> f i x = Ok (g i x)) ->
  exists B, (do w <- tm_column A j ; rebuild A (view_update (tarr A) w f)) = Ok B /\ is_matrix B (tnr A) (tnc A) (by_column A j g).
Proof.
  intros A j f g W Hj F. unfold tm_column, in_range. destruct (Nat.leb_spec (tnc A) j); [lia |]. cbn [bind].
  destruct (view_update_ok (tarr A) (mkView j (Some (tnr A)) (tnc A)) (tnr A) f eq_refl) as (a & E & L & D & U); cbn [vstart vstride] in *; [lia | | |].
  - intros i Hi. rewrite W, Nat.add_comm. apply idx_lt; assumption.
  - intros i x Hi. rewrite F by exact Hi. eauto.
  - rewrite E. unfold rebuild. cbn [bind]. eexists. split; [reflexivity |]. unfold is_matrix, wf, el, by_column. cbn [tnr tnc tarr].
    repeat split; [rewrite L; exact W |]. intros a' b Ha Hb. destruct (Nat.eqb_spec b j) as [-> | N].
    + specialize (D a' Ha). rewrite F in D by exact Ha. unfold el. rewrite (Nat.add_comm j) in D. congruence.
    + apply U. intros i Hi Q. rewrite (Nat.add_comm j) in Q. apply idx_inj in Q; lia.
Qed.
Theorem C116_row_write : forall A i v s op, wf A -> (i < tnr A)%nat ->
  (length v = tnc A ->
     exists B, (do w <- tm_row A i ; rebuild A (view_assign (tarr A) w v)) = Ok B /\ is_matrix B (tnr A) (tnc A) (by_row A i (fun j _ => vel v j))) /\
  (length v <> tnc A -> (do w <- tm_row A i ; rebuild A (view_assign (tarr A) w v)) = Throw DimensionError) /\
  (exists B, (do w <- tm_row A i ; rebuild A (view_fill (tarr A) w s)) = Ok B /\ is_matrix B (tnr A) (tnc A) (by_row A i (fun _ _ => s))) /\
  (exists B, (do w <- tm_row A i ; rebuild A (view_scalar op (tarr A) w s)) = Ok B /\ is_matrix B (tnr A) (tnc A) (by_row A i (fun _ x => op x s))) /\
  (length v = tnc A ->
     exists B, (do w <- tm_row A i ; rebuild A (view_op op (tarr A) w v)) = Ok B /\ is_matrix B (tnr A) (tnc A) (by_row A i (fun j x => op x (vel v j)))).
Proof.
  intros A i v s op W Hi.
  assert (RW : tm_row A i = Ok (mkView (i * tnc A) (Some (tnc A)) 1)) by (unfold tm_row, in_range; destruct (Nat.leb_spec (tnr A) i); [lia | reflexivity]).
  split; [| split; [| split; [| split]]].
  - intros L. destruct (row_update A i (fun j _ => aget v j) (fun j _ => vel v j) W Hi) as (B & E & M); [intros; apply aget_ok; lia |].
    exists B. split; [| exact M]. rewrite RW in *. cbn [bind] in *. unfold view_assign, equal_length. cbn [vlen]. rewrite L, Nat.eqb_refl. exact E.
  - intros N. rewrite RW. cbn [bind]. unfold view_assign, equal_length. cbn [vlen]. destruct (Nat.eqb_spec (tnc A) (length v)); [congruence | reflexivity].
  - apply (row_update A i (fun _ _ => Ok s) (fun _ _ => s) W Hi). auto.
  - apply (row_update A i (fun _ x => Ok (op x s)) (fun _ x => op x s) W Hi). auto.
  - intros L. destruct (row_update A i (fun j x => do y <- aget v j ; Ok (op x y)) (fun j x => op x (vel v j)) W Hi) as (B & E & M).
    { intros j x Hj. rewrite aget_ok by lia. reflexivity. }
    exists B. split; [| exact M]. rewrite RW in *. cbn [bind] in *. unfold view_op, equal_length. cbn [vlen]. rewrite L, Nat.eqb_refl. exact E.
Qed.
Print Assumptions C116_row_write.
Theorem C116_column_write : forall A j v s op, wf A -> (j < tnc A)%nat ->
  (length v = tnr A ->
     exists B, (do w <- tm_column A j ; rebuild A (view_assign (tarr A) w v)) = Ok B /\ is_matrix B (tnr A) (tnc A) (by_column A j (fun i _ => vel v i))) /\
  (length v <> tnr A -> (do w <- tm_column A j ; rebuild A (view_assign (tarr A) w v)) = Throw DimensionError) /\
  (exists B, (do w <- tm_column A j ; rebuild A (view_fill (tarr A) w s)) = Ok B /\ is_matrix B (tnr A) (tnc A) (by_column A j (fun _ _ => s))) /\
  (exists B, (do w <- tm_column A j ; rebuild A (view_scalar op (tarr A) w s)) = Ok B /\ is_matrix B (tnr A) (tnc A) (by_column A j (fun _ x => op x s))) /\
  (length v = tnr A ->
     exists B, (do w <- tm_column A j ; rebuild A (view_op op (tarr A) w v)) = Ok B /\ is_matrix B (tnr A) (tnc A) (by_column A j (fun i x => op x (vel v i)))).
Proof.
  intros A j v s op W Hj.
  assert (RW : tm_column A j = Ok (mkView j (Some (tnr A)) (tnc A))) by (unfold tm_column, in_range; destruct (Nat.leb_spec (tnc A) j); [lia | reflexivity]).
  split; [| split; [| split; [| split]]].
  - intros L. destruct (column_update A j (fun i _ => aget v i) (fun i _ => vel v i) W Hj) as (B & E & M); [intros; apply aget_ok; lia |].
    exists B. split; [| exact M]. rewrite RW in *. cbn [bind] in *. unfold view_assign, equal_length. cbn [vlen]. rewrite L, Nat.eqb_refl. exact E.
  - intros N. rewrite RW. cbn [bind]. unfold view_assign, equal_length. cbn [vlen]. destruct (Nat.eqb_spec (tnr A) (length v)); [congruence | reflexivity].
  - apply (column_update A j (fun _ _ => Ok s) (fun _ _ => s) W Hj). auto.
  - apply (column_update A j (fun _ x => Ok (op x s)) (fun _ x => op x s) W Hj). auto.
  - intros L. destruct (column_update A j (fun i x => do y <- aget v i ; Ok (op x y)) (fun i x => op x (vel v i)) W Hj) as (B & E & M).
    { intros i x Hi. rewrite aget_ok by lia. reflexivity. }
    exists B. split; [| exact M]. rewrite RW in *. cbn [bind] in *. unfold view_op, equal_length. cbn [vlen]. rewrite L, Nat.eqb_refl. exact E.
Qed.
Print Assumptions C116_column_write.
(* reading a whole row or column *)
Lemma view_vector_ok : forall a w n, vlen w = Some n -> (forall i, (i < n)%nat -> (vstart w + i * vstride w < length a)%nat) ->
  exists v, view_vector a w = Ok v /\ is_vector v n (fun i => nth (vstart w + i * vstride w) a 0).
Proof.
  intros a w n HN IN. unfold view_vector. rewrite HN.
  apply (mfor_inv _ n _ (fun m v => is_vector v m (fun i => nth (vstart w + i * vstride w) a 0)) []).
  - split; [reflexivity | intros; lia].
  - intros k v Hk [L E]. rewrite aget_ok by auto. cbn [bind]. eexists. split; [reflexivity |]. split; [rewrite app_length; cbn; lia |].
    intros i Hi. unfold vel in *. destruct (Nat.eq_dec i k) as [-> | N].
    + rewrite app_nth2 by lia. rewrite L, Nat.sub_diag. reflexivity.
    + rewrite app_nth1 by lia. apply E. lia.
Qed.
Theorem C116_read_whole : forall A i j, wf A ->
  ((i < tnr A)%nat -> exists v, (do w <- tm_row A i ; view_vector (tarr A) w) = Ok v /\ is_vector v (tnc A) (fun b => el A i b)) /\
  ((j < tnc A)%nat -> exists v, (do w <- tm_column A j ; view_vector (tarr A) w) = Ok v /\ is_vector v (tnr A) (fun a => el A a j)).
Proof.
  intros A i j W. split; intros H.
  - unfold tm_row, in_range. destruct (Nat.leb_spec (tnr A) i); [lia |]. cbn [bind].
    destruct (view_vector_ok (tarr A) (mkView (i * tnc A) (Some (tnc A)) 1) (tnc A) eq_refl) as (v & E & L & V); cbn [vstart vstride] in *.
    + intros b Hb. rewrite W, Nat.mul_1_r. apply idx_lt; assumption.
    + exists v. split; [exact E |]. split; [exact L |]. intros b Hb. rewrite V by exact Hb. rewrite Nat.mul_1_r. reflexivity.
  - unfold tm_column, in_range. destruct (Nat.leb_spec (tnc A) j); [lia |]. cbn [bind].
    destruct (view_vector_ok (tarr A) (mkView j (Some (tnr A)) (tnc A)) (tnr A) eq_refl) as (v & E & L & V); cbn [vstart vstride] in *.
    + intros b Hb. rewrite W, Nat.add_comm. apply idx_lt; assumption.
    + exists v. split; [exact E |]. split; [exact L |]. intros b Hb. rewrite V by exact Hb. rewrite Nat.add_comm. reflexivity.
Qed.
Print Assumptions C116_read_whole.

(* loops over the elements of a matrix *)
Definition upd_el (h : nat -> nat -> R -> R) (i j : nat) (D : tmat) : nat -> nat -> R :=
  fun a b => if Nat.eqb a i && Nat.eqb b j then h i j (el D i j) else el D a b.
Lemma double_loop : forall n m F h lim C, tnr C = n -> tnc C = m -> wf C ->
  (forall D, tnr D = n -> tnc D = m -> lim D = m) ->
  (forall i j D, (i < n)%nat -> (j < m)%nat -> tnr D = n -> tnc D = m -> wf D ->
     exists D', F i j D = Ok D' /\ is_matrix D' n m (upd_el h i j D)) ->
  exists D, mfor n (fun i D => mfor (lim D) (F i) D) C = Ok D /\ is_matrix D n m (fun a b => h a b (el C a b)).
Proof.
  intros n m F h lim C HN HM W LIM HF.
  destruct (mfor_inv _ n (fun i D => mfor (lim D) (F i) D)
    (fun i D => is_matrix D n m (fun a b => if Nat.ltb a i then h a b (el C a b) else el C a b)) C) as (D & E & P).
  - repeat split; auto.
  - intros i D Hi (R1 & C1 & W1 & E1). rewrite LIM by assumption.
    destruct (mfor_inv _ m (F i) (fun j D => is_matrix D n m (fun a b => if Nat.ltb a i || (Nat.eqb a i && Nat.ltb b j) then h a b (el C a b) else el C a b)) D) as (D' & E & P).
    + repeat split; auto. intros a b Ha Hb. rewrite E1 by assumption. destruct (Nat.ltb_spec a i); [reflexivity |].
      destruct (Nat.eqb_spec a i); reflexivity.
    + intros j D1 Hj (R2 & C2 & W2 & E2). destruct (HF i j D1 Hi Hj R2 C2 W2) as (D2 & F2 & R3 & C3 & W3 & E3). exists D2. split; [exact F2 |].
      repeat split; auto. intros a b Ha Hb. rewrite E3 by assumption. unfold upd_el.
      destruct (Nat.eqb_spec a i) as [-> | N]; destruct (Nat.eqb_spec b j) as [-> | N']; cbn [andb]; rewrite E2 by assumption.
      * rewrite Nat.ltb_irrefl, Nat.eqb_refl. cbn [orb andb]. rewrite Nat.ltb_irrefl. destruct (Nat.ltb_spec j (Datatypes.S j)); [reflexivity | lia].
      * rewrite Nat.ltb_irrefl, Nat.eqb_refl. cbn [orb andb]. destruct (Nat.ltb_spec b j), (Nat.ltb_spec b (Datatypes.S j)); try lia; reflexivity.
      * destruct (Nat.eqb_spec a i); [contradiction |]. reflexivity.
      * destruct (Nat.eqb_spec a i); [contradiction |]. reflexivity.
    + exists D'. split; [exact E |]. destruct P as (R2 & C2 & W2 & E2). repeat split; auto. intros a b Ha Hb. rewrite E2 by assumption.
      destruct (Nat.ltb_spec b m); [| lia]. rewrite andb_true_r.
      destruct (Nat.ltb_spec a i), (Nat.eqb_spec a i), (Nat.ltb_spec a (Datatypes.S i)); try lia; reflexivity.
  - exists D. split; [exact E |]. destruct P as (R2 & C2 & W2 & E2). repeat split; auto. intros a b Ha Hb. rewrite E2 by assumption.
    destruct (Nat.ltb_spec a n); [reflexivity | lia].
Qed.
Lemma acc_loop : forall K f g C i j, wf C -> (i < tnr C)%nat -> (j < tnc C)%nat ->
  (forall k D, (k < K)%nat -> tnr D = tnr C -> tnc D = tnc C -> f k D = do c <- tm_get D i j ; tm_set D i j (c + g k)) ->
  exists D, mfor K f C = Ok D /\ is_matrix D (tnr C) (tnc C) (upd_el (fun i j c => c + sumn K g) i j C).
Proof.
  intros K f g C i j W Hi Hj F.
  apply (mfor_inv _ K f (fun k D => is_matrix D (tnr C) (tnc C) (upd_el (fun i j c => c + sumn k g) i j C)) C).
  - repeat split; auto. intros a b Ha Hb. unfold upd_el. destruct (Nat.eqb_spec a i) as [-> |], (Nat.eqb_spec b j) as [-> |]; cbn; try reflexivity. ring.
  - intros k D Hk (R1 & C1 & W1 & E1). rewrite F by assumption. rewrite get_ok by (rewrite ?R1, ?C1; assumption). cbn [bind].
    destruct (set_ok D i j (el D i j + g k) W1 ltac:(rewrite R1; exact Hi) ltac:(rewrite C1; exact Hj)) as (D' & E & R2 & C2 & W2 & S & O).
    exists D'. split; [exact E |]. repeat split; auto; try congruence. intros a b Ha Hb. unfold upd_el.
    destruct (Nat.eqb_spec a i) as [-> | N]; [destruct (Nat.eqb_spec b j) as [-> | N'] |]; cbn [andb].
    + rewrite S, E1 by assumption. unfold upd_el. rewrite !Nat.eqb_refl. cbn [andb]. rewrite sumn_S. ring.
    + rewrite O by (rewrite ?C1; auto). rewrite E1 by assumption. unfold upd_el. rewrite Nat.eqb_refl. destruct (Nat.eqb_spec b j); [contradiction | reflexivity].
    + rewrite O by (rewrite ?C1; auto). rewrite E1 by assumption. unfold upd_el. destruct (Nat.eqb_spec a i); [contradiction | reflexivity].
Qed.

(* ---- C117: products ---- *)
(* the operand, possibly transposed *)
Definition op_el (t : bool) (A : tmat) (i j : nat) : R := if t then el A j i else el A i j.
Definition op_rows (t : bool) (A : tmat) : nat := if t then tnc A else tnr A.
Definition op_cols (t : bool) (A : tmat) : nat := if t then tnr A else tnc A.
(* the scale factors used: factors within the tolerance of 0 or 1 count as 0 or 1 *)
Definition eff_beta (beta : R) : R := if fequal beta 0 then 0 else if fequal beta 1 then 1 else beta.
Definition eff_alpha (alpha : R) : R := if fequal alpha 0 then 0 else alpha.

Lemma scaled_matrix : forall C beta, wf C ->
  is_matrix (if fequal beta 0 then mkTM (tnr C) (tnc C) (map (fun _ => 0) (tarr C)) else if negb (fequal beta 1) then tm_scalar Rmult C beta else C)
    (tnr C) (tnc C) (fun i j => eff_beta beta * el C i j).
Proof.
  intros C beta W. unfold eff_beta. destruct (fequal beta 0); [| destruct (fequal beta 1)]; cbn [negb].
  - destruct (C118_matrix_ops (fun _ _ => 0) C C 0 W W) as (M & _). destruct M as (R1 & C1 & W1 & E). repeat split; [exact W1 |].
    intros i j Hi Hj. transitivity 0; [exact (E i j Hi Hj) | ring].
  - repeat split; auto. intros; ring.
  - destruct (C118_matrix_ops Rmult C C beta W W) as ((R1 & C1 & W1 & E) & _). repeat split; [exact W1 |]. intros i j Hi Hj. rewrite E by assumption. ring.
Qed.
Theorem C117_gemm : forall ta tb alpha A B beta C, wf A -> wf B -> wf C ->
  tnr C = op_rows ta A -> tnc C = op_cols tb B -> op_cols ta A = op_rows tb B ->
  exists D, tgemm ta tb alpha A B beta C = Ok D /\ is_matrix D (tnr C) (tnc C)
    (fun i j => eff_beta beta * el C i j + eff_alpha alpha * sumn (op_cols ta A) (fun k => op_el ta A i k * op_el tb B k j)).
Proof.
  intros ta tb alpha A B beta C WA WB WC HR HC HK. unfold tgemm.
  pose proof (scaled_matrix C beta WC) as SM.
  set (C1 := if fequal beta 0 then _ else _) in *. clearbody C1. destruct SM as (R1 & K1 & W1 & E1). unfold eff_alpha.
  destruct (fequal alpha 0).
  { exists C1. split; [reflexivity |]. repeat split; auto. intros i j Hi Hj. rewrite E1 by assumption. ring. }
  destruct (double_loop (tnr C) (tnc C)
    (fun i j C => mfor (if ta then tnr A else tnc A) (fun k C =>
      do a <- (if ta then tm_get A k i else tm_get A i k) ; do b <- (if tb then tm_get B j k else tm_get B k j) ;
      do c <- tm_get C i j ; tm_set C i j (c + alpha * a * b)) C)
    (fun i j c => c + sumn (op_cols ta A) (fun k => alpha * (op_el ta A i k * op_el tb B k j))) tnc C1 R1 K1 W1) as (D & ED & R2 & K2 & W2 & E2); [auto | |].
  - intros i j D Hi Hj RD KD WD.
    destruct (acc_loop (op_cols ta A) (fun k C =>
      do a <- (if ta then tm_get A k i else tm_get A i k) ; do b <- (if tb then tm_get B j k else tm_get B k j) ;
      do c <- tm_get C i j ; tm_set C i j (c + alpha * a * b)) (fun k => alpha * (op_el ta A i k * op_el tb B k j)) D i j WD) as (D' & E & M); try congruence.
    + intros k D0 Hk _ _.
      assert (GA : (if ta then tm_get A k i else tm_get A i k) = Ok (op_el ta A i k)).
      { unfold op_el, op_cols, op_rows in *. destruct ta; apply get_ok; auto; lia. }
      assert (GB : (if tb then tm_get B j k else tm_get B k j) = Ok (op_el tb B k j)).
      { unfold op_el, op_cols, op_rows in *. destruct tb; apply get_ok; auto; lia. }
      rewrite GA, GB. cbn [bind]. destruct (tm_get D0 i j) as [c | |]; cbn [bind]; [| reflexivity | reflexivity]. f_equal. ring.
    + exists D'. unfold op_cols in *. split; [exact E |]. rewrite RD, KD in M. exact M.
  - exists D. split; [exact ED |]. repeat split; auto. intros i j Hi Hj. rewrite E2, E1 by assumption.
    rewrite sumn_scal. reflexivity.
Qed.
Print Assumptions C117_gemm.
Lemma fequal_1_0 : fequal 1 0 = false.
Proof. unfold fequal, fequal_tol. pose proof eps_small. destruct (Rleb_spec (Rabs (1 - 0)) eps) as [H1 | H1]; [| reflexivity]. rewrite Rabs_right in H1; lra. Qed.
Lemma fequal_refl : forall x, fequal x x = true.
Proof. intros x. unfold fequal, fequal_tol. pose proof eps_pos. rewrite Rminus_diag_eq, Rabs_R0 by reflexivity. destruct (Rleb_spec 0 eps); [reflexivity | lra]. Qed.
Lemma eff_beta_1 : eff_beta 1 = 1.
Proof. unfold eff_beta. rewrite fequal_1_0, fequal_refl. reflexivity. Qed.
Lemma eff_alpha_1 : eff_alpha 1 = 1.
Proof. unfold eff_alpha. rewrite fequal_1_0. reflexivity. Qed.
Lemma fill_is : forall n m x, is_matrix (tm_fill n m x) n m (fun _ _ => x).
Proof.
  intros n m x. unfold tm_fill. repeat split; [unfold wf; cbn; apply repeat_length |]. intros i j Hi Hj. unfold el. cbn [tnc tarr].
  assert (H := idx_lt n m i j Hi Hj). revert H. generalize (i * m + j)%nat (n * m)%nat. intros k N. revert k.
  induction N as [| N IH]; intros [| k] H; cbn; try lia; [reflexivity |]. apply IH. lia.
Qed.
Theorem C117_times : forall A B, wf A -> wf B ->
  (tnr A = tnc B /\ tnc A = tnr B -> exists D, tm_times A B = Ok D /\ is_matrix D (tnr A) (tnc B) (fun i j => sumn (tnc A) (fun k => el A i k * el B k j))) /\
  (tnr A <> tnc B \/ tnc A <> tnr B -> tm_times A B = Throw DimensionError).
Proof.
  intros A B WA WB. unfold tm_times. split.
  - intros [E1 E2]. rewrite <- E1, <- E2, !Nat.eqb_refl. cbn [andb].
    destruct (fill_is (tnr A) (tnr A) 0) as (R0 & C0 & W0 & E0).
    destruct (C117_gemm false false 1 A B 1 (tm_fill (tnr A) (tnr A) 0) WA WB W0) as (D & E & R1 & C1 & W1 & EE); auto.
    exists D. split; [exact E |]. rewrite R0, C0 in *. repeat split; auto. intros i j Hi Hj. rewrite EE, E0 by assumption. rewrite eff_beta_1, eff_alpha_1.
    unfold op_cols, op_el. ring.
  - intros H. destruct (Nat.eqb_spec (tnr A) (tnc B)), (Nat.eqb_spec (tnc A) (tnr B)); cbn; auto; lia.
Qed.
Print Assumptions C117_times.
(* operator* refuses every product whose result is not square *)
Theorem C52_product_refuted : forall A B, wf A -> wf B -> tnc A = tnr B -> tnr A <> tnc B -> tm_times A B = Throw DimensionError.
Proof. intros A B WA WB _ H. apply C117_times; auto. Qed.
Print Assumptions C52_product_refuted.
(* the general product is available through TGEMM *)
Theorem C117_rectangular : forall A B C, wf A -> wf B -> wf C -> tnc A = tnr B -> tnr C = tnr A -> tnc C = tnc B ->
  exists D, tgemm false false 1 A B 0 C = Ok D /\ is_matrix D (tnr A) (tnc B) (fun i j => sumn (tnc A) (fun k => el A i k * el B k j)).
Proof.
  intros A B C WA WB WC E1 E2 E3. destruct (C117_gemm false false 1 A B 0 C WA WB WC E2 E3 E1) as (D & E & R1 & C1 & W1 & EE).
  exists D. split; [exact E |]. rewrite E2, E3 in *. repeat split; auto. intros i j Hi Hj. rewrite EE by assumption. rewrite eff_alpha_1. unfold eff_beta. rewrite fequal_refl. unfold op_cols, op_el. ring.
Qed.
Print Assumptions C117_rectangular.

(* matrix times vector *)
Lemma vec_get_ok : forall v i, (i < length v)%nat -> vec_get v i = Ok (vel v i).
Proof. intros v i H. exact (proj1 (proj1 (C118_access v i 0) H)). Qed.
Lemma vec_acc : forall K f g y i, (i < length y)%nat ->
  (forall k z, (k < K)%nat -> length z = length y -> f k z = do c <- vec_get z i ; vec_set z i (c + g k)) ->
  exists z, mfor K f y = Ok z /\ is_vector z (length y) (fun a => if Nat.eqb a i then vel y a + sumn K g else vel y a).
Proof.
  intros K f g y i Hi F. apply (mfor_inv _ K f (fun k z => is_vector z (length y) (fun a => if Nat.eqb a i then vel y a + sumn k g else vel y a)) y).
  - split; [reflexivity |]. intros a Ha. destruct (Nat.eqb a i); [cbn; ring | reflexivity].
  - intros k z Hk [L E]. rewrite F by assumption. rewrite vec_get_ok by (rewrite L; exact Hi). cbn [bind].
    destruct (C118_access z i (vel z i + g k)) as [A _]. destruct A as [_ (z' & S & L' & E')]; [rewrite L; exact Hi |]. exists z'. split; [exact S |].
    split; [congruence |]. intros a Ha. rewrite E'. destruct (Nat.eqb_spec a i) as [-> | N].
    + rewrite E by exact Hi. rewrite Nat.eqb_refl. rewrite sumn_S. ring.
    + rewrite E by exact Ha. destruct (Nat.eqb_spec a i); [contradiction | reflexivity].
Qed.
Lemma vec_loop : forall n F h y, (n <= length y)%nat ->
  (forall i z, (i < n)%nat -> length z = length y -> exists z', F i z = Ok z' /\ is_vector z' (length y) (fun a => if Nat.eqb a i then h i (vel z i) else vel z a)) ->
  exists z, mfor n F y = Ok z /\ is_vector z (length y) (fun a => if Nat.ltb a n then h a (vel y a) else vel y a).
Proof.
  intros n F h y L HF. apply (mfor_inv _ n F (fun m z => is_vector z (length y) (fun a => if Nat.ltb a m then h a (vel y a) else vel y a)) y).
  - split; [reflexivity | intros; reflexivity].
  - intros k z Hk [Lz E]. destruct (HF k z Hk Lz) as (z' & Fz & Lz' & E'). exists z'. split; [exact Fz |]. split; [exact Lz' |].
    intros a Ha. rewrite E' by exact Ha. destruct (Nat.eqb_spec a k) as [-> | N].
    + rewrite E by exact Ha. rewrite Nat.ltb_irrefl. destruct (Nat.ltb_spec k (Datatypes.S k)); [reflexivity | lia].
    + rewrite E by exact Ha. destruct (Nat.ltb_spec a k), (Nat.ltb_spec a (Datatypes.S k)); try lia; reflexivity.
Qed.
Lemma scale_loop : forall n beta y, (n <= length y)%nat -> exists z,
  (if negb (fequal beta 1) then mfor n (fun i y => do z <- vec_get y i ; vec_set y i (z * beta)) y else Ok y) = Ok z /\
  is_vector z (length y) (fun a => if Nat.ltb a n then (if fequal beta 1 then 1 else beta) * vel y a else vel y a).
Proof.
  intros n beta y L. destruct (fequal beta 1); cbn [negb].
  - exists y. split; [reflexivity |]. split; [reflexivity |]. intros a Ha. destruct (Nat.ltb a n); ring.
  - destruct (vec_loop n (fun i y => do z <- vec_get y i ; vec_set y i (z * beta)) (fun _ x => beta * x) y L) as (z & E & V); [| eauto].
    intros i z Hi Lz. rewrite vec_get_ok by lia. cbn [bind]. destruct (C118_access z i (vel z i * beta)) as [A _]. destruct A as [_ (z' & S & L' & E')]; [lia |].
    exists z'. split; [exact S |]. split; [congruence |]. intros a Ha. rewrite E'. destruct (Nat.eqb a i); ring.
Qed.
(* y := beta y + alpha op(A) x, provided that the factor beta is 1 or A is not transposed (or square) *)
Theorem C117_gemv : forall t alpha A x beta y, wf A -> length x = op_cols t A -> length y = op_rows t A ->
  (t = false \/ tnr A = tnc A \/ fequal beta 1 = true) ->
  exists z, tgemv t alpha A x beta y = Ok z /\ is_vector z (length y)
    (fun i => (if fequal beta 1 then 1 else beta) * vel y i + eff_alpha alpha * sumn (op_cols t A) (fun k => op_el t A i k * vel x k)).
Proof.
  intros t alpha A x beta y WA LX LY SQ. unfold tgemv.
  assert (SC : exists z, (if negb (fequal beta 1) then mfor (tnr A) (fun i y => do z <- vec_get y i ; vec_set y i (z * beta)) y else Ok y) = Ok z /\
     is_vector z (length y) (fun a => (if fequal beta 1 then 1 else beta) * vel y a)).
  { destruct (Bool.bool_dec (fequal beta 1) true) as [B1 | B1].
    - rewrite B1. cbn [negb]. exists y. split; [reflexivity |]. split; [reflexivity |]. intros; ring.
    - destruct (scale_loop (tnr A) beta y) as (z & E & L & V).
      + unfold op_rows in LY. destruct t; [| lia]. destruct SQ as [D | [D | D]]; [discriminate | lia | contradiction].
      + exists z. split; [exact E |]. split; [exact L |]. intros a Ha. rewrite V by exact Ha.
        destruct (Nat.ltb_spec a (tnr A)); [reflexivity |]. unfold op_rows in LY. destruct t; [| lia]. destruct SQ as [D | [D | D]]; [discriminate | lia | contradiction]. }
  destruct SC as (y1 & -> & L1 & E1). cbn [bind]. unfold eff_alpha. destruct (fequal alpha 0); cbn [negb].
  { exists y1. split; [reflexivity |]. split; [exact L1 |]. intros i Hi. rewrite E1 by exact Hi. ring. }
  assert (BODY : forall i z, (i < op_rows t A)%nat -> length z = length y1 ->
    exists z', mfor (op_cols t A) (fun j y => do a <- (if t then tm_get A j i else tm_get A i j) ; do b <- vec_get x j ; do c <- vec_get y i ; vec_set y i (c + alpha * a * b)) z = Ok z' /\
      is_vector z' (length y1) (fun a => if Nat.eqb a i then vel z i + sumn (op_cols t A) (fun k => alpha * (op_el t A i k * vel x k)) else vel z a)).
  { intros i z Hi Lz. destruct (vec_acc (op_cols t A) (fun j y => do a <- (if t then tm_get A j i else tm_get A i j) ; do b <- vec_get x j ; do c <- vec_get y i ; vec_set y i (c + alpha * a * b))
      (fun k => alpha * (op_el t A i k * vel x k)) z i) as (z' & E & L & V); [lia | |].
    - intros k w Hk Lw. assert (GA : (if t then tm_get A k i else tm_get A i k) = Ok (op_el t A i k)) by (unfold op_el, op_cols, op_rows in *; destruct t; apply get_ok; auto).
      rewrite GA, (vec_get_ok x) by lia. cbn [bind]. destruct (vec_get w i) as [c | |]; cbn [bind]; [| reflexivity | reflexivity]. f_equal. ring.
    - exists z'. split; [exact E |]. rewrite Lz in *. split; [exact L |]. intros a Ha. rewrite V by exact Ha. destruct (Nat.eqb_spec a i) as [-> |]; reflexivity. }
  destruct (vec_loop (op_rows t A) (fun i z => mfor (op_cols t A) (fun j y => do a <- (if t then tm_get A j i else tm_get A i j) ; do b <- vec_get x j ; do c <- vec_get y i ; vec_set y i (c + alpha * a * b)) z)
    (fun i c => c + sumn (op_cols t A) (fun k => alpha * (op_el t A i k * vel x k))) y1 ltac:(lia) BODY) as (z & E & L & V).
  exists z. split; [| split; [congruence |]].
  - unfold op_rows, op_cols in E. destruct t; exact E.
  - intros i Hi. rewrite V by lia. destruct (Nat.ltb_spec i (op_rows t A)); [| lia]. rewrite E1 by exact Hi. rewrite sumn_scal. reflexivity.
Qed.
Print Assumptions C117_gemv.
(* with a transposed matrix that is not square the factor beta runs over the wrong length *)
Theorem C117_gemv_scale_refuted : forall alpha A x beta y, length y = tnc A -> fequal beta 1 = false -> (tnc A < tnr A)%nat ->
  tgemv true alpha A x beta y = Throw RangeError.
Proof.
  intros alpha A x beta y LY FB LT. unfold tgemv.
  assert (E : (if negb (fequal beta 1) then mfor (tnr A) (fun i y => do z <- vec_get y i ; vec_set y i (z * beta)) y else Ok y) = Throw RangeError).
  { destruct (scale_loop (tnc A) beta y) as (z & E & L & _); [lia |]. rewrite FB in *. cbn [negb] in *.
    apply (mfor_throw _ (tnr A) _ y RangeError (tnc A) LT). exists z. split; [exact E |].
    destruct (C118_access z (tnc A) 0) as [_ B]. rewrite (proj1 (B ltac:(lia))). reflexivity. }
  rewrite E. reflexivity.
Qed.
Print Assumptions C117_gemv_scale_refuted.
Theorem C117_apply : forall A v, wf A ->
  (length v = tnc A -> exists w, tm_apply A v = Ok w /\ is_vector w (tnr A) (fun i => sumn (tnc A) (fun k => el A i k * vel v k))) /\
  (length v <> tnc A -> tm_apply A v = Throw DimensionError).
Proof.
  intros A v W. unfold tm_apply, equal_length. split; intros H.
  - rewrite H, Nat.eqb_refl. cbn [bind].
    destruct (C117_gemv false 1 A v 1 (repeat 0 (tnr A)) W) as (z & E & L & V); auto; [apply repeat_length |].
    exists z. split; [exact E |]. rewrite repeat_length in *. split; [exact L |]. intros i Hi. rewrite V by exact Hi.
    rewrite fequal_refl, eff_alpha_1. unfold op_cols, op_el, vel. rewrite nth_repeat. ring.
  - destruct (Nat.eqb_spec (tnc A) (length v)); [congruence | reflexivity].
Qed.
Print Assumptions C117_apply.

(* R M R^T *)
Lemma acc_loop2 : forall K f g C i j, wf C -> (i < tnr C)%nat -> (j < tnc C)%nat ->
  (forall k l D, (k < K)%nat -> (l < K)%nat -> tnr D = tnr C -> tnc D = tnc C -> f k l D = do c <- tm_get D i j ; tm_set D i j (c + g k l)) ->
  exists D, mfor K (fun k D => mfor K (f k) D) C = Ok D /\ is_matrix D (tnr C) (tnc C) (upd_el (fun i j c => c + sumn K (fun k => sumn K (g k))) i j C).
Proof.
  intros K f g C i j W Hi Hj F.
  apply (mfor_inv _ K (fun k D => mfor K (f k) D) (fun k D => is_matrix D (tnr C) (tnc C) (upd_el (fun i j c => c + sumn k (fun k => sumn K (g k))) i j C)) C).
  - repeat split; auto. intros a b Ha Hb. unfold upd_el. destruct (Nat.eqb_spec a i) as [-> |], (Nat.eqb_spec b j) as [-> |]; cbn; try reflexivity. ring.
  - intros k D Hk (R1 & C1 & W1 & E1).
    destruct (acc_loop K (f k) (g k) D i j W1) as (D' & E & R2 & C2 & W2 & E2); [congruence | congruence | |].
    + intros l D0 Hl R0 C0. apply F; auto; congruence.
    + exists D'. split; [exact E |]. rewrite R1, C1 in *. repeat split; auto. intros a b Ha Hb. rewrite E2 by assumption. unfold upd_el.
      destruct (Nat.eqb_spec a i) as [-> | N]; [destruct (Nat.eqb_spec b j) as [-> | N'] |]; cbn [andb]; rewrite E1 by assumption; unfold upd_el.
      * rewrite !Nat.eqb_refl. cbn [andb]. rewrite sumn_S. ring.
      * rewrite Nat.eqb_refl. destruct (Nat.eqb_spec b j); [contradiction | reflexivity].
      * destruct (Nat.eqb_spec a i); [contradiction | reflexivity].
Qed.
Theorem C117_congruence : forall Q M C, wf Q -> wf M -> wf C -> let n := tnr Q in
  tnc Q = n -> tnr M = n -> tnc M = n -> tnr C = n -> tnc C = n ->
  exists D, tgemr Q M C = Ok D /\ is_matrix D n n (mmul n (mmul n (el Q) (el M)) (mtr (el Q))).
Proof.
  intros Q M C WQ WM WC n HQ HM HM' HC HC'. unfold tgemr. fold n.
  destruct (double_loop n n (fun i j C =>
    do C0 <- tm_set C i j 0 ;
    mfor n (fun k C => mfor n (fun l C =>
      do a <- tm_get Q i k ; do b <- tm_get Q j l ; do m <- tm_get M k l ;
      do c <- tm_get C i j ; tm_set C i j (c + a * b * m)) C) C0)
    (fun i j _ => sumn n (fun k => sumn n (fun l => el Q i k * el Q j l * el M k l))) (fun _ => n) C HC HC' WC) as (D & E & R1 & C1 & W1 & E1); [auto | |].
  - intros i j D Hi Hj RD KD WD. destruct (set_ok D i j 0 WD) as (D0 & -> & R0 & K0 & W0 & S0 & O0); [lia | lia |]. cbn [bind].
    destruct (acc_loop2 n (fun k l C => do a <- tm_get Q i k ; do b <- tm_get Q j l ; do m <- tm_get M k l ;
      do c <- tm_get C i j ; tm_set C i j (c + a * b * m)) (fun k l => el Q i k * el Q j l * el M k l) D0 i j W0) as (D' & E & R1 & C1 & W1 & E1); [lia | lia | |].
    + intros k l D1 Hk Hl _ _. rewrite !get_ok by (auto; fold n; lia). reflexivity.
    + exists D'. split; [exact E |]. rewrite R0, K0, RD, KD in *. repeat split; auto. intros a b Ha Hb. rewrite E1 by assumption. unfold upd_el.
      destruct (Nat.eqb_spec a i) as [-> | N]; [destruct (Nat.eqb_spec b j) as [-> | N'] |]; cbn [andb].
      * rewrite S0. ring.
      * apply O0; auto.
      * apply O0; auto.
  - exists D. split; [exact E |]. repeat split; auto. intros i j Hi Hj. rewrite E1 by assumption. unfold mmul, mtr.
    rewrite sumn_swap. apply sumn_ext. intros l Hl. rewrite <- sumn_scal_r. apply sumn_ext. intros k Hk. ring.
Qed.
Print Assumptions C117_congruence.
Theorem C117_identity : forall n, exists I, tm_identity n = Ok I /\ is_matrix I n n mid.
Proof.
  intros n. unfold tm_identity, view_fill.
  destruct (view_update_ok (repeat 0 (n * n)) (mkView 0 (Some n) (n + 1)) n (fun _ _ => Ok 1) eq_refl) as (a & E & L & D & U); cbn [vstart vstride] in *; [lia | | eauto |].
  { intros i Hi. rewrite repeat_length. nia. }
  rewrite E. cbn [bind]. eexists. split; [reflexivity |]. repeat split; [unfold wf; cbn; rewrite L; apply repeat_length |].
  intros i j Hi Hj. unfold el, mid. cbn [tnc tarr]. destruct (Nat.eqb_spec i j) as [<- | N].
  - specialize (D i Hi). replace (0 + i * (n + 1))%nat with (i * n + i)%nat in D by lia. congruence.
  - rewrite U; [apply nth_repeat |]. intros k Hk Q. replace (0 + k * (n + 1))%nat with (k * n + k)%nat in Q by lia. apply idx_inj in Q; lia.
Qed.
Print Assumptions C117_identity.

(* writing and reading blocks *)
Lemma block_loop : forall A rf rl cf cl f g, wf A -> (rf <= rl < tnr A)%nat -> (cf <= cl < tnc A)%nat ->
  (forall i j x, (i < rl + 1 - rf)%nat -> (j < cl + 1 - cf)%nat -> f i j x = Ok (g i j x)) ->
  exists B, (do b <- tm_block A (rf, rl) (cf, cl) ; rebuild A (block_update (tarr A) b f)) = Ok B /\
  is_matrix B (tnr A) (tnc A) (fun a b => if Nat.leb rf a && Nat.leb a rl && (Nat.leb cf b && Nat.leb b cl) then g (a - rf)%nat (b - cf)%nat (el A a b) else el A a b).
Proof.
  intros A rf rl cf cl f g W HR HC F.
  unfold tm_block, range_in, tm_index, in_range. cbn [fst snd].
  destruct (Nat.leb_spec (tnr A) rf); [lia |]. destruct (Nat.leb_spec (tnr A) rl); [lia |].
  destruct (Nat.leb_spec (tnc A) cf); [lia |]. destruct (Nat.leb_spec (tnc A) cl); [lia |]. cbn [orb bind].
  assert (RL : range_length (rf, rl) = Some (rl + 1 - rf)%nat) by (unfold range_length; cbn; destruct (Nat.leb_spec rf (rl + 1)); [reflexivity | lia]).
  assert (CL : range_length (cf, cl) = Some (cl + 1 - cf)%nat) by (unfold range_length; cbn; destruct (Nat.leb_spec cf (cl + 1)); [reflexivity | lia]).
  unfold block_update. cbn [brows bcols bstart bstride]. rewrite RL, CL. set (n := (rl + 1 - rf)%nat). set (m := (cl + 1 - cf)%nat).
  set (ix := fun i j => (rf * tnc A + cf + i * tnc A + j)%nat).
  pose (done := fun p q a b => Nat.leb rf a && (Nat.ltb a (rf + p) || (Nat.eqb a (rf + p) && Nat.ltb b (cf + q))) && (Nat.leb cf b && Nat.leb b cl)).
  pose (Inv := fun p q (l : list R) => length l = length (tarr A) /\ forall a b, (a < tnr A)%nat -> (b < tnc A)%nat ->
     nth (a * tnc A + b) l 0 = if done p q a b then g (a - rf)%nat (b - cf)%nat (el A a b) else el A a b).
  destruct (mfor_inv _ n (fun i a => mfor m (fun j a => do x <- aget a (rf * tnc A + cf + i * tnc A + j) ; do y <- f i j x ; aset a (rf * tnc A + cf + i * tnc A + j) y) a)
    (fun p l => Inv p 0%nat l) (tarr A)) as (l & E & L & V).
  - split; [reflexivity |]. intros a b Ha Hb. unfold done.
    destruct (Nat.leb_spec rf a), (Nat.ltb_spec a (rf + 0)), (Nat.eqb_spec a (rf + 0)), (Nat.ltb_spec b (cf + 0)), (Nat.leb_spec cf b), (Nat.leb_spec b cl); try lia; reflexivity.
  - intros p l Hp I0.
    destruct (mfor_inv _ m (fun j a => do x <- aget a (rf * tnc A + cf + p * tnc A + j) ; do y <- f p j x ; aset a (rf * tnc A + cf + p * tnc A + j) y)
      (fun q l => Inv p q l) l I0) as (l' & E & L & V).
    + intros q l1 Hq (L1 & V1). replace (rf * tnc A + cf + p * tnc A + q)%nat with ((rf + p) * tnc A + (cf + q))%nat by lia.
      assert (BD : ((rf + p) * tnc A + (cf + q) < length l1)%nat) by (rewrite L1, W; apply idx_lt; lia).
      rewrite aget_ok by exact BD. cbn [bind]. rewrite F by lia. cbn [bind].
      destruct (aset_ok l1 _ (g p q (nth ((rf + p) * tnc A + (cf + q)) l1 0)) BD) as (l2 & -> & L2 & S2 & O2). exists l2. split; [reflexivity |].
      split; [congruence |]. intros a b Ha Hb. destruct (Nat.eq_dec a (rf + p)) as [-> | N]; [destruct (Nat.eq_dec b (cf + q)) as [-> | N'] |].
      * rewrite S2, V1 by lia. unfold done. rewrite !Nat.eqb_refl.
        destruct (Nat.leb_spec rf (rf + p)), (Nat.ltb_spec (rf + p) (rf + p)), (Nat.ltb_spec (cf + q) (cf + q)), (Nat.ltb_spec (cf + q) (cf + Datatypes.S q)), (Nat.leb_spec cf (cf + q)), (Nat.leb_spec (cf + q) cl); try lia; cbn.
        replace (rf + p - rf)%nat with p by lia. replace (cf + q - cf)%nat with q by lia. reflexivity.
      * rewrite O2 by (intros Q; apply idx_inj in Q; lia). rewrite V1 by lia. unfold done. rewrite !Nat.eqb_refl.
        destruct (Nat.ltb_spec b (cf + q)), (Nat.ltb_spec b (cf + Datatypes.S q)); try lia; reflexivity.
      * rewrite O2 by (intros Q; apply idx_inj in Q; lia). rewrite V1 by lia. unfold done. destruct (Nat.eqb_spec a (rf + p)); [contradiction | reflexivity].
    + exists l'. split; [exact E |]. split; [exact L |]. intros a b Ha Hb. rewrite V by assumption. unfold done.
      destruct (Nat.leb_spec rf a), (Nat.ltb_spec a (rf + p)), (Nat.eqb_spec a (rf + p)), (Nat.ltb_spec b (cf + m)), (Nat.ltb_spec a (rf + Datatypes.S p)), (Nat.eqb_spec a (rf + Datatypes.S p)), (Nat.ltb_spec b (cf + 0)), (Nat.leb_spec cf b), (Nat.leb_spec b cl); try lia; reflexivity.
  - rewrite E. unfold rebuild. cbn [bind]. eexists. split; [reflexivity |]. repeat split; [unfold wf; cbn; rewrite L; exact W |].
    intros a b Ha Hb. unfold el at 1. cbn [tnc tarr]. rewrite V by assumption. unfold done.
    destruct (Nat.leb_spec rf a), (Nat.leb_spec a rl), (Nat.ltb_spec a (rf + n)), (Nat.eqb_spec a (rf + n)), (Nat.ltb_spec b (cf + 0)), (Nat.leb_spec cf b), (Nat.leb_spec b cl); try lia; reflexivity.
Qed.
Theorem C116_block_write : forall A M rf rl cf cl, wf A -> wf M -> (rf <= rl < tnr A)%nat -> (cf <= cl < tnc A)%nat ->
  (tnr M = (rl + 1 - rf)%nat /\ tnc M = (cl + 1 - cf)%nat ->
    exists B, (do b <- tm_block A (rf, rl) (cf, cl) ; rebuild A (block_assign (tarr A) b M)) = Ok B /\
    is_matrix B (tnr A) (tnc A) (fun a b => if Nat.leb rf a && Nat.leb a rl && (Nat.leb cf b && Nat.leb b cl) then el M (a - rf) (b - cf) else el A a b)) /\
  (tnr M <> (rl + 1 - rf)%nat \/ tnc M <> (cl + 1 - cf)%nat ->
    (do b <- tm_block A (rf, rl) (cf, cl) ; rebuild A (block_assign (tarr A) b M)) = Throw DimensionError).
Proof.
  intros A M rf rl cf cl W WM HR HC.
  assert (TB : exists k, tm_block A (rf, rl) (cf, cl) = Ok (mkBlock k (Some (rl + 1 - rf)) (Some (cl + 1 - cf)) (tnc A))%nat).
  { unfold tm_block, range_in, tm_index, in_range. cbn [fst snd].
    destruct (Nat.leb_spec (tnr A) rf); [lia |]. destruct (Nat.leb_spec (tnr A) rl); [lia |].
    destruct (Nat.leb_spec (tnc A) cf); [lia |]. destruct (Nat.leb_spec (tnc A) cl); [lia |]. cbn [orb bind].
    unfold range_length. cbn [fst snd]. destruct (Nat.leb_spec rf (rl + 1)); [| lia]. destruct (Nat.leb_spec cf (cl + 1)); [| lia]. eauto. }
  destruct TB as (k & TB). split.
  - intros [E1 E2]. destruct (block_loop A rf rl cf cl (fun i j _ => aget (tarr M) (i * tnc M + j)) (fun i j _ => el M i j) W HR HC) as (B & E & V).
    { intros i j x Hi Hj. apply aget_ok. unfold wf in WM. rewrite WM. apply idx_lt; lia. }
    exists B. split; [| exact V]. rewrite TB in *. cbn [bind] in *. unfold block_assign, block_dim. cbn [brows bcols]. destruct (Nat.eqb_spec (rl + 1 - rf) (tnr M)); [| lia]. destruct (Nat.eqb_spec (cl + 1 - cf) (tnc M)); [| lia]. cbn [andb bind]. exact E.
  - intros N. rewrite TB. cbn [bind]. unfold block_assign, block_dim. cbn [brows bcols].
    destruct (Nat.eqb_spec (rl + 1 - rf) (tnr M)), (Nat.eqb_spec (cl + 1 - cf) (tnc M)); cbn; auto; lia.
Qed.
Print Assumptions C116_block_write.

(* printing *)
Theorem C118_print : forall A, wf A -> tnr A = tnc A ->
  exists l, tm_print A = Ok l /\ length l = tnr A /\ forall i, (i < tnr A)%nat -> is_vector (nth i l []) (tnc A) (el A i).
Proof.
  intros A W SQ. unfold tm_print. rewrite SQ.
  apply (mfor_inv _ (tnc A) _ (fun m l => length l = m /\ forall i, (i < m)%nat -> is_vector (nth i l []) (tnc A) (el A i)) []).
  - split; [reflexivity | intros; lia].
  - intros k l Hk [L V].
    destruct (mfor_inv _ (tnc A) (fun j l => do x <- tm_get A k j ; Ok (l ++ [x])) (fun m l => is_vector l m (el A k)) []) as (r & E & P).
    + split; [reflexivity | intros; lia].
    + intros j r Hj [Lr Er]. rewrite get_ok by (auto; lia). cbn [bind]. eexists. split; [reflexivity |]. split; [rewrite app_length; cbn; lia |].
      intros i Hi. unfold vel in *. destruct (Nat.eq_dec i j) as [-> | N].
      * rewrite app_nth2, Lr, Nat.sub_diag by lia. reflexivity.
      * rewrite app_nth1 by lia. apply Er. lia.
    + rewrite E. cbn [bind]. eexists. split; [reflexivity |]. split; [rewrite app_length; cbn; lia |].
      intros i Hi. destruct (Nat.eq_dec i k) as [-> | N].
      * rewrite app_nth2, L, Nat.sub_diag by lia. exact P.
      * rewrite app_nth1 by lia. apply V. lia.
Qed.
Print Assumptions C118_print.
(* a matrix with more rows than columns cannot be printed *)
Theorem C52_print_refuted : forall A, wf A -> (0 < tnc A < tnr A)%nat -> tm_print A = Throw RangeError.
Proof.
  intros A W H. unfold tm_print. apply (mfor_throw _ _ _ _ _ 0%nat); [lia |]. exists []. split; [reflexivity |].
  rewrite (mfor_throw _ (tnr A) _ [] RangeError (tnc A)); [reflexivity | lia |].
  destruct (mfor_inv _ (tnc A) (fun j l => do x <- tm_get A 0 j ; Ok (l ++ [x])) (fun _ _ => True) []) as (r & E & _); [exact I | |].
  - intros j r Hj _. rewrite get_ok by (auto; lia). cbn [bind]. eauto.
  - exists r. split; [exact E |]. destruct (C118_matrix_access A 0 (tnc A) 0 W) as [_ B]. rewrite (proj1 (B ltac:(right; lia))). reflexivity.
Qed.
Print Assumptions C52_print_refuted.

(* ---- cases ---- *)
Definition m23 : tmat := mkTM 2 3 [1; 2; 3; 4; 5; 6].
Definition m32 : tmat := mkTM 3 2 [1; 0; 2; 1; 0; 3].
Example C52_product_case : wf m23 /\ wf (mkTM 3 1 [1; 1; 1]) /\ tm_times m23 (mkTM 3 1 [1; 1; 1]) = Throw DimensionError.
Proof. repeat split; try reflexivity. Qed.
Example C52_minus_case : vec_minus [3; 4] 1 = [3 + 1; 4 + 1].
Proof. reflexivity. Qed.
Example C52_dot_case : dot [1; 2] [3; 4; 100] = Ok (0 + 1 * 3 + 2 * 4) /\ dot [1; 2] [3] = Throw RangeError.
Proof. split; reflexivity. Qed.
Example C116_case : (do w <- tm_row m23 1 ; view_get (tarr m23) w 2) = Ok 6 /\ (do w <- tm_column m23 1 ; view_vector (tarr m23) w) = Ok [2; 5] /\
  (do w <- tm_row_range m23 1 (1, 2)%nat ; view_vector (tarr m23) w) = Ok [5; 6] /\
  (do b <- tm_block m23 (0, 1)%nat (1, 2)%nat ; block_matrix (tarr m23) b) = Ok (mkTM 2 2 [2; 3; 5; 6]) /\
  (do w <- tm_column m23 1 ; rebuild m23 (view_assign (tarr m23) w [8; 9])) = Ok (mkTM 2 3 [1; 8; 3; 4; 9; 6]).
Proof. repeat split; reflexivity. Qed.
Example C116_reversed_case : exists w, vec_range [1; 2; 3; 4] (3, 1)%nat = Ok w /\ view_vector [1; 2; 3; 4] w = UB.
Proof. eexists. split; reflexivity. Qed.
Example C117_case : exists D, tm_times m23 m32 = Ok D /\ el D 0 0 = 5 /\ el D 1 1 = 23 /\ tnr D = 2%nat /\ tnc D = 2%nat.
Proof.
  destruct (C117_times m23 m32 eq_refl eq_refl) as [H _]. destruct (H (conj eq_refl eq_refl)) as (D & E & R1 & C1 & W1 & V).
  exists D. split; [exact E |]. rewrite !V by (cbn; lia). cbn in *. repeat split; try lra; assumption.
Qed.
Example C117_gemv_case : tgemv true 1 m32 [1; 1; 1] 2 [1; 1] = Throw RangeError.
Proof.
  apply C117_gemv_scale_refuted; [reflexivity | | cbn; lia]. unfold fequal, fequal_tol. pose proof eps_small.
  destruct (Rleb_spec (Rabs (2 - 1)) eps) as [H1 | H1]; [| reflexivity]. rewrite Rabs_right in H1; lra.
Qed.
