From Coq Require Import ZArith Lra Lia.
From Verif Require Import RBase Bunch BunchSpec Optics OpticsProofs Orbit OrbitSpec.
Local Open Scope R_scope.

Lemma tot_msum n f : tot n f = msum f n.
Proof. unfold tot. symmetry. apply msum_sum. Qed.
Lemma tot_S n f : tot (S n) f = tot n f + f n.
Proof. rewrite !tot_msum. reflexivity. Qed.
Lemma tot_0 f : tot 0 f = 0.
Proof. reflexivity. Qed.
Lemma tot_ext n f g : (forall i, (i < n)%nat -> f i = g i) -> tot n f = tot n g.
Proof. induction n; intros H; [reflexivity|]. rewrite !tot_S, IHn by (intros; apply H; lia). rewrite H by lia. reflexivity. Qed.
Lemma tot_plus n f g : tot n (fun i => f i + g i) = tot n f + tot n g.
Proof. induction n; rewrite ?tot_0, ?tot_S, ?IHn; lra. Qed.
Lemma tot_minus n f g : tot n (fun i => f i - g i) = tot n f - tot n g.
Proof. induction n; rewrite ?tot_0, ?tot_S, ?IHn; lra. Qed.
Lemma tot_scale n a f : tot n (fun i => a * f i) = a * tot n f.
Proof. induction n; rewrite ?tot_0, ?tot_S, ?IHn; lra. Qed.
Lemma tot_scale_r n a f : tot n (fun i => f i * a) = tot n f * a.
Proof. induction n; rewrite ?tot_0, ?tot_S, ?IHn; lra. Qed.
Lemma tot_zero n f : (forall i, (i < n)%nat -> f i = 0) -> tot n f = 0.
Proof. intros H. rewrite (tot_ext n f (fun _ => 0)) by exact H. induction n; rewrite ?tot_0, ?tot_S; [reflexivity|]. rewrite IHn; [lra|]. intros; apply H; lia. Qed.
Lemma tot_swap n m f : tot n (fun i => tot m (fun j => f i j)) = tot m (fun j => tot n (fun i => f i j)).
Proof. induction n; [symmetry; apply tot_zero; reflexivity|]. rewrite tot_S, IHn, <- tot_plus. apply tot_ext. intros; rewrite tot_S; reflexivity. Qed.
Lemma delta_sym i j : delta_ i j = delta_ j i.
Proof. unfold delta_. rewrite Nat.eqb_sym. reflexivity. Qed.
Lemma tot_delta n i f : (i < n)%nat -> tot n (fun j => delta_ i j * f j) = f i.
Proof.
  induction n; intros H; [lia|]. rewrite tot_S. destruct (Nat.eq_dec i n).
  - subst i. rewrite tot_zero; [unfold delta_; rewrite Nat.eqb_refl; lra|]. intros j J. unfold delta_. destruct (Nat.eqb_spec n j); [lia|lra].
  - rewrite IHn by lia. unfold delta_. destruct (Nat.eqb_spec i n); [lia|lra].
Qed.
Lemma tot_nonneg n f : (forall i, (i < n)%nat -> 0 <= f i) -> 0 <= tot n f.
Proof. induction n; intros H; rewrite ?tot_0, ?tot_S; [lra|]. specialize (IHn ltac:(intros; apply H; lia)). specialize (H n ltac:(lia)). lra. Qed.
Lemma norm2_nonneg n x : 0 <= norm2 n x.
Proof. apply tot_nonneg. intros. nra. Qed.
Lemma norm2_zero n x : norm2 n x = 0 -> forall i, (i < n)%nat -> x i = 0.
Proof.
  unfold norm2. induction n; intros H i I; [lia|]. rewrite tot_S in H.
  pose proof (norm2_nonneg n x) as P. unfold norm2 in P.
  assert (x n * x n = 0) by nra. assert (tot n (fun i => x i * x i) = 0) by nra.
  destruct (Nat.eq_dec i n); [subst; nra|]. apply IHn; [assumption|lia].
Qed.
Lemma norm2_ext n x y : (forall i, (i < n)%nat -> x i = y i) -> norm2 n x = norm2 n y.
Proof. intros H. apply tot_ext. intros i I. rewrite H by exact I. reflexivity. Qed.
Lemma act_ext n A B x y i : (forall j, (j < n)%nat -> A i j = B i j) -> (forall j, (j < n)%nat -> x j = y j) -> act n A x i = act n B y i.
Proof. intros H K. apply tot_ext. intros j J. rewrite H, K by exact J. reflexivity. Qed.

(* ---- the solver ---- *)
Section svd.
  Context (n : nat) (A U V : nat -> nat -> R) (w : nat -> R) (S : is_svd n A U w V).
  (* A V = U diag w *)
  Lemma svd_cols k i : (k < n)%nat -> (i < n)%nat -> act n A (fun j => V j k) i = U i k * w k.
  Proof.
    intros K I. destruct S as (_ & OV & _ & E). unfold act.
    rewrite (tot_ext n _ (fun j => tot n (fun l => U i l * w l * (V j l * V j k)))).
    2:{ intros j J. rewrite E by assumption. rewrite <- tot_scale_r. apply tot_ext. intros; ring. }
    rewrite tot_swap. rewrite (tot_ext n _ (fun l => delta_ k l * (U i l * w l))).
    2:{ intros l L. rewrite (tot_scale n (U i l * w l)). rewrite (proj1 (OV l k L K)), delta_sym. ring. }
    rewrite tot_delta by exact K. ring.
  Qed.
  Lemma svd_col_norm k : (k < n)%nat -> norm2 n (fun j => V j k) = 1.
  Proof. intros K. destruct S as (_ & OV & _ & _). unfold norm2. rewrite (proj1 (OV k k K K)). unfold delta_. rewrite Nat.eqb_refl. reflexivity. Qed.
  Lemma svd_image_norm k : (k < n)%nat -> norm2 n (act n A (fun j => V j k)) = w k * w k.
  Proof.
    intros K. rewrite (norm2_ext n _ (fun i => U i k * w k)) by (intros; apply svd_cols; assumption).
    unfold norm2. rewrite (tot_ext n _ (fun i => (w k * w k) * (U i k * U i k))) by (intros; ring).
    rewrite tot_scale. destruct S as (OU & _). rewrite (proj1 (OU k k K K)). unfold delta_. rewrite Nat.eqb_refl. ring.
  Qed.
End svd.

Lemma largest_le w n s : (forall i, (i <= n)%nat -> w i <= s) -> largest w n <= s.
Proof. induction n; intros H; cbn; [apply H; lia|]. apply Rmax_lub; [apply IHn; intros; apply H; lia|apply H; lia]. Qed.
Lemma largest_ge w n i : (i <= n)%nat -> w i <= largest w n.
Proof. induction n; intros H; cbn; [replace i with O by lia; lra|]. destruct (Nat.eq_dec i (S n)); [subst; apply Rmax_r|]. eapply Rle_trans; [apply IHn; lia|apply Rmax_l]. Qed.
Lemma all_small_false w t n i : (i < n)%nat -> t < w i -> all_small w t n = false.
Proof.
  induction n; intros I H; [lia|]. cbn. destruct (Nat.eq_dec i n).
  - subst. destruct (Rleb_spec (w n) t); [lra|]. apply Bool.andb_false_r.
  - rewrite IHn by (lia || assumption). reflexivity.
Qed.

Lemma tame_values n A U w V : is_svd n A U w V -> tame n A -> forall k, (k < n)%nat -> threshold * largest w (n - 1) < w k.
Proof.
  intros S (s & s0 & B1 & B2) k K.
  assert (W : forall k, (k < n)%nat -> 0 <= w k /\ w k <= s /\ s / 1000000 < w k).
  { clear k K. intros k K.
    pose proof (svd_image_norm n A U V w S k K) as N. pose proof (svd_col_norm n A U V w S k K) as N1.
    specialize (B1 (fun j => V j k)). specialize (B2 (fun j => V j k)). rewrite N, N1 in *. specialize (B2 Rlt_0_1).
    pose proof (proj1 (proj2 (proj2 S)) k K). assert (0 < s / 1000000) by lra. split; [assumption|]. split; [nra|].
    apply Rnot_le_lt. intros C. assert (w k * w k <= s / 1000000 * (s / 1000000)) by nra. nra. }
  assert (largest w (n - 1) <= s) by (apply largest_le; intros; apply W; lia).
  destruct (W k K). unfold threshold. lra.
Qed.

Lemma svd_solves factor n A b : right factor n A -> (0 < n)%nat -> tame n A ->
  exists x, svd_solve factor n A b = Ok x /\ forall i, (i < n)%nat -> act n A x i = b i.
Proof.
  intros Hn N T. destruct (Hn A ltac:(reflexivity)) as (U & w & V & E & S). unfold svd_solve. rewrite E. cbv zeta.
  pose proof (tame_values n A U w V S T) as B.
  rewrite (all_small_false w _ n 0%nat) by (try apply B; lia).
  eexists. split; [reflexivity|]. intros i I. unfold act.
  assert (W : forall k, (k < n)%nat -> 0 < w k).
  { intros k K. pose proof (B k K) as B1. pose proof (largest_ge w (n - 1) k ltac:(lia)). unfold threshold in *.
    destruct S as (_ & _ & P & _). specialize (P k K). lra. }
  set (y := fun j => tot n (fun l => U l j * b l) / w j).
  rewrite (tot_ext n _ (fun j => tot n (fun k => y k * (A i j * V j k)))).
  2:{ intros j J. rewrite <- tot_msum, <- tot_scale. apply tot_ext. intros k K.
      destruct (Rleb_spec (w k) (threshold * largest w (n - 1))) as [L|_]; [specialize (B k K); lra|].
      destruct (Reqb_spec (w k) 0) as [Z|_]; [specialize (W k K); lra|]. rewrite <- tot_msum. unfold y. ring. }
  rewrite tot_swap.
  rewrite (tot_ext n _ (fun k => tot n (fun l => U i k * U l k * b l))).
  2:{ intros k K. rewrite tot_scale. change (tot n (fun j => A i j * V j k)) with (act n A (fun j => V j k) i).
      rewrite (svd_cols n A U V w S) by assumption. unfold y. specialize (W k K).
      transitivity (U i k * tot n (fun l => U l k * b l)); [field; lra|]. rewrite <- tot_scale. apply tot_ext; intros; ring. }
  rewrite tot_swap. rewrite (tot_ext n _ (fun l => delta_ i l * b l)).
  2:{ intros l L. rewrite tot_scale_r. destruct S as (OU & _). rewrite (proj2 (OU i l I L)). reflexivity. }
  apply tot_delta; exact I.
Qed.
Lemma tame_injective n A x y : tame n A -> (forall i, (i < n)%nat -> act n A x i = act n A y i) -> forall i, (i < n)%nat -> x i = y i.
Proof.
  intros (s & s0 & _ & B) H i I.
  assert (Z : norm2 n (act n A (fun j => x j - y j)) = 0).
  { rewrite (norm2_ext n _ (fun _ => 0)). { unfold norm2. apply tot_zero. intros; ring. }
    intros j J. unfold act. rewrite (tot_ext n _ (fun k => A j k * x k - A j k * y k)) by (intros; ring).
    rewrite tot_minus. specialize (H j J). unfold act in H. lra. }
  destruct (Rle_lt_or_eq_dec 0 (norm2 n (fun j => x j - y j)) (norm2_nonneg _ _)) as [P|P].
  - specialize (B _ P). rewrite Z in B. assert (0 < s / 1000000) by lra. nra.
  - symmetry in P. pose proof (norm2_zero _ _ P i I). cbv beta in *. lra.
Qed.
Lemma svd_zero factor n A b x : (forall i, (i < n)%nat -> b i = 0) -> svd_solve factor n A b = Ok x -> forall i, x i = 0.
Proof.
  intros Z H i. unfold svd_solve in H. destruct (factor n A) as [[[u w] v]|]; [|discriminate]. cbv zeta in H.
  destruct (all_small _ _ _); [discriminate|]. injection H as <-. rewrite <- tot_msum. apply tot_zero. intros j J.
  destruct (Rleb _ _); [ring|]. destruct (Reqb _ _); [ring|]. rewrite <- tot_msum, (tot_zero n (fun j0 => u j0 j * b j0)); [unfold Rdiv; ring|].
  intros k K. rewrite Z by exact K. ring.
Qed.

(* ---- vectors ---- *)
Lemma coord_vof f i : (i < 6)%nat -> coord i (vof f) = f i.
Proof. intros H. do 6 (destruct i as [|i]; [reflexivity|]). lia. Qed.
Lemma coord_bump k d v i : (i < 6)%nat -> coord i (bump k d v) = coord i v + delta_ i k * d.
Proof. intros H. unfold bump. rewrite coord_vof by exact H. unfold delta_. destruct (Nat.eqb i k); ring. Qed.
Lemma vec_eq u v : (forall i, (i < 6)%nat -> coord i u = coord i v) -> u = v.
Proof.
  intros H. destruct u as [a b c d e f], v as [a' b' c' d' e' f'].
  pose proof (H 0%nat ltac:(lia)). pose proof (H 1%nat ltac:(lia)). pose proof (H 2%nat ltac:(lia)).
  pose proof (H 3%nat ltac:(lia)). pose proof (H 4%nat ltac:(lia)). pose proof (H 5%nat ltac:(lia)). cbn in *. congruence.
Qed.
Lemma moved_pass s r c v : pass s r c v = moved s r c v.
Proof.
  unfold pass, moved. destruct (Reqb_spec s 0) as [->|]; cbn; [|reflexivity]. destruct (cbend c); [|reflexivity].
  destruct (cmap c r v). cbn. f_equal. ring.
Qed.
Lemma through_journey s r l v : through s r l v = journey (map (moved s r) l) v.
Proof. unfold through, journey. revert v. induction l; intros v; cbn; [reflexivity|]. rewrite moved_pass. apply IHl. Qed.
Lemma journey_app a b v : journey (a ++ b) v = journey b (journey a v).
Proof. unfold journey. apply fold_left_app. Qed.
Lemma ring_ok m n : (n < length m)%nat -> get_ring m (Z.of_nat n) = Ok (skipn n m ++ firstn n m).
Proof.
  intros H. unfold get_ring. destruct (Z.leb_spec 0 (Z.of_nat n)); [|lia]. destruct (Z.ltb_spec (Z.of_nat n) (Z.of_nat (length m))); [|lia].
  cbn. rewrite Nat2Z.id. reflexivity.
Qed.
Lemma beamline_ok m n1 n2 : (n1 <= n2)%nat -> (n2 < length m)%nat ->
  get_beamline m (Z.of_nat n1) (Z.of_nat n2) = Ok (firstn (n2 + 1 - n1) (skipn n1 m)).
Proof.
  intros H K. unfold get_beamline. destruct (Z.ltb_spec (Z.of_nat n2) 0); [lia|]. destruct (Z.leb_spec (Z.of_nat (length m)) (Z.of_nat n2)); [lia|].
  destruct (Z.ltb_spec (Z.of_nat n1) 0); [lia|]. destruct (Z.ltb_spec (Z.of_nat n2) (Z.of_nat n1)); [lia|]. cbn.
  rewrite Nat2Z.id. do 2 f_equal. lia.
Qed.

(* ---- difference quotients ---- *)
Lemma affine_step A k T p j d : affine A k T -> (j < 6)%nat -> forall i, (i < 6)%nat -> coord i (T (bump j d p)) - coord i (T p) = A i j * d.
Proof.
  intros H J i I. rewrite !H by exact I.
  rewrite (tot_ext 6 _ (fun l => A i l * coord l p + A i l * d * delta_ j l)).
  2:{ intros l L. rewrite coord_bump by exact L. rewrite (delta_sym l j). ring. }
  rewrite tot_plus. rewrite (tot_ext 6 (fun l => A i l * d * delta_ j l) (fun l => delta_ j l * (A i l * d))) by (intros; ring).
  rewrite tot_delta by exact J. ring.
Qed.
Lemma quotients_affine A k T d p : affine A k T -> d <> 0 ->
  exists M, quotients d T p = Ok M /\ forall i j, (i < 6)%nat -> (j < 6)%nat -> M i j = A i j.
Proof.
  intros H D. unfold quotients. destruct (Reqb_spec d 0); [contradiction|]. eexists. split; [reflexivity|].
  intros i j I J. cbv beta. rewrite (affine_step A k T p j d H J i I). field. exact D.
Qed.
(* affine maps compose *)
Lemma affine_comp A k T B l U : affine A k T -> affine B l U ->
  affine (product 6 B A) (fun i => act 6 B k i + l i) (fun v => U (T v)).
Proof.
  intros H K v i I. rewrite K by exact I.
  rewrite (tot_ext 6 _ (fun j => tot 6 (fun m => B i j * A j m * coord m v) + B i j * k j)).
  2:{ intros j J. rewrite H by exact J. rewrite (tot_ext 6 (fun m => B i j * A j m * coord m v) (fun m => B i j * (A j m * coord m v))) by (intros; ring).
      rewrite tot_scale. ring. }
  rewrite tot_plus, tot_swap. unfold act, product.
  rewrite (tot_ext 6 (fun m => tot 6 _) (fun m => tot 6 (fun j => B i j * A j m) * coord m v)).
  2:{ intros m M. rewrite tot_scale_r. reflexivity. }
  ring.
Qed.
Lemma affine_unique A k B l T : affine A k T -> affine B l T -> forall i j, (i < 6)%nat -> (j < 6)%nat -> A i j = B i j.
Proof.
  intros H K i j I J. pose proof (affine_step A k T vzero j 1 H J i I). pose proof (affine_step B l T vzero j 1 K J i I). lra.
Qed.

(* ---- closed orbits of linear machines ---- *)
Lemma tot_pad n f : (n = 4 \/ n = 6)%nat -> tot 6 (fun j => if Nat.ltb j n then f j else 0) = tot n f.
Proof. intros [-> | ->]; rewrite !tot_S, !tot_0; cbn; ring. Qed.
Definition corrected (n : nat) (p : vec6) (x : nat -> R) : vec6 := vof (fun i => if Nat.ltb i n then coord i p - x i else coord i p).
Lemma affine_corrected A k T n p x i : affine A k T -> (n = 4 \/ n = 6)%nat -> (i < 6)%nat ->
  coord i (T (corrected n p x)) = coord i (T p) - act n A x i.
Proof.
  intros H N I. rewrite !H by exact I. unfold act.
  rewrite (tot_ext 6 _ (fun j => A i j * coord j p - (if Nat.ltb j n then A i j * x j else 0))).
  2:{ intros j J. unfold corrected. rewrite coord_vof by exact J. destruct (Nat.ltb j n); ring. }
  rewrite tot_minus, (tot_pad n (fun j => A i j * x j) N). ring.
Qed.
Lemma act_less_one n A x i : (i < n)%nat -> act n (less_one A) x i = act n A x i - x i.
Proof.
  intros I. unfold act, less_one. rewrite (tot_ext n _ (fun j => A i j * x j - delta_ i j * x j)) by (intros; ring).
  rewrite tot_minus, tot_delta by exact I. reflexivity.
Qed.
Lemma right_ext factor n A B : (forall i j, (i < n)%nat -> (j < n)%nat -> A i j = B i j) -> right factor n A -> right factor n B.
Proof. intros H K C E. apply K. intros. rewrite E, H by assumption. reflexivity. Qed.
Lemma tame_ext n A B : (forall i j, (i < n)%nat -> (j < n)%nat -> A i j = B i j) -> tame n A -> tame n B.
Proof.
  intros H (s & s0 & B1 & B2).
  assert (E : forall x, norm2 n (act n B x) = norm2 n (act n A x)).
  { intros x. apply norm2_ext. intros i I. apply act_ext; [|reflexivity]. intros; symmetry; apply H; assumption. }
  exists s. split; [exact s0|]. split; intros x; rewrite E; [apply B1|apply B2].
Qed.
Definition sizes (n : nat) := (n = 4 \/ n = 6)%nat.
Lemma newton_affine factor n A k T d p : affine A k T -> sizes n -> d <> 0 -> right factor n (less_one A) -> tame n (less_one A) ->
  exists x, newton factor n d T p = Ok (corrected n p x, norm2 n x) /\ closed n T (corrected n p x) /\
    (forall i, (i < n)%nat -> act n (less_one A) x i = coord i (T p) - coord i p).
Proof.
  intros H N D Rt Tm. unfold newton. destruct (Reqb_spec d 0); [contradiction|]. cbv zeta.
  set (dg := fun m k0 : nat => _).
  assert (E : forall i j, (i < n)%nat -> (j < n)%nat -> less_one A i j = dg i j).
  { intros i j I J. unfold dg, less_one, delta_. rewrite (affine_step A k T p j d H) by (unfold sizes in N; lia). field. exact D. }
  destruct (svd_solves factor n dg (fun k0 => coord k0 (T p) - coord k0 p)) as (x & -> & X).
  { eapply right_ext; [exact E|exact Rt]. } { unfold sizes in N; lia. } { eapply tame_ext; [exact E|exact Tm]. }
  cbn [bind].
  assert (X' : forall i, (i < n)%nat -> act n (less_one A) x i = coord i (T p) - coord i p).
  { intros i I. rewrite <- X by exact I. apply act_ext; [|reflexivity]. intros; apply E; assumption. }
  exists x. split; [|split; [|exact X']].
  - unfold norm2. rewrite tot_msum. reflexivity.
  - intros i I. rewrite (affine_corrected A k T n p x i H N) by (unfold sizes in N; lia).
    unfold corrected. rewrite coord_vof by (unfold sizes in N; lia). destruct (Nat.ltb_spec i n); [|lia].
    specialize (X' i I). rewrite act_less_one in X' by exact I. lra.
Qed.
Lemma closed_unique A k T n p q : affine A k T -> sizes n -> tame n (less_one A) -> closed n T p -> closed n T q -> same_from n p q -> p = q.
Proof.
  intros H N Tm P Q E. apply vec_eq. intros i I. destruct (Nat.lt_ge_cases i n) as [L|L]; [|apply E; lia].
  apply (tame_injective n (less_one A) (fun j => coord j p) (fun j => coord j q) Tm); [|exact L].
  clear i I L. intros i I. rewrite !act_less_one by exact I.
  assert (F : coord i (T p) - coord i (T q) = act n A (fun j => coord j p) i - act n A (fun j => coord j q) i).
  { rewrite !H by (unfold sizes in N; lia). unfold act.
    assert (G : tot 6 (fun j => A i j * coord j p) - tot 6 (fun j => A i j * coord j q) = tot n (fun j => A i j * coord j p) - tot n (fun j => A i j * coord j q)).
    { rewrite <- !tot_minus. rewrite <- (tot_pad n _ N). apply tot_ext. intros j J. destruct (Nat.ltb_spec j n); [reflexivity|]. rewrite (E j) by lia. ring. }
    lra. }
  specialize (P i I). specialize (Q i I). lra.
Qed.
Lemma corrected_from n p x : same_from n (corrected n p x) p.
Proof. intros i I. unfold corrected. rewrite coord_vof by lia. destruct (Nat.ltb_spec i n); [lia|reflexivity]. Qed.
Lemma same_from_trans n p q r : same_from n p q -> same_from n q r -> same_from n p r.
Proof. intros H K i I. rewrite H, K by exact I. reflexivity. Qed.
Lemma newton_closed factor n d T p r : sizes n -> closed n T p -> newton factor n d T p = Ok r -> r = (p, 0).
Proof.
  intros N C H. unfold newton in H. destruct (Reqb d 0); [discriminate|]. cbv zeta in H.
  destruct (svd_solve factor n _ _) as [x| |] eqn:E; [|discriminate H|discriminate H]. cbn [bind] in H. injection H as <-.
  assert (X : forall i, x i = 0).
  { eapply svd_zero; [|exact E]. intros i I. cbv beta. rewrite C by exact I. ring. }
  f_equal.
  - apply vec_eq. intros i I. rewrite coord_vof by exact I. destruct (Nat.ltb i n); rewrite ?X; ring.
  - rewrite <- tot_msum. apply tot_zero. intros. rewrite X. ring.
Qed.
(* once on the closed orbit, the search stays there *)
Lemma iterate_stays factor n A k T d tol fuel it w p : affine A k T -> sizes n -> d <> 0 -> right factor n (less_one A) -> tame n (less_one A) ->
  closed n T p -> exists w' it', iterate factor n d tol T fuel it w p = Ok (p, w', it') /\ (0 <= tol -> (0 < fuel)%nat -> w' <= tol).
Proof.
  intros H N D Rt Tm C. revert it w. induction fuel as [|fuel IH]; intros it w; cbn [iterate].
  - exists w, it. split; [reflexivity|]. lia.
  - destruct (Rltb_spec tol w).
    + destruct (newton_affine factor n A k T d p H N D Rt Tm) as (x & E & _). rewrite E.
      pose proof (newton_closed factor n d T p _ N C E) as Z. cbn [bind]. rewrite Z. cbn [fst snd].
      destruct fuel as [|f].
      * cbn [iterate]. exists 0, (it + 1)%Z. split; [reflexivity|]. intros; lra.
      * destruct (IH (it + 1)%Z 0) as (w' & it' & -> & Q). exists w', it'. split; [reflexivity|]. intros; apply Q; [assumption|lia].
    + exists w, it. split; [reflexivity|]. intros; lra.
Qed.
Lemma iterate_affine factor n A k T d tol fuel p : affine A k T -> sizes n -> d <> 0 -> right factor n (less_one A) -> tame n (less_one A) ->
  tol < 1 -> (0 < fuel)%nat ->
  exists p' w it, iterate factor n d tol T fuel 1 1 p = Ok (p', w, it) /\ closed n T p' /\ same_from n p' p /\ (0 <= tol -> (1 < fuel)%nat -> w <= tol).
Proof.
  intros H N D Rt Tm L F. destruct fuel as [|f]; [lia|]. cbn [iterate]. destruct (Rltb_spec tol 1); [|lra].
  destruct (newton_affine factor n A k T d p H N D Rt Tm) as (x & -> & C & _). cbn [bind fst snd].
  destruct (iterate_stays factor n A k T d tol f (1 + 1)%Z (norm2 n x) _ H N D Rt Tm C) as (w & it & -> & Q).
  exists (corrected n p x), w, it. split; [reflexivity|]. split; [exact C|]. split; [apply corrected_from|]. intros; apply Q; [assumption|lia].
Qed.
