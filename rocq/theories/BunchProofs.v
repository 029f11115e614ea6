From Verif Require Import RBase Cov CovProofs Bunch BunchSpec.
From Coq Require Import ZArith Lia Permutation.
Local Open Scope R_scope.

(* ---- sums ---- *)
Lemma sum_ext {A} (f g : A -> R) l : (forall a, In a l -> f a = g a) -> sum f l = sum g l.
Proof. induction l as [|a l IH]; intros H; cbn; [reflexivity|]. rewrite H by now left. rewrite IH; [reflexivity|]. intros; apply H; now right. Qed.
Lemma sum_plus {A} (f g : A -> R) l : sum (fun a => f a + g a) l = sum f l + sum g l.
Proof. induction l as [|a l IH]; cbn; [|rewrite IH]; ring. Qed.
Lemma sum_minus {A} (f g : A -> R) l : sum (fun a => f a - g a) l = sum f l - sum g l.
Proof. induction l as [|a l IH]; cbn; [|rewrite IH]; ring. Qed.
Lemma sum_scal {A} k (f : A -> R) l : sum (fun a => k * f a) l = k * sum f l.
Proof. induction l as [|a l IH]; cbn; [|rewrite IH]; ring. Qed.
Lemma sum_scal_r {A} k (f : A -> R) l : sum (fun a => f a * k) l = sum f l * k.
Proof. induction l as [|a l IH]; cbn; [|rewrite IH]; ring. Qed.
Lemma sum_const {A} k (l : list A) : sum (fun _ => k) l = INR (length l) * k.
Proof. induction l as [|a l IH]; [cbn; ring|]. cbn [sum length]. rewrite S_INR, IH. ring. Qed.
Lemma sum_app {A} (f : A -> R) l m : sum f (l ++ m) = sum f l + sum f m.
Proof. induction l as [|a l IH]; cbn; [|rewrite IH]; ring. Qed.
Lemma sum_map {A B} (f : B -> R) (g : A -> B) l : sum f (map g l) = sum (fun a => f (g a)) l.
Proof. induction l as [|a l IH]; cbn; [|rewrite IH]; reflexivity. Qed.
Lemma sum_nonneg {A} (f : A -> R) l : (forall a, In a l -> 0 <= f a) -> 0 <= sum f l.
Proof.
  induction l as [|a l IH]; intros H; cbn; [lra|].
  pose proof (H a (or_introl eq_refl)). assert (0 <= sum f l) by (apply IH; intros; apply H; now right). lra.
Qed.
Lemma sum_perm {A} (f : A -> R) l m : Permutation l m -> sum f l = sum f m.
Proof. induction 1; cbn; try lra. Qed.
Lemma len_pos {A} (l : list A) : l <> [] -> 0 < INR (length l).
Proof. destruct l; [easy|]. intros _. apply lt_0_INR. cbn. lia. Qed.

Lemma avg_ext {A} (f g : A -> R) l : (forall a, In a l -> f a = g a) -> avg f l = avg g l.
Proof. intros H. unfold avg. now rewrite (sum_ext f g). Qed.
Lemma avg_perm {A} (f : A -> R) l m : Permutation l m -> avg f l = avg f m.
Proof. intros H. unfold avg. now rewrite (sum_perm f l m H), (Permutation_length H). Qed.
Lemma cov_perm {A} (f g : A -> R) l m : Permutation l m -> cov f g l = cov f g m.
Proof. intros H. unfold cov. rewrite (avg_perm f l m H), (avg_perm g l m H). now apply avg_perm. Qed.
Lemma cov_ext {A} (f g f' g' : A -> R) l : (forall a, f a = f' a) -> (forall a, g a = g' a) -> cov f g l = cov f' g' l.
Proof.
  intros H G. unfold cov. rewrite (avg_ext f f' l), (avg_ext g g' l) by auto. apply avg_ext. intros. now rewrite H, G.
Qed.
Lemma cov_sym {A} (f g : A -> R) l : cov f g l = cov g f l.
Proof. unfold cov. apply avg_ext. intros. ring. Qed.
(* covariance as mean product less product of means *)
Lemma cov_alt {A} (f g : A -> R) l : l <> [] -> cov f g l = avg (fun a => f a * g a) l - avg f l * avg g l.
Proof.
  intros H. pose proof (len_pos l H) as P. unfold cov. set (mf := avg f l). set (mg := avg g l).
  unfold avg at 1.
  rewrite (sum_ext _ (fun a => (f a * g a - mg * f a) - (mf * g a - mf * mg))) by (intros; ring).
  rewrite sum_minus, !sum_minus, !sum_scal, sum_const. unfold avg at 1.
  replace (sum f l) with (mf * INR (length l)) by (unfold mf, avg; field; lra).
  replace (sum g l) with (mg * INR (length l)) by (unfold mg, avg; field; lra). field. lra.
Qed.

(* ---- running averages ---- *)
Fixpoint run (w m : R) (xs : list R) : R :=
  match xs with [] => m | x :: r => run (w + 1) (m + (x - m) / (w + 1)) r end.
Lemma run_total xs : forall w m, 0 <= w -> run w m xs * (w + INR (length xs)) = m * w + sum (fun x => x) xs.
Proof.
  induction xs as [|x xs IH]; intros w m H; [cbn; ring|]. cbn [run length sum]. rewrite S_INR.
  replace (w + (INR (length xs) + 1)) with (w + 1 + INR (length xs)) by ring. rewrite IH by lra. field. lra.
Qed.
Lemma run_avg {A} (f : A -> R) l m : l <> [] -> run 0 m (map f l) = avg f l.
Proof.
  intros H. pose proof (len_pos l H) as P. pose proof (run_total (map f l) 0 m (Rle_refl 0)) as E.
  rewrite map_length, sum_map in E. change (sum (fun a => f a) l) with (sum f l) in E. unfold avg. apply (Rmult_eq_reg_r (INR (length l))); [|lra].
  replace (sum f l / INR (length l) * INR (length l)) with (sum f l) by (field; lra). lra.
Qed.
Lemma coord_vmap2 f a b i : coord i (vmap2 f a b) = f (coord i a) (coord i b).
Proof. destruct i as [|[|[|[|[|i]]]]]; reflexivity. Qed.
Lemma centroid_run i l : forall w m, coord i (snd (fold_left apsv1 l (w, m))) = run w (coord i m) (map (at_ i) l).
Proof. induction l as [|p l IH]; intros w m; cbn; [reflexivity|]. unfold apsv1 at 2. cbn [fst snd]. rewrite IH, coord_vmap2. reflexivity. Qed.
Lemma mean_run i l : forall w m,
  fst (fold_left (fun st p => let n := snd st + 1 in (fst st + (coord i (pv p) - fst st) / n, n)) l (m, w))
  = run w m (map (at_ i) l).
Proof. induction l as [|p l IH]; intros w m; cbn; [reflexivity|]. apply IH. Qed.
Lemma var_run i u l : forall w m,
  fst (fold_left (fun st p => let x := coord i (pv p) - u in let w := snd st + 1 in (fst st + (x * x - fst st) / w, w)) l (m, w))
  = run w m (map (fun p => (at_ i p - u) * (at_ i p - u)) l).
Proof. induction l as [|p l IH]; intros w m; cbn; [reflexivity|]. apply IH. Qed.
Lemma centroid_avg i l : l <> [] -> coord i (centroid l) = avg (at_ i) l.
Proof. intros H. unfold centroid. rewrite centroid_run. now apply run_avg. Qed.
Lemma mean_of_avg i l : l <> [] -> mean_of i l = avg (at_ i) l.
Proof. intros H. unfold mean_of. rewrite mean_run. now apply run_avg. Qed.
Lemma vec6_eq a b : (forall i, (i < 6)%nat -> coord i a = coord i b) -> a = b.
Proof.
  intros H. destruct a, b. f_equal; [apply (H 0%nat)|apply (H 1%nat)|apply (H 2%nat)|apply (H 3%nat)|apply (H 4%nat)|apply (H 5%nat)]; lia.
Qed.

(* ---- packed matrices as functions ---- *)
Definition holds (N : nat) (d : list R) (g : nat -> nat -> R) : Prop :=
  sized (Z.of_nat N) d /\ forall i j, (j <= i < N)%nat -> sig (Z.of_nat N) d (Z.of_nat i) (Z.of_nat j) = Ok (g i j).
Lemma holds_any N d : sized (Z.of_nat N) d -> exists g, holds N d g.
Proof.
  intros S. exists (fun i j => match sig (Z.of_nat N) d (Z.of_nat i) (Z.of_nat j) with Ok x => x | _ => 0 end).
  split; [exact S|]. intros i j H. destruct (sig_ok (Z.of_nat N) d (Z.of_nat i) (Z.of_nat j)) as (x & E & _); try lia; auto.
  now rewrite E.
Qed.
Lemma holds_ext N d f g : (forall i j, (j <= i < N)%nat -> f i j = g i j) -> holds N d f -> holds N d g.
Proof. intros H [S G]. split; [exact S|]. intros i j B. rewrite <- H by exact B. now apply G. Qed.
Lemma sig_comm N d i j : sig N d i j = sig N d j i.
Proof. unfold sig. rewrite Bool.andb_comm, offset2_sym. reflexivity. Qed.
Lemma holds_unique N d d' g : holds N d g -> holds N d' g -> d = d'.
Proof.
  intros [S H] [S' H']. unfold sized in *. apply (nth_ext _ _ 0 0); [congruence|]. intros n Hn.
  destruct (offset2_onto (Z.of_nat N) ltac:(lia) (Z.of_nat n)) as (i & j & A & B & E).
  { rewrite <- room_tri by lia. lia. }
  pose proof (H (Z.to_nat i) (Z.to_nat j) ltac:(lia)) as G. pose proof (H' (Z.to_nat i) (Z.to_nat j) ltac:(lia)) as G'.
  rewrite !Z2Nat.id in G, G' by lia.
  destruct (sig_ok (Z.of_nat N) d i j) as (x & X1 & X2); try lia; auto.
  destruct (sig_ok (Z.of_nat N) d' i j) as (y & Y1 & Y2); try lia; auto.
  rewrite E, Nat2Z.id in X2, Y2. rewrite (nth_error_nth _ _ 0 X2), (nth_error_nth _ _ 0 Y2). congruence.
Qed.
Definition pair_dec (a b : nat * nat) : {a = b} + {a <> b}.
Proof. decide equality; apply Nat.eq_dec. Defined.
Lemma modify_ok N f ps : NoDup ps -> (forall i j, In (i, j) ps -> (j <= i < N)%nat) ->
  forall d g, holds N d g -> exists d', modify (Z.of_nat N) f ps d = Ok d' /\
    holds N d' (fun i j => if in_dec pair_dec (i, j) ps then f i j (g i j) else g i j).
Proof.
  induction 1 as [|[i j] ps NI ND IH]; intros B d g H.
  - exists d. split; [reflexivity|]. eapply holds_ext; [|exact H]. intros. now destruct in_dec.
  - cbn [modify]. pose proof (B i j (or_introl eq_refl)) as Bij. destruct H as [S G].
    rewrite (G i j Bij). cbn [bind].
    destruct (set_sig_ok (Z.of_nat N) d (Z.of_nat i) (Z.of_nat j) (f i j (g i j))) as (d1 & E & S1 & G1); try lia; auto.
    rewrite E. cbn [bind].
    set (g1 := fun k l => if (Nat.eqb k i && Nat.eqb l j)%bool then f i j (g i j) else g k l).
    assert (H1 : holds N d1 g1).
    { split; [exact S1|]. intros k l Bkl. rewrite G1 by lia. unfold g1.
      destruct (Z.eqb_spec (Z.of_nat k) (Z.of_nat i)), (Z.eqb_spec (Z.of_nat l) (Z.of_nat j)),
        (Z.eqb_spec (Z.of_nat k) (Z.of_nat j)), (Z.eqb_spec (Z.of_nat l) (Z.of_nat i)),
        (Nat.eqb_spec k i), (Nat.eqb_spec l j); cbn; try reflexivity; try lia; now apply G. }
    destruct (IH (fun a b I => B a b (or_intror I)) d1 g1 H1) as (d' & E' & H').
    exists d'. split; [exact E'|]. eapply holds_ext; [|exact H']. intros k l Bkl. cbn beta.
    unfold g1. destruct (in_dec _ (k, l) ps) as [I|I], (in_dec _ (k, l) ((i, j) :: ps)) as [J|J];
      destruct (Nat.eqb_spec k i) as [-> | ?], (Nat.eqb_spec l j) as [-> | ?]; cbn [andb]; try reflexivity; try tauto.
    all: try (exfalso; apply J; now right). all: try (exfalso; apply J; now left).
    all: destruct J as [J|J]; [injection J; intros; subst; tauto|tauto].
Qed.

Lemma pairs_nodup n : NoDup (pairs n).
Proof.
  unfold pairs. generalize (seq_NoDup n 0). generalize (seq 0 n). induction 1 as [|i l NI ND IH]; cbn [flat_map]; [constructor|].
  assert (A : NoDup (map (fun j => (i, j)) (seq 0 (S i)))).
  { apply FinFun.Injective_map_NoDup; [intros a b E; now injection E|apply seq_NoDup]. }
  revert A. generalize (seq 0 (S i)) as q. intros q A. induction q as [|j q IHq]; [exact IH|].
  cbn [map app]. inversion A as [|? ? X Y]; subst. constructor; [|now apply IHq].
  rewrite in_app_iff. intros [I|I]; [tauto|]. apply in_flat_map in I. destruct I as (k & Hk & I).
  apply in_map_iff in I. destruct I as (j' & E & _). injection E as -> ->. tauto.
Qed.
Lemma pairs_in n i j : In (i, j) (pairs n) <-> (j <= i < n)%nat.
Proof.
  unfold pairs. rewrite in_flat_map. split.
  - intros (k & Hk & I). apply in_seq in Hk. apply in_map_iff in I. destruct I as (j' & E & I). injection E as -> ->.
    apply in_seq in I. lia.
  - intros H. exists i. split; [apply in_seq; lia|]. apply in_map_iff. exists j. split; [reflexivity|]. apply in_seq. lia.
Qed.
Lemma modify_all f d g : holds 6 d g -> exists d', modify 6 f (pairs 6) d = Ok d' /\ holds 6 d' (fun i j => f i j (g i j)).
Proof.
  intros H. destruct (modify_ok 6 f (pairs 6) (pairs_nodup 6) (fun i j I => proj1 (pairs_in 6 i j) I) d g H) as (d' & E & G).
  exists d'. split; [exact E|]. eapply holds_ext; [|exact G]. intros i j B. cbn beta.
  destruct in_dec as [I|I]; [reflexivity|]. now apply pairs_in in B.
Qed.
Lemma psvvar1_ok m l : forall w d g, holds 6 d g -> exists d', psvvar1 m l w d = Ok d' /\
  holds 6 d' (fun i j => run w (g i j) (map (fun p => (at_ i p - coord i m) * (at_ j p - coord j m)) l)).
Proof.
  induction l as [|p l IH]; intros w d g H; [exists d; split; [reflexivity|exact H]|].
  cbn [psvvar1]. edestruct modify_all as (d1 & E & H1); [exact H|]. rewrite E. cbn [bind].
  destruct (IH (w + 1) d1 _ H1) as (d' & E' & H'). exists d'. split; [exact E'|]. exact H'.
Qed.
Lemma moments_ok l d : l <> [] -> length d = 21%nat -> exists d', moments l d = Ok (centroid l, d') /\
  holds 6 d' (fun i j => cov (at_ i) (at_ j) l).
Proof.
  intros H L. destruct (holds_any 6 d L) as (g & G). unfold moments.
  destruct (psvvar1_ok (centroid l) l 0 d g G) as (d' & E & H'). rewrite E. exists d'. split; [reflexivity|].
  eapply holds_ext; [|exact H']. intros i j B. cbn beta.
  rewrite (run_avg (fun p => (at_ i p - coord i (centroid l)) * (at_ j p - coord j (centroid l)))) by exact H.
  rewrite !centroid_avg by exact H. reflexivity.
Qed.
Lemma holds_sig N d g : holds N d g -> (forall i j, g i j = g j i) -> forall i j, (i < N)%nat -> (j < N)%nat ->
  sig (Z.of_nat N) d (Z.of_nat i) (Z.of_nat j) = Ok (g i j).
Proof.
  intros [_ H] S i j Hi Hj. destruct (Nat.le_ge_cases j i); [apply H; lia|]. rewrite sig_comm, S. apply H. lia.
Qed.

(* ---- affine images ---- *)
Lemma avg_affine {A B} (h : A -> B) (f : A -> R) (g : B -> R) k c l : l <> [] -> (forall a, g (h a) = k * f a + c) ->
  avg g (map h l) = k * avg f l + c.
Proof.
  intros NE H. pose proof (len_pos l NE). unfold avg. rewrite map_length, sum_map.
  rewrite (sum_ext _ (fun a => k * f a + c)) by auto. rewrite sum_plus, sum_scal, sum_const. field. lra.
Qed.
Lemma cov_affine {A B} (h : A -> B) f1 f2 (g1 g2 : B -> R) k1 c1 k2 c2 l : l <> [] ->
  (forall a, g1 (h a) = k1 * f1 a + c1) -> (forall a, g2 (h a) = k2 * f2 a + c2) ->
  cov g1 g2 (map h l) = k1 * k2 * cov f1 f2 l.
Proof.
  intros NE H1 H2. unfold cov. rewrite (avg_affine h f1 g1 k1 c1 l), (avg_affine h f2 g2 k2 c2 l) by auto.
  rewrite (avg_affine h (fun a => (f1 a - avg f1 l) * (f2 a - avg f2 l)) _ (k1 * k2) 0 l NE); [ring|].
  intros a. rewrite H1, H2. ring.
Qed.

(* ---- quadratic forms ---- *)
Lemma avg_lin {A} (fs : list (R * (A -> R))) l : l <> [] ->
  avg (fun a => sum (fun kf => fst kf * snd kf a) fs) l = sum (fun kf => fst kf * avg (snd kf) l) fs.
Proof.
  intros NE. pose proof (len_pos l NE). induction fs as [|[k f] fs IH]; cbn [sum fst snd].
  - unfold avg. rewrite sum_const. field. lra.
  - rewrite <- IH. unfold avg. rewrite sum_plus, sum_scal. field. lra.
Qed.
Lemma sum_mult {A B} (f : A -> R) (g : B -> R) l m : sum f l * sum g m = sum (fun a => sum (fun b => f a * g b) m) l.
Proof.
  induction l as [|a l IH]; cbn; [ring|]. rewrite <- IH, sum_scal. ring.
Qed.
Lemma sum_swap {A B} (f : A -> B -> R) l m : sum (fun a => sum (f a) m) l = sum (fun b => sum (fun a => f a b) l) m.
Proof.
  induction l as [|a l IH]; cbn [sum].
  - rewrite sum_const. ring.
  - rewrite IH, <- sum_plus. reflexivity.
Qed.
Lemma cov_nonneg {A} (f : A -> R) l : l <> [] -> 0 <= cov f f l.
Proof.
  intros NE. pose proof (len_pos l NE). unfold cov, avg at 1. apply Rmult_le_pos; [|left; now apply Rinv_0_lt_compat].
  apply sum_nonneg. intros. apply Rle_0_sqr.
Qed.
(* variance of a linear combination *)
Lemma cov_lin {A} (fs : list (R * (A -> R))) l : l <> [] ->
  cov (fun a => sum (fun kf => fst kf * snd kf a) fs) (fun a => sum (fun kf => fst kf * snd kf a) fs) l
  = sum (fun kf => sum (fun kg => fst kf * fst kg * cov (snd kf) (snd kg) l) fs) fs.
Proof.
  intros NE. pose proof (len_pos l NE). unfold cov. rewrite avg_lin by exact NE. unfold avg at 1.
  rewrite (sum_ext _ (fun a => sum (fun kf => sum (fun kg =>
     fst kf * fst kg * ((snd kf a - avg (snd kf) l) * (snd kg a - avg (snd kg) l))) fs) fs)).
  - rewrite sum_swap. unfold Rdiv. rewrite <- sum_scal_r. apply sum_ext. intros kf _.
    rewrite sum_swap, <- sum_scal_r. apply sum_ext. intros kg _. rewrite sum_scal. unfold avg at 3. unfold Rdiv. ring.
  - intros a _. rewrite <- sum_minus. rewrite (sum_ext _ (fun kf => fst kf * (snd kf a - avg (snd kf) l))) by (intros; ring).
    rewrite sum_mult. apply sum_ext. intros kf _. apply sum_ext. intros kg _. ring.
Qed.
Lemma cauchy_schwarz {A} (f g : A -> R) l : l <> [] -> cov f g l * cov f g l <= cov f f l * cov g g l.
Proof.
  intros NE.
  assert (Q : forall a b, 0 <= a * a * cov f f l + 2 * (a * b * cov f g l) + b * b * cov g g l).
  { intros a b. pose proof (cov_nonneg (fun x => sum (fun kf => fst kf * snd kf x) [(a, f); (b, g)]) l NE) as P.
    rewrite cov_lin in P by exact NE. cbn in P. rewrite (cov_sym g f) in P. lra. }
  set (A' := cov f f l) in *. set (B := cov f g l) in *. set (C := cov g g l) in *.
  assert (0 <= A') by (apply cov_nonneg, NE). assert (0 <= C) by (apply cov_nonneg, NE).
  destruct (Rtotal_order C 0) as [?|[Z|?]]; [lra| |].
  - destruct (Req_dec B 0) as [->|NB]; [nra|]. exfalso.
    pose proof (Q B (- (A' + 1))) as P. rewrite Z in *.
    assert (0 < B * B) by (apply Rsqr_pos_lt, NB). nra.
  - pose proof (Q C (- B)) as P. assert (0 <= C * (A' * C - B * B)) by nra. nra.
Qed.

(* ---- projections ---- *)
Lemma proj_sum u v w l : forall X,
  fold_left (fun X p => (fst X + w * coord u (pv p), snd X + w * coord v (pv p))) l X
  = (fst X + w * sum (at_ u) l, snd X + w * sum (at_ v) l).
Proof.
  induction l as [|p l IH]; intros [x y]; cbn [fold_left sum]; [f_equal; cbn; ring|].
  rewrite IH. cbn. f_equal; unfold at_; ring.
Qed.
Lemma proj_centroid_ok u v l : proj_centroid u v l = (avg (at_ u) l, avg (at_ v) l).
Proof. unfold proj_centroid. rewrite proj_sum. cbn. unfold avg, Rdiv. f_equal; ring. Qed.
Lemma proj_var u v w l : forall s,
  fold_left (fun s p =>
      let x := coord u (pv p) - m2u s in
      let y := coord v (pv p) - m2v s in
      M2 (m2u s) (m2v s) (s00 s + w * x * x) (s01 s + w * x * y) (s11 s + w * y * y)) l s
  = M2 (m2u s) (m2v s)
      (s00 s + w * sum (fun p => (at_ u p - m2u s) * (at_ u p - m2u s)) l)
      (s01 s + w * sum (fun p => (at_ u p - m2u s) * (at_ v p - m2v s)) l)
      (s11 s + w * sum (fun p => (at_ v p - m2v s) * (at_ v p - m2v s)) l).
Proof.
  induction l as [|p l IH]; intros [a b c d e]; cbn [fold_left sum m2u m2v s00 s01 s11]; [f_equal; ring|].
  rewrite IH. cbn [m2u m2v s00 s01 s11]. f_equal; unfold at_; ring.
Qed.
Lemma proj_moments_ok u v l s : proj_moments u v l s =
  M2 (avg (at_ u) l) (avg (at_ v) l) (s00 s + cov (at_ u) (at_ u) l) (s01 s + cov (at_ u) (at_ v) l)
     (s11 s + cov (at_ v) (at_ v) l).
Proof.
  unfold proj_moments. rewrite proj_centroid_ok. cbn [fst snd]. rewrite proj_var. cbn [m2u m2v s00 s01 s11].
  assert (C : forall f g, 1 / INR (length l) * sum (fun p => (f p - avg f l) * (g p - avg g l)) l = cov f g l).
  { intros f g. unfold cov. set (a := avg f l). set (b := avg g l). unfold avg, Rdiv. ring. }
  rewrite !C. reflexivity.
Qed.

(* ---- slices ---- *)
Lemma charge_inv_add s b : Qt b = charge_sum (slices b) -> Qt (smp_add s b) = charge_sum (slices (smp_add s b)).
Proof. intros H. cbn. unfold charge_sum in *. rewrite sum_app. cbn. rewrite H. ring. Qed.
Lemma smp_loop_ok Q l : forall m d g, holds 6 d g -> exists m' d', smp_loop Q l m d = Ok (m', d') /\
  (forall i, coord i m' = coord i m + wsum (sat i) l / Q) /\
  holds 6 d' (fun i j => g i j + wsum (fun s => sat i s * sat j s + slice_sig s i j) l / Q).
Proof.
  induction l as [|x l IH]; intros m d g H.
  - exists m, d. split; [reflexivity|]. unfold wsum. cbn. split; [intros; unfold Rdiv; ring|].
    eapply holds_ext; [|exact H]. intros. cbn. unfold Rdiv. ring.
  - cbn [smp_loop]. edestruct modify_all as (d1 & E & H1); [exact H|]. rewrite E. cbn [bind].
    destruct (IH (vmap2 (fun a b => a + sq x / Q * b) m (sv x)) d1 _ H1) as (m' & d' & E' & G & H').
    exists m', d'. split; [exact E'|]. split.
    + intros i. rewrite G, coord_vmap2. unfold wsum. cbn. unfold sat, Rdiv. ring.
    + eapply holds_ext; [|exact H']. intros i j _. unfold wsum. cbn. unfold sat, Rdiv. ring.
Qed.
Lemma smp_cov_alt i j l : charge_sum l <> 0 ->
  wsum (fun s => sat i s * sat j s + slice_sig s i j) l / charge_sum l - smean i l * smean j l = scovar i j l.
Proof.
  intros NZ. unfold scovar. set (mi := smean i l). set (mj := smean j l). unfold wsum.
  rewrite (sum_ext (fun s => sq s * ((sat i s - mi) * (sat j s - mj) + slice_sig s i j))
     (fun s => (sq s * (sat i s * sat j s + slice_sig s i j) - mj * (sq s * sat i s)) - (mi * (sq s * sat j s) - mi * mj * sq s)))
     by (intros; ring).
  rewrite !sum_minus, !sum_scal. fold (charge_sum l).
  replace (sum (fun a => sq a * sat i a) l) with (mi * charge_sum l) by (unfold mi, smean, wsum; field; lra).
  replace (sum (fun a => sq a * sat j a) l) with (mj * charge_sum l) by (unfold mj, smean, wsum; field; lra).
  field. lra.
Qed.
Lemma smp_moments_ok b d g : Qt b = charge_sum (slices b) -> Qt b <> 0 -> holds 6 d g ->
  exists m d', smp_moments b d = Ok (m, d') /\ (forall i, coord i m = smean i (slices b)) /\
    holds 6 d' (fun i j => g i j + scovar i j (slices b)).
Proof.
  intros HQ NZ H. unfold smp_moments. destruct (smp_loop_ok (Qt b) (slices b) vzero d g H) as (m & d1 & E & G & H1).
  rewrite E. cbn [lift bind fst snd]. edestruct modify_all as (d' & E' & H'); [exact H1|]. rewrite E'. cbn [lift bind].
  exists m, d'. split; [reflexivity|].
  assert (M : forall i, coord i m = smean i (slices b)).
  { intros i. rewrite G. replace (coord i vzero) with 0 by (destruct i as [|[|[|[|[|]]]]]; reflexivity).
    unfold smean. rewrite HQ. ring. }
  split; [exact M|]. eapply holds_ext; [|exact H']. intros i j _. cbn beta. rewrite !M, HQ.
  rewrite <- (smp_cov_alt i j) by congruence. ring.
Qed.
Lemma coord_vscale k v i : coord i (vscale k v) = coord i v * k.
Proof. destruct i as [|[|[|[|[|]]]]]; reflexivity. Qed.
Lemma coord_vdiv k v i : coord i (vdiv k v) = coord i v / k.
Proof. destruct i as [|[|[|[|[|]]]]]; reflexivity. Qed.
Lemma smp_centroid_ok b i : Qt b = charge_sum (slices b) -> coord i (smp_centroid b) = smean i (slices b).
Proof.
  intros HQ. unfold smp_centroid, smean. rewrite coord_vdiv, HQ. f_equal.
  assert (G : forall l x, coord i (fold_left (fun x s => vadd x (vscale (sq s) (sv s))) l x) = coord i x + wsum (sat i) l).
  { induction l as [|s l IH]; intros x; [cbn; unfold wsum; cbn; ring|]. cbn [fold_left]. rewrite IH.
    unfold vadd. rewrite coord_vmap2, coord_vscale. unfold wsum. cbn. unfold sat. ring. }
  rewrite G. replace (coord i vzero) with 0 by (destruct i as [|[|[|[|[|]]]]]; reflexivity). ring.
Qed.
Lemma smp_proj_ok u v b s : Qt b = charge_sum (slices b) -> Qt b <> 0 ->
  smp_proj_moments u v b s =
  let l := slices b in
  let mu := m2u s + smean u l in let mv := m2v s + smean v l in
  M2 mu mv
    (s00 s + wsum (fun x => sat u x * sat u x + slice_sig x u u) l / Qt b - mu * mu)
    (s01 s + wsum (fun x => sat u x * sat v x + slice_sig x u v) l / Qt b - mu * mv)
    (s11 s + wsum (fun x => sat v x * sat v x + slice_sig x v v) l / Qt b - mv * mv).
Proof.
  intros HQ NZ. unfold smp_proj_moments.
  assert (G : forall l s, fold_left (fun s x =>
      let w := sq x / Qt b in
      M2 (m2u s + w * coord u (sv x)) (m2v s + w * coord v (sv x))
         (s00 s + w * (slice_sig x u u + coord u (sv x) * coord u (sv x)))
         (s01 s + w * (slice_sig x u v + coord u (sv x) * coord v (sv x)))
         (s11 s + w * (slice_sig x v v + coord v (sv x) * coord v (sv x)))) l s
    = M2 (m2u s + wsum (sat u) l / Qt b) (m2v s + wsum (sat v) l / Qt b)
        (s00 s + wsum (fun x => sat u x * sat u x + slice_sig x u u) l / Qt b)
        (s01 s + wsum (fun x => sat u x * sat v x + slice_sig x u v) l / Qt b)
        (s11 s + wsum (fun x => sat v x * sat v x + slice_sig x v v) l / Qt b)).
  { induction l as [|x l IH]; intros [a c d e f]; cbn [fold_left m2u m2v s00 s01 s11].
    - unfold wsum. cbn. unfold Rdiv. f_equal; ring.
    - rewrite IH. cbn [m2u m2v s00 s01 s11]. unfold wsum. cbn. unfold sat, Rdiv. f_equal; ring. }
  rewrite G. cbn [m2u m2v s00 s01 s11]. cbv zeta. unfold smean. rewrite <- !HQ. reflexivity.
Qed.

(* ---- distribution ---- *)
Definition anon (junk p : particle) : particle := mkP (pv p) (pid junk).
Lemma unpack_pack6 p v : unpack (pack 6 p) 0 v = Ok (pv p).
Proof. destruct p as [[] ?]. reflexivity. Qed.
Lemma unpack_pack7 p v : unpack (pack 7 p) 0 v = Throw AssertFail.
Proof. reflexivity. Qed.
Lemma pack_length c p : (6 <= c)%nat -> length (pack c p) = c.
Proof. intros H. unfold pack. rewrite app_length, repeat_length. cbn. lia. Qed.
Lemma firstn_pack c p r : (6 <= c)%nat -> firstn c (pack c p ++ r) = pack c p.
Proof. intros H. rewrite <- (pack_length c p H) at 1. rewrite firstn_app, Nat.sub_diag, firstn_O, app_nil_r. apply firstn_all. Qed.
Lemma skipn_pack c p r : (6 <= c)%nat -> skipn c (pack c p ++ r) = r.
Proof. intros H. rewrite <- (pack_length c p H) at 1. rewrite skipn_app, Nat.sub_diag, skipn_all. reflexivity. Qed.
Lemma skipn_twice {A} b : forall a (l : list A), skipn a (skipn b l) = skipn (b + a) l.
Proof. induction b as [|b IH]; intros a l; [reflexivity|]. destruct l as [|x l]; [now rewrite !skipn_nil|]. apply IH. Qed.
Lemma skipn_packed c k l : (6 <= c)%nat -> skipn (k * c) (flat_map (pack c) l) = flat_map (pack c) (skipn k l).
Proof.
  intros H. revert l. induction k as [|k IH]; intros l; [reflexivity|]. destruct l as [|p l].
  - cbn [flat_map]. rewrite !skipn_nil. reflexivity.
  - cbn [flat_map skipn Nat.mul]. rewrite <- IH. rewrite <- (skipn_pack c p (flat_map (pack c) l) H) at 2.
    rewrite skipn_twice. reflexivity.
Qed.
Lemma unpack_all_ok n : forall l junk, (n <= length l)%nat ->
  unpack_all 6 n (flat_map (pack 6) l) junk = Ok (map (anon junk) (firstn n l)).
Proof.
  induction n as [|n IH]; intros l junk H; [reflexivity|]. destruct l as [|p l]; [cbn in H; lia|].
  cbn [unpack_all flat_map]. rewrite firstn_pack, skipn_pack, unpack_pack6 by lia. cbn [bind].
  rewrite IH by (cbn in H; lia). cbn [bind firstn map]. reflexivity.
Qed.
Lemma distribute_ok size junk l : (0 < size)%nat ->
  let per := Nat.div (length l) size in
  distribute 6 size junk l = Ok (map (anon junk) (skipn (per * (size - 1)) l)
     :: map (fun k => map (anon junk) (firstn per (skipn (per * k) l))) (seq 0 (size - 1))).
Proof.
  intros HS per. unfold distribute. destruct (Nat.eqb_spec size 0); [lia|]. fold per.
  assert (D : (per * size <= length l)%nat) by (rewrite Nat.mul_comm; apply Nat.mul_div_le; lia).
  assert (G : forall ks, (forall k, In k ks -> (k < size)%nat) -> fold_right (fun k r =>
      do x <- unpack_all 6 per (skipn (per * k * 6) (flat_map (pack 6) l)) junk; do y <- r; Ok (x :: y)) (Ok []) ks
    = Ok (map (fun k => map (anon junk) (firstn per (skipn (per * k) l))) ks) :> res berr _).
  { induction ks as [|k ks IH]; intros B; [reflexivity|]. cbn [fold_right map].
    rewrite skipn_packed, unpack_all_ok by (try lia; rewrite skipn_length; pose proof (B k (or_introl eq_refl)); nia).
    cbn [bind]. rewrite IH by (intros; apply B; now right). reflexivity. }
  rewrite G by (intros k I; apply in_seq in I; lia). cbn [bind].
  rewrite skipn_packed, unpack_all_ok by (try lia; rewrite skipn_length; nia). cbn [bind]. do 3 f_equal.
  apply firstn_all2. rewrite skipn_length. nia.
Qed.
Lemma chunks {A} (per : nat) (l : list A) n : (per * n <= length l)%nat ->
  concat (map (fun k => firstn per (skipn (per * k) l)) (seq 0 n)) = firstn (per * n) l.
Proof.
  induction n as [|n IH]; intros H; [rewrite Nat.mul_0_r; reflexivity|].
  rewrite seq_S, map_app, concat_app, IH by lia. cbn [map concat Nat.add]. rewrite app_nil_r.
  replace (per * S n)%nat with (per * n + per)%nat by lia.
  rewrite <- (firstn_skipn (per * n) l) at 3. rewrite firstn_app, firstn_length, Nat.min_l by lia.
  replace (per * n + per - per * n)%nat with per by lia. f_equal.
  symmetry. apply firstn_all2. rewrite firstn_length. lia.
Qed.
Lemma gather_ok junk own nodes : gather 6 junk (own :: nodes) = Ok (own ++ map (anon junk) (concat nodes)).
Proof.
  unfold gather. match goal with |- bind ?x _ = _ => assert (G : x = Ok (map (anon junk) (concat nodes))) end.
  { induction nodes as [|l ls IH]; [reflexivity|]. cbn [fold_right concat]. rewrite unpack_all_ok by lia. cbn [bind].
    rewrite IH. cbn [bind]. rewrite firstn_all, map_app. reflexivity. }
  rewrite G. reflexivity.
Qed.
