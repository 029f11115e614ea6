(* Quadratic maps in general; the maps of bends in closed form. *)
From Coq Require Import ZArith Lia.
From Verif Require Import RBase Cov Bunch BunchSpec BunchProofs Optics OpticsSpec OpticsProofs SparseMap SparseMapSpec SparseMapProofs SparseMapProps SympIntSpec BendMap BendMapSpec.
Local Open Scope R_scope.

(* ---- maps of second order ---- *)
Definition quadmap (A : mtx) (T : nat -> mtx) (x : vec6) : vec6 :=
  vof (fun i => sum (fun j => A i j * coord j x) (seq 0 6) + sum (fun j => sum (fun k => T i j k * coord j x * coord k x) (seq 0 6)) (seq 0 6)).
Definition slope2 (A : mtx) (T : nat -> mtx) (x : vec6) : mtx :=
  fun i j => A i j + sum (fun k => (T i j k + T i k j) * coord k x) (seq 0 6).
Lemma dlim_sum {B} (f : R -> B -> R) (f' : B -> R) l s : (forall b, In b l -> derivable_pt_lim (fun t => f t b) s (f' b)) ->
  derivable_pt_lim (fun t => sum (f t) l) s (sum f' l).
Proof.
  induction l as [|b l IH]; intros H; cbn [sum].
  - apply (derivable_pt_lim_const 0).
  - apply (dlim_plus (fun t => f t b) (fun t => sum (f t) l)); [apply H; now left|]. apply IH. intros c I. apply H. now right.
Qed.
Lemma quadmap_passes A T c x u : passes c x u -> passes (fun t => quadmap A T (c t)) (quadmap A T x) (SympIntSpec.image (slope2 A T x) u).
Proof.
  intros [C0 C]. split; [now rewrite C0|]. intros i Hi. unfold quadmap.
  replace (fun t => coord i (vof _)) with (fun t => sum (fun j => A i j * coord j (c t)) (seq 0 6) + sum (fun j => sum (fun k => T i j k * coord j (c t) * coord k (c t)) (seq 0 6)) (seq 0 6))
    by (apply FunctionalExtensionality.functional_extensionality; intros t; now rewrite coord_vof).
  eapply dlim_eq; [|apply (dlim_plus (fun t => sum (fun j => A i j * coord j (c t)) (seq 0 6)) (fun t => sum (fun j => sum (fun k => T i j k * coord j (c t) * coord k (c t)) (seq 0 6)) (seq 0 6)))].
  2: { apply (dlim_sum (fun t j => A i j * coord j (c t)) (fun j => A i j * coord j u)). intros j J. apply in_seq in J.
       eapply dlim_eq; [|apply (dlim_mult (fun _ => A i j) (fun t => coord j (c t))); [apply (derivable_pt_lim_const (A i j))|apply C; lia]]. cbv beta. ring. }
  2: { apply (dlim_sum (fun t j => sum (fun k => T i j k * coord j (c t) * coord k (c t)) (seq 0 6)) (fun j => sum (fun k => T i j k * (coord j u * coord k x + coord j x * coord k u)) (seq 0 6))). intros j J. apply in_seq in J.
       apply (dlim_sum (fun t k => T i j k * coord j (c t) * coord k (c t)) (fun k => T i j k * (coord j u * coord k x + coord j x * coord k u))). intros k J'. apply in_seq in J'.
       eapply dlim_eq; [|apply (dlim_mult (fun t => T i j k * coord j (c t)) (fun t => coord k (c t))); [apply (dlim_mult (fun _ => T i j k) (fun t => coord j (c t))); [apply (derivable_pt_lim_const (T i j k))|apply C; lia]|apply C; lia]].
       cbv beta. rewrite C0. ring. }
  assert (E : coord i (SympIntSpec.image (slope2 A T x) u) = sum (fun j => slope2 A T x i j * coord j u) (seq 0 6)) by (six i; reflexivity).
  rewrite E. unfold slope2.
  assert (W : sum (fun j => (A i j + sum (fun k => (T i j k + T i k j) * coord k x) (seq 0 6)) * coord j u) (seq 0 6) =
              sum (fun j => A i j * coord j u) (seq 0 6) + (sum (fun j => sum (fun k => T i j k * coord k x * coord j u) (seq 0 6)) (seq 0 6)
               + sum (fun j => sum (fun k => T i k j * coord k x * coord j u) (seq 0 6)) (seq 0 6))).
  { rewrite <- !sum_plus. apply sum_ext. intros j _. rewrite <- sum_plus. rewrite Rmult_plus_distr_r. f_equal. rewrite <- sum_scal_r. apply sum_ext. intros; ring. }
  rewrite W. f_equal. rewrite (sum_swap (fun j k => T i k j * coord k x * coord j u)). rewrite <- sum_plus. apply sum_ext. intros j _. rewrite <- sum_plus. apply sum_ext. intros; ring.
Qed.
Lemma quadmap_tangent {E} A T x : tangent (fun v => @Ok E vec6 (quadmap A T v)) x (slope2 A T x).
Proof.
  intros c u P. exists 1, (fun t => quadmap A T (c t)). split; [lra|]. split; [reflexivity|]. pose proof (quadmap_passes A T c x u P) as Q.
  destruct P as [C0 _]. cbv beta. rewrite C0. exact Q.
Qed.
(* the derivative is unique *)
Definition along (j : nat) (x : vec6) (t : R) : vec6 := vof (fun k => coord k x + (if Nat.eq_dec k j then t else 0)).
Definition axis (j : nat) : vec6 := vof (fun k => if Nat.eq_dec k j then 1 else 0).
Lemma along_passes j x : passes (along j x) x (axis j).
Proof.
  split.
  - apply vec6_eq. intros i Hi. unfold along. rewrite coord_vof by exact Hi. destruct Nat.eq_dec; ring.
  - intros i Hi. unfold along, axis. rewrite coord_vof by exact Hi.
    replace (fun t => coord i (vof _)) with (fun t => coord i x + (if Nat.eq_dec i j then t else 0)) by (apply FunctionalExtensionality.functional_extensionality; intros t; now rewrite coord_vof).
    destruct (Nat.eq_dec i j).
    + eapply dlim_eq; [|apply (dlim_plus (fun _ => coord i x) (fun t => t)); [apply (derivable_pt_lim_const (coord i x))|apply derivable_pt_lim_id]]. ring.
    + eapply dlim_eq; [|apply (derivable_pt_lim_const (coord i x + 0))]. ring.
Qed.
Lemma image_axis M i j : (i < 6)%nat -> (j < 6)%nat -> coord i (SympIntSpec.image M (axis j)) = M i j.
Proof. intros Hi Hj. six i; six j; cbn; ring. Qed.
Lemma tangent_unique {E} (F : vec6 -> vec6) x M N : tangent (fun v => @Ok E vec6 (F v)) x M -> tangent (fun v => @Ok E vec6 (F v)) x N ->
  forall i j, (i < 6)%nat -> (j < 6)%nat -> M i j = N i j.
Proof.
  intros A B i j Hi Hj. destruct (A _ _ (along_passes j x)) as (r & c & R0 & Ec & _ & P). destruct (B _ _ (along_passes j x)) as (r' & c' & R0' & Ec' & _ & P').
  specialize (P i Hi). specialize (P' i Hi). rewrite image_axis in P, P' by assumption. apply (uniqueness_limite (fun t => coord i (c t)) 0); [exact P|].
  intros e He. destruct (P' e He) as (d & D). assert (X : 0 < Rmin d (Rmin r r')).
  { apply Rmin_pos; [apply cond_pos|]. now apply Rmin_pos. }
  exists (mkposreal _ X). intros t NZ Ht. cbn in Ht.
  assert (T1 : Rabs t < d) by (eapply Rlt_le_trans; [exact Ht|apply Rmin_l]).
  assert (T2 : Rabs t < r) by (eapply Rlt_le_trans; [exact Ht|eapply Rle_trans; [apply Rmin_r|apply Rmin_l]]).
  assert (T3 : Rabs t < r') by (eapply Rlt_le_trans; [exact Ht|eapply Rle_trans; [apply Rmin_r|apply Rmin_r]]).
  assert (Q : forall a, Rabs a < r -> Rabs a < r' -> c a = c' a).
  { intros a H1 H2. specialize (Ec a H1). specialize (Ec' a H2). congruence. }
  specialize (D t NZ T1). rewrite Rplus_0_l in *. rewrite (Q t T2 T3), (Q 0) by (rewrite Rabs_R0; assumption). exact D.
Qed.
Lemma symplectic_pairing M : symplectic 6 M <-> forall i j, (i < 6)%nat -> (j < 6)%nat -> pairing M i j =
  if Nat.eq_dec (i + 1) j then (if Nat.even i then 1 else 0) else if Nat.eq_dec i (j + 1) then (if Nat.even j then -1 else 0) else 0.
Proof. reflexivity. Qed.
Lemma pairing_ext M N : (forall i j, (i < 6)%nat -> (j < 6)%nat -> M i j = N i j) -> forall i j, (i < 6)%nat -> (j < 6)%nat -> pairing M i j = pairing N i j.
Proof. intros E i j Hi Hj. unfold pairing. apply sum_ext. intros k K. apply in_seq in K. rewrite !E by lia. reflexivity. Qed.
(* what it takes, in terms of the coefficients; m counts the coordinate *)
Definition balance (A : mtx) (T : nat -> mtx) (i j m : nat) : R :=
  let D a b := T a b m + T a m b in
  sum (fun k => D (2 * k)%nat i * A (2 * k + 1)%nat j + A (2 * k)%nat i * D (2 * k + 1)%nat j - D (2 * k + 1)%nat i * A (2 * k)%nat j - A (2 * k + 1)%nat i * D (2 * k)%nat j) (seq 0 3).
Definition poly_form (A : mtx) (T : nat -> mtx) (x : vec6) (i j : nat) : R := sum (fun m => balance A T i j m * coord m x) (seq 0 6).
Lemma coord_stretch t x m : coord m (stretch t x) = t * coord m x.
Proof. destruct m as [|[|[|[|[|m]]]]]; cbn; try reflexivity. all: destruct m; cbn; reflexivity. Qed.
Lemma pairing_slope A T x i j : derivable_pt_lim (fun t => pairing (slope2 A T (stretch t x)) i j) 0 (poly_form A T x i j).
Proof.
  unfold pairing, poly_form.
  assert (S1 : forall a b, derivable_pt_lim (fun t => slope2 A T (stretch t x) a b) 0 (sum (fun m => (T a b m + T a m b) * coord m x) (seq 0 6))).
  { intros a b. unfold slope2. eapply dlim_eq; [|apply (dlim_plus (fun _ => A a b) (fun t => sum (fun k => (T a b k + T a k b) * coord k (stretch t x)) (seq 0 6))); [apply (derivable_pt_lim_const (A a b))|]].
    2: { apply (dlim_sum (fun t k => (T a b k + T a k b) * coord k (stretch t x)) (fun m => (T a b m + T a m b) * coord m x)). intros m _.
         replace (fun t => (T a b m + T a m b) * coord m (stretch t x)) with (fun t => ((T a b m + T a m b) * coord m x) * t) by (apply FunctionalExtensionality.functional_extensionality; intros t; rewrite coord_stretch; ring).
         apply dlim_lin. }
    ring. }
  assert (S0 : forall a b, slope2 A T (stretch 0 x) a b = A a b).
  { intros a b. unfold slope2. rewrite (sum_ext _ (fun _ => 0)); [|intros m _; rewrite coord_stretch; ring]. rewrite sum_const. ring. }
  eapply dlim_eq; [|apply (dlim_sum (fun t k => slope2 A T (stretch t x) (2 * k)%nat i * slope2 A T (stretch t x) (2 * k + 1)%nat j - slope2 A T (stretch t x) (2 * k + 1)%nat i * slope2 A T (stretch t x) (2 * k)%nat j)
     (fun k => (sum (fun m => (T (2 * k)%nat i m + T (2 * k)%nat m i) * coord m x) (seq 0 6) * A (2 * k + 1)%nat j + A (2 * k)%nat i * sum (fun m => (T (2 * k + 1)%nat j m + T (2 * k + 1)%nat m j) * coord m x) (seq 0 6))
             - (sum (fun m => (T (2 * k + 1)%nat i m + T (2 * k + 1)%nat m i) * coord m x) (seq 0 6) * A (2 * k)%nat j + A (2 * k + 1)%nat i * sum (fun m => (T (2 * k)%nat j m + T (2 * k)%nat m j) * coord m x) (seq 0 6))))].
  2: { intros k _. eapply dlim_eq; [|apply (dlim_minus (fun t => slope2 A T (stretch t x) (2 * k)%nat i * slope2 A T (stretch t x) (2 * k + 1)%nat j) (fun t => slope2 A T (stretch t x) (2 * k + 1)%nat i * slope2 A T (stretch t x) (2 * k)%nat j));
         [apply (dlim_mult (fun t => slope2 A T (stretch t x) (2 * k)%nat i) (fun t => slope2 A T (stretch t x) (2 * k + 1)%nat j)); apply S1|
          apply (dlim_mult (fun t => slope2 A T (stretch t x) (2 * k + 1)%nat i) (fun t => slope2 A T (stretch t x) (2 * k)%nat j)); apply S1]].
       rewrite !S0. reflexivity. }
  unfold balance. cbv zeta. symmetry.
  rewrite (sum_ext _ (fun m => sum (fun k => ((T (2 * k)%nat i m + T (2 * k)%nat m i) * A (2 * k + 1)%nat j + A (2 * k)%nat i * (T (2 * k + 1)%nat j m + T (2 * k + 1)%nat m j)
     - (T (2 * k + 1)%nat i m + T (2 * k + 1)%nat m i) * A (2 * k)%nat j - A (2 * k + 1)%nat i * (T (2 * k)%nat j m + T (2 * k)%nat m j)) * coord m x) (seq 0 3))) by (intros m _; symmetry; apply sum_scal_r).
  rewrite sum_swap. apply sum_ext. intros k _. rewrite <- !sum_scal_r, <- !sum_scal, <- !sum_plus, <- sum_minus. apply sum_ext. intros m _. ring.
Qed.
Lemma symplectic2_iff A T : symplectic2 (quadmap A T) <-> symplectic 6 A /\ forall i j m, (i < 6)%nat -> (j < 6)%nat -> (m < 6)%nat -> balance A T i j m = 0.
Proof.
  assert (Z : forall i j, slope2 A T (V6 0 0 0 0 0 0) i j = A i j).
  { intros i j. unfold slope2. rewrite (sum_ext _ (fun _ => 0)); [rewrite sum_const; ring|]. intros m Hm. apply in_seq in Hm. six m; cbn; ring. }
  split.
  - intros (J & TJ & S0 & S1). assert (U : forall x i j, (i < 6)%nat -> (j < 6)%nat -> J x i j = slope2 A T x i j).
    { intros x. exact (tangent_unique (quadmap A T) x _ _ (TJ x) (quadmap_tangent A T x)). }
    split.
    + rewrite symplectic_pairing in *. intros i j Hi Hj. rewrite <- S0 by assumption. apply pairing_ext; auto. intros a b Ha Hb. rewrite U by assumption. symmetry. apply Z.
    + intros i j m Hi Hj Hm. specialize (S1 (axis m) i j Hi Hj). pose proof (pairing_slope A T (axis m) i j) as P.
      assert (E : (fun t => pairing (J (stretch t (axis m))) i j) = (fun t => pairing (slope2 A T (stretch t (axis m))) i j)).
      { apply FunctionalExtensionality.functional_extensionality. intros t. apply pairing_ext; auto. }
      rewrite E in S1. pose proof (uniqueness_limite _ _ _ _ S1 P) as Q. rewrite Q at 1. unfold poly_form. six m; cbn [seq sum]; unfold axis; rewrite !coord_vof by lia; cbn -[balance]; ring.
  - intros [S0 B]. exists (slope2 A T). split; [intros x; apply quadmap_tangent|]. split.
    + rewrite symplectic_pairing in *. intros i j Hi Hj. rewrite <- S0 by assumption. apply pairing_ext; auto.
    + intros x i j Hi Hj. eapply dlim_eq; [|apply pairing_slope]. unfold poly_form. rewrite (sum_ext _ (fun _ => 0)); [rewrite sum_const; ring|].
      intros m Hm. apply in_seq in Hm. rewrite B by lia. ring.
Qed.
(* a map built from lists of coefficients *)
Definition lin_of (l : list (nat * nat * R)) : mtx := fun i j => last_written l (S i) (S j) 0.
Definition quad_of (q : list (nat * nat * nat * R)) (i j k : nat) : R :=
  sum (fun t => let '(a, b, c, u) := t in if Nat.eq_dec a (S i) then if Nat.eq_dec b (S j) then if Nat.eq_dec c (S k) then u else 0 else 0 else 0) q.
Lemma rt_quadmap w l q p : numbered l -> numbered3 q -> exists m, rt_make w l q = Ok m /\ rt_apply m p = Ok (mkP (quadmap (lin_of l) (quad_of q) (pv p)) (pid p)).
Proof.
  intros L Q. apply rt_result; auto. intros i Hi. destruct i as [|i]; [lia|]. replace (S i - 1)%nat with i by lia. unfold quadmap. rewrite coord_vof by lia. f_equal.
  - unfold quad_of.
    rewrite (sum_ext _ (fun j => sum (fun t => sum (fun k => (let '(a, b, c, u) := t in if Nat.eq_dec a (S i) then if Nat.eq_dec b (S j) then if Nat.eq_dec c (S k) then u else 0 else 0 else 0) * coord j (pv p) * coord k (pv p)) (seq 0 6)) q)).
    2: { intros j _. rewrite sum_swap. apply sum_ext. intros k _. rewrite <- sum_scal_r, <- sum_scal_r. reflexivity. }
    rewrite sum_swap. apply sum_ext. intros [[[a b] c] u] I. unfold numbered3 in Q. rewrite Forall_forall in Q. specialize (Q _ I). cbn in Q.
    destruct (Nat.eq_dec a (S i)).
    + rewrite (sum_ext _ (fun j => if Nat.eq_dec (b - 1) j then u * coord j (pv p) * coord (c - 1) (pv p) else 0)).
      * rewrite sum_delta. destruct (Nat.ltb_spec (b - 1) 6); [reflexivity|lia].
      * intros j _. destruct (Nat.eq_dec b (S j)), (Nat.eq_dec (b - 1) j); try lia.
        -- rewrite (sum_ext _ (fun k => if Nat.eq_dec (c - 1) k then u * coord j (pv p) * coord k (pv p) else 0)).
           ++ rewrite sum_delta. destruct (Nat.ltb_spec (c - 1) 6); [reflexivity|lia].
           ++ intros k _. destruct (Nat.eq_dec c (S k)), (Nat.eq_dec (c - 1) k); try lia; ring.
        -- rewrite (sum_ext _ (fun _ => 0)); [rewrite sum_const; ring|]. intros; ring.
    + rewrite (sum_ext _ (fun _ => 0)); [rewrite sum_const; ring|]. intros j _. rewrite (sum_ext _ (fun _ => 0)); [rewrite sum_const; ring|]. intros; ring.
Qed.
