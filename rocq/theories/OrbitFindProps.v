From Coq Require Import ZArith Lra Lia.
From Verif Require Import RBase Bunch BunchSpec Optics Orbit OrbitSpec OrbitProofs OrbitProps.
Local Open Scope R_scope.

Lemma default_delta : codelta new_co <> 0.
Proof. cbn. lra. Qed.
Lemma default_tol : 0 <= cotol new_co < 1.
Proof. cbn. lra. Qed.

(* ---- C217: the dispersion of a linear machine ---- *)
Theorem C217_dispersion : forall factor m delta n A k,
  (n < length m)%nat -> delta <> 0 -> affine A k (lap 0 None m n) -> right factor 4 (less_one A) -> tame 4 (less_one A) ->
  exists D, find_dispersion factor m delta (Z.of_nat n) = Ok (D 0%nat, D 1%nat, D 2%nat, D 3%nat) /\
    (forall i, (i < 4)%nat -> D i = tot 4 (fun j => A i j * D j) + A i 5%nat) /\
    (forall E, (forall i, (i < 4)%nat -> E i = tot 4 (fun j => A i j * E j) + A i 5%nat) -> forall i, (i < 4)%nat -> E i = D i).
Proof.
  intros factor m delta n A k N D H Rt Tm. unfold find_dispersion.
  set (co := co_transverse true new_co).
  destruct (C216_found factor m co n (at_dp (- delta)) A k None N (rad_off _ _) default_delta (proj2 default_tol) ltac:(cbn; lia) H Rt Tm) as (p & w & it & -> & C & S & _).
  destruct (C216_found factor m co n (at_dp delta) A k None N (rad_off _ _) default_delta (proj2 default_tol) ltac:(cbn; lia) H Rt Tm) as (q & w' & it' & -> & C' & S' & _).
  cbn [bind fst snd]. destruct (Reqb_spec delta 0); [contradiction|].
  exists (fun i => (coord i q - coord i p) / 2 / delta). split; [reflexivity|].
  assert (E : forall i, (i < 4)%nat -> (coord i q - coord i p) / 2 / delta = tot 4 (fun j => A i j * ((coord j q - coord j p) / 2 / delta)) + A i 5%nat).
  { intros i I. specialize (C i I). specialize (C' i I). change (coscale co) with 0 in *. rewrite H in C, C' by lia.
    rewrite !tot_S, tot_0 in *.
    pose proof (S 4%nat ltac:(cbn; lia)). pose proof (S 5%nat ltac:(cbn; lia)). pose proof (S' 4%nat ltac:(cbn; lia)). pose proof (S' 5%nat ltac:(cbn; lia)).
    change (coord 4 (at_dp (- delta))) with 0 in *. change (coord 5 (at_dp (- delta))) with (- delta) in *.
    change (coord 4 (at_dp delta)) with 0 in *. change (coord 5 (at_dp delta)) with delta in *.
    rewrite <- C, <- C' at 1. rewrite H0, H1, H2, H3. field. exact D. }
  split; [exact E|]. intros F HF.
  apply (tame_injective 4 (less_one A)); [exact Tm|]. intros i I. rewrite !act_less_one by exact I. unfold act.
  specialize (E i I). specialize (HF i I). lra.
Qed.

(* ---- diagonal matrices ---- *)
Definition sgn (x : R) : R := if Rltb x 0 then -1 else 1.
Definition dfac : fact := fun n A => Some (fun i j => delta_ i j * sgn (A i i), fun i => Rabs (A i i), delta_).
Lemma sgn_sq x : sgn x * sgn x = 1.
Proof. unfold sgn. destruct (Rltb x 0); ring. Qed.
Lemma dfac_right n A : (forall i j, (i < n)%nat -> (j < n)%nat -> i <> j -> A i j = 0) -> right dfac n A.
Proof.
  intros H B E. eexists _, _, _. split; [reflexivity|].
  assert (O : orthogonal n delta_).
  { intros i j I J. split.
    - rewrite (tot_ext n _ (fun k => delta_ i k * delta_ k j)); [apply (tot_delta n i (fun k => delta_ k j) I)|]. intros k K. f_equal. apply delta_sym.
    - rewrite tot_delta by exact I. apply delta_sym. }
  split; [|split; [exact O|split; [intros; apply Rabs_pos|]]].
  - intros i j I J. split.
    + rewrite (tot_ext n _ (fun k => delta_ i k * (delta_ k j * (sgn (B k k) * sgn (B k k))))).
      2:{ intros k K. rewrite (delta_sym i k). ring. }
      rewrite tot_delta by exact I. rewrite sgn_sq. ring.
    + rewrite (tot_ext n _ (fun k => delta_ i k * (delta_ j k * (sgn (B i i) * sgn (B j j))))) by (intros; ring).
      rewrite tot_delta by exact I. unfold delta_. destruct (Nat.eqb_spec j i); destruct (Nat.eqb_spec i j); try congruence; [subst; rewrite sgn_sq|]; ring.
  - intros i j I J. rewrite (tot_ext n _ (fun k => delta_ i k * (sgn (B i i) * Rabs (B k k) * delta_ j k))) by (intros; ring).
    rewrite tot_delta by exact I. unfold delta_. destruct (Nat.eqb_spec j i).
    + subst. unfold sgn. destruct (Rltb_spec (B i i) 0); [rewrite Rabs_left by lra|rewrite Rabs_right by lra]; ring.
    + rewrite E, H by (assumption || congruence). ring.
Qed.
Lemma act_diag n A x i : (forall i j, (i < n)%nat -> (j < n)%nat -> i <> j -> A i j = 0) -> (i < n)%nat -> act n A x i = A i i * x i.
Proof.
  intros H I. unfold act. rewrite (tot_ext n _ (fun j => delta_ i j * (A i i * x j))); [apply tot_delta; exact I|].
  intros j J. unfold delta_. destruct (Nat.eqb_spec i j); [subst; ring|]. rewrite H by assumption. ring.
Qed.
Lemma tot_le n f g : (forall i, (i < n)%nat -> f i <= g i) -> tot n f <= tot n g.
Proof. intros H. pose proof (tot_nonneg n (fun i => g i - f i)) as P. rewrite tot_minus in P. assert (0 <= tot n g - tot n f); [apply P; intros i I; specialize (H i I); lra|lra]. Qed.
Lemma tame_diag n A lo hi : (forall i j, (i < n)%nat -> (j < n)%nat -> i <> j -> A i j = 0) -> (forall i, (i < n)%nat -> lo <= Rabs (A i i) <= hi) ->
  0 < lo -> hi / 1000000 < lo -> 0 < hi -> tame n A.
Proof.
  intros H B l0 lh h0. exists hi. split; [exact h0|].
  assert (E : forall x, norm2 n (act n A x) = tot n (fun i => (A i i * A i i) * (x i * x i))).
  { intros x. unfold norm2. apply tot_ext. intros i I. rewrite act_diag by assumption. ring. }
  assert (Q : forall i, (i < n)%nat -> lo * lo <= A i i * A i i <= hi * hi).
  { intros i I. specialize (B i I). assert (G : A i i * A i i = Rabs (A i i) * Rabs (A i i)).
    { rewrite <- Rabs_mult. symmetry. apply Rabs_right. nra. }
    rewrite G. pose proof (Rabs_pos (A i i)). nra. }
  split; intros x.
  - rewrite E. unfold norm2. rewrite <- tot_scale. apply tot_le. intros i I. specialize (Q i I). nra.
  - intros P. rewrite E. apply Rlt_le_trans with (lo * lo * norm2 n x).
    + apply Rmult_lt_compat_r; [exact P|]. assert (0 < hi / 1000000) by lra. nra.
    + unfold norm2. rewrite <- tot_scale. apply tot_le. intros i I. specialize (Q i I). nra.
Qed.

(* ---- C218: a search that converged has found the closed orbit: it has not ---- *)
(* near an integer resonance the direction in which the orbit has to move is left out *)
Definition resonant : list comp := [mkC 1 false (fun _ v => V6 (vx v * (1 + / 10000000) + 1) (vxp v / 2) (vy v / 2) (vyp v / 2) (vct v / 2) (vdp v / 2))].
Definition res_diag (i : nat) : R := match i with O => / 10000000 | _ => - / 2 end.
Definition res_mat : nat -> nat -> R := fun i j => delta_ i j * res_diag i.
Lemma is_largest w n : exists i, (i <= n)%nat /\ largest w n = w i.
Proof.
  induction n as [|n (i & I & E)]; cbn; [exists O; split; [lia|reflexivity]|].
  unfold Rmax. destruct (Rle_dec _ _); [exists (S n); split; [lia|reflexivity]|]. exists i. split; [lia|exact E].
Qed.
(* columns of u belong to one value of the diagonal *)
Lemma res_columns U w V B : (forall i j, (i < 6)%nat -> (j < 6)%nat -> B i j = res_mat i j) -> is_svd 6 B U w V ->
  forall i k, (i < 6)%nat -> (k < 6)%nat -> U i k <> 0 -> w k = Rabs (res_diag i).
Proof.
  intros EB S i k I K NZ.
  (* B^T U = V w, B V = U w, so B B^T U = U w^2 *)
  assert (E1 : V i k * w k = res_diag i * U i k).
  { destruct S as (OU & OV & P & F).
    transitivity (tot 6 (fun j => B j i * U j k)).
    - rewrite (tot_ext 6 (fun j => B j i * U j k) (fun j => tot 6 (fun l => w l * V i l * (U j l * U j k)))).
      2:{ intros j J. rewrite F by assumption. rewrite <- tot_scale_r. apply tot_ext; intros; ring. }
      rewrite tot_swap. rewrite (tot_ext 6 _ (fun l => delta_ k l * (w l * V i l))).
      2:{ intros l L. rewrite tot_scale, (proj1 (OU l k L K)), delta_sym. ring. }
      rewrite tot_delta by exact K. ring.
    - rewrite (tot_ext 6 _ (fun j => delta_ i j * (res_diag j * U j k))).
      2:{ intros j J. rewrite EB by assumption. unfold res_mat. rewrite delta_sym. ring. }
      apply (tot_delta 6 i (fun j => res_diag j * U j k) I). }
  assert (E2 : res_diag i * V i k = U i k * w k).
  { rewrite <- (svd_cols 6 B U V w S k i K I). rewrite act_diag; [rewrite EB by assumption; unfold res_mat, delta_; rewrite Nat.eqb_refl; ring| |exact I].
    intros a b Ha Hb ne. rewrite EB by assumption. unfold res_mat, delta_. destruct (Nat.eqb_spec a b); [contradiction|ring]. }
  assert (P : 0 <= w k) by (apply S; exact K).
  assert (Q : w k * w k = res_diag i * res_diag i).
  { apply (Rmult_eq_reg_r (U i k)); [|exact NZ]. transitivity (w k * (U i k * w k)); [ring|]. rewrite <- E2.
    transitivity (res_diag i * (V i k * w k)); [ring|]. rewrite E1. ring. }
  destruct (Rcase_abs (res_diag i)); [rewrite Rabs_left by lra|rewrite Rabs_right by lra]; nra.
Qed.
Lemma row_nonzero n U i : orthogonal n U -> (i < n)%nat -> exists k, (k < n)%nat /\ U i k <> 0.
Proof.
  intros O I. destruct (O i i I I) as [_ E]. unfold delta_ in E. rewrite Nat.eqb_refl in E.
  destruct (Req_EM_T (tot n (fun k => U i k * U i k)) 0) as [Z|NZ]; [lra|]. clear E O.
  assert (G : forall m, (m <= n)%nat -> tot m (fun k => U i k * U i k) <> 0 -> exists k, (k < n)%nat /\ U i k <> 0).
  { induction m; intros L Q; [rewrite tot_0 in Q; contradiction|]. rewrite tot_S in Q. destruct (Req_EM_T (U i m) 0) as [Z|Z]; [|exists m; split; [lia|exact Z]].
    apply IHm; [lia|]. rewrite Z in Q. intros C. apply Q. rewrite C. ring. }
  apply (G n); [lia|exact NZ].
Qed.
Theorem C218_refuted : forall factor, right factor 6 res_mat ->
  find_orbit factor resonant new_co 0 vzero = Ok (vzero, 0, 2%Z) /\
  lap 0 None resonant 0 vzero = V6 1 0 0 0 0 0 /\
  closed 6 (lap 0 None resonant 0) (V6 (-10000000) 0 0 0 0 0).
Proof.
  intros factor Rt. split; [|split].
  - change 0%Z with (Z.of_nat 0). rewrite (find_unfold factor resonant new_co 0 vzero None ltac:(cbn; lia) (rad_off _ _)).
    change (Z.to_nat (comax new_co - 1)) with 19%nat. cbn [iterate]. destruct (Rltb_spec (cotol new_co) 1); [|exfalso; pose proof default_tol; lra].
    assert (Nw : newton factor (dims new_co) (codelta new_co) (through (coscale new_co) None (skipn 0 resonant ++ firstn 0 resonant)) vzero = Ok (vzero, 0)).
    { unfold newton. destruct (Reqb_spec (codelta new_co) 0); [exfalso; apply default_delta; assumption|]. cbv zeta.
      set (dg := fun m k : nat => _). change (dims new_co) with 6%nat.
      set (T := through (coscale new_co) None (skipn 0 resonant ++ firstn 0 resonant)) in *.
      assert (TE : forall v, T v = V6 (vx v * (1 + / 10000000) + 1) (vxp v / 2) (vy v / 2) (vyp v / 2) (vct v / 2) (vdp v / 2)).
      { intros v. unfold T. rewrite through_journey. reflexivity. }
      assert (EB : forall i j, (i < 6)%nat -> (j < 6)%nat -> dg i j = res_mat i j).
      { intros i j I J. unfold dg. rewrite !TE. unfold res_mat, delta_.
        do 6 (destruct i as [|i]; [do 6 (destruct j as [|j]; [cbn; field; try exact n|]); lia|]). lia. }
      destruct (Rt dg EB) as (U & w & V & F & Sv). unfold svd_solve. rewrite F. cbv zeta.
      change (6 - 1)%nat with 5%nat. set (mx := largest w 5).
      destruct (row_nonzero 6 U 1 (proj1 Sv) ltac:(lia)) as (k1 & K1 & NZ1).
      pose proof (res_columns U w V dg EB Sv 1 k1 ltac:(lia) K1 NZ1) as W1. cbn [res_diag] in W1. rewrite Rabs_left in W1 by lra.
      assert (mx1 : / 2 <= mx) by (unfold mx; pose proof (largest_ge w 5 k1 ltac:(lia)); lra).
      destruct (is_largest w 5) as (i0 & I0 & W0). fold mx in W0.
      rewrite (all_small_false w (threshold * mx) 6 i0) by (try lia; rewrite <- W0; unfold threshold; lra).
      match goal with |- bind (Ok ?X) _ = _ => set (x := X) end. cbn [bind].
      assert (X : forall i, x i = 0).
      { intros i. unfold x. rewrite <- tot_msum. apply tot_zero. intros k K.
        destruct (Rleb_spec (w k) (threshold * mx)) as [L|L]; [ring|]. destruct (Reqb_spec (w k) 0); [ring|].
        assert (Z : U 0%nat k = 0).
        { destruct (Req_EM_T (U 0%nat k) 0) as [Z|NZ]; [exact Z|]. exfalso.
          pose proof (res_columns U w V dg EB Sv 0 k ltac:(lia) K NZ) as W. cbn [res_diag] in W. rewrite Rabs_right in W by lra. unfold threshold in L. lra. }
        rewrite <- tot_msum. rewrite (tot_zero 6); [unfold Rdiv; ring|]. intros l Ll. rewrite TE.
        do 6 (destruct l as [|l]; [cbn; rewrite ?Z; lra|]). lia. }
      f_equal. f_equal.
      - apply vec_eq. intros i I. rewrite coord_vof by exact I. rewrite X. destruct (Nat.ltb i 6); ring.
      - rewrite <- tot_msum. apply tot_zero. intros. rewrite X. ring. }
    rewrite Nw. cbn [bind fst snd iterate]. destruct (Rltb_spec (cotol new_co) 0); [exfalso; pose proof default_tol; lra|]. reflexivity.
  - unfold lap, journey. cbn. f_equal; lra.
  - intros i I. unfold lap, journey. do 6 (destruct i as [|i]; [cbn; lra|]). lia.
Qed.
(* the factorisation of this matrix exists *)
Example C218_ex : right dfac 6 res_mat.
Proof. apply dfac_right. intros i j _ _ N. unfold res_mat, delta_. destruct (Nat.eqb_spec i j); [contradiction|ring]. Qed.

(* ---- C219: with a limit of one iteration nothing is done ---- *)
Theorem C219_refuted : forall factor m c n p r, (n < length m)%nat -> radiates (corad c) (cosize c) (conum c) r -> comax c = 1%Z ->
  find_orbit factor m c (Z.of_nat n) p = Ok (p, 1, 1%Z).
Proof. intros factor m c n p r N Rr X. rewrite (find_unfold factor m c n p r N Rr), X. reflexivity. Qed.
(* in general at most one iteration less than the limit is made, and the count starts at one *)
Theorem C219_count : forall factor m c n p r p' w it, (n < length m)%nat -> radiates (corad c) (cosize c) (conum c) r -> (1 <= comax c)%Z ->
  find_orbit factor m c (Z.of_nat n) p = Ok (p', w, it) -> (1 <= it <= comax c)%Z /\ (w <= cotol c \/ it = comax c).
Proof.
  intros factor m c n p r p' w it N Rr X E. rewrite (find_unfold factor m c n p r N Rr) in E.
  assert (G : forall fuel i0 w0 p0, iterate factor (dims c) (codelta c) (cotol c) (through (coscale c) r (skipn n m ++ firstn n m)) fuel i0 w0 p0 = Ok (p', w, it) ->
    (i0 <= it <= i0 + Z.of_nat fuel)%Z /\ (w <= cotol c \/ it = (i0 + Z.of_nat fuel)%Z)).
  { induction fuel as [|f IH]; intros i0 w0 p0 H; cbn [iterate] in H.
    - injection H as _ _ <-. split; [lia|]. right; lia.
    - destruct (Rltb_spec (cotol c) w0).
      + destruct (newton _ _ _ _ _) as [x| |]; [|discriminate H|discriminate H]. cbn [bind] in H. destruct (IH _ _ _ H) as [A B]. split; [lia|]. destruct B; [left; assumption|right; lia].
      + injection H as _ <- <-. split; [lia|]. left; lra. }
  destruct (G _ _ _ _ E) as [A B]. rewrite Z2Nat.id in * by lia. split; [lia|]. destruct B; [left; assumption|right; lia].
Qed.

(* ---- C220: the rms of an orbit ---- *)
Lemma rms_loop_spec f m : forall p len acc, rms_loop f m p len acc = (len + all_length m, acc + squares f m (visits m p)).
Proof.
  induction m as [|c m IH]; intros p len acc; cbn [rms_loop]; [cbn; f_equal; ring|].
  rewrite IH. f_equal; [change (all_length (c :: m)) with (clen c + all_length m); ring|].
  destruct m as [|c' m]; cbn [visits squares]; unfold Rsqr; field.
Qed.
Theorem C220_rms : forall m p, 0 < all_length m ->
  exists q, find_rms_orbit m p = Ok q /\ forall i, (i < 6)%nat -> coord i q = sqrt (squares (coord i) m (visits m p) / all_length m).
Proof.
  intros m p L. unfold find_rms_orbit. destruct m as [|c m]; [cbn in L; lra|].
  assert (F : fst (rms_loop vx (c :: m) p 0 0) = all_length (c :: m)) by (rewrite rms_loop_spec; cbn [fst]; ring).
  destruct (Reqb_spec (fst (rms_loop vx (c :: m) p 0 0)) 0); [lra|]. eexists. split; [reflexivity|].
  assert (G : forall f, sqrt (snd (rms_loop f (c :: m) p 0 0) / fst (rms_loop f (c :: m) p 0 0)) = sqrt (squares f (c :: m) (visits (c :: m) p) / all_length (c :: m))).
  { intros f. rewrite rms_loop_spec. cbn [fst snd]. rewrite !Rplus_0_l. reflexivity. }
  intros i I. destruct i as [|[|[|[|[|[|i]]]]]]; [exact (G vx)|exact (G vxp)|exact (G vy)|exact (G vyp)|exact (G vct)|exact (G vdp)|lia].
Qed.
Lemma squares_const f a m : forall p, Forall (fun v => f v = a) (visits m p) -> squares f m (visits m p) = all_length m * (a * a).
Proof.
  induction m as [|c m IH]; intros p H; [cbn; ring|]. pose proof (Forall_inv H) as H0. pose proof (Forall_inv_tail H) as H1. cbv beta in H0.
  specialize (IH _ H1). change (all_length (c :: m)) with (clen c + all_length m).
  assert (H2 : f (cmap c None p) = a) by (destruct m; exact (Forall_inv H1)).
  destruct m as [|c' m]; cbn [visits squares] in *; rewrite IH, H0, H2; unfold Rsqr; field.
Qed.
Theorem C220_constant : forall m p i a, 0 < all_length m -> (i < 6)%nat -> Forall (fun v => coord i v = a) (visits m p) ->
  exists q, find_rms_orbit m p = Ok q /\ coord i q = Rabs a.
Proof.
  intros m p i a L I H. destruct (C220_rms m p L) as (q & E & Q). exists q. split; [exact E|]. rewrite Q by exact I.
  rewrite (squares_const _ a) by exact H. replace (all_length m * (a * a) / all_length m) with (Rsqr a) by (unfold Rsqr; field; lra). apply sqrt_Rsqr_abs.
Qed.
Print Assumptions C217_dispersion. Print Assumptions C218_refuted. Print Assumptions C219_refuted. Print Assumptions C219_count. Print Assumptions C220_rms. Print Assumptions C220_constant.
