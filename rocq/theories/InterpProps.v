From Coq Require Import Permutation Sorted.
From Verif Require Import RBase Interp InterpSpec InterpProofs.
Local Open Scope R_scope.

(** ** C10: linear interpolation on arbitrarily spaced data *)
Theorem C10_straight_line_between_neighbours :
  forall l order x, NoDup (map fst l) -> (2 <= length l)%nat -> (order <= 1)%Z -> inside l x ->
  exists p q, neighbours l x p q /\ fst (arb_value (arb_make l order) x) = Ok (line p q x)
    /\ Rmin (snd p) (snd q) <= line p q x <= Rmax (snd p) (snd q).
Proof.
  intros l order x H1 H2 H3 H4. destruct (linear_ok l order x H1 H2 H3 H4) as (p & q & Hn & Hv).
  exists p, q. split; [exact Hn|]. split; [exact Hv|]. apply line_between; apply Hn.
Qed.
Print Assumptions C10_straight_line_between_neighbours.

Theorem C10_tabulated_value :
  forall l order r, NoDup (map fst l) -> (2 <= length l)%nat -> (order <= 1)%Z -> In r l ->
  fst (arb_value (arb_make l order) (fst r)) = Ok (snd r).
Proof.
  intros l order r H1 H2 H3 H4. destruct (linear_ok l order (fst r) H1 H2 H3) as (p & q & Hn & Hv).
  { split; exists r; split; auto; lra. }
  rewrite Hv. f_equal. eapply neighbours_node; eauto.
Qed.
Print Assumptions C10_tabulated_value.

Theorem C10_bad_range_outside :
  forall l order x, NoDup (map fst l) -> (2 <= length l)%nat -> (order <= 1)%Z ->
  (fst (arb_value (arb_make l order) x) = Throw BadRange <-> ~ inside l x).
Proof.
  intros l order x H1 H2 H3. split.
  - intros Hv Hin. destruct (linear_ok l order x H1 H2 H3 Hin) as (p & q & _ & E). congruence.
  - apply outside_throws; auto. intros ->. simpl in H2. lia.
Qed.
Print Assumptions C10_bad_range_outside.

(** for every order of interpolation, and every sequence of evaluations *)
Theorem C10_supply_order_irrelevant :
  forall l l' order xs, NoDup (map fst l) -> Permutation l l' ->
  arb_values (arb_make l order) xs = arb_values (arb_make l' order) xs.
Proof.
  intros l l' order xs H1 H2. unfold arb_make. rewrite (sort_perm_eq l l' H1 H2), (Permutation_length H2). reflexivity.
Qed.
Print Assumptions C10_supply_order_irrelevant.

Definition ex_pts : list (R * R) := [(3, 6); (0, 1); (1, 2); (2, 0)].
Lemma ex_pts_nodup : NoDup (map fst ex_pts).
Proof. unfold ex_pts. simpl. repeat constructor; simpl; intros H; repeat destruct H as [H|H]; try lra; auto. Qed.

Example C10_case : NoDup (map fst ex_pts) /\ (2 <= length ex_pts)%nat /\ inside ex_pts (5 / 2) /\ ~ inside ex_pts 4
  /\ fst (arb_value (arb_make ex_pts 1) (5 / 2)) = Ok 3.
Proof.
  split; [apply ex_pts_nodup|]. split; [simpl; lia|].
  assert (Hin : inside ex_pts (5 / 2)).
  { split; [exists (0, 1)|exists (3, 6)]; simpl; split; auto; lra. }
  split; [exact Hin|]. split.
  { intros [_ (q & Hq & Hx)]. simpl in Hq. destruct Hq as [<-|[<-|[<-|[<-|[]]]]]; simpl in Hx; lra. }
  destruct (linear_ok ex_pts 1 (5 / 2) ex_pts_nodup ltac:(simpl; lia) ltac:(lia) Hin) as (p & q & (Hp & Hq & Hlt & Hx & Hno) & ->).
  f_equal. pose proof (Hno (2, 0) ltac:(simpl; auto)) as H2. simpl in H2.
  simpl in Hp, Hq.
  destruct Hp as [<-|[<-|[<-|[<-|[]]]]]; destruct Hq as [<-|[<-|[<-|[<-|[]]]]]; simpl in *; try lra; unfold line; simpl; lra.
Qed.

(** a single point: the only value inside the range is not defined *)
Theorem C10_single_point_undefined :
  forall p order, fst (arb_value (arb_make [p] order) (fst p)) = UB.
Proof.
  intros [x y] order. unfold arb_value. simpl pts. cbv iota. simpl last.
  rewrite !Rltb_false by (simpl; lra). simpl orb. cbv iota. rewrite arb_order.
  simpl length. destruct (Z.gtb_spec (Z.min order (Z.of_nat 1 - 1)) 1); [lia|]. reflexivity.
Qed.
Print Assumptions C10_single_point_undefined.

(** ** C59: interpolation of order above one *)

(** full statement: the tabulated value is returned at every tabulated abscissa -- false at both ends *)
Definition hi_pts : list (R * R) := [(0, 0); (1, 1); (2, 0); (3, 0)].
Lemma hi_sorted : sort_pts hi_pts = hi_pts.
Proof.
  unfold hi_pts. simpl sort_pts.
  repeat (cbn [insert_pt fst]; try rewrite Rltb_true by lra; try rewrite Rltb_false by lra). reflexivity.
Qed.

Lemma through_3 c a b d ya yb yd : a <> b -> b <> d -> a <> d ->
  through 2 c [(a, ya); (b, yb); (d, yd)] -> forall x,
  pval c x = ya * ((x - b) * (x - d)) / ((a - b) * (a - d))
           + yb * ((x - a) * (x - d)) / ((b - a) * (b - d))
           + yd * ((x - a) * (x - b)) / ((d - a) * (d - b)).
Proof.
  intros H1 H2 H3 [Hl Hv] x.
  pose proof (Hv (a, ya) (or_introl eq_refl)) as E1.
  pose proof (Hv (b, yb) (or_intror (or_introl eq_refl))) as E2.
  pose proof (Hv (d, yd) (or_intror (or_intror (or_introl eq_refl)))) as E3.
  destruct c as [|c0 [|c1 [|c2 [|]]]]; try discriminate Hl. simpl in *. subst ya yb yd.
  field. repeat split; lra.
Qed.

Theorem C59_end_point_refuted :
  exists l order r, NoDup (map fst l) /\ (order + 2 <= Z.of_nat (length l))%Z /\ In r l /\
    exists v, fst (arb_value (arb_make l order) (fst r)) = Ok v /\ v <> snd r.
Proof.
  exists hi_pts, 2%Z, (0, 0). split.
  { unfold hi_pts. simpl. repeat constructor; simpl; intros H; repeat destruct H as [H|H]; try lra; auto. }
  split; [simpl; lia|]. split; [simpl; auto|].
  assert (Ha : ascending hi_pts).
  { rewrite <- hi_sorted. apply sort_ascending. unfold hi_pts. simpl. repeat constructor; simpl; intros H; repeat destruct H as [H|H]; try lra; auto. }
  destruct (high_order_value hi_pts 2 0 0 (0, 0) [(1, 1); (2, 0); (3, 0)] Ha eq_refl) as (l & c1 & c2 & Hpos & Hl & T1 & T2 & E);
    try (simpl; lia); try (simpl; lra).
  assert (l = 0%nat).
  { destruct Hpos as [(p & Hp & Hx) _]. destruct l as [|[|[|[|]]]]; simpl in Hp; try (injection Hp as <-; simpl in Hx; try lra); auto.
    destruct n; discriminate. }
  subst l. eexists. split.
  - unfold arb_make. rewrite hi_sorted. change (fst (0, 0)) with 0. simpl Z.of_nat. simpl length.
    change (Z.gtb 2 (4 - 1)) with false. cbv iota. change (Z.leb 2 0) with false. cbv iota.
    change (Z.to_nat 2) with 2%nat. change (Z.of_nat 2) with 2%Z in E. rewrite E. reflexivity.
  - change (window hi_pts (win 2 4 0) 3) with [(0, 0); (1, 1); (2, 0)] in T1.
    change (window hi_pts (S (win 2 4 0)) 3) with [(1, 1); (2, 0); (3, 0)] in T2.
    rewrite (through_3 c1 0 1 2 0 1 0 ltac:(lra) ltac:(lra) ltac:(lra) T1).
    rewrite (through_3 c2 1 2 3 1 0 0 ltac:(lra) ltac:(lra) ltac:(lra) T2).
    simpl. lra.
Qed.
Print Assumptions C59_end_point_refuted.

(** one point more than the order: every evaluation inside the range reads out of bounds *)
Theorem C59_order_reduced_refuted :
  forall l order x, NoDup (map fst l) -> (3 <= length l)%nat -> (Z.of_nat (length l) - 1 <= order)%Z -> inside l x ->
  fst (arb_value (arb_make l order) x) = UB.
Proof.
  intros l order x Hnd Hn Ho Hin. pose proof (sort_ascending l Hnd) as Ha. pose proof (sort_perm l) as Hp.
  assert (Hlen : length (sort_pts l) = length l) by (apply Permutation_length, Hp).
  unfold arb_value. replace (pts (arb_make l order)) with (sort_pts l) by reflexivity.
  destruct (sort_pts l) as [|p0 d'] eqn:Ed; [simpl in Hlen; lia|]. rewrite <- Ed in *.
  assert (Hb : fst p0 <= x <= fst (last (sort_pts l) p0)).
  { apply (inside_bounds (sort_pts l) x p0 d' Ha Ed). apply (inside_perm l); [symmetry; exact Hp|exact Hin]. }
  rewrite (Rltb_false x (fst p0)), (Rltb_false (fst (last _ _)) x) by lra. simpl orb. cbv iota.
  rewrite arb_order. destruct (Z.gtb_spec (Z.min order (Z.of_nat (length l) - 1)) 1); [|lia].
  change (seen (arb_make l order)) with 0%nat. destruct (walk_find (sort_pts l) x p0 d' 0 Ha Ed Hb ltac:(lia)) as (k & -> & _ & _).
  cbn [fst]. unfold zget.
  assert (Hps : length (polys (arb_make l order)) = 1%nat).
  { unfold arb_make. cbn [polys]. 
    destruct (Z.gtb_spec order (Z.of_nat (length l) - 1)).
    - destruct (Z.leb_spec (Z.of_nat (length l) - 1) 0); [lia|]. rewrite neville_length. lia.
    - destruct (Z.leb_spec order 0); [lia|]. rewrite neville_length. lia. }
  rewrite Hps. destruct (Z.ltb_spec (Z.min (Z.max 0 (Z.of_nat k - Z.quot (Z.min order (Z.of_nat (length l) - 1) + 1) 2 - 1)) (Z.of_nat 1 - 2)) 0); [reflexivity|].
  lia.
Qed.
Print Assumptions C59_order_reduced_refuted.

(** what is true: the value is the mean of two polynomials of the requested
    degree through neighbouring windows of the data, and every inner tabulated
    point is reproduced *)
Theorem C153_mean_of_two_polynomials :
  forall l (o : nat) x, NoDup (map fst l) -> (2 <= o)%nat -> (o + 2 <= length l)%nat -> inside l x ->
  exists d k i c1 c2,
    Permutation d l /\ ascending d /\ position d x k
    /\ i = Nat.min (k - (o + 1) / 2 - 1) (length l - o - 2)
    /\ through o c1 (window d i (S o)) /\ through o c2 (window d (S i) (S o))
    /\ fst (arb_value (arb_make l (Z.of_nat o)) x) = Ok ((pval c1 x + pval c2 x) / 2).
Proof.
  intros l o x Hnd Ho Hn Hin. pose proof (sort_ascending l Hnd) as Ha. pose proof (sort_perm l) as Hp.
  assert (Hlen : length (sort_pts l) = length l) by (apply Permutation_length, Hp).
  destruct (sort_pts l) as [|p0 d'] eqn:Ed; [simpl in Hlen; lia|]. rewrite <- Ed in *.
  assert (Hb : fst p0 <= x <= fst (last (sort_pts l) p0)).
  { apply (inside_bounds (sort_pts l) x p0 d' Ha Ed). apply (inside_perm l); [symmetry; exact Hp|exact Hin]. }
  destruct (high_order_value (sort_pts l) o 0 x p0 d' Ha Ed) as (k & c1 & c2 & Hpos & Hk & T1 & T2 & E); try lia; auto.
  exists (sort_pts l), k, (win o (length l) k), c1, c2.
  rewrite <- Hlen. split; [exact Hp|]. split; [exact Ha|]. split; [exact Hpos|]. split; [reflexivity|].
  split; [exact T1|]. split; [exact T2|].
  unfold arb_make. destruct (Z.gtb_spec (Z.of_nat o) (Z.of_nat (length l) - 1)); [lia|].
  destruct (Z.leb_spec (Z.of_nat o) 0); [lia|]. rewrite Nat2Z.id, E. reflexivity.
Qed.
Print Assumptions C153_mean_of_two_polynomials.

Theorem C153_inner_tabulated_value :
  forall l (o : nat) r, NoDup (map fst l) -> (2 <= o)%nat -> (o + 2 <= length l)%nat -> In r l ->
  (exists a b, In a l /\ In b l /\ fst a < fst r < fst b) ->
  fst (arb_value (arb_make l (Z.of_nat o)) (fst r)) = Ok (snd r).
Proof.
  intros l o r Hnd Ho Hn Hr (a & b & Ha & Hb & Hab).
  destruct (C153_mean_of_two_polynomials l o (fst r) Hnd Ho Hn) as (d & k & i & c1 & c2 & Hp & Hasc & Hpos & Hi & [_ T1] & [_ T2] & ->).
  { split; exists r; split; auto; lra. }
  assert (Hlen : length d = length l) by (apply Permutation_length, Hp).
  assert (Hk : nth_error d k = Some r).
  { destruct Hpos as [(p & Hpk & Hpx) Hgt].
    assert (Hrd : In r d) by (eapply Permutation_in; [symmetry; exact Hp|exact Hr]).
    apply In_nth_error in Hrd. destruct Hrd as [j Hj].
    destruct (Nat.lt_trichotomy j k) as [H|[H|H]].
    - pose proof (Hasc j k r p H Hj Hpk). lra.
    - subst j. exact Hj.
    - pose proof (Hgt j r H Hj). lra. }
  assert (H1 : (1 <= k)%nat).
  { assert (Had : In a d) by (eapply Permutation_in; [symmetry; exact Hp|exact Ha]).
    apply In_nth_error in Had. destruct Had as [j Hj].
    destruct (Nat.le_gt_cases 1 k); auto. assert (k = 0%nat) by lia. subst k.
    pose proof (ascending_le d 0 j r a Hasc ltac:(lia) Hk Hj). lra. }
  assert (H2 : (k + 2 <= length d)%nat).
  { assert (Hbd : In b d) by (eapply Permutation_in; [symmetry; exact Hp|exact Hb]).
    apply In_nth_error in Hbd. destruct Hbd as [j Hj].
    assert (j < length d)%nat by (apply nth_error_Some; congruence).
    destruct (Nat.le_gt_cases j k); [|lia].
    pose proof (ascending_le d j k b r Hasc ltac:(lia) Hj Hk). lra. }
  assert (Hdiv : ((o + 1) / 2 + 1 <= o)%nat).
  { pose proof (Nat.div_mod (o + 1) 2 ltac:(lia)) as E. pose proof (Nat.mod_upper_bound (o + 1) 2 ltac:(lia)).
    lia. }
  assert (Hw : forall m, (m <= k <= m + o)%nat -> (m + o < length d)%nat -> In r (window d m (S o))).
  { intros m Hm1 Hm2. unfold window. apply (nth_error_In _ (k - m)).
    assert (Hsk : forall m (dd : list (R * R)) j, nth_error (skipn m dd) j = nth_error dd (m + j)).
    { clear. induction m; intros dd j; [reflexivity|]. destruct dd; simpl; [destruct j; reflexivity|]. apply IHm. }
    assert (Hfi : forall m (dd : list (R * R)) j, (j < m)%nat -> nth_error (firstn m dd) j = nth_error dd j).
    { clear. induction m; intros dd j Hj; [lia|]. destruct dd; [destruct j; reflexivity|]. destruct j; simpl; [reflexivity|]. apply IHm. lia. }
    rewrite Hfi by lia. rewrite Hsk. replace (m + (k - m))%nat with k by lia. exact Hk. }
  rewrite (T1 r), (T2 r); [f_equal; lra| |]; apply Hw; lia.
Qed.
Print Assumptions C153_inner_tabulated_value.

Theorem C153_history_irrelevant :
  forall l order xs, NoDup (map fst l) -> l <> [] ->
  arb_values (arb_make l order) xs = map (fun x => fst (arb_value (arb_make l order) x)) xs.
Proof.
  intros l order xs Hnd Hne. pose proof (sort_perm l) as Hp.
  unfold arb_make. apply values_history; [apply sort_ascending, Hnd|].
  rewrite (Permutation_length Hp). destruct l; [congruence|simpl; lia].
Qed.
Print Assumptions C153_history_irrelevant.

Example C59_case : NoDup (map fst ex_pts) /\ (2 + 2 <= length ex_pts)%nat /\
  fst (arb_value (arb_make ex_pts 2) 2) = Ok 0.
Proof.
  split; [apply ex_pts_nodup|]. split; [simpl; lia|].
  apply (C153_inner_tabulated_value ex_pts 2 (2, 0) ex_pts_nodup); simpl; auto; try lia.
  exists (0, 1), (3, 6). simpl. split; auto. split; auto. lra.
Qed.

(** ** C11: equally spaced data *)
(** full statement: defined on the closed interval -- false, at the right end for every table *)
Theorem C11_right_end_refuted :
  forall e, 0 < dx e -> ys e <> [] -> equ_value e (xmax e) = UB.
Proof.
  intros e Hdx Hne. unfold equ_value. destruct (ys e) as [|y0 l] eqn:E; [congruence|]. rewrite <- E.
  assert (Hx : xmax e = xmin e + INR (length (ys e) - 1) * dx e) by reflexivity.
  assert (0 <= INR (length (ys e) - 1)) by apply pos_INR.
  rewrite (Rltb_false (xmax e) (xmin e)) by nra. rewrite Rltb_false by lra.
  rewrite (trunc_spec _ (length (ys e) - 1)).
  - replace (nth_error (ys e) (S (length (ys e) - 1))) with (@None R); [reflexivity|].
    symmetry. apply nth_error_None. lia.
  - rewrite Hx. replace ((xmin e + INR (length (ys e) - 1) * dx e - xmin e) / dx e) with (INR (length (ys e) - 1)); [lra|].
    field. lra.
Qed.
Print Assumptions C11_right_end_refuted.

Definition grid (e : equ) (n : nat) : R * R := (xmin e + dx e * INR n, nth n (ys e) 0).

Theorem C132_equally_spaced :
  forall e x, 0 < dx e -> (2 <= length (ys e))%nat -> xmin e <= x < xmax e ->
  exists n, (n + 1 < length (ys e))%nat /\ fst (grid e n) <= x < fst (grid e (n + 1))
    /\ equ_value e x = Ok (line (grid e n) (grid e (n + 1)) x).
Proof.
  intros e x Hdx Hn [H1 H2]. unfold xmax in H2.
  destruct (nat_segment ((x - xmin e) / dx e)) as [n Hseg].
  { apply Rmult_le_pos; [lra|left; apply Rinv_0_lt_compat; lra]. }
  assert (Hx : INR n * dx e <= x - xmin e < (INR n + 1) * dx e).
  { destruct Hseg as [A B]. split.
    - apply Rmult_le_reg_r with (/ dx e); [apply Rinv_0_lt_compat; lra|].
      rewrite Rmult_assoc, Rinv_r by lra. unfold Rdiv in A. lra.
    - apply Rmult_lt_reg_r with (/ dx e); [apply Rinv_0_lt_compat; lra|].
      rewrite Rmult_assoc, Rinv_r by lra. unfold Rdiv in B. lra. }
  assert (Hlt : (n < length (ys e) - 1)%nat).
  { apply INR_lt. apply Rmult_lt_reg_r with (dx e); [lra|]. lra. }
  exists n. split; [lia|]. unfold grid. simpl fst.
  split; [rewrite plus_INR; simpl INR; nra|].
  unfold equ_value. destruct (ys e) as [|y0 l] eqn:E; [simpl in Hn; lia|]. rewrite <- E in *.
  rewrite (Rltb_false x (xmin e)) by lra. rewrite Rltb_false by (unfold xmax; lra).
  rewrite (trunc_spec _ n Hseg).
  rewrite (nth_error_nth' _ 0) by lia. rewrite (nth_error_nth' _ 0) by lia.
  f_equal. unfold line. simpl. rewrite plus_INR. replace (n + 1)%nat with (S n) by lia. simpl INR. field. lra.
Qed.
Print Assumptions C132_equally_spaced.

(** beyond the ends the first and last segments are extended *)
Theorem C132_extrapolation :
  forall e x, 0 < dx e -> (2 <= length (ys e))%nat ->
  (x < xmin e -> equ_value e x = Ok (line (grid e 0) (grid e 1) x)) /\
  (xmax e < x -> equ_value e x = Ok (line (grid e (length (ys e) - 2)) (grid e (length (ys e) - 1)) x)).
Proof.
  intros e x Hdx Hn. unfold equ_value. destruct (ys e) as [|y0 l] eqn:E; [simpl in Hn; lia|]. rewrite <- E in *.
  assert (Hlen : (2 <= length (ys e))%nat) by exact Hn. split; intros Hx.
  - rewrite (Rltb_true x (xmin e)) by lra.
    rewrite (nth_error_nth' _ 0) by lia. rewrite (nth_error_nth' _ 0) by lia.
    f_equal. unfold line, grid. simpl. field. lra.
  - assert (0 <= INR (length (ys e) - 1)) by apply pos_INR. unfold xmax in Hx.
    rewrite (Rltb_false x (xmin e)) by nra. rewrite Rltb_true by (unfold xmax; lra).
    replace (S (length (ys e) - 2)) with (length (ys e) - 1)%nat by lia.
    rewrite (nth_error_nth' _ 0) by lia. rewrite (nth_error_nth' _ 0) by lia.
    f_equal. unfold line, grid. simpl.
    replace (INR (length (ys e) - 1)) with (INR (length (ys e) - 2) + 1).
    2: { rewrite <- S_INR. f_equal. lia. }
    field. lra.
Qed.
Print Assumptions C132_extrapolation.

Example C11_case : let e := mkEqu [5; 7; 1] 0 2 in
  0 < dx e /\ (2 <= length (ys e))%nat /\ xmin e <= 3 < xmax e /\ xmax e = 4.
Proof. unfold xmax. simpl. repeat split; try lra; try lia. Qed.
