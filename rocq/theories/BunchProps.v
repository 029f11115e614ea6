(* C25-C28, C69-C71: bunch statistics, reference adjustments, construction and
   distribution over processes. *)
From Verif Require Import RBase Cov CovProofs Bunch BunchSpec BunchProofs.
From Coq Require Import ZArith Lia Permutation.
Local Open Scope R_scope.

Definition pt (x xp y yp ct dp : R) (k : Z) := mkP (V6 x xp y yp ct dp) k.
Definition two := [pt 1 2 3 4 5 6 0; pt 3 2 1 0 5 (-2) 1].

(* ---- C25 ---- *)
Theorem C25_centroid : forall l i, l <> [] -> coord i (centroid l) = avg (at_ i) l.
Proof. intros l i. apply centroid_avg. Qed.
Print Assumptions C25_centroid.
Example C25_centroid_ex : centroid two = V6 2 2 2 2 5 2.
Proof.
  apply vec6_eq. intros i H. rewrite C25_centroid by discriminate.
  destruct i as [|[|[|[|[|[|]]]]]]; [..|lia]; unfold avg; cbn; lra.
Qed.

(* all 36 elements, whatever the argument held before *)
Theorem C25_moments : forall l d, l <> [] -> length d = 21%nat ->
  exists d', moments l d = Ok (centroid l, d') /\ length d' = 21%nat /\
    forall i j, (i < 6)%nat -> (j < 6)%nat -> sig 6 d' (Z.of_nat i) (Z.of_nat j) = Ok (cov (at_ i) (at_ j) l).
Proof.
  intros l d H L. destruct (moments_ok l d H L) as (d' & E & G). exists d'. split; [exact E|]. split; [apply G|].
  apply (holds_sig 6 _ _ G). intros. apply cov_sym.
Qed.
Print Assumptions C25_moments.
Example C25_moments_ex : exists d', moments two (zero 6) = Ok (V6 2 2 2 2 5 2, d') /\ sig 6 d' 0 2 = Ok (-1) /\ sig 6 d' 5 0 = Ok (-4).
Proof.
  destruct (C25_moments two (zero 6)) as (d' & E & _ & G); [discriminate|reflexivity|]. rewrite C25_centroid_ex in E.
  exists d'. split; [exact E|]. split.
  - change (sig 6 d' (Z.of_nat 0) (Z.of_nat 2) = Ok (-1)). rewrite G by lia. f_equal. unfold cov, avg. cbn. lra.
  - change (sig 6 d' (Z.of_nat 5) (Z.of_nat 0) = Ok (-4)). rewrite G by lia. f_equal. unfold cov, avg. cbn. lra.
Qed.

(* the order of the particles and earlier contents of the result do not matter *)
Theorem C25_order : forall l l' d d', l <> [] -> Permutation l l' -> length d = 21%nat -> length d' = 21%nat ->
  centroid l = centroid l' /\ moments l d = moments l' d'.
Proof.
  intros l l' d d' H P L L'. assert (H' : l' <> []) by (intros ->; now apply H, Permutation_nil, Permutation_sym).
  assert (C : centroid l = centroid l').
  { apply vec6_eq. intros i _. rewrite !C25_centroid by assumption. now apply avg_perm. }
  split; [exact C|]. destruct (moments_ok l d H L) as (e & E & G). destruct (moments_ok l' d' H' L') as (e' & E' & G').
  rewrite E, E', C. do 2 f_equal. eapply holds_unique; [exact G|]. eapply holds_ext; [|exact G'].
  intros. cbn. symmetry. now apply cov_perm.
Qed.
Print Assumptions C25_order.
Example C25_order_ex : centroid (rev two) = V6 2 2 2 2 5 2.
Proof. rewrite <- C25_centroid_ex. symmetry.
  apply (C25_order two (rev two) (zero 6) (zero 6)); [discriminate|apply Permutation_rev|reflexivity|reflexivity]. Qed.

(* moving all particles moves the mean only; scaling scales both *)
Theorem C25_shift : forall l a d d', l <> [] -> length d = 21%nat -> length d' = 21%nat ->
  centroid (map (shifted a) l) = vadd (centroid l) a /\
  exists S, moments l d = Ok (centroid l, S) /\ moments (map (shifted a) l) d' = Ok (vadd (centroid l) a, S).
Proof.
  intros l a d d' H L L'. assert (H' : map (shifted a) l <> []) by (intros E; apply map_eq_nil in E; auto).
  assert (A : forall i p, at_ i (shifted a p) = 1 * at_ i p + coord i a).
  { intros i p. unfold at_, shifted, vadd. cbn [pv]. rewrite coord_vmap2. ring. }
  assert (C : centroid (map (shifted a) l) = vadd (centroid l) a).
  { apply vec6_eq. intros i _. rewrite C25_centroid by assumption. unfold vadd. rewrite coord_vmap2, C25_centroid by assumption.
    rewrite (avg_affine (shifted a) (at_ i) (at_ i) 1 (coord i a) l H (A i)). ring. }
  split; [exact C|]. destruct (moments_ok l d H L) as (e & E & G).
  destruct (moments_ok (map (shifted a) l) d' H' L') as (e' & E' & G'). exists e. split; [exact E|].
  rewrite E', C. do 2 f_equal. eapply holds_unique; [exact G'|]. eapply holds_ext; [|exact G]. intros i j _. cbn.
  rewrite (cov_affine (shifted a) (at_ i) (at_ j) _ _ 1 (coord i a) 1 (coord j a) l H (A i) (A j)). ring.
Qed.
Print Assumptions C25_shift.
Example C25_shift_ex : centroid (map (shifted (V6 1 0 0 0 0 1)) two) = V6 3 2 2 2 5 3.
Proof.
  destruct (C25_shift two (V6 1 0 0 0 0 1) (zero 6) (zero 6)) as [E _]; [discriminate|reflexivity|reflexivity|].
  rewrite E, C25_centroid_ex. unfold vadd, vmap2. cbn. f_equal; lra.
Qed.
Theorem C25_scale : forall l k i j, l <> [] ->
  coord i (centroid (map (scaled k) l)) = k * coord i (centroid l) /\
  cov (at_ i) (at_ j) (map (scaled k) l) = k * k * cov (at_ i) (at_ j) l.
Proof.
  intros l k i j H. assert (H' : map (scaled k) l <> []) by (intros E; apply map_eq_nil in E; auto).
  assert (A : forall i p, at_ i (scaled k p) = k * at_ i p + 0).
  { intros i' p. unfold at_, scaled. cbn [pv]. rewrite coord_vscale. ring. }
  rewrite !C25_centroid by assumption.
  rewrite (avg_affine (scaled k) (at_ i) (at_ i) k 0 l H (A i)). split; [ring|].
  rewrite (cov_affine (scaled k) (at_ i) (at_ j) _ _ k 0 k 0 l H (A i) (A j)). ring.
Qed.
Print Assumptions C25_scale.

(* non-negative diagonal, Cauchy-Schwarz, and any linear combination of
   coordinates has non-negative variance *)
Theorem C25_semidefinite : forall l d d' m, l <> [] -> length d = 21%nat -> moments l d = Ok (m, d') ->
  exists S, (forall i j, (i < 6)%nat -> (j < 6)%nat -> sig 6 d' (Z.of_nat i) (Z.of_nat j) = Ok (S i j)) /\
    (forall i j, S i j = S j i) /\ (forall i, 0 <= S i i) /\ (forall i j, S i j * S i j <= S i i * S j j) /\
    forall a : nat -> R, 0 <= sum (fun i => sum (fun j => a i * a j * S i j) (seq 0 6)) (seq 0 6).
Proof.
  intros l d d' m H L E. destruct (C25_moments l d H L) as (e & E' & _ & G).
  assert (X : Ok (m, d') = Ok (centroid l, e) :> res berr _) by congruence. injection X as -> ->.
  exists (fun i j => cov (at_ i) (at_ j) l). split; [exact G|]. split; [intros; apply cov_sym|].
  split; [intros; now apply cov_nonneg|]. split; [intros; now apply cauchy_schwarz|].
  intros a. pose proof (cov_nonneg (fun p => sum (fun kf => fst kf * snd kf p) (map (fun i => (a i, at_ i)) (seq 0 6))) l H) as P.
  rewrite cov_lin, sum_map in P by exact H. erewrite sum_ext; [exact P|]. intros i _. cbn beta. rewrite sum_map. reflexivity.
Qed.
Print Assumptions C25_semidefinite.
(* nothing is weaker than this: the variance vanishes only for equal values *)
Theorem C25_zero_variance : forall l i, l <> [] ->
  cov (at_ i) (at_ i) l = 0 <-> forall p, In p l -> at_ i p = avg (at_ i) l.
Proof.
  intros l i H. pose proof (len_pos l H) as P. unfold cov. set (m := avg (at_ i) l). split.
  - intros E. assert (Z : sum (fun a => (at_ i a - m) * (at_ i a - m)) l = 0).
    { unfold avg in E. apply (Rmult_eq_reg_r (/ INR (length l))); [|apply Rinv_neq_0_compat; lra]. unfold Rdiv in E. rewrite E. ring. }
    clear E H P. clearbody m. induction l as [|a l IH]; [easy|]. cbn in Z.
    assert (0 <= sum (fun a => (at_ i a - m) * (at_ i a - m)) l) by (apply sum_nonneg; intros; apply Rle_0_sqr).
    pose proof (Rle_0_sqr (at_ i a - m)) as Q. unfold Rsqr in Q.
    intros p [-> | I]; [|apply IH; [lra|exact I]].
    assert (Y : (at_ i p - m) * (at_ i p - m) = 0) by lra. apply Rmult_integral in Y. destruct Y; lra.
  - intros E. unfold avg. rewrite (sum_ext _ (fun _ => 0)); [rewrite sum_const; unfold Rdiv; ring|].
    intros a I. rewrite (E a I). ring.
Qed.
Print Assumptions C25_zero_variance.
Example C25_one : forall p i j, coord i (centroid [p]) = at_ i p /\ cov (at_ i) (at_ j) [p] = 0.
Proof. intros p i j. rewrite C25_centroid by discriminate. unfold cov, avg. cbn. split; field. Qed.

(* the one- and two-coordinate versions agree with the full ones *)
Theorem C25_coordinate : forall l i, l <> [] -> moments1 i l = (avg (at_ i) l, R_sqrt.sqrt (cov (at_ i) (at_ i) l)).
Proof.
  intros l i H. unfold moments1. rewrite mean_of_avg by exact H. f_equal. f_equal. rewrite var_run.
  now rewrite (run_avg (fun p => (at_ i p - avg (at_ i) l) * (at_ i p - avg (at_ i) l))) by exact H.
Qed.
Print Assumptions C25_coordinate.
Example C25_coordinate_ex : moments1 5 two = (2, 4).
Proof.
  rewrite C25_coordinate by discriminate. f_equal; [unfold avg; cbn; lra|].
  replace (cov _ _ _) with (4 * 4) by (unfold cov, avg; cbn; lra). apply sqrt_square. lra.
Qed.
Theorem C25_projected_centroid : forall u v l, l <> [] -> proj_centroid u v l = (coord u (centroid l), coord v (centroid l)).
Proof. intros u v l H. rewrite !C25_centroid by exact H. apply proj_centroid_ok. Qed.
Print Assumptions C25_projected_centroid.

(* without particles the mean is zero but the covariance is whatever it was *)
Theorem C25_empty_refuted : forall d, moments [] d = Ok (vzero, d).
Proof. reflexivity. Qed.
Print Assumptions C25_empty_refuted.

(* ---- C26 ---- *)
Definition projected (u v : nat) (l : list particle) : mom2 :=
  M2 (avg (at_ u) l) (avg (at_ v) l) (cov (at_ u) (at_ u) l) (cov (at_ u) (at_ v) l) (cov (at_ v) (at_ v) l).
Theorem C26_formula : forall u v l s, proj_moments u v l s =
  let c := projected u v l in M2 (m2u c) (m2v c) (s00 s + s00 c) (s01 s + s01 c) (s11 s + s11 c).
Proof. intros. apply proj_moments_ok. Qed.
Print Assumptions C26_formula.
(* ... so the answer is the covariance exactly when the argument held zeros *)
Theorem C26_projected_partial : forall u v l s,
  proj_moments u v l s = projected u v l <-> s00 s = 0 /\ s01 s = 0 /\ s11 s = 0.
Proof.
  intros u v l s. rewrite C26_formula. unfold projected. cbn. split.
  - intros E. injection E. intros. repeat split; lra.
  - intros (-> & -> & ->). f_equal; lra.
Qed.
Print Assumptions C26_projected_partial.
Theorem C26_accumulator_refuted : exists u v l s,
  proj_moments u v l (M2 0 0 0 0 0) = projected u v l /\ s = proj_moments u v l (M2 0 0 0 0 0) /\
  proj_moments u v l s <> projected u v l.
Proof.
  exists 0%nat, 2%nat, two, (proj_moments 0 2 two (M2 0 0 0 0 0)).
  split; [apply C26_projected_partial; cbn; auto|]. split; [reflexivity|].
  rewrite C26_projected_partial, C26_formula. cbn. unfold cov, avg. cbn. lra.
Qed.
Print Assumptions C26_accumulator_refuted.
(* the accumulation carries over from one bunch to the next *)
Theorem C26_repeated : forall u v l l' s, let r := proj_moments u v l' (proj_moments u v l s) in
  s00 r = s00 s + cov (at_ u) (at_ u) l + cov (at_ u) (at_ u) l' /\
  s01 r = s01 s + cov (at_ u) (at_ v) l + cov (at_ u) (at_ v) l' /\
  s11 r = s11 s + cov (at_ v) (at_ v) l + cov (at_ v) (at_ v) l'.
Proof. intros. unfold r. rewrite !C26_formula. cbn. auto. Qed.
Print Assumptions C26_repeated.

(* ---- C27 ---- *)
Definition same_but_dp (p q : particle) : Prop :=
  pid p = pid q /\ vx (pv p) = vx (pv q) /\ vxp (pv p) = vxp (pv q) /\ vy (pv p) = vy (pv q) /\
  vyp (pv p) = vyp (pv q) /\ vct (pv p) = vct (pv q).
Definition same_but_ct (p q : particle) : Prop :=
  pid p = pid q /\ vx (pv p) = vx (pv q) /\ vxp (pv p) = vxp (pv q) /\ vy (pv p) = vy (pv q) /\
  vyp (pv p) = vyp (pv q) /\ vdp (pv p) = vdp (pv q).
Lemma Forall2_map_r {A B} (P : A -> B -> Prop) f l : (forall a, In a l -> P a (f a)) -> Forall2 P l (map f l).
Proof. induction l as [|a l IH]; intros H; cbn; constructor; [apply H; now left|]. apply IH. intros; apply H; now right. Qed.
Theorem C143_momentum : forall b dpp, 0 < p0 b -> 0 < 1 + dpp ->
  exists b', adjust_ref_momentum dpp b = Ok (b', p0 b') /\ p0 b' = (1 + dpp) * p0 b /\ ct0 b' = ct0 b /\
    total_charge b' = total_charge b /\
    Forall2 (fun p q => same_but_dp p q /\ momentum b' q = momentum b p) (parts b) (parts b').
Proof.
  intros b dpp H K. unfold adjust_ref_momentum. assert (P : 0 < (1 + dpp) * p0 b) by now apply Rmult_lt_0_compat.
  rewrite (Rltb_true _ _ P).
  exists (mkB ((1 + dpp) * p0 b) (ct0 b) (qmp b) (map (fun p => set_dp ((vdp (pv p) - dpp) / (1 + dpp)) p) (parts b))).
  split; [reflexivity|]. cbn [p0 ct0 parts]. split; [reflexivity|]. split; [reflexivity|].
  split; [unfold total_charge; cbn; now rewrite map_length|].
  apply Forall2_map_r. intros p _. split; [repeat split|]. unfold momentum. cbn. field. lra.
Qed.
Print Assumptions C143_momentum.
Lemma mean_adjusted l dpp : l <> [] -> 1 + dpp <> 0 ->
  mean_of 5 (map (fun p => set_dp ((vdp (pv p) - dpp) / (1 + dpp)) p) l) = (avg (at_ 5) l - dpp) / (1 + dpp).
Proof.
  intros H K. rewrite mean_of_avg by (intros E; apply map_eq_nil in E; auto).
  rewrite (avg_affine _ (at_ 5) (at_ 5) (/ (1 + dpp)) (- dpp / (1 + dpp)) l H); [field; exact K|].
  intros a. unfold at_, set_dp. cbn. field. exact K.
Qed.
Theorem C143_to_mean : forall b, parts b <> [] -> 0 < p0 b -> 0 < 1 + avg (at_ 5) (parts b) ->
  exists b', adjust_ref_momentum_to_mean b = Ok (b', p0 b') /\
    p0 b' = avg (momentum b) (parts b) /\ avg (at_ 5) (parts b') = 0 /\
    Forall2 (fun p q => same_but_dp p q /\ momentum b' q = momentum b p) (parts b) (parts b').
Proof.
  intros b NE H K. unfold adjust_ref_momentum_to_mean. rewrite mean_of_avg by exact NE.
  destruct (C143_momentum b _ H K) as (b' & E & P & _ & _ & F). exists b'. split; [exact E|].
  split; [|split; [|exact F]].
  - rewrite P. pose proof (len_pos _ NE). unfold avg, momentum.
    rewrite sum_scal, sum_plus, sum_const. change (fun a => vdp (pv a)) with (at_ 5). field. lra.
  - unfold adjust_ref_momentum in E. destruct (Rltb _ _); [|discriminate].
    assert (Q : parts b' = map (fun p => set_dp ((vdp (pv p) - avg (at_ 5) (parts b)) / (1 + avg (at_ 5) (parts b))) p) (parts b)) by (injection E; intros; subst; reflexivity).
    rewrite Q. rewrite <- mean_of_avg by (intros E'; apply map_eq_nil in E'; auto). rewrite mean_adjusted by (auto; lra). field. lra.
Qed.
Print Assumptions C143_to_mean.
(* a factor that is not positive is refused *)
Theorem C143_refused : forall b dpp, 0 < p0 b -> 1 + dpp <= 0 -> adjust_ref_momentum dpp b = Throw AssertFail.
Proof.
  intros b dpp H K. unfold adjust_ref_momentum. rewrite Rltb_false; [reflexivity|]. nra.
Qed.
Print Assumptions C143_refused.
Theorem C143_time : forall b, parts b <> [] ->
  exists b', adjust_ref_time_to_mean b = (b', ct0 b') /\ p0 b' = p0 b /\ total_charge b' = total_charge b /\
    ct0 b' = avg (arrival b) (parts b) /\ avg (at_ 4) (parts b') = 0 /\
    Forall2 (fun p q => same_but_ct p q /\ arrival b' q = arrival b p) (parts b) (parts b').
Proof.
  intros b NE. unfold adjust_ref_time_to_mean. rewrite mean_of_avg by exact NE. set (m := avg (at_ 4) (parts b)).
  exists (mkB (p0 b) (ct0 b - m) (qmp b) (map (fun p => set_ct (vct (pv p) - m) p) (parts b))). split; [reflexivity|]. cbn [p0 ct0 parts]. split; [reflexivity|].
  split; [unfold total_charge; cbn; now rewrite map_length|]. pose proof (len_pos _ NE). split; [|split].
  - unfold m, avg, arrival. rewrite sum_minus, sum_const. change (fun a => vct (pv a)) with (at_ 4). field. lra.
  - rewrite (avg_affine _ (at_ 4) (at_ 4) 1 (- m) _ NE); [unfold m; ring|]. intros a. unfold at_, set_ct. cbn. ring.
  - apply Forall2_map_r. intros p _. split; [repeat split|]. unfold arrival. cbn. ring.
Qed.
Print Assumptions C143_time.
Example C27_ex : exists b', adjust_ref_momentum_to_mean (mkB 10 7 1 two) = Ok (b', 30) /\ avg (at_ 5) (parts b') = 0 /\
  avg (at_ 4) (parts (fst (adjust_ref_time_to_mean (mkB 10 7 1 two)))) = 0.
Proof.
  destruct (C143_to_mean (mkB 10 7 1 two)) as (b' & E & P & A & _); [discriminate|cbn; lra|unfold avg; cbn; lra|].
  exists b'. split; [rewrite E, P; do 2 f_equal; unfold avg, momentum; cbn; lra|]. split; [exact A|].
  destruct (C143_time (mkB 10 7 1 two)) as (b2 & E2 & _ & _ & _ & Q & _); [discriminate|]. now rewrite E2.
Qed.
(* bunches of slices: neither the momentum nor the arrival time is kept *)
Definition sl (q ct dp : R) := mkSl (V6 0 0 0 0 ct dp) (zero 4) q.
Theorem C27_slices_refuted :
  (exists b b' P s s', Qt b = charge_sum (slices b) /\ 0 < sp0 b /\ smp_adjust_momentum b = Ok (b', P) /\
     slices b = [s] /\ slices b' = [s'] /\ sp0 b' * (1 + vdp (sv s')) <> sp0 b * (1 + vdp (sv s)) /\ vdp (sv s') <> 0) /\
  (exists b s, Qt b = charge_sum (slices b) /\ slices b = [s] /\ slices (fst (smp_adjust_time b)) = [s] /\
     sct0 (fst (smp_adjust_time b)) <> sct0 b).
Proof.
  split.
  - exists (mkSM 1 0 1 [sl 1 0 1]). unfold smp_adjust_momentum. cbn [sp0 Qt slices fold_left].
    rewrite Rltb_true by (cbn; lra). do 4 eexists. split; [unfold charge_sum; cbn; lra|]. split; [lra|].
    split; [reflexivity|]. split; [reflexivity|]. split; [reflexivity|]. cbn. split; lra.
  - exists (mkSM 1 0 1 [sl 1 1 0]), (sl 1 1 0). split; [unfold charge_sum; cbn; lra|]. split; [reflexivity|].
    split; [reflexivity|]. cbn. lra.
Qed.
Print Assumptions C27_slices_refuted.

(* ---- C28 ---- *)
(* as written, distributing a non-empty bunch fails, whatever the number of processes *)
Theorem C28_distribute_refuted : forall size junk l, (0 < size)%nat -> l <> [] ->
  distribute coords size junk l = Throw AssertFail.
Proof.
  intros size junk l HS NE. unfold distribute. destruct (Nat.eqb_spec size 0); [lia|].
  assert (U : forall n m l, l <> [] -> unpack_all coords (S n) (flat_map (pack coords) l) m = Throw AssertFail).
  { intros n' m [|p r] H; [easy|]. cbn [flat_map unpack_all]. rewrite firstn_pack by (unfold coords; lia). reflexivity. }
  set (per := Nat.div (length l) size).
  assert (D : (per * size <= length l)%nat) by (rewrite Nat.mul_comm; apply Nat.mul_div_le; lia).
  assert (SK : forall k, (k < length l)%nat -> skipn k l <> []).
  { intros k Hk E. apply (f_equal (@length particle)) in E. rewrite skipn_length in E. cbn in E. lia. }
  destruct l as [|p r] eqn:EL; [easy|]. rewrite <- EL in *.
  assert (LP : (0 < length l)%nat) by (rewrite EL; cbn; lia).
  destruct (size - 1)%nat as [|s] eqn:ES.
  - cbn [seq fold_right bind]. rewrite Nat.mul_0_r, Nat.sub_0_r. cbn [Nat.mul skipn].
    destruct (length l) eqn:EN; [lia|]. rewrite U by congruence. reflexivity.
  - destruct per as [|per'] eqn:EP.
    + assert (G : forall ks, fold_right (fun k r => do x <- unpack_all coords 0 (skipn (0 * k * coords) (flat_map (pack coords) l)) junk;
          do y <- r; Ok (x :: y)) (Ok []) ks = Ok (map (fun _ => []) ks) :> res berr _).
      { induction ks as [|k ks IH]; [reflexivity|]. cbn [fold_right]. rewrite IH. reflexivity. }
      rewrite G. cbn [bind]. rewrite Nat.mul_0_l, Nat.sub_0_r. cbn [Nat.mul skipn].
      destruct (length l) eqn:EN; [lia|]. rewrite U by congruence. reflexivity.
    + cbn [seq fold_right]. rewrite skipn_packed by (unfold coords; lia).
      rewrite U; [reflexivity|]. apply SK. lia.
Qed.
Print Assumptions C28_distribute_refuted.
Theorem C28_gather_refuted : forall junk own l nodes, l <> [] -> gather coords junk (own :: l :: nodes) = Throw AssertFail.
Proof.
  intros junk own [|p r] nodes H; [easy|]. unfold gather. cbn [fold_right length unpack_all flat_map].
  rewrite firstn_pack by (unfold coords; lia). reflexivity.
Qed.
Print Assumptions C28_gather_refuted.
(* With six doubles per particle (one less than as written) every particle goes
   to exactly one process and gathering restores the coordinates; identities
   are not sent. *)
Theorem C28_distribute_partial : forall size junk l, (0 < size)%nat ->
  exists own nodes, distribute 6 size junk l = Ok (own :: nodes) /\
    length nodes = (size - 1)%nat /\
    concat nodes ++ own = map (anon junk) l /\
    Forall (fun n => length n = (length l / size)%nat) nodes /\
    length own = (length l / size + length l mod size)%nat /\
    exists back, gather 6 junk (own :: nodes) = Ok back /\ Permutation back (map (anon junk) l).
Proof.
  intros size junk l HS. pose proof (distribute_ok size junk l HS) as E. cbv zeta in E.
  set (per := Nat.div (length l) size) in *.
  assert (D : (per * size <= length l)%nat) by (rewrite Nat.mul_comm; apply Nat.mul_div_le; lia).
  assert (DM : length l = (size * per + length l mod size)%nat) by (apply Nat.div_mod; lia).
  eexists _, _. split; [exact E|]. split; [now rewrite map_length, seq_length|].
  assert (C : concat (map (fun k => map (anon junk) (firstn per (skipn (per * k) l))) (seq 0 (size - 1)))
              = map (anon junk) (firstn (per * (size - 1)) l)).
  { rewrite <- chunks by nia. rewrite concat_map, map_map. reflexivity. }
  split; [rewrite C, <- map_app, firstn_skipn; reflexivity|].
  split.
  { apply Forall_forall. intros n I. apply in_map_iff in I. destruct I as (k & <- & I). apply in_seq in I.
    rewrite map_length, firstn_length, skipn_length. nia. }
  split; [rewrite map_length, skipn_length; nia|].
  rewrite gather_ok, C. eexists. split; [reflexivity|].
  rewrite map_map. cbn [anon pv pid]. change (fun x => anon junk (anon junk x)) with (anon junk).
  rewrite <- (firstn_skipn (per * (size - 1)) l) at 3. rewrite map_app. apply Permutation_app_comm.
Qed.
Print Assumptions C28_distribute_partial.
Example C28_ex : exists own nodes, distribute 6 2 (pt 0 0 0 0 0 0 9) (two ++ [pt 0 0 0 0 1 0 2]) = Ok (own :: nodes) /\
  length own = 2%nat /\ map (@length _) nodes = [1%nat].
Proof.
  destruct (C28_distribute_partial 2 (pt 0 0 0 0 0 0 9) (two ++ [pt 0 0 0 0 1 0 2])) as (own & nodes & E & L & _ & F & O & _); [lia|].
  exists own, nodes. split; [exact E|]. split; [exact O|]. clear E. destruct nodes as [|n [|]]; try discriminate L.
  inversion F as [|? ? X _]; subst. cbn [map]. now rewrite X.
Qed.

(* ---- C69 ---- *)
Lemma fill_ok filter gen np first fuel : forall k i l, fill filter gen np k i first fuel = Some l ->
  length l = (np - i)%nat /\ map pid l = map Z.of_nat (seq i (np - i)) /\
  (forall p, In p l -> filter p = true) /\
  (forall p, In p l -> exists n, (k <= n)%nat /\ pv p = vadd (gen n) first).
Proof.
  induction fuel as [|fuel IH]; intros k i l H; cbn in H.
  - destruct (Nat.leb_spec np i); [|discriminate]. injection H as <-. replace (np - i)%nat with 0%nat by lia.
    repeat split; easy.
  - destruct (Nat.leb_spec np i) as [L|L].
    + injection H as <-. replace (np - i)%nat with 0%nat by lia. repeat split; easy.
    + destruct (filter _) eqn:F.
      * destruct (fill _ _ _ (S k) (S i) _ _) as [r|] eqn:E; [|discriminate]. injection H as <-.
        destruct (IH _ _ _ E) as (A & B & C & D). replace (np - i)%nat with (S (np - S i)) by lia.
        split; [cbn; lia|]. split; [cbn; now rewrite B|]. split.
        -- intros p [<-|I]; auto.
        -- intros p [<-|I]; [exists k; split; [lia|reflexivity]|]. destruct (D p I) as (n & ? & ?). exists n. split; [lia|assumption].
      * destruct (IH _ _ _ H) as (A & B & C & D). repeat split; auto.
        intros p I. destruct (D p I) as (n & ? & ?). exists n. split; [lia|assumption].
Qed.
Theorem C159_constructed : forall filter gen np centre fuel l, generate filter gen np centre fuel = Some l ->
  length l = Nat.max 1 np /\
  map pid l = map Z.of_nat (seq 0 (Nat.max 1 np)) /\
  exists first rest, l = first :: rest /\
    (forall i, (i < 5)%nat -> at_ i first = coord i centre) /\ at_ 5 first = 0 /\
    (forall p, In p rest -> filter p = true) /\
    (forall p, In p rest -> exists n, forall i, (i < 6)%nat -> at_ i p = coord i (gen n) + at_ i first).
Proof.
  intros filter gen np centre fuel l H. unfold generate in H.
  destruct (fill _ _ _ _ _ _ _) as [r|] eqn:E; [|discriminate]. injection H as <-.
  destruct (fill_ok _ _ _ _ _ _ _ _ E) as (A & B & C & D).
  replace (Nat.max 1 np) with (S (np - 1)) by lia. split; [cbn; lia|]. split; [cbn; rewrite B; reflexivity|].
  eexists _, _. split; [reflexivity|]. split; [intros i Hi; destruct i as [|[|[|[|[|]]]]]; try reflexivity; lia|].
  split; [reflexivity|]. split; [exact C|]. intros p I. destruct (D p I) as (n & _ & P). exists n. intros i _.
  unfold at_. rewrite P. unfold vadd. now rewrite coord_vmap2.
Qed.
Print Assumptions C159_constructed.
(* it ends as soon as enough of the generated particles are accepted *)
Theorem C159_terminates : forall filter gen np centre,
  (forall i k, (i < np)%nat -> exists k', (k <= k')%nat /\ forall c, filter (mkP (vadd (gen k') c) (Z.of_nat i)) = true) ->
  exists fuel l, generate filter gen np centre fuel = Some l.
Proof.
  intros filter gen np centre H. unfold generate. set (first := V6 _ _ _ _ _ _). clearbody first.
  assert (G : forall m i k, (np - i = m)%nat -> exists fuel l, fill filter gen np k i first fuel = Some l).
  { induction m as [|m IH]; intros i k E.
    - exists 0%nat, []. cbn. destruct (Nat.leb_spec np i); [reflexivity|lia].
    - destruct (H i k ltac:(lia)) as (k' & L & F).
      remember (k' - k)%nat as t eqn:Et. revert k L Et. induction t as [|t IHt]; intros k L Et.
      + replace k' with k in F by lia. destruct (IH (S i) (S k) ltac:(lia)) as (fuel & l & El).
        exists (S fuel). eexists. cbn. destruct (Nat.leb_spec np i); [lia|]. rewrite F, El. reflexivity.
      + destruct (filter (mkP (vadd (gen k) first) (Z.of_nat i))) eqn:Fk.
        * destruct (IH (S i) (S k) ltac:(lia)) as (fuel & l & El).
          exists (S fuel). eexists. cbn. destruct (Nat.leb_spec np i); [lia|]. rewrite Fk, El. reflexivity.
        * destruct (IHt (S k) ltac:(lia) ltac:(lia)) as (fuel & l & El).
          exists (S fuel), l. cbn. destruct (Nat.leb_spec np i); [lia|]. rewrite Fk. exact El. }
  destruct (G _ 1%nat 0%nat eq_refl) as (fuel & l & E). exists fuel. eexists. rewrite E. reflexivity.
Qed.
Print Assumptions C159_terminates.
(* asking for no particles gives one; the first particle is not filtered *)
Theorem C69_asked_refuted : (forall filter gen centre fuel, exists p, generate filter gen 0 centre fuel = Some [p]) /\
  (exists filter gen np centre fuel p l, generate filter gen np centre fuel = Some (p :: l) /\ l <> [] /\ filter p = false).
Proof.
  split.
  - intros. unfold generate. destruct fuel; cbn; eauto.
  - exists (fun p => negb (Z.eqb (pid p) 0)), (fun _ => vzero), 2%nat, vzero, 1%nat. do 2 eexists.
    split; [reflexivity|]. split; [discriminate|reflexivity].
Qed.
Print Assumptions C69_asked_refuted.
Theorem C159_charge : forall P Q ps b, ps <> [] -> new_bunch P Q ps = Ok b ->
  total_charge b = Q /\ parts b = ps /\ p0 b = P /\ ct0 b = 0 /\
  forall p, total_charge (add_particle p b) = Q + Q / INR (length ps).
Proof.
  intros P Q ps b NE H. unfold new_bunch in H. destruct (Rltb 0 P); [|discriminate]. injection H as <-.
  pose proof (len_pos ps NE). unfold total_charge. cbn. split; [field; lra|]. repeat split.
  intros p. rewrite app_length, plus_INR. cbn. field. lra.
Qed.
Print Assumptions C159_charge.
Example C69_charge_ex : exists b, new_bunch 5 12 two = Ok b /\ total_charge b = 12 /\ qmp b = 6.
Proof.
  unfold new_bunch. rewrite Rltb_true by lra. eexists. split; [reflexivity|]. unfold total_charge. cbn. split; lra.
Qed.
Theorem C159_reference_refused : forall P Q ps, P <= 0 -> new_bunch P Q ps = Throw AssertFail.
Proof. intros P Q ps H. unfold new_bunch. now rewrite Rltb_false by lra. Qed.
Print Assumptions C159_reference_refused.

(* ---- C70 ---- *)
Lemma set_centroid_mean f r l' i : set_centroid (f :: r) = Ok l' ->
  coord i (centroid l') = at_ i f + (avg (at_ i) (f :: r) - at_ i f) / INR (length (f :: r)) /\
  length l' = length (f :: r) /\ map pid l' = map pid (f :: r) /\ (exists r', l' = f :: r').
Proof.
  intros E. unfold set_centroid in E. set (x := vsub _ _) in E. injection E as <-.
  assert (X : coord i x = avg (at_ i) (f :: r) - at_ i f).
  { unfold x, vsub. rewrite coord_vmap2, centroid_avg by discriminate. reflexivity. }
  rewrite centroid_avg by discriminate.
  split; [|split; [cbn; now rewrite map_length|split; [cbn; now rewrite map_map|eauto]]].
  pose proof (len_pos (f :: r) ltac:(discriminate)) as P. rewrite <- X.
  unfold avg. cbn [sum]. rewrite sum_map.
  rewrite (sum_ext _ (fun a => at_ i a - coord i x)) by (intros; unfold at_, vsub; cbn [pv]; rewrite coord_vmap2; reflexivity).
  rewrite sum_minus, sum_const. cbn [length]. rewrite map_length.
  assert (S : at_ i f + sum (at_ i) r = INR (S (length r)) * (coord i x + at_ i f)).
  { rewrite X. unfold avg. cbn [sum length]. field. cbn [length] in P. lra. }
  rewrite S_INR in *. cbn [length] in P. rewrite S_INR in P.
  replace (at_ i f + (sum (at_ i) r - INR (length r) * coord i x)) with
    ((at_ i f + sum (at_ i) r) - INR (length r) * coord i x) by ring.
  rewrite S. field. lra.
Qed.
(* after SetCentroid(x0) the mean is x0 plus one n-th of the distance it had *)
Theorem C70_formula : forall x0 f r l' i, set_centroid_to x0 (f :: r) = Ok l' ->
  coord i (centroid l') = at_ i x0 + (avg (at_ i) (x0 :: r) - at_ i x0) / INR (length (f :: r)) /\
  length l' = length (f :: r) /\ (exists r', l' = x0 :: r') /\ map pid l' = pid x0 :: map pid r.
Proof.
  intros x0 f r l' i H. destruct (set_centroid_mean x0 r l' i H) as (A & B & C & D). split; [exact A|]. tauto.
Qed.
Print Assumptions C70_formula.
Theorem C70_centroid_refuted : exists x0 l l', set_centroid_to x0 l = Ok l' /\ centroid l' <> pv x0.
Proof.
  exists (pt 0 0 0 0 0 0 0), two. eexists. split; [reflexivity|]. intros E. apply (f_equal (coord 0)) in E.
  destruct (C70_formula (pt 0 0 0 0 0 0 0) (pt 1 2 3 4 5 6 0) [pt 3 2 1 0 5 (-2) 1] _ 0 eq_refl) as [F _]. rewrite F in E. unfold avg in E. cbn in E. lra.
Qed.
Print Assumptions C70_centroid_refuted.
(* the mean is reached only by a bunch whose mean is there already, or by one particle *)
Theorem C70_centroid_partial : forall x0 f r l', set_centroid_to x0 (f :: r) = Ok l' ->
  centroid l' = pv x0 <-> centroid (x0 :: r) = pv x0.
Proof.
  intros x0 f r l' H. pose proof (len_pos (f :: r) ltac:(discriminate)) as P.
  split; intros E; apply vec6_eq; intros i Hi; apply (f_equal (coord i)) in E;
    destruct (C70_formula x0 f r l' i H) as [F _]; rewrite centroid_avg in * by discriminate.
  - rewrite F in E. change (coord i (pv x0)) with (at_ i x0) in *.
    assert (Z : (avg (at_ i) (x0 :: r) - at_ i x0) / INR (length (f :: r)) = 0) by lra.
    apply (Rmult_eq_compat_r (INR (length (f :: r)))) in Z. unfold Rdiv in Z.
    rewrite Rmult_assoc, Rinv_l in Z by lra. lra.
  - rewrite F, E. unfold at_. field. lra.
Qed.
Print Assumptions C70_centroid_partial.
(* ... but repeating the call approaches x0 geometrically *)
Fixpoint again (n : nat) (l : list particle) : res berr (list particle) :=
  match n with O => Ok l | S n => do l' <- set_centroid l; again n l' end.
Theorem C70_repeated : forall n f r l' i, again n (f :: r) = Ok l' ->
  coord i (centroid l') = at_ i f + (avg (at_ i) (f :: r) - at_ i f) / INR (length (f :: r)) ^ n.
Proof.
  induction n as [|n IH]; intros f r l' i H.
  - cbn in H. injection H as <-. rewrite centroid_avg by discriminate. cbn [pow]. field.
  - cbn [again] in H. destruct (set_centroid (f :: r)) as [l1| |] eqn:E; try discriminate. cbn [bind] in H.
    destruct (set_centroid_mean f r l1 i E) as (A & B & _ & r' & ->).
    rewrite (IH f r' l' i H), B. rewrite centroid_avg in A by discriminate. rewrite A.
    pose proof (len_pos (f :: r) ltac:(discriminate)) as P. pose proof (pow_lt _ n P). cbn [pow]. field. split; lra.
Qed.
Print Assumptions C70_repeated.
Theorem C70_empty : forall x0, set_centroid_to x0 [] = UB.
Proof. reflexivity. Qed.

(* ---- C71 ---- *)
Fixpoint built (p : R) (l : list slice) : smp :=
  match l with [] => smp_new p | s :: r => smp_add s (built p r) end.
Lemma built_ok p l : Qt (built p l) = charge_sum (slices (built p l)) /\ slices (built p l) = rev l.
Proof.
  induction l as [|s l [IH IH']]; [split; reflexivity|]. split; [apply charge_inv_add, IH|]. cbn. now rewrite IH'.
Qed.
(* whatever the covariance held before the call is added to the answer *)
Theorem C160_formula : forall p l d g, charge_sum l <> 0 -> length d = 21%nat ->
  (forall i j, (i < 6)%nat -> (j < 6)%nat -> sig 6 d (Z.of_nat i) (Z.of_nat j) = Ok (g i j)) ->
  exists m d', smp_moments (built p l) d = Ok (m, d') /\ m = smp_centroid (built p l) /\
    (forall i, coord i m = smean i (rev l)) /\ length d' = 21%nat /\
    forall i j, (j <= i < 6)%nat -> sig 6 d' (Z.of_nat i) (Z.of_nat j) = Ok (g i j + scovar i j (rev l)).
Proof.
  intros p l d g NZ L H. destruct (built_ok p l) as [Q S].
  assert (NZ' : Qt (built p l) <> 0).
  { rewrite Q, S. unfold charge_sum. rewrite (sum_perm sq (rev l) l); [exact NZ|]. apply Permutation_sym, Permutation_rev. }
  destruct (smp_moments_ok (built p l) d g Q NZ') as (m & d' & E & M & G).
  { split; [exact L|]. intros i j B. apply H; lia. }
  exists m, d'. split; [exact E|]. split; [apply vec6_eq; intros i _; rewrite M, smp_centroid_ok; auto|].
  split; [rewrite <- S; exact M|]. split; [apply G|]. rewrite <- S. apply G.
Qed.
Print Assumptions C160_formula.
Theorem C160_slices : forall p l, charge_sum l <> 0 ->
  exists m d', smp_moments (built p l) (zero 6) = Ok (m, d') /\
    (forall i, coord i m = smean i (rev l)) /\
    forall i j, (j <= i < 6)%nat -> sig 6 d' (Z.of_nat i) (Z.of_nat j) = Ok (scovar i j (rev l)).
Proof.
  intros p l NZ. destruct (C160_formula p l (zero 6) (fun _ _ => 0) NZ eq_refl) as (m & d' & E & _ & M & _ & G).
  { intros i j Hi Hj. destruct i as [|[|[|[|[|[|]]]]]]; try lia; destruct j as [|[|[|[|[|[|]]]]]]; try lia; reflexivity. }
  exists m, d'. split; [exact E|]. split; [exact M|]. intros i j B. rewrite G by exact B. f_equal. ring.
Qed.
Print Assumptions C160_slices.
Theorem C71_previous_contents_refuted : exists b d m d', smp_moments b d = Ok (m, d') /\
  length d = 21%nat /\ Qt b = charge_sum (slices b) /\ slices b <> [] /\ sig 6 d' 0 0 <> Ok (scovar 0 0 (slices b)).
Proof.
  destruct (C160_formula 1 [sl 1 0 0] (repeat 1 21) (fun _ _ => 1)) as (m & d' & E & _ & _ & _ & G).
  { unfold charge_sum. cbn. lra. } { reflexivity. }
  { intros i j Hi Hj. destruct i as [|[|[|[|[|[|]]]]]]; try lia; destruct j as [|[|[|[|[|[|]]]]]]; try lia; reflexivity. }
  exists (built 1 [sl 1 0 0]), (repeat 1 21), m, d'. split; [exact E|]. split; [reflexivity|].
  split; [apply built_ok|]. split; [discriminate|].
  pose proof (G 0%nat 0%nat ltac:(lia)) as X. cbn [Z.of_nat] in X. rewrite X. cbn [rev app slices built smp_add smp_new].
  intros Y. injection Y as Y. lra.
Qed.
Print Assumptions C71_previous_contents_refuted.
Theorem C160_projected : forall p l u v, charge_sum l <> 0 ->
  smp_proj_moments u v (built p l) (M2 0 0 0 0 0) =
  M2 (smean u (rev l)) (smean v (rev l)) (scovar u u (rev l)) (scovar u v (rev l)) (scovar v v (rev l)).
Proof.
  intros p l u v NZ. destruct (built_ok p l) as [Q S].
  assert (NZ' : charge_sum (rev l) <> 0).
  { unfold charge_sum. rewrite (sum_perm sq (rev l) l); [exact NZ|]. apply Permutation_sym, Permutation_rev. }
  rewrite smp_proj_ok by (try exact Q; rewrite Q, S; exact NZ'). cbv zeta. cbn [m2u m2v s00 s01 s11].
  rewrite Q, S, !Rplus_0_l. rewrite !smp_cov_alt by exact NZ'. reflexivity.
Qed.
Print Assumptions C160_projected.
Theorem C160_charge : forall p l, Qt (built p l) = sum sq l.
Proof.
  intros p l. destruct (built_ok p l) as [Q S]. rewrite Q, S. unfold charge_sum. apply sum_perm, Permutation_sym, Permutation_rev.
Qed.
Print Assumptions C160_charge.
Example C71_ex : smp_proj_moments 4 5 (built 1 [sl 1 0 2; sl 3 4 6]) (M2 0 0 0 0 0) = M2 3 5 3 3 3.
Proof.
  rewrite C160_projected by (unfold charge_sum; cbn; lra). unfold scovar, smean, wsum, charge_sum, sat, slice_sig. cbn. f_equal; lra.
Qed.
