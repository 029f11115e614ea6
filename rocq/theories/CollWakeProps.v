(* C413-C419: wake fields of collimators. *)
From Coq Require Import ZArith Lia Lra List.
From Verif Require Import RBase Base Rot RotProofs HollowLensProofs Bunch CollWake CollWakeSpec.
Import ListNotations.
Local Open Scope R_scope.

Lemma polar0 r th x y : x = r * cos th -> y = r * sin th -> forall m, powd r m * cos (INR m * th) = zre m x y /\ powd r m * sin (INR m * th) = zim m x y.
Proof.
  intros X Y. induction m as [|m (IC & IS)]; cbn [powd zre zim].
  - cbn [INR]. rewrite Rmult_0_l, cos_0, sin_0. lra.
  - rewrite S_INR, Rmult_plus_distr_r, Rmult_1_l, cos_plus, sin_plus, <- IC, <- IS, X, Y. split; ring.
Qed.
Lemma polar v m : powd (radius v) m * cos (INR m * azimuth v) = zre m (vx v) (vy v) /\ powd (radius v) m * sin (INR m * azimuth v) = zim m (vx v) (vy v).
Proof. destruct (atan2_direction (vx v) (vy v)) as (X & Y). assert (RA : radius v = sqrt (vx v * vx v + vy v * vy v)) by (unfold radius; cbn [powd]; f_equal; ring). rewrite <- RA in X, Y. now apply polar0. Qed.
(* C413: the moments are the sums of the real and imaginary parts of (x + iy)^m *)
Theorem C413_moments : forall m s, cm m s = sum_over (zre m) s /\ sm m s = sum_over (zim m) s.
Proof. intros m. induction s as [|p s (IC & IS)]; cbn [cm sm sum_over]; [auto|]. destruct (polar (pv p) m) as (C & S). now rewrite C, S, IC, IS. Qed.
Print Assumptions C413_moments.
Lemma kick_ok c m ct st cl sl v v' : kick c (S m) ct st cl sl v = Ok v' -> let ddp := - (w_a0 c * (cl * zre (S m) (vx v) (vy v) - sl * zim (S m) (vx v) (vy v))) / w_p0 c in
  w_p0 c <> 0 /\ 1 + ddp <> 0 /\ vx v' = vx v /\ vy v' = vy v /\ vct v' = vct v /\ vdp v' = vdp v + ddp /\
  vxp v' * (1 + ddp) = vxp v + (if w_tw c then w_a0 c * (INR (S m) * (ct * zre m (vx v) (vy v) + st * zim m (vx v) (vy v))) / w_p0 c else 0) /\
  vyp v' * (1 + ddp) = vyp v + (if w_tw c then w_a0 c * (INR (S m) * (st * zre m (vx v) (vy v) - ct * zim m (vx v) (vy v))) / w_p0 c else 0).
Proof.
  unfold kick. cbv zeta. replace (S m - 1)%nat with m by lia. destruct (polar v m) as (C & S_). destruct (polar v (S m)) as (C1 & S1). destruct (Reqb_spec (w_p0 c) 0) as [|N]; [discriminate|].
  assert (W : powd (radius v) (S m) * (cos (INR (S m) * azimuth v) * cl - sin (INR (S m) * azimuth v) * sl) = cl * zre (S m) (vx v) (vy v) - sl * zim (S m) (vx v) (vy v)) by (rewrite <- C1, <- S1; ring).
  set (z1 := zre (S m) (vx v) (vy v)) in *. set (z2 := zim (S m) (vx v) (vy v)) in *. rewrite W. replace ((cl * z1 - sl * z2) * w_a0 c) with (w_a0 c * (cl * z1 - sl * z2)) by ring. set (ddp := - (w_a0 c * (cl * z1 - sl * z2)) / w_p0 c). destruct (Reqb_spec (1 + ddp) 0) as [|N1]; [discriminate|]. intros [= <-]. cbn [vx vxp vy vyp vct vdp]. split; [exact N|]. split; [exact N1|]. do 4 (split; [reflexivity|]). rewrite <- C, <- S_. clearbody ddp. split; unfold Rdiv at 1; rewrite Rmult_assoc, Rinv_l, Rmult_1_r by exact N1; f_equal; destruct (w_tw c); [|reflexivity| |reflexivity]; change (match m with O => 1 | S _ => INR m + 1 end) with (INR (S m)); unfold Rdiv; ring.
Qed.
(* C414: the transverse kick is the gradient of the potential *)
Lemma d_ext f g x l : (forall t, f t = g t) -> derivable_pt_lim f x l -> derivable_pt_lim g x l.
Proof. intros H D e E. destruct (D e E) as (d & K). exists d. intros h H1 H2. rewrite <- !H. now apply K. Qed.
Lemma d_val f x l l' : derivable_pt_lim f x l -> l = l' -> derivable_pt_lim f x l'.
Proof. now intros H <-. Qed.
Lemma dz_x y x : forall m, derivable_pt_lim (fun t => zre (S m) t y) x (INR (S m) * zre m x y) /\ derivable_pt_lim (fun t => zim (S m) t y) x (INR (S m) * zim m x y).
Proof.
  induction m as [|m (IR & II)].
  - cbn [zre zim INR]. split.
    + apply (d_ext (fun t => t)); [intros t; ring|]. rewrite Rmult_1_l. apply derivable_pt_lim_id.
    + apply (d_ext (fun _ => y)); [intros t; ring|]. rewrite Rmult_0_r. apply derivable_pt_lim_const.
  - split.
    + pose proof (derivable_pt_lim_minus _ _ x _ _ (derivable_pt_lim_mult _ _ x _ _ IR (derivable_pt_lim_id x)) (derivable_pt_lim_mult _ _ x _ _ II (derivable_pt_lim_const y x))) as H. eapply d_val; [exact H|]. unfold id, fct_cte. rewrite (S_INR (S m)). change (zre (S m) x y) with (zre m x y * x - zim m x y * y). ring.
    + pose proof (derivable_pt_lim_plus _ _ x _ _ (derivable_pt_lim_mult _ _ x _ _ IR (derivable_pt_lim_const y x)) (derivable_pt_lim_mult _ _ x _ _ II (derivable_pt_lim_id x))) as H. eapply d_val; [exact H|]. unfold id, fct_cte. rewrite (S_INR (S m)). change (zim (S m) x y) with (zre m x y * y + zim m x y * x). ring.
Qed.
Lemma dz_y x y : forall m, derivable_pt_lim (fun t => zre (S m) x t) y (- (INR (S m) * zim m x y)) /\ derivable_pt_lim (fun t => zim (S m) x t) y (INR (S m) * zre m x y).
Proof.
  induction m as [|m (IR & II)].
  - cbn [zre zim INR]. split.
    + apply (d_ext (fun _ => x)); [intros t; ring|]. rewrite Rmult_0_r, Ropp_0. apply derivable_pt_lim_const.
    + apply (d_ext (fun t => t)); [intros t; ring|]. rewrite Rmult_1_l. apply derivable_pt_lim_id.
  - split.
    + pose proof (derivable_pt_lim_minus _ _ y _ _ (derivable_pt_lim_mult _ _ y _ _ IR (derivable_pt_lim_const x y)) (derivable_pt_lim_mult _ _ y _ _ II (derivable_pt_lim_id y))) as H. eapply d_val; [exact H|]. unfold id, fct_cte. rewrite (S_INR (S m)). change (zim (S m) x y) with (zre m x y * y + zim m x y * x). ring.
    + pose proof (derivable_pt_lim_plus _ _ y _ _ (derivable_pt_lim_mult _ _ y _ _ IR (derivable_pt_lim_id y)) (derivable_pt_lim_mult _ _ y _ _ II (derivable_pt_lim_const x y))) as H. eapply d_val; [exact H|]. unfold id, fct_cte. rewrite (S_INR (S m)). change (zre (S m) x y) with (zre m x y * x - zim m x y * y). ring.
Qed.
Theorem C414_gradient : forall c m ct st cl sl v v', kick c (S m) ct st cl sl v = Ok v' -> w_tw c = true -> exists gx gy,
  derivable_pt_lim (fun t => potential (S m) ct st t (vy v)) (vx v) gx /\ derivable_pt_lim (fun t => potential (S m) ct st (vx v) t) (vy v) gy /\
  let k := 1 + (vdp v' - vdp v) in vxp v' * k = vxp v + w_a0 c * gx / w_p0 c /\ vyp v' * k = vyp v + w_a0 c * gy / w_p0 c.
Proof.
  intros c m ct st cl sl v v' E TW. destruct (kick_ok _ _ _ _ _ _ _ _ E) as (_ & _ & _ & _ & _ & DP & XP & YP). rewrite TW in *. destruct (dz_x (vy v) (vx v) m) as (XR & XI). destruct (dz_y (vx v) (vy v) m) as (YR & YI).
  exists (ct * (INR (S m) * zre m (vx v) (vy v)) + st * (INR (S m) * zim m (vx v) (vy v))), (ct * - (INR (S m) * zim m (vx v) (vy v)) + st * (INR (S m) * zre m (vx v) (vy v))). split; [|split].
  - refine (derivable_pt_lim_plus _ _ _ _ _ (derivable_pt_lim_scal _ ct _ _ XR) (derivable_pt_lim_scal _ st _ _ XI)).
  - refine (derivable_pt_lim_plus _ _ _ _ _ (derivable_pt_lim_scal _ ct _ _ YR) (derivable_pt_lim_scal _ st _ _ YI)).
  - cbv zeta. rewrite DP. match goal with |- vxp v' * ?a = _ /\ _ => match type of XP with vxp v' * ?b = _ => replace a with b by ring end end. rewrite XP, YP. split; unfold Rdiv; ring.
Qed.
Print Assumptions C414_gradient.
(* C415: the change of energy has the wrong sign for the sine moments: it is not the potential; a particle off the horizontal axis can gain energy from its own wake *)
Theorem C415_energy_refuted : forall c m ct st cl sl v v', kick c (S m) ct st cl sl v = Ok v' -> vdp v' = vdp v - w_a0 c / w_p0 c * potential (S m) cl (- sl) (vx v) (vy v).
Proof. intros c m ct st cl sl v v' E. destruct (kick_ok _ _ _ _ _ _ _ _ E) as (N & _ & _ & _ & _ & DP & _). rewrite DP. unfold potential. field. exact N. Qed.
Print Assumptions C415_energy_refuted.
Theorem C415_gain_refuted : exists c v w, (forall d m, w_l c d m = 1) /\ 0 < w_a0 c / w_p0 c /\ apply_wake c [[mkP v 1%Z]] = Ok [[mkP w 1%Z]] /\ vdp v < vdp w.
Proof.
  set (c := mkCW 1 1 1 2 true (fun _ _ => 0) (fun _ _ => 1)). set (v := V6 0 0 1 0 0 0). exists c, v. unfold apply_wake. cbn [w_modes c Nat.eqb]. change (Nat.leb 1000 (length [[mkP v 1%Z]])) with false. cbv iota. cbn [modes_from mode_pass kick_slice conv w_t w_l c pv pid]. destruct (C413_moments 1 [mkP v 1%Z]) as (CM & SM). cbn [sum_over zre zim pv vx vy v] in CM, SM. rewrite CM, SM.
  destruct (kick c 1 (0 * (1 * 0 - 0 * 1 + 0) + 0) (0 * (1 * 1 + 0 * 0 + 0) + 0) (1 * (1 * 0 - 0 * 1 + 0) + 0) (1 * (1 * 1 + 0 * 0 + 0) + 0) v) as [w| |] eqn:K.
  - cbn [bind]. exists w. split; [reflexivity|]. split; [cbn; lra|]. split; [reflexivity|]. destruct (kick_ok _ _ _ _ _ _ _ _ K) as (_ & _ & _ & _ & _ & DP & _). rewrite DP. cbn [zre zim v vx vy vdp w_a0 w_p0 c]. lra.
  - exfalso. unfold kick in K. cbv zeta in K. destruct (polar v 1) as (C1 & S1). rewrite (Reqb_false (w_p0 c)) in K by (cbn; lra). cbn [Nat.sub] in K. match type of K with (if Reqb ?X 0 then _ else _) = _ => replace X with (3 / 2) in K end; [rewrite Reqb_false in K by lra; discriminate|]. set (r := powd (radius v) 1) in *. set (co := cos (INR 1 * azimuth v)) in *. set (si := sin (INR 1 * azimuth v)) in *. cbn [zre zim v vx vy w_a0 w_p0 c] in *. replace (r * (co * (1 * (1 * 0 - 0 * 1 + 0) + 0) - si * (1 * (1 * 1 + 0 * 0 + 0) + 0)) * 1) with (- (r * si)) by ring. rewrite S1. field.
  - exfalso. unfold kick in K. cbv zeta in K. repeat (match type of K with (if ?b then _ else _) = _ => destruct b; try discriminate end).
Qed.
Print Assumptions C415_gain_refuted.
(* C416: a slice feels itself and the slices behind it in the list only *)
Lemma mode_tail c m : forall a a' b b' r, length a = length a' -> mode_pass c m (a ++ b) (a' ++ b') = Ok r -> exists r1 r2, r = (r1 ++ r2)%list /\ length r1 = length a /\ mode_pass c m b b' = Ok r2.
Proof.
  induction a as [|o a IH]; intros [|s a'] b b' r L E; try discriminate; cbn [app] in E; [exists [], r; auto|]. cbn [mode_pass] in E. cbv zeta in E. destruct (kick_slice _ _ _ _ _ _ s) as [k| |]; cbn [bind] in E; try discriminate. destruct (mode_pass c m (a ++ b) (a' ++ b')) as [q| |] eqn:Q; cbn [bind] in E; try discriminate. injection E as <-. destruct (IH a' b b' q (eq_add_S _ _ L) Q) as (r1 & r2 & -> & L1 & R). exists (k :: r1), r2. cbn [length app]. auto.
Qed.
Lemma modes_tail c : forall n m a a' b b' r, length a = length a' -> modes_from c m n (a ++ b) (a' ++ b') = Ok r -> exists r1 r2, r = (r1 ++ r2)%list /\ length r1 = length a /\ modes_from c m n b b' = Ok r2.
Proof.
  induction n as [|n IH]; intros m a a' b b' r L E; cbn [modes_from] in *; [injection E as <-; exists a', b'; auto|]. destruct (mode_pass c m (a ++ b) (a' ++ b')) as [q| |] eqn:Q; cbn [bind] in E; try discriminate. destruct (mode_tail _ _ _ _ _ _ _ L Q) as (q1 & q2 & -> & L1 & Q2). rewrite Q2. cbn [bind]. apply (IH _ a q1 b q2 r); [now symmetry|exact E].
Qed.
Theorem C416_causal : forall c a b r, apply_wake c (a ++ b) = Ok r -> exists r1 r2, r = (r1 ++ r2)%list /\ length r1 = length a /\ apply_wake c b = Ok r2.
Proof.
  intros c a b r E. unfold apply_wake in *. destruct (Nat.eqb (w_modes c) 0); [injection E as <-; exists a, b; auto|]. destruct (Nat.leb 1000 (length (a ++ b))) eqn:LL; [discriminate|]. apply Nat.leb_gt in LL. rewrite app_length in LL. destruct (modes_tail _ _ _ _ _ _ _ _ eq_refl E) as (r1 & r2 & R1 & R2 & R3). exists r1, r2. split; [exact R1|]. split; [exact R2|]. rewrite (proj2 (Nat.leb_gt 1000 (length b))) by (revert LL; generalize 1000%nat; intros; lia). exact R3.
Qed.
Print Assumptions C416_causal.
(* C417: one mode: the wakes of each slice are the sums over it and the following ones of the potential at their distance times the moments; positions, times, identities and the slicing stay *)
Fixpoint felt (w : R -> nat -> R) (dz : R) (m : nat) (f : nat -> R -> R -> R) (d : nat) (l : list (list particle)) : R :=
  match l with [] => 0 | s :: q => w (INR d * dz) m * sum_over (f m) s + felt w dz m f (S d) q end.
Lemma conv_felt w dz m : forall l d, conv (fun d => w (INR d * dz) m) (cm m) d l = felt w dz m zre d l /\ conv (fun d => w (INR d * dz) m) (sm m) d l = felt w dz m zim d l.
Proof. induction l as [|s l IH]; intros d; cbn [conv felt]; [auto|]. destruct (IH (S d)) as (A & B). destruct (C413_moments m s) as (C & D). rewrite A, B, C, D. auto. Qed.
Theorem C417_mode : forall c m org cur r, length org = length cur -> mode_pass c (S m) org cur = Ok r -> length r = length cur /\
  forall i s, nth_error cur i = Some s -> exists s', nth_error r i = Some s' /\ let tail := skipn i org in
    Forall2 (fun p q => kick c (S m) (felt (w_t c) (w_dz c) (S m) zre 0 tail) (felt (w_t c) (w_dz c) (S m) zim 0 tail) (felt (w_l c) (w_dz c) (S m) zre 0 tail) (felt (w_l c) (w_dz c) (S m) zim 0 tail) (pv p) = Ok (pv q) /\
      vx (pv q) = vx (pv p) /\ vy (pv q) = vy (pv p) /\ vct (pv q) = vct (pv p) /\ pid q = pid p) s s'.
Proof.
  intros c m. induction org as [|o org IH]; intros [|s cur] r L E; try discriminate; cbn [mode_pass] in E; cbv zeta in E.
  - injection E as <-. split; [reflexivity|]. intros [|i] s E; discriminate.
  - destruct (kick_slice _ _ _ _ _ _ s) as [k| |] eqn:K; cbn [bind] in E; try discriminate. destruct (mode_pass c (S m) org cur) as [q| |] eqn:Q; cbn [bind] in E; try discriminate. injection E as <-. destruct (IH cur q (eq_add_S _ _ L) Q) as (LQ & H). split; [cbn [length]; now rewrite LQ|]. intros [|i] s0 N; cbn [nth_error skipn] in *; [|now apply H]. injection N as <-. exists k. split; [reflexivity|]. cbv zeta.
    destruct (conv_felt (w_t c) (w_dz c) (S m) (o :: org) 0) as (T1 & T2). destruct (conv_felt (w_l c) (w_dz c) (S m) (o :: org) 0) as (T3 & T4). rewrite T1, T2, T3, T4 in K. clear T1 T2 T3 T4. revert k K. induction s as [|p s IHs]; intros k K; cbn [kick_slice] in K; [injection K as <-; constructor|]. destruct (kick _ _ _ _ _ _ (pv p)) as [v| |] eqn:V; cbn [bind] in K; try discriminate. destruct (kick_slice _ _ _ _ _ _ s) as [k'| |] eqn:KS; cbn [bind] in K; try discriminate. injection K as <-. constructor; [|now apply IHs]. cbn [pv pid]. destruct (kick_ok _ _ _ _ _ _ _ _ V) as (_ & _ & X & Y & T & _). auto.
Qed.
Print Assumptions C417_mode.
Lemma stages c org : forall n m cur r, modes_from c m n org cur = Ok r -> exists st, st O = cur /\ st n = r /\ forall k, (k < n)%nat -> mode_pass c (m + k) org (st k) = Ok (st (S k)).
Proof.
  induction n as [|n IH]; intros m cur r E; cbn [modes_from] in E; [injection E as <-; exists (fun _ => cur); split; [reflexivity|]; split; [reflexivity|]; intros; lia|]. destruct (mode_pass c m org cur) as [q| |] eqn:Q; cbn [bind] in E; try discriminate. destruct (IH _ _ _ E) as (st & S0 & SN & ST). exists (fun k => match k with O => cur | S k' => st k' end). split; [reflexivity|]. split; [exact SN|]. intros [|k] K; [rewrite Nat.add_0_r, S0; exact Q|]. replace (m + S k)%nat with (S m + k)%nat by lia. apply ST. lia.
Qed.
(* ... and over all modes: from the first to the last, with the moments of the bunch as it came *)
Theorem C417_modes : forall c l r, apply_wake c l = Ok r -> exists st, st O = l /\ st (w_modes c) = r /\ forall k, (k < w_modes c)%nat -> mode_pass c (S k) l (st k) = Ok (st (S k)).
Proof.
  intros c l r E. unfold apply_wake in E. destruct (Nat.eqb_spec (w_modes c) 0) as [Z|]; [injection E as <-; rewrite Z; exists (fun _ => l); split; [reflexivity|]; split; [reflexivity|]; intros; lia|]. destruct (Nat.leb 1000 (length l)); [discriminate|]. exact (stages c l (w_modes c) 1 l r E).
Qed.
Print Assumptions C417_modes.
Theorem C417_same_places : forall c l r, apply_wake c l = Ok r -> Forall2 (Forall2 (fun p q => vx (pv q) = vx (pv p) /\ vy (pv q) = vy (pv p) /\ vct (pv q) = vct (pv p) /\ pid q = pid p)) l r.
Proof.
  assert (RF : forall l : list (list particle), Forall2 (Forall2 (fun p q => vx (pv q) = vx (pv p) /\ vy (pv q) = vy (pv p) /\ vct (pv q) = vct (pv p) /\ pid q = pid p)) l l) by (induction l as [|s l IH]; constructor; [|exact IH]; clear IH; induction s; constructor; auto).
  assert (TR : forall a b d : list particle, Forall2 (fun p q => vx (pv q) = vx (pv p) /\ vy (pv q) = vy (pv p) /\ vct (pv q) = vct (pv p) /\ pid q = pid p) a b -> Forall2 (fun p q => vx (pv q) = vx (pv p) /\ vy (pv q) = vy (pv p) /\ vct (pv q) = vct (pv p) /\ pid q = pid p) b d -> Forall2 (fun p q => vx (pv q) = vx (pv p) /\ vy (pv q) = vy (pv p) /\ vct (pv q) = vct (pv p) /\ pid q = pid p) a d).
  { intros a b d H. revert d. induction H as [|x y a b XY AB IH]; intros d K; inversion K as [|y' z b' d' YZ BD]; subst; constructor; [|now apply IH]. destruct XY as (-> & -> & -> & ->) || idtac. intuition congruence. }
  assert (MP : forall c m org cur q, length org = length cur -> mode_pass c (S m) org cur = Ok q -> Forall2 (Forall2 (fun p q => vx (pv q) = vx (pv p) /\ vy (pv q) = vy (pv p) /\ vct (pv q) = vct (pv p) /\ pid q = pid p)) cur q).
  { intros c m org cur q L E. destruct (C417_mode _ _ _ _ _ L E) as (LQ & H). clear E L. revert q org LQ H. induction cur as [|s cur IH]; intros [|t q] org LQ H; try discriminate; constructor.
    - destruct (H O s eq_refl) as (s' & E & F). injection E as <-. cbv zeta in F. revert F. apply Forall2_impl. tauto.
    - apply (IH q (skipn 1 org)); [now injection LQ|]. intros i s0 N. destruct (H (S i) s0 N) as (s' & E & F). exists s'. split; [exact E|]. cbv zeta in *. replace (skipn i (skipn 1 org)) with (skipn (S i) org); [exact F|]. destruct org as [|o org]; [now rewrite !skipn_nil|reflexivity]. }
  intros c l r E. destruct (C417_modes _ _ _ E) as (st & S0 & SN & ST). subst r. assert (G : forall k, (k <= w_modes c)%nat -> length (st k) = length l /\ Forall2 (Forall2 (fun p q => vx (pv q) = vx (pv p) /\ vy (pv q) = vy (pv p) /\ vct (pv q) = vct (pv p) /\ pid q = pid p)) l (st k)).
  { induction k as [|k IH]; intros K; [rewrite S0; split; [reflexivity|apply RF]|]. destruct (IH ltac:(lia)) as (L & F). pose proof (ST k ltac:(lia)) as M. pose proof (MP _ _ _ _ _ (eq_sym L) M) as F2. split; [destruct (C417_mode _ _ _ _ _ (eq_sym L) M) as (LQ & _); congruence|]. clear - F F2 TR. revert F2. generalize (st (S k)). induction F as [|a b x y AB XY IH]; intros z K; inversion K as [|b' d' y' z' BD YZ]; subst; constructor; [exact (TR _ _ _ AB BD)|now apply IH]. }
  now apply G.
Qed.
Print Assumptions C417_same_places.
(* two particles, the second mode *)
Example C413_ex : let s := [mkP (V6 1 0 2 0 0 0) 1%Z; mkP (V6 3 0 (-1) 0 0 0) 2%Z] in cm 2 s = 5 /\ sm 2 s = -2.
Proof. destruct (C413_moments 2 [mkP (V6 1 0 2 0 0 0) 1%Z; mkP (V6 3 0 (-1) 0 0 0) 2%Z]) as (C & S). cbv zeta. rewrite C, S. cbn [sum_over zre zim pv vx vy]. lra. Qed.
(* C418: transverse momentum of a particle that only loses energy is kept exactly when it has the reference momentum, no angle or no loss *)
Theorem C418_momentum_refuted : forall c m ct st cl sl v v', w_tw c = false -> kick c (S m) ct st cl sl v = Ok v' -> ((1 + vdp v') * vxp v' = (1 + vdp v) * vxp v <-> vxp v * vdp v * (vdp v' - vdp v) = 0).
Proof.
  intros c m ct st cl sl v v' TW E. destruct (kick_ok _ _ _ _ _ _ _ _ E) as (_ & N & _ & _ & _ & DP & XP & _). rewrite TW in XP. cbv zeta in *. set (ddp := - _ / w_p0 c) in *. clearbody ddp. assert (XQ : vxp v' = vxp v / (1 + ddp)) by (apply Rmult_eq_reg_r with (1 + ddp); [rewrite XP; field; exact N|exact N]). rewrite XQ, DP. replace (vdp v + ddp - vdp v) with ddp by ring.
  assert (ID : (1 + (vdp v + ddp)) * (vxp v / (1 + ddp)) - (1 + vdp v) * vxp v = - (vxp v * vdp v * ddp) / (1 + ddp)) by (field; exact N). split; intros H.
  - assert (Z : - (vxp v * vdp v * ddp) / (1 + ddp) = 0) by lra. apply Rmult_eq_reg_r with (- / (1 + ddp)); [|apply Ropp_neq_0_compat, Rinv_neq_0_compat; exact N]. unfold Rdiv in Z. lra.
  - rewrite H in ID. unfold Rdiv in ID at 2. rewrite Ropp_0, Rmult_0_l in ID. lra.
Qed.
Print Assumptions C418_momentum_refuted.
(* C419: bunches with a thousand slices or more *)
Theorem C419_slices_refuted : forall c l, w_modes c <> O -> (1000 <= length l)%nat -> apply_wake c l = UB.
Proof. intros c l M L. unfold apply_wake. rewrite (proj2 (Nat.eqb_neq _ _) M), (proj2 (Nat.leb_le _ _) L). reflexivity. Qed.
Print Assumptions C419_slices_refuted.
