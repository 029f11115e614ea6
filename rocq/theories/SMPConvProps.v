(* C434-C441: macro-particles in frames, from beam data and from particles. *)
From Coq Require Import ZArith Lia Lra List Bool.
From Verif Require Import RBase Base Bunch SMPWake SMPConv SMPConvSpec.
Import ListNotations.
Local Open Scope R_scope.

Definition moved (f : frame) (e : ensemble) : ensemble := map (fun wv => (fst wv, seen f (snd wv))) e.
Lemma av_moved f g e : av g (moved f e) = av (fun v => g (seen f v)) e.
Proof. induction e as [|(w, v) e IH]; cbn [moved map av fst snd]; [reflexivity|]. unfold moved in IH. now rewrite IH. Qed.
Lemma av_lin F f g a b c e : (forall v, F v = a * f v + b * g v + c) -> av (fun _ => 1) e = 1 -> av F e = a * av f e + b * av g e + c.
Proof.
  intros H W. replace c with (c * av (fun _ => 1) e) at 1 by (rewrite W; ring). clear W. induction e as [|(w, v) e IH]; cbn [av]; [ring|]. rewrite IH, H. ring.
Qed.
Lemma av_bil F G f g f' g' a b c a' b' c' e : (forall v, F v = a * f v + b * g v + c) -> (forall v, G v = a' * f' v + b' * g' v + c') -> av (fun v => F v * G v) e =
  a * a' * av (fun v => f v * f' v) e + a * b' * av (fun v => f v * g' v) e + b * a' * av (fun v => g v * f' v) e + b * b' * av (fun v => g v * g' v) e + c' * (a * av f e + b * av g e) + c * (a' * av f' e + b' * av g' e) + c * c' * av (fun _ => 1) e.
Proof. intros H K. induction e as [|(w, v) e IH]; cbn [av]; [ring|]. rewrite IH, H, K. ring. Qed.
Lemma cov_lin F G f g f' g' a b c a' b' c' e : (forall v, F v = a * f v + b * g v + c) -> (forall v, G v = a' * f' v + b' * g' v + c') -> av (fun _ => 1) e = 1 ->
  cov F G e = a * a' * cov f f' e + a * b' * cov f g' e + b * a' * cov g f' e + b * b' * cov g g' e.
Proof. intros H K W. unfold cov. rewrite (av_bil F G f g f' g' a b c a' b' c' e H K), (av_lin F f g a b c e H W), (av_lin G f' g' a' b' c' e K W), W. ring. Qed.
Lemma cov_sym f g e : cov f g e = cov g f e.
Proof. unfold cov. assert (A : av (fun v => f v * g v) e = av (fun v => g v * f v) e) by (induction e as [|(w, v) e IH]; cbn [av]; [reflexivity|]; rewrite IH; ring). rewrite A. ring. Qed.
Lemma cov_moved f g h e : cov g h (moved f e) = cov (fun v => g (seen f v)) (fun v => h (seen f v)) e.
Proof. unfold cov. now rewrite !av_moved. Qed.
Lemma seen_moments f e : av (fun _ => 1) e = 1 ->
  let a := fr_m f 0 0 in let b := fr_m f 0 1 in let c := fr_m f 1 0 in let d := fr_m f 1 1 in
  av vx (moved f e) = a * (av vx e - fr_x f) + b * (av vy e - fr_y f) /\ av vxp (moved f e) = a * av vxp e + b * av vyp e + fr_m f 0 2 /\
  av vy (moved f e) = c * (av vx e - fr_x f) + d * (av vy e - fr_y f) /\ av vyp (moved f e) = c * av vxp e + d * av vyp e + fr_m f 1 2.
Proof.
  intros W. cbv zeta. rewrite !av_moved. repeat split.
  - rewrite (av_lin _ vx vy (fr_m f 0 0) (fr_m f 0 1) (- (fr_m f 0 0 * fr_x f + fr_m f 0 1 * fr_y f)) e); [ring|intros v; unfold seen; cbn [vx]; ring|exact W].
  - rewrite (av_lin _ vxp vyp (fr_m f 0 0) (fr_m f 0 1) (fr_m f 0 2) e); [ring|intros v; unfold seen; cbn [vxp]; ring|exact W].
  - rewrite (av_lin _ vx vy (fr_m f 1 0) (fr_m f 1 1) (- (fr_m f 1 0 * fr_x f + fr_m f 1 1 * fr_y f)) e); [ring|intros v; unfold seen; cbn [vy]; ring|exact W].
  - rewrite (av_lin _ vxp vyp (fr_m f 1 0) (fr_m f 1 1) (fr_m f 1 2) e); [ring|intros v; unfold seen; cbn [vyp]; ring|exact W].
Qed.
Definition is_x (k : bool) : vec6 -> R := if k then vx else vxp.
Definition is_y (k : bool) : vec6 -> R := if k then vy else vyp.
Lemma cov_seen f e : av (fun _ => 1) e = 1 -> forall i j k l : bool,
  let A := fun i => if i : bool then fr_m f 0 0 else fr_m f 1 0 in let B := fun i => if i : bool then fr_m f 0 1 else fr_m f 1 1 in
  cov (if i then is_x k else is_y k) (if j then is_x l else is_y l) (moved f e) =
  A i * A j * cov (is_x k) (is_x l) e + A i * B j * cov (is_x k) (is_y l) e + B i * A j * cov (is_y k) (is_x l) e + B i * B j * cov (is_y k) (is_y l) e.
Proof.
  intros W i j k l. cbv zeta. rewrite cov_moved.
  set (cst := fun (i k : bool) => if k then (if i then - (fr_m f 0 0 * fr_x f + fr_m f 0 1 * fr_y f) else - (fr_m f 1 0 * fr_x f + fr_m f 1 1 * fr_y f)) else (if i then fr_m f 0 2 else fr_m f 1 2)).
  apply (cov_lin _ _ _ _ _ _ _ _ (cst i k) _ _ (cst j l)); [| |exact W]; intros v; unfold cst, is_x, is_y, seen; [destruct i, k|destruct j, l]; cbn [vx vxp vy vyp]; ring.
Qed.
(* C434: a displaced and rotated macro-particle has the moments of displaced and rotated particles *)
Theorem C434_frames : forall f p e, (fr_ident f = true -> is_ident f) -> null2 (rot2 f) = false \/ fr_m f 0 0 = 1 /\ fr_m f 0 1 = 0 /\ fr_m f 1 0 = 0 /\ fr_m f 1 1 = 1 -> describes p e ->
  describes (transform f p) (moved f e) /\ vct (mv (transform f p)) = vct (mv p) /\ vdp (mv (transform f p)) = vdp (mv p) /\ mq (transform f p) = mq p.
Proof.
  intros f p e ID EX (W & X & XP & Y & YP & C).
  assert (G : describes (transform f p) (moved f e)).
  { split; [rewrite av_moved; exact W|]. destruct (seen_moments f e W) as (M1 & M2 & M3 & M4). rewrite M1, M2, M3, M4, <- X, <- XP, <- Y, <- YP.
    pose proof (cov_seen f e W) as CS. cbv zeta in CS.
    pose proof (CS true true true true) as K00. pose proof (CS true true true false) as K01. pose proof (CS true false true true) as K02. pose proof (CS true false true false) as K03. pose proof (CS true true false false) as K11. pose proof (CS true false false true) as K12. pose proof (CS true false false false) as K13. pose proof (CS false false true true) as K22. pose proof (CS false false true false) as K23. pose proof (CS false false false false) as K33. cbv iota beta delta [is_x is_y] in K00, K01, K02, K03, K11, K12, K13, K22, K23, K33. rewrite K00, K01, K02, K03, K11, K12, K13, K22, K23, K33. clear CS K00 K01 K02 K03 K11 K12 K13 K22 K23 K33.
    rewrite (cov_sym vxp vx), (cov_sym vy vx), (cov_sym vy vxp), (cov_sym vyp vx), (cov_sym vyp vxp), (cov_sym vyp vy). assert (C' := C). apply (f_equal (fun c => (c00 c, c01 c, c02 c, c03 c, c11 c, c12 c, c13 c, c22 c, c23 c, c33 c))) in C'. cbn [c00 c01 c02 c03 c11 c12 c13 c22 c23 c33] in C'. injection C' as H0 H1 H2 H3 H4 H5 H6 H7 H8 H9. rewrite <- H0, <- H1, <- H2, <- H3, <- H4, <- H5, <- H6, <- H7, <- H8, <- H9.
    assert (PC : mc p = mkC4 (c00 (mc p)) (c01 (mc p)) (c02 (mc p)) (c03 (mc p)) (c11 (mc p)) (c12 (mc p)) (c13 (mc p)) (c22 (mc p)) (c23 (mc p)) (c33 (mc p))) by now destruct (mc p).
    unfold transform. cbv zeta. destruct (fr_ident f) eqn:FI.
    - destruct (ID eq_refl) as (E1 & E2 & E3 & E4 & E5 & E6). cbn [mv mc vx vxp vy vyp]. rewrite E1, E2, E3, E4, E5, E6. do 4 (split; [ring|]). rewrite PC at 1. f_equal; ring.
    - destruct (null2 (rot2 f)) eqn:NL.
      + destruct EX as [|(E1 & E2 & E3 & E4)]; [discriminate|]. cbn [mv mc vx vxp vy vyp]. rewrite E1, E2, E3, E4. do 4 (split; [ring|]). rewrite PC at 1. f_equal; ring.
      + unfold rotate, rot2. cbv zeta. cbn [mv mc vx vxp vy vyp r11 r12 r21 r22]. do 4 (split; [ring|]). f_equal; ring. }
  split; [exact G|]. unfold transform. cbv zeta. destruct (fr_ident f); [cbn; auto|]. destruct (null2 (rot2 f)); cbn; auto.
Qed.
Print Assumptions C434_frames.
Example C434_ex : describes (mkMP (V6 0 0 0 0 0 0) (mkC4 1 0 0 0 0 0 0 0 0 0) 1) [(1 / 2, V6 1 0 0 0 0 0); (1 / 2, V6 (-1) 0 0 0 0 0)] /\ null2 (rot2 (mkFr false (fun i j => if Nat.eqb i j then 0 else 1) 0 0)) = false.
Proof. split; [unfold describes, cov; cbn [av mv mc vx vxp vy vyp]; do 5 (split; [lra|]); f_equal; lra|]. unfold null2, near1, rot2. cbn [fr_m r11 r22 Nat.eqb]. rewrite Rleb_false; [reflexivity|]. rewrite Rabs_left by lra. lra. Qed.
(* C435: small rolls are left out *)
Theorem C435_roll_refuted : forall f p, null2 (rot2 f) = true -> mc (transform f p) = mc p /\ vx (mv (transform f p)) = vx (mv p) - fr_x f /\ vy (mv (transform f p)) = vy (mv p) - fr_y f.
Proof. intros f p N. unfold transform. cbv zeta. destruct (fr_ident f); [cbn; auto|]. rewrite N. cbn; auto. Qed.
Print Assumptions C435_roll_refuted.
Theorem C435_test_refuted : forall a b c d, null2 (mkR2 a b c d) = true <-> Rabs (a - 1) <= / 1000000 /\ Rabs (d - 1) <= / 1000000.
Proof.
  intros a b c d. unfold null2, near1. cbn [r11 r22]. rewrite andb_true_iff. split; intros (A & B); split; revert A B; destruct (Rleb_spec (Rabs (a - 1)) (/ 1000000)), (Rleb_spec (Rabs (d - 1)) (/ 1000000)); intros; try discriminate; try reflexivity; lra.
Qed.
Print Assumptions C435_test_refuted.
Theorem C435_which_refuted : forall t x y, 0 <= t <= / 1000 -> null2 (rot2 (mkFr false (fun i j => match i, j with O, O => cos t | O, 1%nat => sin t | 1%nat, O => - sin t | 1%nat, 1%nat => cos t | _, _ => 0 end) x y)) = true.
Proof.
  intros t x y T. unfold null2, near1, rot2. cbn [fr_m r11 r22]. assert (B : Rabs (cos t - 1) <= / 1000000).
  { replace t with (2 * (t / 2)) by field. rewrite cos_2a_sin. assert (S : 0 <= sin (t / 2) <= t / 2). { destruct (Req_dec t 0) as [->|N]; [replace (0 / 2) with 0 by field; rewrite sin_0; lra|]. assert (0 < t / 2) by lra. split; [|left; now apply sin_lt_x]. apply sin_ge_0; [lra|]. pose proof PI_RGT_0. pose proof PI2_3_2. unfold PI2 in *. lra. }
    set (s := sin (t / 2)) in *. assert (Q : s * s <= t / 2 * (t / 2)) by (apply Rmult_le_compat; lra). assert (Q2 : t / 2 * (t / 2) <= / 2000 * / 2000) by (apply Rmult_le_compat; lra). replace (1 - 2 * s * s - 1) with (- (2 * (s * s))) by ring. rewrite Rabs_Ropp, Rabs_right; [lra|]. assert (0 <= s * s) by (apply Rmult_le_pos; lra). lra. }
  rewrite (Rleb_true _ _ B). reflexivity.
Qed.
Print Assumptions C435_which_refuted.
(* C436: the bunch from beam data: a grid of places with the charge of the part of the normal distribution *)
Lemma charge_app a b : charge_of (a ++ b) = charge_of a + charge_of b.
Proof. induction a as [|p a IH]; cbn [app charge_of]; [ring|rewrite IH; ring]. Qed.
Fixpoint lsum (l : list R) : R := match l with [] => 0 | x :: q => x + lsum q end.
Lemma dist_sum erf dx : forall n x, lsum (make_dist erf x dx n) = (1 / 2) * (erf x - erf (x + INR n * dx)).
Proof.
  induction n as [|n IH]; intros x; cbn [make_dist lsum]; [cbn [INR]; replace (x + 0 * dx) with x by ring; ring|]. rewrite IH, S_INR. unfold normal_bin. replace (x + dx + INR n * dx) with (x + (INR n + 1) * dx) by ring. ring.
Qed.
Lemma parts_sum b z ddp qz : forall l dp, charge_of (parts_of b z dp ddp qz l) = b_charge b * qz * lsum l.
Proof. induction l as [|q l IH]; intros dp; cbn [parts_of charge_of lsum mq]; [ring|rewrite IH; ring]. Qed.
Lemma slices_sum b dz dp ddp lp : forall lz z, charge_of (slices_of b z dz dp ddp lz lp) = b_charge b * lsum lz * lsum lp.
Proof. induction lz as [|q l IH]; intros z; cbn [slices_of charge_of lsum]; [ring|rewrite charge_app, parts_sum, IH; ring]. Qed.
Lemma dist_length erf dx : forall n x, length (make_dist erf x dx n) = n.
Proof. induction n; intros; cbn [make_dist length]; auto. Qed.
Lemma dist_nth erf dx : forall n x i, (i < n)%nat -> nth i (make_dist erf x dx n) 0 = (1 / 2) * (erf (x + INR i * dx) - erf (x + INR (S i) * dx)).
Proof.
  induction n as [|n IH]; intros x i I; [lia|]. destruct i as [|i]; cbn [make_dist nth]; [unfold normal_bin; cbn [INR]; f_equal; f_equal; f_equal; ring|]. rewrite IH by lia. rewrite (S_INR (S i)), (S_INR i). f_equal. f_equal; f_equal; ring.
Qed.
Lemma parts_length b z ddp qz : forall l dp, length (parts_of b z dp ddp qz l) = length l.
Proof. induction l; intros; cbn [parts_of length]; auto. Qed.
Lemma parts_nth b z ddp qz : forall l dp j, (j < length l)%nat -> nth_error (parts_of b z dp ddp qz l) j = Some (let dpj := dp + INR j * ddp in
  mkMP (V6 (vx (b_v b) + b_dx b * dpj) (vxp (b_v b) + b_dxp b * dpj) (vy (b_v b) + b_dy b * dpj) (vyp (b_v b) + b_dyp b * dpj) z dpj) (b_c b) (b_charge b * qz * nth j l 0)).
Proof.
  induction l as [|q l IH]; intros dp j J; cbn [length] in J; [lia|]. destruct j as [|j]; cbn [parts_of nth_error nth]; [cbn [INR]; replace (dp + 0 * ddp) with dp by ring; reflexivity|]. rewrite IH by lia. rewrite S_INR. replace (dp + ddp + INR j * ddp) with (dp + (INR j + 1) * ddp) by ring. reflexivity.
Qed.
Lemma slices_nth b dz dp ddp lp : forall lz z i j, (i < length lz)%nat -> (j < length lp)%nat -> nth_error (slices_of b z dz dp ddp lz lp) (i * length lp + j) = nth_error (parts_of b (z + INR i * dz) dp ddp (nth i lz 0) lp) j.
Proof.
  induction lz as [|q l IH]; intros z i j I J; cbn [length] in I; [lia|]. cbn [slices_of]. destruct i as [|i].
  - cbn [Nat.mul Nat.add nth INR]. rewrite nth_error_app1 by now rewrite parts_length. replace (z + 0 * dz) with z by ring. reflexivity.
  - rewrite nth_error_app2 by (rewrite parts_length; lia). rewrite parts_length. replace (S i * length lp + j - length lp)%nat with (i * length lp + j)%nat by lia. rewrite IH by lia. cbn [nth]. rewrite S_INR. replace (z + dz + INR i * dz) with (z + (INR i + 1) * dz) by ring. reflexivity.
Qed.
Lemma slices_length b dz dp ddp lp : forall lz z, length (slices_of b z dz dp ddp lz lp) = (length lz * length lp)%nat.
Proof. induction lz as [|q l IH]; intros z; cbn [slices_of length]; [reflexivity|]. rewrite app_length, parts_length, IH. lia. Qed.
Theorem C436_grid : forall erf b ns np nz ndp i j, (i < ns)%nat -> (j < np)%nat -> length (construct erf b ns np nz ndp) = (ns * np)%nat /\ exists p, nth_error (construct erf b ns np nz ndp) (i * np + j) = Some p /\
  let zi := fun t => - nz + t * (2 * nz / INR ns) in let di := fun t => - ndp + t * (2 * ndp / INR np) in
  vct (mv p) = zi (INR i + 1 / 2) * b_sz b /\ vdp (mv p) = di (INR j + 1 / 2) * b_sdp b /\ mc p = b_c b /\
  vx (mv p) = vx (b_v b) + b_dx b * vdp (mv p) /\ vxp (mv p) = vxp (b_v b) + b_dxp b * vdp (mv p) /\ vy (mv p) = vy (b_v b) + b_dy b * vdp (mv p) /\ vyp (mv p) = vyp (b_v b) + b_dyp b * vdp (mv p) /\
  mq p = b_charge b * ((erf (zi (INR i)) - erf (zi (INR (S i)))) / 2) * ((erf (di (INR j)) - erf (di (INR (S j)))) / 2).
Proof.
  intros erf b ns np nz ndp i j I J. unfold construct. cbv zeta. split; [now rewrite slices_length, !dist_length|]. set (zd := make_dist erf (- nz) (2 * nz / INR ns) ns). set (pd := make_dist erf (- ndp) (2 * ndp / INR np) np). assert (LP : length pd = np) by apply dist_length. assert (LZ : length zd = ns) by apply dist_length. replace (i * np + j)%nat with (i * length pd + j)%nat by now rewrite LP. rewrite slices_nth by lia. rewrite parts_nth by lia. eexists. split; [reflexivity|]. cbv zeta. cbn [mv mc mq vct vdp vx vxp vy vyp]. assert (N1 : INR ns <> 0) by (apply not_0_INR; lia). assert (N2 : INR np <> 0) by (apply not_0_INR; lia).
  split; [field; exact N1|]. split; [field; exact N2|]. do 5 (split; [reflexivity|]). unfold zd, pd. rewrite !dist_nth by assumption. field.
Qed.
Print Assumptions C436_grid.
(* C437: the charge is that of the part of the distribution inside the limits, not that of the beam *)
Theorem C437_charge_refuted : forall erf b ns np nz ndp, (0 < ns)%nat -> (0 < np)%nat -> charge_of (construct erf b ns np nz ndp) = b_charge b * ((erf (- nz) - erf nz) / 2) * ((erf (- ndp) - erf ndp) / 2).
Proof.
  intros erf b ns np nz ndp A B. unfold construct. cbv zeta. rewrite slices_sum, !dist_sum. assert (N1 : INR ns <> 0) by (apply not_0_INR; lia). assert (N2 : INR np <> 0) by (apply not_0_INR; lia). replace (- nz + INR ns * (2 * nz / INR ns)) with nz by (field; exact N1). replace (- ndp + INR np * (2 * ndp / INR np)) with ndp by (field; exact N2). field.
Qed.
Print Assumptions C437_charge_refuted.
(* C438: from particles: the charge is that of the particles inside the limits; without limits all are *)
Fixpoint ssum (f : nat -> R) (n : nat) : R := match n with O => 0 | S k => ssum f k + f k end.
Lemma ssum_ext f g n : (forall i, (i < n)%nat -> f i = g i) -> ssum f n = ssum g n.
Proof. induction n as [|n IH]; intros H; cbn [ssum]; [reflexivity|]. rewrite IH, (H n) by (intros; try apply H; lia). reflexivity. Qed.
Lemma ssum_add f g n : ssum (fun i => f i + g i) n = ssum f n + ssum g n.
Proof. induction n as [|n IH]; cbn [ssum]; [ring|rewrite IH; ring]. Qed.
Lemma ssum_0 n : ssum (fun _ => 0) n = 0.
Proof. induction n as [|n IH]; cbn [ssum]; [reflexivity|rewrite IH; ring]. Qed.
Lemma ssum_mul a f n : ssum (fun i => a * f i) n = a * ssum f n.
Proof. induction n as [|n IH]; cbn [ssum]; [ring|rewrite IH; ring]. Qed.
Lemma ssum_one k v n : (k < n)%nat -> ssum (fun i => if Nat.eqb k i then v else 0) n = v.
Proof.
  induction n as [|n IH]; intros K; [lia|]. cbn [ssum]. destruct (Nat.eqb_spec k n) as [->|N]; [|rewrite IH by lia; ring]. rewrite (ssum_ext _ (fun _ => 0)); [rewrite ssum_0; ring|]. intros i I. destruct (Nat.eqb_spec n i); [lia|reflexivity].
Qed.
Lemma charge_seq (f : nat -> mp) : forall n a, charge_of (map f (seq a n)) = ssum (fun i => mq (f (a + i)%nat)) n.
Proof.
  induction n as [|n IH]; intros a; [reflexivity|]. rewrite seq_S, map_app, charge_app, IH. cbn [map charge_of ssum]. ring.
Qed.
Lemma charge_flat (f : nat -> list mp) : forall n, charge_of (flat_map f (seq 0 n)) = ssum (fun i => charge_of (f i)) n.
Proof.
  induction n as [|n IH]; [reflexivity|]. rewrite seq_S, flat_map_app, charge_app, IH. cbn [flat_map ssum Nat.add]. rewrite app_nil_r. reflexivity.
Qed.
Lemma count_sum n m : forall l, Forall (fun ab => inside n (fst ab) = true /\ inside m (snd ab) = true) l -> ssum (fun i => ssum (fun j => INR (count (Z.of_nat i) (Z.of_nat j) l)) m) n = INR (length l).
Proof.
  induction l as [|(a, b) l IH]; intros F.
  - cbn [count length INR]. rewrite (ssum_ext _ (fun _ => 0)); [apply ssum_0|]. intros. apply ssum_0.
  - inversion F as [|x y (A & B) F']; subst. cbn [fst snd] in A, B. unfold inside in A, B. apply andb_prop in A as (A1 & A2). apply andb_prop in B as (B1 & B2). apply Z.leb_le in A1, B1. apply Z.ltb_lt in A2, B2. cbn [length]. rewrite S_INR, <- (IH F'). rewrite (ssum_ext _ (fun i => (if Nat.eqb (Z.to_nat a) i then 1 else 0) + ssum (fun j => INR (count (Z.of_nat i) (Z.of_nat j) l)) m)).
    + rewrite ssum_add, ssum_one by lia. ring.
    + intros i I. rewrite (ssum_ext _ (fun j => (if Nat.eqb (Z.to_nat b) j then (if Nat.eqb (Z.to_nat a) i then 1 else 0) else 0) + INR (count (Z.of_nat i) (Z.of_nat j) l))); [rewrite ssum_add, ssum_one by lia; reflexivity|]. intros j J. cbn [count]. rewrite plus_INR. f_equal. destruct (Z.eqb_spec a (Z.of_nat i)), (Z.eqb_spec b (Z.of_nat j)), (Nat.eqb_spec (Z.to_nat a) i), (Nat.eqb_spec (Z.to_nat b) j); try lia; reflexivity.
Qed.
Lemma bins_inside c d n m : forall l h, bins_of c d n m l = Ok h -> Forall (fun ab => inside n (fst ab) = true /\ inside m (snd ab) = true) h.
Proof.
  induction l as [|p l IH]; intros h E; cbn [bins_of] in E; [injection E as <-; constructor|]. destruct (bin_of _ _ n _) as [a| |]; cbn [bind] in E; try discriminate. destruct (bin_of _ _ m _) as [b| |]; cbn [bind] in E; try discriminate. destruct (bins_of c d n m l) as [r| |]; cbn [bind] in E; try discriminate. injection E as <-. destruct (inside n a) eqn:A, (inside m b) eqn:B; cbn [andb]; try (now apply IH). constructor; [auto|now apply IH].
Qed.
Theorem C438_charge : forall qtot sz sdp nz ndp v c4 n m l r, convert qtot sz sdp nz ndp v c4 n m l = Ok r -> exists h, bins_of (limits vct nz sz l) (limits vdp ndp sdp l) n m l = Ok h /\ length r = (n * m)%nat /\ charge_of r = qtot * INR (length h) / INR (length l).
Proof.
  intros qtot sz sdp nz ndp v c4 n m l r E. unfold convert in E. cbv zeta in E. destruct (bins_of _ _ _ _ l) as [h| |] eqn:B; cbn [bind] in E; try discriminate. exists h. split; [reflexivity|]. destruct l as [|p l]; [discriminate|]. set (N := length (p :: l)) in *. injection E as <-. split.
  - rewrite <- (seq_length n 0) at 2. generalize (seq 0 n) as s. induction s as [|i s IH]; cbn [flat_map length]; [reflexivity|]. rewrite app_length, IH, map_length, seq_length. lia.
  - rewrite charge_flat, (ssum_ext _ (fun i => qtot / INR N * ssum (fun j => INR (count (Z.of_nat i) (Z.of_nat j) h)) m)); [rewrite ssum_mul, (count_sum n m h (bins_inside _ _ _ _ _ _ B)); unfold Rdiv; ring|]. intros i I. rewrite charge_seq. cbn [mq Nat.add]. apply ssum_mul.
Qed.
Print Assumptions C438_charge.
Lemma range_ok f : forall l m, let r := fold_left (fun m p => let x := f (pv p) in ((if Rltb x (fst m) then x else fst m), (if Rltb (snd m) x then x else snd m))) l m in
  fst r <= fst m /\ snd m <= snd r /\ Forall (fun p => fst r <= f (pv p) <= snd r) l.
Proof.
  induction l as [|p l IH]; intros m; cbn [fold_left]; [cbv zeta; repeat split; try lra; constructor|]. cbv zeta. destruct (IH ((if Rltb (f (pv p)) (fst m) then f (pv p) else fst m), (if Rltb (snd m) (f (pv p)) then f (pv p) else snd m))) as (A & B & C). cbv zeta in A, B, C. cbn [fst snd] in A, B. revert A B. destruct (Rltb_spec (f (pv p)) (fst m)), (Rltb_spec (snd m) (f (pv p))); intros A B; (split; [lra|]; split; [lra|]; constructor; [lra|exact C]).
Qed.
Lemma range_all f l : Forall (fun p => fst (range f l) <= f (pv p) <= snd (range f l)) l.
Proof. exact (proj2 (proj2 (range_ok f l (0, 0)))). Qed.
Lemma trunc_range y n : 0 <= y <= IZR n -> (0 <= trunc y <= n)%Z.
Proof.
  intros (A & B). unfold trunc. rewrite Rleb_true by exact A. destruct (base_Int_part y) as (C & D). split; [|apply le_IZR; lra]. assert (-1 < Int_part y)%Z by (apply lt_IZR; lra). lia.
Qed.
Lemma bin_in mn mx n x z : mn <= x <= mx -> (0 < n)%nat -> bin_of mn mx n x = Ok z -> inside n z = true.
Proof.
  intros X N E. unfold bin_of in E. destruct (Reqb_spec (mx - mn) 0) as [|D]; [discriminate|]. cbv zeta in E. destruct (Rltb _ _); [discriminate|]. destruct (Rltb _ _); [discriminate|]. injection E as <-. assert (DP : 0 < mx - mn) by lra. assert (K : 0 <= IZR (Z.of_nat n - 1)) by (apply IZR_le; lia). assert (T : 0 <= (x - mn) / (mx - mn) <= 1). { split; [apply Rmult_le_pos; [lra|left; now apply Rinv_0_lt_compat]|]. apply Rmult_le_reg_r with (mx - mn); [exact DP|]. unfold Rdiv. rewrite Rmult_assoc, Rinv_l by lra. lra. }
  destruct (trunc_range ((x - mn) * (IZR (Z.of_nat n - 1) / (mx - mn))) (Z.of_nat n - 1)) as (A & B). { replace ((x - mn) * (IZR (Z.of_nat n - 1) / (mx - mn))) with ((x - mn) / (mx - mn) * IZR (Z.of_nat n - 1)) by (field; lra). split; [apply Rmult_le_pos; lra|]. rewrite <- (Rmult_1_l (IZR (Z.of_nat n - 1))) at 2. apply Rmult_le_compat_r; lra. }
  unfold inside. apply andb_true_intro. split; [apply Z.leb_le|apply Z.ltb_lt]; lia.
Qed.
Theorem C439_all : forall qtot sz sdp v c4 n m l r, (0 < n)%nat -> (0 < m)%nat -> convert qtot sz sdp 0 0 v c4 n m l = Ok r -> charge_of r = qtot.
Proof.
  intros qtot sz sdp v c4 n m l r N M E. assert (NE : l <> []) by (intros ->; discriminate E). destruct (C438_charge _ _ _ _ _ _ _ _ _ _ _ E) as (h & B & _ & ->). assert (LL : length h = length l).
  { unfold limits in B. rewrite (Reqb_true 0 0) in B by reflexivity. pose proof (range_all vct l) as F1. pose proof (range_all vdp l) as F2. set (c := range vct l) in *. clearbody c. set (d := range vdp l) in *. clearbody d. clear E NE. revert h B F1 F2. induction l as [|p l IH]; intros h B F1 F2; cbn [bins_of] in B; [now injection B as <-|]. inversion F1 as [|? ? P1 G1]; inversion F2 as [|? ? P2 G2]; subst. destruct (bin_of _ _ n _) as [a| |] eqn:BA; cbn [bind] in B; try discriminate. destruct (bin_of _ _ m _) as [b| |] eqn:BB; cbn [bind] in B; try discriminate. destruct (bins_of c d n m l) as [r'| |] eqn:BR; cbn [bind] in B; try discriminate. rewrite (bin_in _ _ _ _ _ P1 N BA), (bin_in _ _ _ _ _ P2 M BB) in B. cbn [andb] in B. injection B as <-. cbn [length]. f_equal. now apply IH. }
  rewrite LL. field. apply not_0_INR. destruct l; [now destruct NE|discriminate].
Qed.
Print Assumptions C439_all.
(* C440: no particle below the upper limit is in the last bin *)
Theorem C440_last_refuted : forall mn mx n x z, (2 <= n)%nat -> mn < mx -> x < mx -> bin_of mn mx n x = Ok z -> (z < Z.of_nat n - 1)%Z.
Proof.
  intros mn mx n x z N L X E. unfold bin_of in E. destruct (Reqb_spec (mx - mn) 0); [discriminate|]. cbv zeta in E. destruct (Rltb _ _); [discriminate|]. destruct (Rltb _ _); [discriminate|]. injection E as <-. set (y := (x - mn) * (IZR (Z.of_nat n - 1) / (mx - mn))). assert (K : 0 < IZR (Z.of_nat n - 1)) by (apply IZR_lt; lia). assert (Y : y < IZR (Z.of_nat n - 1)). { unfold y. replace (IZR (Z.of_nat n - 1)) with ((mx - mn) * (IZR (Z.of_nat n - 1) / (mx - mn))) at 2 by (field; lra). apply Rmult_lt_compat_r; [apply Rmult_lt_0_compat; [exact K|apply Rinv_0_lt_compat; lra]|lra]. }
  unfold trunc. destruct (Rleb_spec 0 y) as [P|P]; [destruct (base_Int_part y) as (C & _); apply lt_IZR; lra|]. destruct (base_Int_part (- y)) as (_ & D). assert (-1 < Int_part (- y))%Z by (apply lt_IZR; lra). lia.
Qed.
Print Assumptions C440_last_refuted.
Theorem C440_below_refuted : forall mn mx n x, mn < mx -> mn - (mx - mn) / IZR (Z.of_nat n - 1) < x < mn -> (2 <= n)%nat -> bin_of mn mx n x = Ok 0%Z.
Proof.
  intros mn mx n x L X N. unfold bin_of. rewrite Reqb_false by lra. cbv zeta. set (y := (x - mn) * (IZR (Z.of_nat n - 1) / (mx - mn))). assert (K : 0 < IZR (Z.of_nat n - 1)) by (apply IZR_lt; lia). assert (KK : 0 < IZR (Z.of_nat n - 1) / (mx - mn)) by (apply Rmult_lt_0_compat; [exact K|apply Rinv_0_lt_compat; lra]). assert (Y : -1 < y < 0). { unfold y. split; [|apply Rmult_lt_reg_r with (/ (IZR (Z.of_nat n - 1) / (mx - mn))); [now apply Rinv_0_lt_compat|]; rewrite Rmult_assoc, Rinv_r by lra; lra]. replace (-1) with (- ((mx - mn) / IZR (Z.of_nat n - 1)) * (IZR (Z.of_nat n - 1) / (mx - mn))) by (field; lra). apply Rmult_lt_compat_r; lra. }
  rewrite !Rltb_false by lra. f_equal. unfold trunc. rewrite Rleb_false by lra. destruct (base_Int_part (- y)) as (C & D). assert (-1 < Int_part (- y))%Z by (apply lt_IZR; lra). assert (Int_part (- y) < 1)%Z by (apply lt_IZR; lra). lia.
Qed.
Print Assumptions C440_below_refuted.
(* C441: no spread, no bunch *)
Theorem C441_spread_refuted : forall qtot sz sdp v c4 n m p l, Forall (fun q => vct (pv q) = 0) (p :: l) -> convert qtot sz sdp 0 0 v c4 n m (p :: l) = UB.
Proof.
  intros qtot sz sdp v c4 n m p l F. unfold convert, limits. rewrite (Reqb_true 0 0) by reflexivity. cbv zeta. assert (RR : range vct (p :: l) = (0, 0)). { unfold range. revert F. generalize (p :: l). induction l0 as [|q l0 IH]; intros F; cbn [fold_left]; [reflexivity|]. inversion F as [|? ? Q F']; subst. cbv zeta. cbn [fst snd]. rewrite Q, Rltb_false by lra. now apply IH. }
  rewrite RR. cbn [bins_of fst snd]. unfold bin_of at 1. rewrite Reqb_true by ring. reflexivity.
Qed.
Print Assumptions C441_spread_refuted.
(* the cells: places in the middle of n by m cells of the range, and the particles with these bins *)
Definition same_bin (r : swres Z) (i : nat) : bool := match r with Ok z => Z.eqb z (Z.of_nat i) | _ => false end.
Definition in_cell (c d : R * R) (n m i j : nat) (p : particle) : bool := (same_bin (bin_of (fst c) (snd c) n (vct (pv p))) i && same_bin (bin_of (fst d) (snd d) m (vdp (pv p))) j)%bool.
Lemma flat_nth {A} (f : nat -> list A) m : (forall k, length (f k) = m) -> forall n a i j, (i < n)%nat -> (j < m)%nat -> nth_error (flat_map f (seq a n)) (i * m + j) = nth_error (f (a + i)%nat) j.
Proof.
  intros L. induction n as [|n IH]; intros a i j I J; [lia|]. cbn [seq flat_map]. destruct i as [|i].
  - cbn [Nat.mul Nat.add]. rewrite nth_error_app1 by now rewrite L. now rewrite Nat.add_0_r.
  - rewrite nth_error_app2 by (rewrite L; lia). rewrite L. replace (S i * m + j - m)%nat with (i * m + j)%nat by lia. rewrite IH by lia. f_equal. f_equal. lia.
Qed.
Lemma count_cell c d n m i j : (i < n)%nat -> (j < m)%nat -> forall l h, bins_of c d n m l = Ok h -> count (Z.of_nat i) (Z.of_nat j) h = length (filter (in_cell c d n m i j) l).
Proof.
  intros I J. induction l as [|p l IH]; intros h E; cbn [bins_of filter] in *; [now injection E as <-|]. unfold in_cell at 1. destruct (bin_of (fst c) (snd c) n _) as [a| |]; cbn [bind same_bin] in *; try discriminate. destruct (bin_of (fst d) (snd d) m _) as [b| |]; cbn [bind same_bin] in *; try discriminate. destruct (bins_of c d n m l) as [r| |]; cbn [bind] in E; try discriminate. injection E as <-. destruct (inside n a && inside m b)%bool eqn:IN; cbn [count].
  - rewrite (IH r eq_refl). destruct (Z.eqb a (Z.of_nat i)), (Z.eqb b (Z.of_nat j)); cbn [andb length]; lia.
  - rewrite (IH r eq_refl). destruct (Z.eqb_spec a (Z.of_nat i)) as [->|], (Z.eqb_spec b (Z.of_nat j)) as [->|]; cbn [andb]; try reflexivity. exfalso. unfold inside in IN. rewrite !(proj2 (Z.leb_le 0 (Z.of_nat _))) in IN by lia. rewrite !(proj2 (Z.ltb_lt (Z.of_nat _) _)) in IN by lia. discriminate.
Qed.
Theorem C438_cells : forall qtot sz sdp nz ndp v c4 n m l r i j, convert qtot sz sdp nz ndp v c4 n m l = Ok r -> (i < n)%nat -> (j < m)%nat ->
  let c := limits vct nz sz l in let d := limits vdp ndp sdp l in exists p, nth_error r (i * m + j) = Some p /\
  vct (mv p) = fst c + (INR i + 1 / 2) * ((snd c - fst c) / INR n) /\ vdp (mv p) = fst d + (INR j + 1 / 2) * ((snd d - fst d) / INR m) /\ vx (mv p) = vx v /\ vxp (mv p) = vxp v /\ vy (mv p) = vy v /\ vyp (mv p) = vyp v /\ mc p = c4 /\
  mq p = qtot / INR (length l) * INR (length (filter (in_cell c d n m i j) l)).
Proof.
  intros qtot sz sdp nz ndp v c4 n m l r i j E I J. cbv zeta. unfold convert in E. cbv zeta in E. destruct (bins_of _ _ _ _ l) as [h| |] eqn:B; cbn [bind] in E; try discriminate. destruct l as [|p l]; [discriminate|]. remember (p :: l) as ll. injection E as <-. rewrite (flat_nth _ m) by (try (intros; rewrite map_length, seq_length); auto). cbn [Nat.add]. rewrite nth_error_map. assert (NS : nth_error (seq 0 m) j = Some j) by (rewrite (nth_error_nth' _ 0%nat) by (now rewrite seq_length); rewrite seq_nth by exact J; reflexivity). rewrite NS. cbn [option_map]. eexists. split; [reflexivity|]. cbn [mv mc mq vx vxp vy vyp vct vdp]. unfold place. assert (N1 : INR n <> 0) by (apply not_0_INR; lia). assert (N2 : INR m <> 0) by (apply not_0_INR; lia). split; [field; exact N1|]. split; [field; exact N2|]. do 5 (split; [reflexivity|]). now rewrite (count_cell _ _ _ _ _ _ I J _ _ B).
Qed.
Print Assumptions C438_cells.
Theorem C438_limits : forall f ns sig l, (ns <> 0 -> limits f ns sig l = (- (ns * sig), ns * sig)) /\ (let r := limits f 0 sig l in fst r <= 0 <= snd r /\ Forall (fun p => fst r <= f (pv p) <= snd r) l /\ (fst r = 0 \/ exists p, In p l /\ fst r = f (pv p)) /\ (snd r = 0 \/ exists p, In p l /\ snd r = f (pv p))).
Proof.
  intros f ns sig l. unfold limits. split; [intros N; now rewrite Reqb_false|]. rewrite (Reqb_true 0 0) by reflexivity. cbv zeta. destruct (range_ok f l (0, 0)) as (A & B & _). cbv zeta in A, B. cbn [fst snd] in A, B. split; [split; assumption|]. split; [apply range_all|].
  assert (G : forall l m, let r := fold_left (fun m p => let x := f (pv p) in ((if Rltb x (fst m) then x else fst m), (if Rltb (snd m) x then x else snd m))) l m in (fst r = fst m \/ exists p, In p l /\ fst r = f (pv p)) /\ (snd r = snd m \/ exists p, In p l /\ snd r = f (pv p))).
  { clear. induction l as [|p l IH]; intros m; cbn [fold_left]; cbv zeta; [auto|]. destruct (IH ((if Rltb (f (pv p)) (fst m) then f (pv p) else fst m), (if Rltb (snd m) (f (pv p)) then f (pv p) else snd m))) as (C & D). cbv zeta in C, D. cbn [fst snd] in C, D. split.
    - destruct C as [C|(q & Q & C)]; [|right; exists q; split; [now right|exact C]]. destruct (Rltb _ (fst m)); [right; exists p; split; [now left|exact C]|left; exact C].
    - destruct D as [D|(q & Q & D)]; [|right; exists q; split; [now right|exact D]]. destruct (Rltb (snd m) _); [right; exists p; split; [now left|exact D]|left; exact D]. }
  exact (G l (0, 0)).
Qed.
Print Assumptions C438_limits.
Theorem C438_bin : forall mn mx n x z, (2 <= n)%nat -> mn < mx -> mn <= x -> bin_of mn mx n x = Ok z -> let w := (mx - mn) / IZR (Z.of_nat n - 1) in IZR z * w <= x - mn < (IZR z + 1) * w.
Proof.
  intros mn mx n x z N L X E. cbv zeta. unfold bin_of in E. rewrite Reqb_false in E by lra. cbv zeta in E. assert (K : 0 < IZR (Z.of_nat n - 1)) by (apply IZR_lt; lia). set (k := IZR (Z.of_nat n - 1)) in *. set (y := (x - mn) * (k / (mx - mn))) in *. destruct (Rltb y _); [discriminate|]. destruct (Rltb _ y); [discriminate|]. injection E as <-.
  assert (Y : 0 <= y) by (apply Rmult_le_pos; [lra|apply Rlt_le, Rdiv_lt_0_compat; lra]). unfold trunc. rewrite Rleb_true by exact Y. destruct (base_Int_part y) as (A & B). assert (W : 0 < (mx - mn) / k) by (apply Rdiv_lt_0_compat; lra). replace (x - mn) with (y * ((mx - mn) / k)) by (unfold y; field; lra). split; [apply Rmult_le_compat_r; lra|apply Rmult_lt_compat_r; lra].
Qed.
Print Assumptions C438_bin.
Example C439_ex : exists r, convert 2 1 1 0 0 (V6 0 0 0 0 0 0) (mkC4 1 0 0 0 1 0 0 1 0 1) 2 2 [mkP (V6 0 0 0 0 1 1) 1%Z; mkP (V6 0 0 0 0 (-1) (-1)) 2%Z] = Ok r.
Proof.
  unfold convert, limits. rewrite (Reqb_true 0 0) by reflexivity. cbv zeta. unfold range. cbn [fold_left pv vct vdp fst snd]. rewrite (Rltb_false 1 0), (Rltb_true 0 1) by lra. rewrite (Rltb_true (-1) 0), (Rltb_false 1 (-1)) by lra. cbn [bins_of fst snd pv vct vdp]. unfold bin_of. rewrite (Reqb_false (1 - -1) 0) by lra. cbv zeta. replace (IZR (Z.of_nat 2 - 1)) with 1 by reflexivity.
  rewrite !(Rltb_false ((1 - -1) * (1 / (1 - -1)))), !(Rltb_false 2147483647 ((1 - -1) * (1 / (1 - -1)))), !(Rltb_false ((-1 - -1) * (1 / (1 - -1)))), !(Rltb_false 2147483647 ((-1 - -1) * (1 / (1 - -1)))) by lra. cbn [bind]. eexists. reflexivity.
Qed.
