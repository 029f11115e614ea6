(* C78: quadrupoles and rotations of sliced bunches *)
From Coq Require Import ZArith Lia.
From Verif Require Import RBase Cov CovProofs Bunch BunchSpec BunchProofs Optics OpticsSpec OpticsProofs SparseMap SparseMapSpec SparseMapProofs SparseMapProps SmpLens.
Local Open Scope R_scope.

Lemma congruence_times n A B g i j : congruence n A (congruence n B g) i j = congruence n (times n A B) g i j.
Proof.
  unfold congruence, times.
  transitivity (sum (fun k => sum (fun l => sum (fun a => sum (fun b => A i k * B k a * g a b * (A j l * B l b)) (seq 0 n)) (seq 0 n)) (seq 0 n)) (seq 0 n)).
  - apply sum_ext. intros k _. apply sum_ext. intros l _. rewrite <- sum_scal, <- sum_scal_r. apply sum_ext. intros a _. rewrite <- sum_scal, <- sum_scal_r. apply sum_ext. intros b _. ring.
  - rewrite (sum_ext _ (fun k => sum (fun a => sum (fun l => sum (fun b => A i k * B k a * g a b * (A j l * B l b)) (seq 0 n)) (seq 0 n)) (seq 0 n))) by (intros; apply sum_swap).
    rewrite sum_swap. apply sum_ext. intros a _.
    rewrite (sum_ext _ (fun k => sum (fun b => sum (fun l => A i k * B k a * g a b * (A j l * B l b)) (seq 0 n)) (seq 0 n))) by (intros; apply sum_swap).
    rewrite sum_swap. apply sum_ext. intros b _. rewrite <- sum_scal_r, <- sum_scal_r. apply sum_ext. intros k _. rewrite <- sum_scal. apply sum_ext. intros l _. ring.
Qed.
Lemma congruence_extM n A B g i j : meq n A B -> (i < n)%nat -> (j < n)%nat -> congruence n A g i j = congruence n B g i j.
Proof.
  intros H Hi Hj. unfold congruence. apply sum_ext. intros k K. apply sum_ext. intros l L. apply in_seq in K, L. now rewrite !H by lia.
Qed.
Lemma quad_plane_form l K : quad_plane l K = R2 (Cf K l) (Sf K l) (- K * Sf K l) (Cf K l).
Proof.
  unfold quad_plane. kcase K; cbn zeta; f_equal; try ring.
  - rewrite <- H0 at 3. field. lra.
  - replace K with (- (sqrt (- K) * sqrt (- K))) at 3 by lra. field. lra.
Qed.
(* the matrix of a quadrupole for the momentum of the slice *)
Definition lens_matrix (l K : R) : mtx := bend_form l 0 K.
Lemma block_quad l K : meq 4 (block (quad_plane l K) (quad_plane l (- K))) (bend_form l 0 K).
Proof.
  intros i j Hi Hj. rewrite !quad_plane_form. unfold block, bend_form. replace (K + 0 * 0) with K by ring. six i; six j; cbn; try reflexivity; ring.
Qed.
Lemma planes_ok l K m d g : holds 4 d g -> (forall a b, g a b = g b a) -> exists d', planes (quad_plane l K) (quad_plane l (- K)) (m, d) = Ok (apply_m 4 (bend_form l 0 K) m, d') /\
  holds 4 d' (congruence 4 (bend_form l 0 K) g).
Proof.
  intros H S. destruct (r2_all (quad_plane l K) (quad_plane l (- K)) m d g H S) as (d' & E & H'). exists d'. split.
  - unfold planes. cbn [bind] in *. rewrite E. do 2 f_equal. rewrite !quad_plane_form. apply vec6_eq. intros i Hi. rewrite apply_coord by exact Hi.
    unfold bend_form. replace (K + 0 * 0) with K by ring. six i; cbn; try reflexivity; ring.
  - eapply holds_ext; [|exact H']. intros i j Hij. apply congruence_extM; [apply block_quad|lia|lia].
Qed.

Lemma restore_apply M x : restore (vct x) (vdp x) (apply_m 4 M x) = apply_m 4 M x.
Proof. reflexivity. Qed.
(* a plain quadrupole: the slice is transported with the gradient seen by its
   momentum, its spread with it *)
Theorem C166_thick len k1 c d g : holds 4 d g -> (forall a b, g a b = g b a) -> let M := bend_form len 0 (k1 / (1 + vdp c)) in exists M' d',
  quadrupole 4 len (k1 / (1 + vdp c)) = Ok M' /\ meq 4 M M' /\ thick_lens len 0 0 k1 (c, d) = Ok (apply_m 4 M' c, d') /\ holds 4 d' (congruence 4 M' g).
Proof.
  intros H S M. destruct (sbr_form 4 len 0 (k1 / (1 + vdp c)) (or_introl eq_refl)) as (M' & E & F). fold (quadrupole 4 len (k1 / (1 + vdp c))) in E.
  exists M'. unfold thick_lens. cbn [fst snd]. destruct (Reqb_spec 0 0); [|lra]. cbn [andb negb].
  replace (- k1 / (1 + vdp c)) with (- (k1 / (1 + vdp c))) by (unfold Rdiv; ring).
  destruct (planes_ok len (k1 / (1 + vdp c)) c d g H S) as (d' & E' & H'). exists d'. rewrite E'. cbn [bind fst snd]. rewrite restore_apply.
  split; [exact E|]. split; [apply meq_sym; exact F|]. split.
  - do 2 f_equal. apply vec6_eq. intros i Hi. rewrite !apply_coord by exact Hi. destruct (Nat.ltb_spec i 4); [|reflexivity]. apply sum_ext. intros j J. apply in_seq in J. now rewrite F by lia.
  - eapply holds_ext; [|exact H']. intros i j Hij. apply congruence_extM; [apply meq_sym; exact F|lia|lia].
Qed.
Print Assumptions C166_thick.
(* with a dipole part: the kick is given in the middle, the spread does not see it *)
Theorem C166_thick_dipole len k0r k0i k1 c d g : holds 4 d g -> (forall a b, g a b = g b a) -> (k0r, k0i) <> (0, 0) -> let K := k1 / (1 + vdp c) in exists H W d',
  quadrupole 4 (len / 2) K = Ok H /\ quadrupole 4 len K = Ok W /\
  thick_lens len k0r k0i k1 (c, d) = Ok (apply_m 4 H (kicked (- k0r * len / (1 + vdp c)) (k0i * len / (1 + vdp c)) (apply_m 4 H c)), d') /\
  holds 4 d' (congruence 4 W g).
Proof.
  intros Hd S N K. destruct (sbr_form 4 (len / 2) 0 K (or_introl eq_refl)) as (H & EH & FH). fold (quadrupole 4 (len / 2) K) in EH.
  destruct (sbr_form 4 len 0 K (or_introl eq_refl)) as (W & EW & FW). fold (quadrupole 4 len K) in EW. exists H, W.
  assert (D : (Reqb k0r 0 && Reqb k0i 0)%bool = false).
  { destruct (Reqb_spec k0r 0), (Reqb_spec k0i 0); subst; try reflexivity. contradiction. }
  unfold thick_lens. cbn [fst snd]. rewrite D. cbn [negb]. replace (- k1 / (1 + vdp c)) with (- K) by (unfold K, Rdiv; ring). fold K.
  destruct (planes_ok (len / 2) K c d g Hd S) as (d1 & E1 & H1). rewrite E1. cbn [bind fst snd].
  destruct (planes_ok (len / 2) K (kicked (- k0r * len / (1 + vdp c)) (k0i * len / (1 + vdp c)) (apply_m 4 (bend_form (len / 2) 0 K) c)) d1 _ H1) as (d2 & E2 & H2).
  { intros a b. now apply congruence_sym. }
  rewrite E2. cbn [bind fst snd]. exists d2. split; [exact EH|]. split; [exact EW|].
  assert (EX : forall x, apply_m 4 (bend_form (len / 2) 0 K) x = apply_m 4 H x).
  { intros x. apply vec6_eq. intros i Hi. rewrite !apply_coord by exact Hi. destruct (Nat.ltb_spec i 4); [|reflexivity]. apply sum_ext. intros j J. apply in_seq in J. now rewrite FH by lia. }
  split.
  - rewrite !EX. reflexivity.
  - eapply holds_ext; [|exact H2]. intros i j Hij. rewrite congruence_times. apply congruence_extM; [|lia|lia].
    eapply meq_trans; [apply meq_sym, bend_form_plus; auto|]. replace (len / 2 + len / 2) with len by field. apply meq_sym. exact FW.
Qed.
Print Assumptions C166_thick_dipole.
Example C78_thick_ex : holds 4 (zero 4) (fun _ _ => 0) /\ (1, 0) <> (0, 0).
Proof. split; [exact (zero_holds 4)|]. intros E. injection E. lra. Qed.

(* ---- thin lenses ---- *)
Lemma sparse_kick k kk c d g : holds 4 d g -> (forall a b, g a b = g b a) -> exists m d', add_all (ident_terms 3 ++ [(2%nat, 1%nat, k); (4%nat, 3%nat, kk)]) (empty 0) = Ok m /\
  act_moments 4 m (c, d) = Ok (V6 (vx c) (vxp c + k * vx c) (vy c) (vyp c + kk * vy c) (vct c) (vdp c), d') /\ holds 4 d' (congruence 4 (thin_lens k kk) g).
Proof.
  intros H S. rewrite built by (cbn; lia). set (m := mkS 0 0 _). destruct (C148_sparse_moments 4 m c d g) as (v & d' & E & _ & Hv & H'); auto.
  { reflexivity. } { repeat constructor; cbn; lia. }
  exists m, d'. split; [reflexivity|]. split.
  - rewrite E. do 2 f_equal. apply vec6_eq. intros i Hi. rewrite Hv by exact Hi. unfold image, amount. six i; cbn; ring.
  - eapply holds_ext; [|exact H']. intros i j Hij. apply congruence_extM; [|lia|lia]. intros a b Ha Hb. unfold amount, thin_lens. six a; six b; cbn; ring.
Qed.
(* a dipole kick alone: same as the thick one *)
Theorem C166_thin_dipole k0r k0i c d : thin_lens_kick k0r k0i 0 (c, d) = Ok (kicked (- (k0r / (1 + vdp c))) (k0i / (1 + vdp c)) c, d).
Proof.
  unfold thin_lens_kick. cbn [fst snd]. destruct (Reqb_spec 0 0); [|lra]. replace (1 / (1 + vdp c) * k0r) with (k0r / (1 + vdp c)) by (unfold Rdiv; ring). replace (1 / (1 + vdp c) * k0i) with (k0i / (1 + vdp c)) by (unfold Rdiv; ring). reflexivity.
Qed.
Print Assumptions C166_thin_dipole.
(* what the thin quadrupole does *)
Theorem C166_thin k0r k0i k1 c d g : k1 <> 0 -> holds 4 d g -> (forall a b, g a b = g b a) -> let k := k1 / (1 + vdp c) in exists d',
  thin_lens_kick k0r k0i k1 (c, d) = Ok (kicked (k * vx c - k0r / (1 + vdp c)) (- k * vy c + k0i / (1 + vdp c)) c, d') /\ holds 4 d' (congruence 4 (thin_lens k (- k)) g).
Proof.
  intros N H S k. unfold thin_lens_kick. cbn [fst snd]. destruct (Reqb_spec k1 0); [contradiction|]. unfold thin_terms.
  replace (1 / (1 + vdp c) * k1) with k by (unfold k, Rdiv; ring).
  destruct (sparse_kick k (- k) (kicked (- (1 / (1 + vdp c) * k0r)) (1 / (1 + vdp c) * k0i) c) d g H S) as (m & d' & E & A & H').
  exists d'. rewrite E, A. split; [|exact H']. do 2 f_equal. unfold kicked. cbn. f_equal; unfold Rdiv; ring.
Qed.
Print Assumptions C166_thin.
(* a thin quadrupole acts in the opposite sense of a thick one of the same sign,
   however short: one focuses, the other does not *)
Theorem C78_thin_refuted k1 c d g : 0 < k1 -> vdp c = 0 -> 0 < vx c -> vxp c = 0 -> holds 4 d g -> (forall a b, g a b = g b a) ->
  exists r d1, thin_lens_kick 0 0 k1 (c, d) = Ok (r, d1) /\ 0 < vxp r /\
  forall l, 0 < l < PI * PI / k1 -> exists r' d2, thick_lens l 0 0 (k1 / l) (c, d) = Ok (r', d2) /\ vxp r' < 0.
Proof.
  intros K P X XP H S. destruct (C166_thin 0 0 k1 c d g ltac:(lra) H S) as (d1 & E & _). eexists. exists d1. split; [exact E|]. split.
  - cbn. rewrite P, XP. unfold Rdiv. rewrite Rplus_0_r, Rinv_1. nra.
  - intros l [L1 L2]. destruct (C166_thick l (k1 / l) c d g H S) as (M & d2 & E2 & F & E3 & _). exists (apply_m 4 M c), d2. split; [exact E3|].
    change (vxp (apply_m 4 M c)) with (coord 1 (apply_m 4 M c)). rewrite apply_coord by lia. cbn [Nat.ltb Nat.leb].
    rewrite (sum_ext _ (fun j => bend_form l 0 (k1 / l / (1 + vdp c)) 1 j * coord j c)) by (intros j J; apply in_seq in J; now rewrite F by lia).
    rewrite P, Rplus_0_r. replace (k1 / l / 1) with (k1 / l) by (unfold Rdiv; rewrite Rinv_1; ring). unfold bend_form, gh. cbn. rewrite XP. replace (k1 / l + 0 * 0) with (k1 / l) by ring.
    assert (KL : 0 < k1 / l) by (apply Rdiv_lt_0_compat; lra). unfold Sf, Cf. destruct (Reqb_spec (k1 / l) 0); [lra|]. destruct (Rltb_spec 0 (k1 / l)); [|lra].
    assert (Q : 0 < sqrt (k1 / l)) by now apply sqrt_lt_R0. assert (A : 0 < sqrt (k1 / l) * l < PI).
    { split; [nra|]. pose proof PI_RGT_0. replace (sqrt (k1 / l) * l) with (sqrt (k1 * l)).
      - rewrite <- (sqrt_square PI) by lra. apply sqrt_lt_1; try nra. apply (Rmult_lt_reg_r (/ k1)); [now apply Rinv_0_lt_compat|].
        replace (k1 * l * / k1) with l by (field; lra). exact L2.
      - transitivity (sqrt (k1 / l) * sqrt (l * l)); [|now rewrite sqrt_square by lra]. rewrite <- sqrt_mult; try nra. f_equal. field. lra. }
    pose proof (sin_gt_0 _ (proj1 A) (proj2 A)) as SP. assert (T : 0 < sin (sqrt (k1 / l) * l) / sqrt (k1 / l)) by (apply Rdiv_lt_0_compat; lra).
    set (t := sin _ / _) in *. clearbody t. assert (0 < k1 / l * t * vx c) by (apply Rmult_lt_0_compat; [apply Rmult_lt_0_compat; assumption|assumption]). lra.
Qed.
Print Assumptions C78_thin_refuted.
Example C78_thin_ex : 0 < 1 /\ vdp (V6 1 0 0 0 0 0) = 0 /\ 0 < vx (V6 1 0 0 0 0 0) /\ vxp (V6 1 0 0 0 0 0) = 0 /\ 0 < 1 < PI * PI / 1.
Proof. cbn. pose proof PI_RGT_0. pose proof PI2_1. repeat split; try lra. apply (Rlt_le_trans _ (PI * PI)); [nra|unfold Rdiv; rewrite Rinv_1; lra]. Qed.

(* ---- edge fields of a cavity ---- *)
Theorem C166_edge p0 g kwave phi c d s : holds 4 d s -> (forall a b, s a b = s b a) -> let a := - (g / p0) / 2 * cos (phi - kwave * vct c) / (1 + vdp c) in exists d',
  edge_field p0 g kwave phi (c, d) = Ok (kicked (a * vx c) (a * vy c) c, d') /\ holds 4 d' (congruence 4 (thin_lens a a) s).
Proof.
  intros H S a. unfold edge_field. cbn [fst snd]. fold a. unfold edge_terms. destruct (sparse_kick a a c d s H S) as (m & d' & E & A & H'). rewrite E. exists d'. split; [exact A|exact H'].
Qed.
Print Assumptions C166_edge.

(* ---- rotation of a slice about the beam axis ---- *)
Theorem C166_rotation phi c d g : holds 4 d g -> (forall a b, g a b = g b a) -> exists v d', rotate_slice phi (c, d) = Ok (v, d') /\
  (forall i, (i < 4)%nat -> coord i v = image 4 (roll (cos phi) (sin phi)) c i) /\ holds 4 d' (congruence 4 (roll (cos phi) (sin phi)) g) /\ vct v = 0 /\ vdp v = 0.
Proof.
  intros H S. unfold rotate_slice. rewrite built by (cbn; lia). set (m := mkS 0 0 _). destruct (C148_sparse_moments 4 m c d g) as (v & d' & E & _ & Hv & H'); auto.
  { reflexivity. } { repeat constructor; cbn; lia. }
  exists v, d'. split; [exact E|]. split; [|split; [|split]].
  - intros i Hi. rewrite Hv by lia. unfold image, amount, roll. six i; cbn; ring.
  - eapply holds_ext; [|exact H']. intros i j Hij. apply congruence_extM; [|lia|lia]. intros a b Ha Hb. unfold amount, roll. six a; six b; cbn; ring.
  - change (vct v) with (coord 4 v). rewrite Hv by lia. unfold image, amount. cbn. ring.
  - change (vdp v) with (coord 5 v). rewrite Hv by lia. unfold image, amount. cbn. ring.
Qed.
Print Assumptions C166_rotation.
(* so rotating there and back, as a tilted magnet does, loses where the slice is
   in time and its momentum *)
Theorem C78_rotation_refuted phi c d g : holds 4 d g -> (forall a b, g a b = g b a) -> vct c <> 0 \/ vdp c <> 0 -> exists s r,
  rotate_slice phi (c, d) = Ok s /\ rotate_slice (- phi) s = Ok r /\ fst r <> c.
Proof.
  intros H S N. destruct (C166_rotation phi c d g H S) as (v & d1 & E1 & _ & H1 & _).
  destruct (C166_rotation (- phi) v d1 _ H1) as (w & d2 & E2 & _ & _ & A & B). { intros a b. now apply congruence_sym. }
  exists (v, d1), (w, d2). split; [exact E1|]. split; [exact E2|]. cbn. intros ->. tauto.
Qed.
Print Assumptions C78_rotation_refuted.
(* a slice ahead of the reference, turned by any angle and back *)
Example C78_rotation_ex phi : exists s r, rotate_slice phi (V6 1 0 2 0 3 0, zero 4) = Ok s /\ rotate_slice (- phi) s = Ok r /\ fst r <> V6 1 0 2 0 3 0.
Proof. apply (C78_rotation_refuted phi _ _ (fun _ _ => 0)); [exact (zero_holds 4)|reflexivity|]. left. cbn. lra. Qed.
Example C78_edge_ex : exists d', edge_field 2 8 0 0 (V6 1 0 2 0 0 0, zero 4) = Ok (V6 1 (-2) 2 (-4) 0 0, d') /\ holds 4 d' (congruence 4 (thin_lens (-2) (-2)) (fun _ _ => 0)).
Proof.
  destruct (C166_edge 2 8 0 0 (V6 1 0 2 0 0 0) (zero 4) (fun _ _ => 0) (zero_holds 4) (fun _ _ => eq_refl)) as (d' & E & H). exists d'.
  cbn [vct vdp] in *. replace (- (8 / 2) / 2 * cos (0 - 0 * 0) / (1 + 0)) with (-2) in E, H by (replace (0 - 0 * 0) with 0 by ring; rewrite cos_0; field).
  split; [|exact H]. rewrite E. unfold kicked. cbn. do 2 f_equal. f_equal; ring.
Qed.
