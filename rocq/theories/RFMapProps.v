(* C77: accelerating cavities *)
From Coq Require Import ZArith Lia.
From Verif Require Import RBase Bunch BunchSpec BunchProofs Optics OpticsSpec OpticsProofs SparseMap SparseMapSpec SparseMapProofs SparseMapProps RFMap.
Local Open Scope R_scope.

(* ---- specification ---- *)
(* area factor of one transverse plane *)
Definition plane_det (M : mtx) (o : nat) : R := M o o * M (o + 1)%nat (o + 1)%nat - M o (o + 1)%nat * M (o + 1)%nat o.
Definition block_det (B : r2map) : R := r11 B * r22 B - r12 B * r21 B.
(* first A, then B *)
Definition then_ (A B : r2map) : r2map :=
  R2 (r11 B * r11 A + r12 B * r21 A) (r11 B * r12 A + r12 B * r22 A) (r21 B * r11 A + r22 B * r21 A) (r21 B * r12 A + r22 B * r22 A).
(* a thin lens *)
Definition lens (k : R) : r2map := R2 1 0 k 1.
(* momentum behind a cavity *)
Definition gained (len g phi E0 : R) : R := E0 + len * g * cos phi.
(* total energy of a particle *)
Definition energy (b : bunch) (p : particle) : R := p0 b * (1 + vdp (pv p)).

(* ---- one plane of the sliced-bunch cavity ---- *)
Theorem C165_plane_damping len g phi E0 a b : E0 <> 0 -> gained len g phi E0 <> 0 -> block_det (tw_plane len g phi E0 a b) = E0 / gained len g phi E0.
Proof.
  unfold gained. intros N0 N1. unfold tw_plane, block_det. cbn zeta. destruct (Reqb_spec (len * g * cos phi) 0) as [Z|Z].
  - cbn. rewrite Z, Rplus_0_r. field. exact N0.
  - assert (g <> 0) by (intros ->; apply Z; ring). assert (cos phi <> 0) by (intros E; apply Z; rewrite E; ring).
    destruct a, b; cbn; set (L := log1p2 _); clearbody L; field; auto.
Qed.
Print Assumptions C165_plane_damping.
(* the end fields are thin lenses before and behind the body *)
Theorem C165_plane_edges len g phi E0 a b : E0 <> 0 -> gained len g phi E0 <> 0 -> len * g * cos phi <> 0 ->
  tw_plane len g phi E0 a b =
  then_ (then_ (lens (if a then - (g * cos phi) / (2 * E0) else 0)) (tw_plane len g phi E0 false false))
        (lens (if b then g * cos phi / (2 * gained len g phi E0) else 0)).
Proof.
  unfold gained. intros N0 N1 Z. unfold tw_plane, then_, lens. cbn zeta. destruct (Reqb_spec (len * g * cos phi) 0); [contradiction|].
  assert (g <> 0) by (intros ->; apply Z; ring). assert (cos phi <> 0) by (intros E; apply Z; rewrite E; ring).
  set (L := log1p2 _); clearbody L. destruct a, b; cbn; f_equal; field; auto.
Qed.
Print Assumptions C165_plane_edges.
Example C77_plane_edges_ex : gained 1 1 0 1 = 2 /\ 1 * 1 * cos 0 <> 0.
Proof. unfold gained. rewrite cos_0. lra. Qed.
(* but the logarithm is replaced by two terms of its series, so that two cavities
   in a row are not the cavity of the total length; one that doubles its energy
   twice is no drift at all *)
Theorem C77_plane_split_refuted : exists l1 l2 g phi E0, 0 < l1 /\ 0 < l2 /\ 0 < g /\ 0 < E0 /\
  tw_plane (l1 + l2) g phi E0 false false <> then_ (tw_plane l1 g phi E0 false false) (tw_plane l2 g phi (gained l1 g phi E0) false false) /\
  r12 (tw_plane (l1 + l2) g phi E0 false false) = 0.
Proof.
  exists 1, 1, 1, 0, 1. repeat (split; [lra|]). unfold tw_plane, gained, then_. rewrite cos_0. cbn zeta.
  destruct (Reqb_spec ((1 + 1) * 1 * 1) 0); [lra|]. destruct (Reqb_spec (1 * 1 * 1) 0); [lra|]. cbn. unfold log1p2. split; [|field]. intros E. apply (f_equal r12) in E. cbn in E. field_simplify in E. lra.
Qed.
Print Assumptions C77_plane_split_refuted.

(* ---- the same cavity as a sparse map ---- *)
Theorem C165_sparse_damping len g phi E0 a b : E0 <> 0 -> gained len g phi E0 <> 0 -> (a, b) <> (false, true) ->
  block_det (tw_sparse len g phi E0 a b) = E0 / gained len g phi E0.
Proof.
  unfold gained. intros N0 N1 AB. unfold tw_sparse, block_det. cbn zeta. destruct (Reqb_spec (len * g * cos phi) 0) as [Z|Z].
  - cbn. rewrite Z, Rplus_0_r. field. exact N0.
  - assert (g <> 0) by (intros ->; apply Z; ring). assert (cos phi <> 0) by (intros E; apply Z; rewrite E; ring).
    destruct a, b; try congruence; cbn; set (L := log1p2 _); clearbody L; field; auto.
Qed.
Print Assumptions C165_sparse_damping.
(* on crest, and only there, the two are the same *)
Theorem C165_sparse_on_crest len g phi E0 a b : cos phi = 1 -> tw_sparse len g phi E0 a b = tw_plane len g phi E0 a b.
Proof.
  intros C. unfold tw_sparse, tw_plane. rewrite C. cbn zeta. destruct Reqb; [reflexivity|]. destruct a, b; f_equal; unfold Rdiv; rewrite ?Rinv_1; ring.
Qed.
Print Assumptions C165_sparse_on_crest.
Theorem C77_sparse_damping_refuted : exists len g phi E0, 0 < len /\ 0 < g /\ 0 < E0 /\ 0 < gained len g phi E0 /\
  block_det (tw_sparse len g phi E0 false true) <> E0 / gained len g phi E0 /\ tw_sparse len g phi E0 true true <> tw_plane len g phi E0 true true.
Proof.
  exists 1, 1, (PI / 3), 1. unfold gained, block_det, tw_sparse, tw_plane. cbn zeta. rewrite cos_PI3. repeat (split; [lra|]).
  destruct (Reqb_spec (1 * 1 * (1 / 2)) 0); [lra|]. cbn. unfold log1p2. split.
  - intros E. field_simplify in E. lra.
  - intros E. apply (f_equal r11) in E. cbn in E. field_simplify in E. lra.
Qed.
Print Assumptions C77_sparse_damping_refuted.
(* the sparse map is the block in both planes; it keeps time and momentum only
   when nothing is accelerated *)
Theorem C165_sparse_planes w len g phi E0 a b : exists m, add_all (tw_terms len g phi E0 a b) (empty w) = Ok m /\
  forall i j, (i < 4)%nat -> (j < 4)%nat -> amount (terms m) i j = block (tw_sparse len g phi E0 a b) (tw_sparse len g phi E0 a b) i j.
Proof.
  unfold tw_terms. cbn zeta. set (B := tw_sparse len g phi E0 a b). rewrite built by (destruct Reqb; cbn; lia). eexists. split; [reflexivity|]. cbn [terms].
  intros i j Hi Hj. clearbody B. destruct B. unfold amount. destruct Reqb; six i; six j; cbn; ring.
Qed.
Print Assumptions C165_sparse_planes.

(* ---- the dense matrices ---- *)
Theorem C165_matrix_damping n o len g k phi E0 : (n = 4 \/ n = 6)%nat -> (o = 0 \/ o = 2)%nat -> E0 <> 0 -> gained len g phi E0 <> 0 -> tiny <= Rabs (len * g * cos phi) ->
  plane_det (tw_matrix n len g k phi E0 false) o = E0 / gained len g phi E0.
Proof.
  unfold gained. intros Hn Ho N0 N1 T. assert (P : 0 < tiny) by (apply Rinv_0_lt_compat, pow_lt; lra).
  assert (Z : len * g * cos phi <> 0) by (intros E; rewrite E, Rabs_R0 in T; lra).
  assert (len <> 0) by (intros ->; apply Z; ring). assert (g <> 0) by (intros ->; apply Z; ring). assert (cos phi <> 0) by (intros E; apply Z; rewrite E; ring).
  unfold tw_matrix, plane_det. cbn zeta. destruct (Rltb_spec (Rabs (len * g * cos phi)) tiny); [lra|]. set (L := ln _). clearbody L.
  destruct Hn as [-> | ->], Ho as [-> | ->]; cbn; unfold half, mset, mid; cbn; field; auto.
Qed.
Print Assumptions C165_matrix_damping.
(* the flag is taken the wrong way round: with it, the body alone, and with its
   slopes growing instead of shrinking; this is what particles are tracked with *)
Theorem C77_matrix_damping_refuted n o len g k phi E0 : (n = 4 \/ n = 6)%nat -> (o = 0 \/ o = 2)%nat -> E0 <> 0 -> tiny <= Rabs (len * g * cos phi) ->
  plane_det (tw_matrix n len g k phi E0 true) o = gained len g phi E0 / E0.
Proof.
  unfold gained. intros Hn Ho N0 T. assert (P : 0 < tiny) by (apply Rinv_0_lt_compat, pow_lt; lra).
  assert (Z : len * g * cos phi <> 0) by (intros E; rewrite E, Rabs_R0 in T; lra).
  assert (len <> 0) by (intros ->; apply Z; ring). assert (g <> 0) by (intros ->; apply Z; ring). assert (cos phi <> 0) by (intros E; apply Z; rewrite E; ring).
  unfold tw_matrix, plane_det. cbn zeta. destruct (Rltb_spec (Rabs (len * g * cos phi)) tiny); [lra|]. set (L := ln _). clearbody L.
  destruct Hn as [-> | ->], Ho as [-> | ->]; cbn; unfold half, mset, mid; cbn; field; auto.
Qed.
Print Assumptions C77_matrix_damping_refuted.
Lemma tiny_small : 0 < tiny < 1.
Proof.
  unfold tiny. split; [apply Rinv_0_lt_compat, pow_lt; lra|]. rewrite <- Rinv_1. apply Rinv_lt_contravar; [|apply Rlt_pow_R1; [lra|lia]].
  rewrite Rmult_1_l. apply pow_lt. lra.
Qed.
Example C77_matrix_ex : tiny <= Rabs (1 * 1 * cos 0) /\ gained 1 1 0 1 = 2.
Proof. unfold gained. rewrite cos_0. pose proof tiny_small. split; [rewrite Rabs_right; lra|lra]. Qed.
(* momentum deviation and nothing else of the longitudinal coordinates *)
Theorem C165_matrix_longitudinal len g k phi E0 inc : E0 <> 0 -> gained len g phi E0 <> 0 -> let M := tw_matrix 6 len g k phi E0 inc in
  M 5%nat 5%nat = E0 / gained len g phi E0 /\ M 5%nat 4%nat = k * (len * g) * sin phi / gained len g phi E0 /\ M 4%nat 4%nat = 1 /\
  (forall i, (i < 4)%nat -> M 4%nat i = 0 /\ M 5%nat i = 0 /\ M i 4%nat = 0 /\ M i 5%nat = 0) /\ M 4%nat 5%nat = 0.
Proof.
  unfold gained. intros N0 N1. unfold tw_matrix. cbn zeta. set (X := if Rltb _ _ then _ else _).
  assert (Z : forall i, (i < 6)%nat -> X 4%nat i = mid 4%nat i /\ X 5%nat i = mid 5%nat i /\ X i 4%nat = mid i 4%nat /\ X i 5%nat = mid i 5%nat).
  { intros i Hi. unfold X. destruct Rltb; [|destruct inc]; unfold mset; six i; auto. }
  unfold half, mset. cbn. split; [field; auto|]. split; [reflexivity|]. split; [apply (Z 4%nat); lia|]. split.
  - intros i Hi. destruct (Z i ltac:(lia)) as (A & B & C & D). six i; cbn; rewrite ?A, ?B, ?C, ?D; auto.
  - apply (Z 5%nat). lia.
Qed.
Print Assumptions C165_matrix_longitudinal.
(* two cavities in a row are the cavity of the total length: the end fields
   between them cancel *)
Theorem C165_matrix_split n l1 l2 g k phi E0 : (n = 4 \/ n = 6)%nat -> 0 < E0 -> 0 < gained l1 g phi E0 -> 0 < gained (l1 + l2) g phi E0 ->
  tiny <= Rabs (l1 * g * cos phi) -> tiny <= Rabs (l2 * g * cos phi) -> tiny <= Rabs ((l1 + l2) * g * cos phi) ->
  meq 4 (tw_matrix n (l1 + l2) g k phi E0 false) (times 4 (tw_matrix n l2 g k phi (gained l1 g phi E0) false) (tw_matrix n l1 g k phi E0 false)).
Proof.
  intros Hn P0 P1 P2 T1 T2 T3. pose proof tiny_small as [TP _].
  assert (Z1 : l1 * g * cos phi <> 0) by (intros E; rewrite E, Rabs_R0 in T1; lra).
  assert (Z2 : l2 * g * cos phi <> 0) by (intros E; rewrite E, Rabs_R0 in T2; lra).
  assert (Z3 : (l1 + l2) * g * cos phi <> 0) by (intros E; rewrite E, Rabs_R0 in T3; lra).
  assert (N1 : l1 <> 0) by (intros ->; apply Z1; ring). assert (N2 : l2 <> 0) by (intros ->; apply Z2; ring). assert (N3 : l1 + l2 <> 0) by (intros E; apply Z3; rewrite E; ring).
  assert (Ng : g <> 0) by (intros ->; apply Z1; ring). assert (Nc : cos phi <> 0) by (intros E; apply Z1; rewrite E; ring).
  assert (E12 : gained (l1 + l2) g phi E0 = gained l1 g phi E0 + l2 * g * cos phi) by (unfold gained; ring).
  assert (LN : ln (gained (l1 + l2) g phi E0 / E0) = ln (gained l1 g phi E0 / E0) + ln (gained (l1 + l2) g phi E0 / gained l1 g phi E0)).
  { rewrite <- ln_mult by (apply Rdiv_lt_0_compat; assumption). f_equal. field. lra. }
  intros i j Hi Hj. unfold tw_matrix, times. cbn zeta.
  destruct (Rltb_spec (Rabs ((l1 + l2) * g * cos phi)) tiny); [lra|]. destruct (Rltb_spec (Rabs (l1 * g * cos phi)) tiny); [lra|]. destruct (Rltb_spec (Rabs (l2 * g * cos phi)) tiny); [lra|].
  fold (gained (l1 + l2) g phi E0). fold (gained l1 g phi E0). fold (gained l2 g phi (gained l1 g phi E0)).
  replace (gained l2 g phi (gained l1 g phi E0)) with (gained (l1 + l2) g phi E0) by (rewrite E12; reflexivity). rewrite LN.
  set (L1 := ln (gained l1 g phi E0 / E0)). set (L2 := ln (gained (l1 + l2) g phi E0 / gained l1 g phi E0)). clearbody L1 L2.
  assert (F1 : gained l1 g phi E0 = E0 + l1 * g * cos phi) by reflexivity. assert (F2 : gained (l1 + l2) g phi E0 = E0 + (l1 + l2) * g * cos phi) by reflexivity.
  rewrite F1, F2 in *. clear F1 F2 LN E12. 
  destruct Hn as [-> | ->]; six i; six j; cbn; unfold half, mset, mid; cbn; try ring.
  all: field; repeat split; lra.
Qed.
Print Assumptions C165_matrix_split.
(* standing-wave cavity: the damping is right in the horizontal plane, and in the
   vertical one of a 4 by 4 matrix; in a 6 by 6 one the vertical plane is left out *)
Theorem C165_standing n o len g phi E0 : (n = 4 \/ n = 6)%nat -> (o = 0 \/ o = 2 /\ n = 4)%nat -> g <> 0 -> E0 <> 0 -> gained len g phi E0 <> 0 ->
  plane_det (sw_matrix n len g phi E0) o = E0 / gained len g phi E0.
Proof.
  intros Hn Ho Ng N0 N1. unfold plane_det, sw_matrix. cbn zeta.
  assert (D : r11 (sw_block len g phi E0) * r22 (sw_block len g phi E0) - r12 (sw_block len g phi E0) * r21 (sw_block len g phi E0) = E0 / gained len g phi E0).
  { unfold sw_block, gained in *. cbn zeta. cbn [r11 r12 r21 r22]. rewrite cos_2a_cos. replace (E0 + g * len * cos phi) with (E0 + len * g * cos phi) by ring.
    set (al := ln _ / _ / _). pose proof (cos_sin al) as Q. assert (S2 : sqrt 2 * sqrt 2 = 2) by (apply sqrt_sqrt; lra). assert (S8 : sqrt 8 <> 0) by (apply Rgt_not_eq, sqrt_lt_R0; lra).
    set (c := cos al) in *. set (s := sin al) in *. set (q := sqrt 2) in *. set (cp := cos phi) in *. clearbody c s q cp.
    transitivity (E0 * (c * c - q * q * (cp * cp) * (s * s) + (1 + 2 * cp * cp) * (s * s)) / (E0 + len * g * cp)); [field; auto|]. rewrite S2.
    replace (c * c - 2 * (cp * cp) * (s * s) + (1 + 2 * cp * cp) * (s * s)) with 1 by lra. field; auto. }
  destruct (sw_block len g phi E0) as [a b c d]. cbn [r11 r12 r21 r22] in *.
  destruct Hn as [-> | ->], Ho as [-> | [-> Hn]]; try lia; cbn; unfold half, mset, mid; cbn; exact D.
Qed.
Print Assumptions C165_standing.
Theorem C77_standing_refuted len g phi E0 : let M := sw_matrix 6 len g phi E0 in M 2%nat 2%nat = 1 /\ M 2%nat 3%nat = 0 /\ M 3%nat 2%nat = 0 /\ M 3%nat 3%nat = 1.
Proof. cbn zeta. unfold sw_matrix. cbn. unfold mset, mid. cbn. auto. Qed.
Print Assumptions C77_standing_refuted.

(* ---- what a tracked particle gains ---- *)
Theorem C164_energy_gain ds g k phi b b' : tw_step ds g k phi b = Ok b' -> ds <> 0 -> p0 b <> 0 -> gained ds g phi (p0 b) <> 0 ->
  p0 b' = gained ds g phi (p0 b) /\ ct0 b' = ct0 b /\ qmp b' = qmp b /\
  Forall2 (fun p q => energy b' q = energy b p + g * ds * cos (phi - k * vct (pv p)) /\ vct (pv q) = vct (pv p) /\ pid q = pid p) (parts b) (parts b').
Proof.
  unfold tw_step. destruct (Reqb_spec ds 0); [contradiction|]. intros H _ N0 N1. unfold gained in *. destruct (Reqb_spec g 0) as [->|Ng].
  - injection H as <-. unfold ps_drift. destruct (Reqb_spec ds 0); [contradiction|]. cbn. split; [ring|]. split; [reflexivity|]. split; [reflexivity|].
    induction (parts b) as [|p l IH]; cbn; constructor; [|exact IH]. unfold energy. cbn. repeat split; ring.
  - destruct (Reqb_spec k 0); [discriminate|]. injection H as <-. cbn [p0 ct0 qmp parts]. split; [ring|]. split; [reflexivity|]. split; [reflexivity|].
    set (M := tw_matrix _ _ _ _ _ _ _). clearbody M. induction (parts b) as [|p l IH]; cbn [map]; constructor; [|exact IH]. unfold energy, rf_dp. cbn. repeat split.
    field. split; [|exact N0] || split; [exact N0|]. all: try (intros E; apply N1; rewrite <- E; ring).
Qed.
Print Assumptions C164_energy_gain.
(* each plane is mapped by the matrix of the cavity *)
Theorem C164_transverse ds g k phi b b' : tw_step ds g k phi b = Ok b' -> ds <> 0 -> g <> 0 -> let M := tw_matrix 4 ds g k phi (p0 b) true in
  Forall2 (fun p q => forall i, (i < 4)%nat -> coord i (pv q) = M i 0%nat * vx (pv p) + M i 1%nat * vxp (pv p) + M i 2%nat * vy (pv p) + M i 3%nat * vyp (pv p)) (parts b) (parts b').
Proof.
  unfold tw_step. destruct (Reqb_spec ds 0); [contradiction|]. intros H _ N. destruct (Reqb_spec g 0); [contradiction|]. destruct (Reqb_spec k 0); [discriminate|]. injection H as <-. cbn zeta. cbn [parts]. set (M := tw_matrix _ _ _ _ _ _ _). clearbody M.
  induction (parts b) as [|p l IH]; cbn [map]; constructor; [|exact IH]. intros i Hi. unfold rf_dp. destruct i as [|[|[|[|i]]]]; [| | | |lia]; cbn; ring.
Qed.
Print Assumptions C164_transverse.
(* a cavity without amplitude is a drift; one without frequency stops the program *)
Theorem C164_off ds k phi b : ds <> 0 -> tw_step ds 0 k phi b = Ok (mkB (p0 b) (ct0 b) (qmp b) (map (fun p => let v := pv p in mkP (V6 (vx v + ds * vxp v) (vxp v) (vy v + ds * vyp v) (vyp v) (vct v) (vdp v)) (pid p)) (parts b))).
Proof. intros N. unfold tw_step, ps_drift. destruct (Reqb_spec ds 0); [contradiction|]. destruct (Reqb_spec 0 0); [|lra]. do 2 f_equal. apply map_ext. intros p. unfold psdrift. cbn zeta. rewrite !(Rmult_comm _ ds). reflexivity. Qed.
Theorem C164_no_frequency ds g phi b : ds <> 0 -> g <> 0 -> tw_step ds g 0 phi b = Throw OAssert.
Proof. intros N G. unfold tw_step. destruct (Reqb_spec ds 0); [contradiction|]. destruct (Reqb_spec g 0); [contradiction|]. destruct (Reqb_spec 0 0); [reflexivity|lra]. Qed.
Theorem C164_no_length g k phi b : tw_step 0 g k phi b = Ok b.
Proof. unfold tw_step. destruct (Reqb_spec 0 0); [reflexivity|lra]. Qed.
Example C77_energy_ex : exists b', tw_step 1 1 2 0 (mkB 3 0 1 [mkP (V6 0 0 0 0 0 0) 0%Z]) = Ok b' /\ p0 b' = 4 /\ map energy [b'; b'] <> [].
Proof.
  unfold tw_step. destruct (Reqb_spec 1 0); [lra|]. destruct (Reqb_spec 2 0); [lra|]. eexists. split; [reflexivity|]. cbn [p0]. rewrite cos_0. split; [lra|discriminate].
Qed.
