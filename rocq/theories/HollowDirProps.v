(* Properties of the direction of the kick of the hollow electron lens and of the
   settings it depends on. *)
From Verif Require Import RBase Rot RotProofs Bunch HollowLens HollowLensSpec HollowLensProofs HollowLensProps.
From Coq Require Import ZArith List Lia.
Import ListNotations.
Local Open Scope R_scope.

(* ---------- C247 ---------- *)
(* a lens of a real machine *)
Definition physical (l : lens) (pb a b : R) : Prop :=
  rmin l = Some a /\ rmax l = Some b /\ 0 < a < b /\ 0 < current l /\ 0 < elength l /\ 0 < rigidity l /\ 0 < ebeta l < 1 /\ 0 < pb <= 1.
Lemma fraction_pos h a r : 0 < a -> a < r -> 0 < fraction h a r.
Proof.
  intros A L. destruct (knots h a A) as (Z0 & K0 & K1 & K2 & K3). pose proof (total_pos h a A) as T.
  destruct (Rlt_dec r (knot_at h a 1)) as [Q|Q].
  - unfold fraction. rewrite Rltb_false by lra. rewrite Rltb_true by exact Q. apply Rdiv_lt_0_compat; [|exact T].
    unfold piece, cubic. change (height 0) with 0. change (height 1) with 917. change (knot_at h a 0) with a in *.
    replace (_ - _) with (917 / (knot_at h a 1 - a) * ((r - a) * (r - a) * (2 * r + a) / 6)) by (field; lra).
    apply Rmult_lt_0_compat; [apply Rdiv_lt_0_compat; lra|]. apply Rdiv_lt_0_compat; [|lra]. repeat apply Rmult_lt_0_compat; lra.
  - destruct (fraction_charge h a r A L) as (n & N & B & F). rewrite F. apply Rdiv_lt_0_compat; [|exact T].
    assert (W : 0 < whole h a 0).
    { unfold whole, piece. rewrite trapezium by lra. change (height 0) with 0. change (height 1) with 917. nra. }
    assert (M : 0 <= whole h a 0 <= n); [|lra].
    apply (within_mono (rho h a) (knot_at h a 1) r); [intros; apply rho_pos; exact A|lra| |exact N].
    apply within_1; [exact A|lra].
Qed.
Lemma line_sign l pb a b r : physical l pb a b -> 0 < r ->
  let t := line_current (opposite l) (current l) (elength l) (ebeta l) pb (rigidity l) r in if opposite l then 0 < t else t < 0.
Proof.
  intros (_ & _ & _ & I & L & Rg & E & P) R0. cbv zeta.
  assert (EP : 0 < ebeta l * pb < 1) by (split; [apply Rmult_lt_0_compat; lra|]; apply Rle_lt_trans with (ebeta l * 1); [apply Rmult_le_compat_l; lra|lra]).
  assert (D : 0 < ebeta l * pb * rigidity l * r) by (repeat apply Rmult_lt_0_compat; lra).
  assert (M : 0 < mu0 / (2 * PI)).
  { unfold mu0. pose proof PI_RGT_0. assert (0 < 10 ^ 7) by (apply pow_lt; lra). replace (4 * PI / 10 ^ 7 / (2 * PI)) with (2 / 10 ^ 7) by (field; lra). apply Rdiv_lt_0_compat; lra. }
  assert (X : 0 < mu0 / (2 * PI) * current l * elength l) by (apply Rmult_lt_0_compat; [apply Rmult_lt_0_compat; [exact M|lra]|lra]).
  unfold line_current. destruct (opposite l).
  - apply Rdiv_lt_0_compat; [|exact D]. replace (1 * (mu0 / (2 * PI)) * current l * elength l * (1 + 1 * (ebeta l * pb))) with (mu0 / (2 * PI) * current l * elength l * (1 + ebeta l * pb)) by ring.
    apply Rmult_lt_0_compat; lra.
  - replace (-1 * (mu0 / (2 * PI)) * current l * elength l * (1 + -1 * (ebeta l * pb)) / (ebeta l * pb * rigidity l * r)) with (- (mu0 / (2 * PI) * current l * elength l * (1 - ebeta l * pb) / (ebeta l * pb * rigidity l * r))) by (unfold Rdiv; ring).
    apply Ropp_lt_gt_0_contravar. apply Rdiv_lt_0_compat; [|exact D]. apply Rmult_lt_0_compat; lra.
Qed.
Lemma kick_sign l pb a b v : physical l pb a b -> a < distance l v ->
  exists k, kick l pb v = Ok k /\ k <> 0 /\ (if opposite l then k < 0 else 0 < k).
Proof.
  intros Ph D. assert (Ph' := Ph). destruct Ph as (A & B & AB & I & L & Rg & E & P).
  set (r := distance l v) in *. pose proof (line_sign l pb a b r Ph' ltac:(lra)) as S. cbv zeta in S.
  assert (G : forall c, 0 < c -> exists k, times (- c) (theta_max l pb r) = Ok k /\ k <> 0 /\ (if opposite l then k < 0 else 0 < k)).
  { intros c C. rewrite theta_line by lra. cbn [times]. eexists. split; [reflexivity|]. revert S. generalize (line_current (opposite l) (current l) (elength l) (ebeta l) pb (rigidity l) r).
    intros t S. destruct (opposite l).
    - assert (0 < c * t) by (apply Rmult_lt_0_compat; lra). replace (- c * t) with (- (c * t)) by ring. split; lra.
    - assert (0 < c * - t) by (apply Rmult_lt_0_compat; lra). replace (- c * t) with (c * - t) by ring. split; lra. }
  unfold kick. fold r. destruct (simple l).
  - unfold kick_simple. rewrite A, B. rewrite Rleb_false by exact D. rewrite (Rltb_true a r) by exact D. rewrite Bool.andb_true_r.
    destruct (Rltb_spec r b) as [Q|Q].
    + rewrite Reqb_false by nra. apply G. apply Rdiv_lt_0_compat; nra.
    + exact (G 1 Rlt_0_1).
  - unfold kick_radial. rewrite A. rewrite Rleb_false by exact D. apply G. apply fraction_pos; lra.
Qed.
Lemma push_moment t p : moment 0 0 (push t p) = moment 0 0 p.
Proof.
  unfold moment, push. cbn [pv vx vxp vy vyp]. destruct (atan2_direction (vx (pv p)) (vy (pv p))) as [X Y]. cbv zeta in X, Y.
  set (d := sqrt _) in *. set (c := cos _) in *. set (s := sin _) in *. rewrite !Rminus_0_r.
  replace (vx (pv p) * (vyp (pv p) + t * s) - vy (pv p) * (vxp (pv p) + t * c)) with (vx (pv p) * vyp (pv p) - vy (pv p) * vxp (pv p) + t * (vx (pv p) * s - vy (pv p) * c)) by ring.
  rewrite X at 2. rewrite Y at 2. ring.
Qed.
(* on every call, in every mode, the angular momentum about the axis is kept *)
Theorem C247_no_torque rnd pb s s' : do_process rnd pb s = Ok s' -> Forall2 (fun p q => moment 0 0 q = moment 0 0 p) (parts (hb s)) (parts (hb s')).
Proof.
  intros H. apply do_process_ok in H. destruct H as (_ & _ & _ & _ & _ & _ & F).
  eapply Forall2_impl; [|exact F]. intros p q. cbn beta. unfold acts. destruct (switch rnd s) as [f|]; [|intros ->; reflexivity].
  intros K. apply kick_one_cases in K. destruct K as [->|(t & k & _ & _ & _ & ->)]; [reflexivity|apply push_moment].
Qed.
(* a centred lens which is on pulls the particles beyond the inner radius towards its
   centre when the electrons move against the protons, and pushes them away from it
   when they move with them *)
Theorem C247_towards rnd pb s a b : mode (hl s) = Some DC -> xoff (hl s) = 0 -> yoff (hl s) = 0 -> physical (hl s) pb a b ->
  exists s', do_process rnd pb s = Ok s' /\
  Forall2 (fun p q => a * a < vx (pv p) * vx (pv p) + vy (pv p) * vy (pv p) ->
    exists k, (if opposite (hl s) then k < 0 else 0 < k) /\ deflected_from 0 0 k p q) (parts (hb s)) (parts (hb s')).
Proof.
  intros M X Y Ph. assert (Pb : effective pb s = pb) by (unfold effective; rewrite Reqb_false by (destruct Ph as (_ & _ & _ & _ & _ & _ & _ & ?); lra); reflexivity).
  assert (Sw : switch rnd s = Some (Ok 1)) by (unfold switch; cbn [next_turn mode]; rewrite M; reflexivity).
  assert (Dd : forall p, a * a < vx (pv p) * vx (pv p) + vy (pv p) * vy (pv p) <-> a < distance (hl s) (pv p)).
  { intros p. unfold distance. rewrite X, Y, !Rminus_0_r. assert (0 < a) by (destruct Ph as (_ & _ & ? & _); lra).
    replace (vx (pv p) ^ 2 + vy (pv p) ^ 2) with (vx (pv p) * vx (pv p) + vy (pv p) * vy (pv p)) by ring.
    set (z := vx (pv p) * vx (pv p) + vy (pv p) * vy (pv p)). split; intros L.
    - rewrite <- (sqrt_square a) by lra. apply sqrt_lt_1_alt. nra.
    - assert (0 <= z) by (unfold z; pose proof (Rle_0_sqr (vx (pv p))); pose proof (Rle_0_sqr (vy (pv p))); unfold Rsqr in *; lra).
      rewrite <- (sqrt_sqrt z) by assumption. apply Rmult_le_0_lt_compat; lra. }
  assert (F : exists qs, Forall2 (fun p q => acts (next_turn (hl s)) pb (Some (Ok 1)) p q /\ (a * a < vx (pv p) * vx (pv p) + vy (pv p) * vy (pv p) ->
    exists k, (if opposite (hl s) then k < 0 else 0 < k) /\ deflected_from 0 0 k p q)) (parts (hb s)) qs).
  { induction (parts (hb s)) as [|p r [qs IH]]; [exists []; constructor|].
    assert (Q : exists q, acts (next_turn (hl s)) pb (Some (Ok 1)) p q /\ (a * a < vx (pv p) * vx (pv p) + vy (pv p) * vy (pv p) ->
      exists k, (if opposite (hl s) then k < 0 else 0 < k) /\ deflected_from 0 0 k p q)); [|destruct Q as [q Q]; exists (q :: qs); constructor; assumption].
    unfold acts, kick_one. change (kick (next_turn (hl s)) pb (pv p)) with (kick (hl s) pb (pv p)).
    destruct (Rlt_dec a (distance (hl s) (pv p))) as [L|L].
    - destruct (kick_sign _ _ _ _ _ Ph L) as (k & K & N & S). rewrite K, Reqb_false by exact N. eexists. split; [reflexivity|].
      intros _. exists k. split; [exact S|]. rewrite Rmult_1_l. apply push_from.
    - exists p. split; [|intros H; apply Dd in H; contradiction].
      assert (I := inside_kick (hl s) pb (pv p) a (proj1 Ph) ltac:(lra)). destruct I as [->| U]; [rewrite Reqb_true by reflexivity; reflexivity|].
      exfalso. destruct Ph as (A & B & _). unfold kick, kick_simple, kick_radial in U. rewrite A, B, Rleb_true in U by lra. destruct (simple (hl s)); discriminate. }
  destruct F as [qs F]. exists (mkH (next_turn (hl s)) (mkB (p0 (hb s)) (ct0 (hb s)) (qmp (hb s)) qs) (hpos s)). split.
  - apply do_process_ok. cbn [hl hb hpos p0 ct0 qmp parts]. rewrite M, Pb, Sw. split; [discriminate|]. split; [reflexivity|]. split; [cbn; lia|]. repeat (split; [reflexivity|]).
    eapply Forall2_impl; [|exact F]. intros ? ? [H _]. exact H.
  - eapply Forall2_impl; [|exact F]. intros ? ? [_ H]. exact H.
Qed.
Print Assumptions C247_no_torque.
Print Assumptions C247_towards.
Example C247_case : physical demo (1 / 2) 1 2 /\ mode demo = Some DC /\ 1 * 1 < vx (pv (at_xy 4 0)) * vx (pv (at_xy 4 0)) + vy (pv (at_xy 4 0)) * vy (pv (at_xy 4 0)).
Proof. unfold physical. cbn [demo set_radii new_lens rmin rmax current elength rigidity ebeta mode at_xy pv vx vy Z.eqb]. assert (0 < 10 ^ 7) by (apply pow_lt; lra). repeat split; lra. Qed.

(* ---------- C248: refuted when the lens is off the axis ---------- *)
(* a particle on the line between the axis and the centre of the lens, beyond the
   inner radius, is pushed away from the centre although the lens attracts *)
Theorem C248_offset_lens_refuted rnd pb l a b c x pos m t0 q : physical l pb a b -> mode l = Some DC -> opposite l = true ->
  xoff l = c -> yoff l = 0 -> 0 < x -> a < c - x ->
  exists k, 0 < k /\ do_process rnd pb (mkH l (mkB m t0 q [at_xy x 0]) pos) =
    Ok (mkH (next_turn l) (mkB m t0 q [mkP (V6 x (- k) 0 0 7 8) 5]) pos) /\
  (x - c) * (- k) + (0 - 0) * 0 > 0.
Proof.
  intros Ph M Op X Y X0 L. assert (D : distance l (pv (at_xy x 0)) = c - x).
  { unfold distance. cbn [at_xy pv vx vy]. rewrite X, Y. replace ((x - c) ^ 2 + (0 - 0) ^ 2) with ((c - x) * (c - x)) by ring. apply sqrt_square. destruct Ph as (_ & _ & ? & _). lra. }
  destruct (kick_sign l pb a b (pv (at_xy x 0)) Ph ltac:(rewrite D; exact L)) as (k & K & N & S). rewrite Op in S.
  exists (- k). split; [lra|]. split; [|destruct Ph as (_ & _ & ? & _); nra].
  apply do_process_ok. cbn [hl hb hpos p0 ct0 qmp parts]. rewrite M. split; [discriminate|]. split; [reflexivity|]. split; [cbn; lia|]. repeat (split; [reflexivity|]).
  assert (Pb : forall w, effective pb w = pb) by (intros; unfold effective; rewrite Reqb_false by (destruct Ph as (_ & _ & _ & _ & _ & _ & _ & ?); lra); reflexivity).
  rewrite Pb. unfold switch. cbn [hl next_turn mode]. rewrite M. constructor; [|constructor]. cbn [acts]. unfold kick_one. rewrite next_turn_kick, K, Reqb_false by exact N.
  f_equal. unfold push, at_xy. cbn [pv vx vxp vy vyp vct vdp pid]. unfold atan2. rewrite Rltb_true by lra. replace (0 / x) with 0 by (field; lra).
  rewrite atan_0, cos_0, sin_0. f_equal. f_equal; ring.
Qed.
(* and in general there is a torque about the centre of the lens unless the particle
   is on the line through the axis and the centre *)
Theorem C248_torque_refuted rnd pb s s' p k : mode (hl s) = Some DC -> pb <> 0 -> parts (hb s) = [p] -> kick (hl s) pb (pv p) = Ok k -> k <> 0 ->
  do_process rnd pb s = Ok s' -> vx (pv p) * yoff (hl s) <> vy (pv p) * xoff (hl s) ->
  exists q, parts (hb s') = [q] /\ moment (xoff (hl s)) (yoff (hl s)) q <> moment (xoff (hl s)) (yoff (hl s)) p.
Proof.
  intros M Pb P K N H O. apply do_process_ok in H. destruct H as (_ & _ & _ & _ & _ & _ & F). rewrite P in F.
  unfold effective in F. rewrite Reqb_false in F by exact Pb. unfold switch in F. cbn [next_turn mode] in F. rewrite M in F.
  inversion F as [|? q ? r A B]; subst. inversion B; subst. exists q. split; [reflexivity|].
  cbn [acts] in A. unfold kick_one in A. rewrite next_turn_kick, K, Reqb_false in A by exact N.
  injection A as <-. rewrite Rmult_1_l. unfold moment, push. cbn [pv vx vxp vy vyp].
  destruct (atan2_direction (vx (pv p)) (vy (pv p))) as [X Y]. cbv zeta in X, Y. set (d := sqrt _) in *. set (c := cos _) in *. set (w := sin _) in *.
  intros E. assert (Z : k * ((vx (pv p) - xoff (hl s)) * w - (vy (pv p) - yoff (hl s)) * c) = 0) by lra.
  apply Rmult_integral in Z. destruct Z as [Z|Z]; [contradiction|]. apply O.
  assert (Z2 : vx (pv p) * w - vy (pv p) * c = 0) by (rewrite X at 1; rewrite Y at 1; ring).
  assert (Z3 : yoff (hl s) * c = xoff (hl s) * w) by lra.
  rewrite X, Y. replace (d * c * yoff (hl s)) with (d * (yoff (hl s) * c)) by ring. rewrite Z3. ring.
Qed.
Print Assumptions C248_offset_lens_refuted.
Print Assumptions C248_torque_refuted.
Example C248_case : physical (set_offsets 10 0 demo) (1 / 2) 1 2 /\ mode (set_offsets 10 0 demo) = Some DC /\ opposite (set_offsets 10 0 demo) = true /\ 1 < 10 - 5.
Proof. unfold physical. cbn [demo set_offsets set_radii new_lens rmin rmax current elength rigidity ebeta mode opposite Z.eqb]. assert (0 < 10 ^ 7) by (apply pow_lt; lra). repeat split; lra. Qed.

(* ---------- C251, C252: refuted: the outer radius and the LHC profile ---------- *)
(* with the measured profile the outer radius given by the user plays no part *)
Theorem C251_outer_radius_refuted l a b b' pb r : kick_radial (set_radii a b l) pb r = kick_radial (set_radii a b' l) pb r.
Proof. reflexivity. Qed.
(* so that a particle well within the outer radius sees the whole current *)
Theorem C251_full_current_refuted l a b pb r : 0 < a -> rigidity l <> 0 -> ebeta l <> 0 -> pb <> 0 -> (if lhc l then 505 else 426.5) / 222.5 * a <= r -> r < b ->
  kick_radial (set_radii a b l) pb r = Ok (- line_current (opposite l) (current l) (elength l) (ebeta l) pb (rigidity l) r).
Proof.
  intros A N1 N2 N3 L _. destruct (knots (lhc l) a A) as (Z0 & K0 & K1 & K2 & K3).
  assert (K4 : knot_at (lhc l) a 4 <= r) by (unfold knot_at, knot; destruct (lhc l); exact L).
  unfold kick_radial. cbn [set_radii rmin lhc]. rewrite Rleb_false by lra.
  unfold fraction. rewrite !Rltb_false by lra. rewrite theta_line by (cbn [set_radii rigidity ebeta]; lra). cbn [times set_radii opposite current elength ebeta rigidity]. f_equal. ring.
Qed.
Print Assumptions C251_outer_radius_refuted.
Print Assumptions C251_full_current_refuted.
Example C251_case : 426.5 / 222.5 * 1 <= 2 < 4 /\ lhc demo = false /\ rigidity demo <> 0 /\ ebeta demo <> 0.
Proof. cbn. repeat split; lra. Qed.

(* asking for the LHC profile alone changes nothing on a new lens *)
Theorem C252_lhc_profile_refuted m cur be rig len a b pb v : kick (set_lhc (set_radii a b (new_lens m cur be rig len))) pb v = kick (set_radii a b (new_lens m cur be rig len)) pb v.
Proof. reflexivity. Qed.
(* it does when the measured profile is asked for as well, in any order *)
Theorem C252_both_calls l pb v : kick (set_lhc (set_profile false l)) pb v = kick_radial (set_lhc l) pb (distance l v) /\
  kick (set_profile false (set_lhc l)) pb v = kick_radial (set_lhc l) pb (distance l v) /\
  kick (set_profile true (set_lhc l)) pb v = kick_simple l pb (distance l v).
Proof. repeat split. Qed.
(* the two profiles are not the same *)
Example C252_case : fraction true 222.5 252.5 <> fraction false 222.5 252.5.
Proof.
  unfold fraction. cbn [knot_at knot]. rewrite !(Rltb_false 252.5 222.5) by lra. rewrite (Rltb_true 252.5 (265 / 222.5 * 222.5)) by lra.
  rewrite (Rltb_false 252.5 (252.5 / 222.5 * 222.5)) by lra. rewrite (Rltb_true 252.5 (287 / 222.5 * 222.5)) by lra.
  unfold whole, piece. rewrite !trapezium by (cbn [knot_at knot]; lra). cbn [knot_at knot height]. unfold cubic. intros E.
  lra.
Qed.
Print Assumptions C252_lhc_profile_refuted.
Print Assumptions C252_both_calls.
