(* Properties of the kick of the hollow electron lens. *)
From Verif Require Import RBase Rot RotProofs Bunch HollowLens HollowLensSpec HollowLensProofs.
From Coq Require Import ZArith List Lia.
Import ListNotations.
Local Open Scope R_scope.

(* a lens used in the examples: deflection 2.5 at distance 4 for a velocity of 1/2 *)
Definition demo : lens := set_radii 1 2 (new_lens 0 (10 ^ 7) (1 / 2) 1 1).
Definition at_xy (x y : R) : particle := mkP (V6 x 0 y 0 7 8) 5.
Definition demo_bunch (ps : list particle) : bunch := mkB 1 2 3 ps.
Lemma demo_theta r : r <> 0 -> theta_max demo (1 / 2) r = Ok (10 / r).
Proof.
  intros N. rewrite theta_line by (cbn; lra). unfold line_current, mu0. cbn [demo opposite current elength ebeta rigidity set_radii new_lens].
  pose proof PI_RGT_0. f_equal. field. lra.
Qed.
Lemma demo_kick x : 2 <= x -> kick demo (1 / 2) (pv (at_xy x 0)) = Ok (- (10 / x)).
Proof.
  intros L. unfold kick, distance. cbn [demo simple xoff yoff set_radii new_lens at_xy pv vx vy].
  replace ((x - 0) ^ 2 + (0 - 0) ^ 2) with (x * x) by ring. rewrite sqrt_square by lra.
  unfold kick_simple. cbn [demo rmin rmax set_radii new_lens]. rewrite Rleb_false by lra. rewrite (Rltb_false x 2) by lra. cbn [andb].
  fold demo. change (set_radii 1 2 (new_lens 0 (10 ^ 7) (1 / 2) 1 1)) with demo. rewrite demo_theta by lra. cbn [times]. f_equal. ring.
Qed.
Lemma demo_push x t : 2 <= x -> push t (at_xy x 0) = mkP (V6 x t 0 0 7 8) 5.
Proof.
  intros L. unfold push, at_xy. cbn [pv vx vxp vy vyp vct vdp pid]. unfold atan2. rewrite Rltb_true by lra.
  replace (0 / x) with 0 by (field; lra). rewrite atan_0, cos_0, sin_0. f_equal. f_equal; ring.
Qed.
Lemma next_turn_kick l pb v : kick (next_turn l) pb v = kick l pb v.
Proof. reflexivity. Qed.
Lemma demo_pass rnd x : 2 <= x -> do_process rnd (1 / 2) (mkH demo (demo_bunch [at_xy x 0]) 0) =
  Ok (mkH (next_turn demo) (demo_bunch [mkP (V6 x (- (10 / x)) 0 0 7 8) 5]) 0).
Proof.
  intros L. apply do_process_ok. cbn [hl hb hpos]. split; [discriminate|]. repeat (split; [reflexivity|]).
  cbn [demo_bunch parts]. constructor; [|constructor]. unfold effective. rewrite Reqb_false by lra.
  change (switch rnd (mkH demo (demo_bunch [at_xy x 0]) 0)) with (Some (Ok 1 : hres R)). cbn [acts]. unfold kick_one. rewrite next_turn_kick, demo_kick by exact L.
  assert (P : 0 < 10 / x) by (apply Rdiv_lt_0_compat; lra). rewrite Reqb_false by lra. rewrite demo_push by exact L. do 4 f_equal. ring.
Qed.

(* ---------- C244 ---------- *)
(* everything but the counter *)
Definition unchanged (l l' : lens) : Prop :=
  current l' = current l /\ ebeta l' = ebeta l /\ rigidity l' = rigidity l /\ elength l' = elength l /\ rmin l' = rmin l /\ rmax l' = rmax l /\
  sigma_x l' = sigma_x l /\ xoff l' = xoff l /\ yoff l' = yoff l /\ mode l' = mode l /\ ac l' = ac l /\ skip l' = skip l /\
  simple l' = simple l /\ opposite l' = opposite l /\ lhc l' = lhc l.
Theorem C244_only_angles rnd pb s s' : do_process rnd pb s = Ok s' ->
  Forall2 same_place (parts (hb s)) (parts (hb s')) /\
  p0 (hb s') = p0 (hb s) /\ ct0 (hb s') = ct0 (hb s) /\ qmp (hb s') = qmp (hb s) /\
  turns (hl s') = (turns (hl s) + 1)%Z /\ unchanged (hl s) (hl s').
Proof.
  intros H. apply do_process_ok in H. destruct H as (M & L & _ & A & B & C & F).
  split; [|rewrite L; repeat (split; [assumption || reflexivity|]); reflexivity].
  eapply Forall2_impl; [|exact F]. intros p q. cbn beta. unfold acts. destruct (switch rnd s) as [f|].
  - intros K. apply kick_one_cases in K. destruct K as [->|(t & k & _ & _ & _ & ->)]; [repeat split|apply push_same].
  - intros ->. repeat split.
Qed.
Lemma inside_kick l pb v a : rmin l = Some a -> distance l v <= a -> kick l pb v = Ok 0 \/ kick l pb v = UB.
Proof.
  intros E D. unfold kick, kick_simple, kick_radial. rewrite E. rewrite Rleb_true by exact D.
  destruct (simple l); [destruct (rmax l)|]; auto.
Qed.
Theorem C244_inside rnd pb s s' a : do_process rnd pb s = Ok s' -> rmin (hl s) = Some a ->
  Forall2 (fun p q => (vx (pv p) - xoff (hl s)) * (vx (pv p) - xoff (hl s)) + (vy (pv p) - yoff (hl s)) * (vy (pv p) - yoff (hl s)) <= a * a -> 0 <= a -> q = p) (parts (hb s)) (parts (hb s')).
Proof.
  intros H E. apply do_process_ok in H. destruct H as (M & L & _ & A & B & C & F).
  eapply Forall2_impl; [|exact F]. intros p q. cbn beta. unfold acts. destruct (switch rnd s) as [f|]; [|auto].
  intros K D Pa. assert (X : distance (next_turn (hl s)) (pv p) <= a).
  { unfold distance. cbn [next_turn xoff yoff]. rewrite <- (sqrt_square a) by exact Pa. apply sqrt_le_1_alt. simpl. lra. }
  unfold kick_one in K. destruct (inside_kick (next_turn (hl s)) (effective pb s) (pv p) a E X) as [Y|Y]; rewrite Y in K; [|discriminate].
  rewrite Reqb_true in K by reflexivity. congruence.
Qed.
(* the change of a particle does not depend on the others *)
Theorem C244_alone rnd pb s : exists f : particle -> particle, forall ps s',
  do_process rnd pb (mkH (hl s) (mkB (p0 (hb s)) (ct0 (hb s)) (qmp (hb s)) ps) (hpos s)) = Ok s' -> parts (hb s') = map f ps.
Proof.
  exists (fun p => match switch rnd s with None => p | Some f => match kick_one (next_turn (hl s)) (effective pb s) f p with Ok q => q | _ => p end end).
  intros ps s' H. apply do_process_ok in H. cbn [hl hb parts] in H. destruct H as (_ & _ & _ & _ & _ & _ & F).
  change (effective pb (mkH (hl s) (mkB (p0 (hb s)) (ct0 (hb s)) (qmp (hb s)) ps) (hpos s))) with (effective pb s) in F.
  change (switch rnd (mkH (hl s) (mkB (p0 (hb s)) (ct0 (hb s)) (qmp (hb s)) ps) (hpos s))) with (switch rnd s) in F.
  induction F as [|p q ps qs K F IH]; [reflexivity|]. cbn [map]. f_equal; [|exact IH].
  unfold acts in K. destruct (switch rnd s) as [f|]; [|exact K]. rewrite K. reflexivity.
Qed.
Print Assumptions C244_only_angles.
Print Assumptions C244_inside.
Print Assumptions C244_alone.
(* one particle outside the beam is deflected by 2.5, with everything else as it was *)
Example C244_case rnd : do_process rnd (1 / 2) (mkH demo (demo_bunch [at_xy 4 0]) 0) =
  Ok (mkH (next_turn demo) (demo_bunch [mkP (V6 4 (- (10 / 4)) 0 0 7 8) 5]) 0).
Proof. apply demo_pass. lra. Qed.
Example C244_case_inside : exists p, rmin demo = Some 1 /\ (vx (pv p) - xoff demo) * (vx (pv p) - xoff demo) + (vy (pv p) - yoff demo) * (vy (pv p) - yoff demo) <= 1 * 1 /\ vx (pv p) <> 0.
Proof. exists (at_xy (1 / 2) 0). cbn. repeat split; lra. Qed.

(* ---------- C245 ---------- *)
Theorem C245_perfect_profile l pb a b r : rmin l = Some a -> rmax l = Some b -> 0 <= a < b -> 0 <= r ->
  rigidity l <> 0 -> ebeta l <> 0 -> pb <> 0 ->
  exists k, kick_simple l pb r = Ok k /\
  forall out, b <= out -> deflects (annulus a b) out (line_current (opposite l) (current l) (elength l) (ebeta l) pb (rigidity l) r) r k.
Proof.
  intros A B [A0 AB] R0 N1 N2 N3. unfold kick_simple. rewrite A, B.
  assert (T : 0 < (b ^ 2 - a ^ 2) / 2) by (simpl; nra).
  assert (O : forall out, b <= out -> charge_within (annulus a b) out ((b ^ 2 - a ^ 2) / 2)) by (intros; apply annulus_outer; lra).
  set (full := line_current _ _ _ _ _ _ r).
  destruct (Rleb_spec r a) as [L|L].
  { exists 0. split; [reflexivity|]. intros out Q. exists 0, ((b ^ 2 - a ^ 2) / 2). split; [apply annulus_inner; lra|]. split; [auto|]. split; [exact T|]. split; [lra|]. field. simpl in *. lra. }
  rewrite theta_line by lra. fold full. rewrite (Rltb_true a r) by lra. rewrite Bool.andb_true_r.
  destruct (Rltb_spec r b) as [Q|Q].
  - rewrite Reqb_false by lra. eexists. split; [reflexivity|]. intros out O1. exists ((r ^ 2 - a ^ 2) / 2), ((b ^ 2 - a ^ 2) / 2).
    split; [apply annulus_mid; lra|]. split; [auto|]. split; [exact T|]. split; [simpl; split; nra|]. field. lra.
  - eexists. split; [reflexivity|]. intros out O1. exists ((b ^ 2 - a ^ 2) / 2), ((b ^ 2 - a ^ 2) / 2).
    split; [apply annulus_outer; lra|]. split; [auto|]. split; [exact T|]. split; [lra|]. field. lra.
Qed.
Print Assumptions C245_perfect_profile.
Example C245_case : exists k, kick_simple demo (1 / 2) (3 / 2) = Ok k /\ k = - ((9 / 4 - 1) / (4 - 1) * (10 / (3 / 2))).
Proof.
  unfold kick_simple. cbn [demo rmin rmax set_radii new_lens]. rewrite Rleb_false by lra. rewrite !Rltb_true by lra. cbn [andb]. rewrite Reqb_false by lra.
  change (set_radii 1 2 (new_lens 0 (10 ^ 7) (1 / 2) 1 1)) with demo. rewrite demo_theta by lra. eexists. split; [reflexivity|]. field.
Qed.

(* ---------- C246 ---------- *)
Theorem C246_measured_profile l pb a r : rmin l = Some a -> 0 < a -> 0 <= r -> rigidity l <> 0 -> ebeta l <> 0 -> pb <> 0 ->
  exists k, kick_radial l pb r = Ok k /\
  forall out, (if lhc l then 505 else 426.5) / 222.5 * a <= out ->
  deflects (through (scaled (a / 222.5) (if lhc l then lhc_profile else tevatron))) out (line_current (opposite l) (current l) (elength l) (ebeta l) pb (rigidity l) r) r k.
Proof.
  intros A A0 R0 N1 N2 N3. unfold kick_radial. rewrite A.
  change (through (scaled (a / 222.5) (if lhc l then lhc_profile else tevatron))) with (rho (lhc l) a).
  pose proof (total_pos (lhc l) a A0) as T. destruct (knots (lhc l) a A0) as (Z0 & _).
  assert (O : forall out, (if lhc l then 505 else 426.5) / 222.5 * a <= out -> charge_within (rho (lhc l) a) out (total (lhc l) a)).
  { intros out Q. apply within_5; [exact A0|]. unfold knot_at, knot. destruct (lhc l); exact Q. }
  set (full := line_current _ _ _ _ _ _ r).
  destruct (Rleb_spec r a) as [L|L].
  { exists 0. split; [reflexivity|]. intros out Q. exists 0, (total (lhc l) a). split; [apply within_0; [exact A0|lra]|]. split; [auto|]. split; [exact T|]. split; [lra|]. field. lra. }
  rewrite theta_line by lra. fold full. eexists. split; [reflexivity|]. intros out Q.
  destruct (fraction_charge (lhc l) a r A0) as (n & N & B & F); [lra|].
  exists n, (total (lhc l) a). split; [exact N|]. split; [auto|]. split; [exact T|]. split; [exact B|]. rewrite F. ring.
Qed.
Print Assumptions C246_measured_profile.
(* at the first knot of the profile: 0.09... of the charge *)
Example C246_case : exists k, kick_radial (set_radii 222.5 300 demo) (1 / 2) 252.5 = Ok k /\ k <> 0 /\ k <> - (10 / 252.5).
Proof.
  unfold kick_radial. cbn [set_radii rmin]. rewrite Rleb_false by lra.
  replace (theta_max (set_radii 222.5 300 demo) (1 / 2) 252.5) with (theta_max demo (1 / 2) 252.5) by reflexivity. rewrite demo_theta by lra.
  eexists. split; [reflexivity|]. cbn [lhc demo set_radii new_lens].
  assert (E : fraction false 222.5 252.5 = whole false 222.5 0 / total false 222.5).
  { unfold fraction. cbn [knot_at knot]. rewrite (Rltb_false 252.5 222.5) by lra. rewrite (Rltb_false 252.5 _) by lra. rewrite Rltb_true by lra.
    unfold total. f_equal. unfold piece at 1. cbn [knot_at knot]. replace (252.5 / 222.5 * 222.5) with 252.5 by lra. ring. }
  rewrite E. unfold total, whole, piece. rewrite !trapezium by (cbn [knot_at knot]; lra). cbn [knot_at knot height]. split; lra.
Qed.
