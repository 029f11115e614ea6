(* Lemmas on the hollow electron lens. *)
From Verif Require Import RBase Rot RotProofs Bunch HollowLens HollowLensSpec.
From Coquelicot Require Import Coquelicot.
From Coq Require Import ZArith List Lia.
Import ListNotations.
Local Open Scope R_scope.

(* ---------- integrals of pieces ---------- *)
Lemma int_cubic s c a b : is_RInt (fun u => (c + u * s) * u) a b ((s / 3 * b ^ 3 + c * b ^ 2 / 2) - (s / 3 * a ^ 3 + c * a ^ 2 / 2)).
Proof.
  apply (is_RInt_derive (fun u => s / 3 * u ^ 3 + c * u ^ 2 / 2)).
  - intros x _. auto_derive; [trivial|]. simpl. field.
  - intros x _. apply (ex_derive_continuous (fun u => (c + u * s) * u)). auto_derive. trivial.
Qed.
Lemma int_zero a b : is_RInt (fun _ : R => 0) a b 0.
Proof. exact (eq_rect _ (fun v : R => @is_RInt R_NormedModule (fun _ : R => 0) a b v) (@is_RInt_const R_NormedModule a b 0) _ (Rmult_0_r (b - a))). Qed.
Lemma int_ext (f g : R -> R) (a b v : R) : a <= b -> (forall u, a < u < b -> g u = f u) -> is_RInt f a b v -> is_RInt g a b v.
Proof. intros L H. apply is_RInt_ext. intros u. rewrite Rmin_left, Rmax_right by exact L. intros P. symmetry. apply H. exact P. Qed.
Lemma int_join (f : R -> R) (a b c v w : R) : is_RInt f a b v -> is_RInt f b c w -> is_RInt f a c (v + w).
Proof. intros A B. exact (is_RInt_Chasles f a b c v w A B). Qed.

(* ---------- perfect profile ---------- *)
Lemma annulus_inner a b r : r <= a -> 0 <= r -> charge_within (annulus a b) r 0.
Proof. intros. apply (int_ext (fun _ => 0)); [lra| |apply int_zero]. intros u U. unfold annulus. rewrite Rltb_false by lra. ring. Qed.
Lemma annulus_mid a b r : 0 <= a -> a <= r -> r <= b -> charge_within (annulus a b) r ((r ^ 2 - a ^ 2) / 2).
Proof.
  intros. unfold charge_within. replace ((r ^ 2 - a ^ 2) / 2) with (0 + (0 / 3 * r ^ 3 + 1 * r ^ 2 / 2 - (0 / 3 * a ^ 3 + 1 * a ^ 2 / 2))) by field.
  apply int_join with a; [apply annulus_inner; lra|].
  apply (int_ext (fun u => (1 + u * 0) * u)); [lra| |apply int_cubic].
  intros u U. unfold annulus. rewrite !Rltb_true by lra. ring.
Qed.
Lemma annulus_outer a b r : 0 <= a -> a <= b -> b <= r -> charge_within (annulus a b) r ((b ^ 2 - a ^ 2) / 2).
Proof.
  intros. unfold charge_within. replace ((b ^ 2 - a ^ 2) / 2) with ((b ^ 2 - a ^ 2) / 2 + 0) by ring.
  apply int_join with b; [apply annulus_mid; lra|].
  apply (int_ext (fun _ => 0)); [lra| |apply int_zero].
  intros u U. unfold annulus. rewrite (Rltb_true a u), (Rltb_false u b) by lra. ring.
Qed.

(* ---------- measured profiles ---------- *)
Definition points (h : bool) : list (R * R) := if h then lhc_profile else tevatron.
Definition rho (h : bool) (a : R) : R -> R := through (scaled (a / 222.5) (points h)).
Lemma knots h a : 0 < a -> a = knot_at h a 0 /\ knot_at h a 0 < knot_at h a 1 /\ knot_at h a 1 < knot_at h a 2 /\ knot_at h a 2 < knot_at h a 3 /\ knot_at h a 3 < knot_at h a 4.
Proof. intros. unfold knot_at, knot. destruct h; repeat split; lra. Qed.
Lemma rho_eq h a u : rho h a u =
  if Rltb u (knot_at h a 0) then 0
  else if Rltb u (knot_at h a 1) then height 0 + (u - knot_at h a 0) * (height 1 - height 0) / (knot_at h a 1 - knot_at h a 0)
  else if Rltb u (knot_at h a 1) then 0
  else if Rltb u (knot_at h a 2) then height 1 + (u - knot_at h a 1) * (height 2 - height 1) / (knot_at h a 2 - knot_at h a 1)
  else if Rltb u (knot_at h a 2) then 0
  else if Rltb u (knot_at h a 3) then height 2 + (u - knot_at h a 2) * (height 3 - height 2) / (knot_at h a 3 - knot_at h a 2)
  else if Rltb u (knot_at h a 3) then 0
  else if Rltb u (knot_at h a 4) then height 3 + (u - knot_at h a 3) * (height 4 - height 3) / (knot_at h a 4 - knot_at h a 3)
  else 0.
Proof.
  unfold rho, points, scaled, lhc_profile, tevatron, knot_at, knot, height.
  destruct h; cbn [map through fst snd];
    repeat match goal with |- context [a / 222.5 * ?k] =>
      first [replace (a / 222.5 * k) with a by lra | replace (a / 222.5 * k) with (k / 222.5 * a) by lra] end; reflexivity.
Qed.
Lemma within_0 h a r : 0 < a -> 0 <= r <= knot_at h a 0 -> charge_within (rho h a) r 0.
Proof. intros A B. apply (int_ext (fun _ => 0)); [lra| |apply int_zero]. intros u U. rewrite rho_eq, Rltb_true by lra. ring. Qed.
Lemma int_piece h a i r : 0 < a -> (i < 4)%nat -> knot_at h a i <= r <= knot_at h a (S i) -> is_RInt (fun u => rho h a u * u) (knot_at h a i) r (piece h a i r).
Proof.
  intros A I B. destruct (knots h a A) as (_ & K0 & K1 & K2 & K3).
  assert (D : knot_at h a (S i) - knot_at h a i <> 0) by (destruct i as [|[|[|[|]]]]; [..|lia]; lra).
  unfold piece, cubic.
  set (s := (height (S i) - height i) / (knot_at h a (S i) - knot_at h a i)).
  set (c := height i - knot_at h a i * (height (S i) - height i) / (knot_at h a (S i) - knot_at h a i)).
  apply (int_ext (fun u => (c + u * s) * u)); [lra| |apply int_cubic].
  intros u U. rewrite rho_eq. unfold c, s.
  destruct i as [|[|[|[|]]]]; [..|lia]; rewrite ?(Rltb_false u) by lra; rewrite (Rltb_true u) by lra; field; lra.
Qed.
Lemma within_1 h a r : 0 < a -> knot_at h a 0 <= r <= knot_at h a 1 -> charge_within (rho h a) r (piece h a 0 r).
Proof.
  intros A B. destruct (knots h a A) as (Z0 & _). unfold charge_within. rewrite <- (Rplus_0_l (piece _ _ _ _)).
  apply int_join with (knot_at h a 0); [apply within_0|apply int_piece]; auto; lra.
Qed.
Lemma within_2 h a r : 0 < a -> knot_at h a 1 <= r <= knot_at h a 2 -> charge_within (rho h a) r (whole h a 0 + piece h a 1 r).
Proof.
  intros A B. destruct (knots h a A) as (Z0 & K0 & _). unfold charge_within.
  apply int_join with (knot_at h a 1); [apply within_1|apply int_piece]; auto; lra.
Qed.
Lemma within_3 h a r : 0 < a -> knot_at h a 2 <= r <= knot_at h a 3 -> charge_within (rho h a) r (whole h a 0 + whole h a 1 + piece h a 2 r).
Proof.
  intros A B. destruct (knots h a A) as (Z0 & K0 & K1 & _). unfold charge_within.
  apply int_join with (knot_at h a 2); [apply within_2|apply int_piece]; auto; lra.
Qed.
Lemma within_4 h a r : 0 < a -> knot_at h a 3 <= r <= knot_at h a 4 -> charge_within (rho h a) r (whole h a 0 + whole h a 1 + whole h a 2 + piece h a 3 r).
Proof.
  intros A B. destruct (knots h a A) as (Z0 & K0 & K1 & K2 & _). unfold charge_within.
  apply int_join with (knot_at h a 3); [apply within_3|apply int_piece]; auto; lra.
Qed.
Definition total (h : bool) (a : R) : R := whole h a 0 + whole h a 1 + whole h a 2 + whole h a 3.
Lemma within_5 h a r : 0 < a -> knot_at h a 4 <= r -> charge_within (rho h a) r (total h a).
Proof.
  intros A B. destruct (knots h a A) as (Z0 & K0 & K1 & K2 & K3). unfold charge_within. rewrite <- (Rplus_0_r (total h a)).
  apply int_join with (knot_at h a 4); [apply within_4; auto; lra|].
  apply (int_ext (fun _ => 0)); [lra| |apply int_zero].
  intros u U. rewrite rho_eq, !Rltb_false by lra. ring.
Qed.
Lemma rho_pos h a u : 0 < a -> 0 <= rho h a u.
Proof.
  intros A. destruct (knots h a A) as (Z0 & K0 & K1 & K2 & K3). rewrite rho_eq.
  repeat match goal with |- context [Rltb ?x ?y] => destruct (Rltb_spec x y) end; try lra; unfold height.
  - apply Rplus_le_le_0_compat; [lra|]. apply Rmult_le_pos; [nra|]. left. apply Rinv_0_lt_compat. lra.
  - replace (917 + (u - knot_at h a 1) * (397 - 917) / (knot_at h a 2 - knot_at h a 1)) with ((917 * (knot_at h a 2 - u) + 397 * (u - knot_at h a 1)) / (knot_at h a 2 - knot_at h a 1)) by (field; lra).
    apply Rmult_le_pos; [nra|]. left. apply Rinv_0_lt_compat. lra.
  - replace (397 + (u - knot_at h a 2) * (228 - 397) / (knot_at h a 3 - knot_at h a 2)) with ((397 * (knot_at h a 3 - u) + 228 * (u - knot_at h a 2)) / (knot_at h a 3 - knot_at h a 2)) by (field; lra).
    apply Rmult_le_pos; [nra|]. left. apply Rinv_0_lt_compat. lra.
  - replace (228 + (u - knot_at h a 3) * (0 - 228) / (knot_at h a 4 - knot_at h a 3)) with ((228 * (knot_at h a 4 - u)) / (knot_at h a 4 - knot_at h a 3)) by (field; lra).
    apply Rmult_le_pos; [nra|]. left. apply Rinv_0_lt_compat. lra.
Qed.
Lemma within_mono f r r' n n' : (forall u, 0 <= f u) -> 0 <= r <= r' -> charge_within f r n -> charge_within f r' n' -> 0 <= n <= n'.
Proof.
  intros F L A B. unfold charge_within in A, B.
  assert (X : 0 <= n).
  { apply (is_RInt_le (fun _ => 0) (fun u => f u * u) 0 r); [lra|apply int_zero|exact A|]. intros u U. apply Rmult_le_pos; [apply F|lra]. }
  split; [exact X|].
  assert (C : is_RInt (fun u => f u * u) r r' (n' - n)).
  { replace (n' - n) with (- n + n') by ring. apply int_join with 0; [|exact B]. exact (is_RInt_swap _ _ _ _ A). }
  assert (Y : 0 <= n' - n); [|lra].
  apply (is_RInt_le (fun _ => 0) (fun u => f u * u) r r'); [lra|apply int_zero|exact C|]. intros u U. apply Rmult_le_pos; [apply F|lra].
Qed.
Lemma trapezium u v u' v' : u' - u <> 0 -> cubic u v u' v' u' - cubic u v u' v' u = (u' - u) * (v * (2 * u + u') + v' * (u + 2 * u')) / 6.
Proof. intros. unfold cubic. field. assumption. Qed.
Lemma total_pos h a : 0 < a -> 0 < total h a.
Proof.
  intros A. destruct (knots h a A) as (Z0 & K0 & K1 & K2 & K3). unfold total, whole, piece. rewrite !trapezium by lra. unfold height. nra.
Qed.
(* the fraction used by the code is that of the charge within the radius *)
Lemma fraction_charge h a r : 0 < a -> a < r -> exists n, charge_within (rho h a) r n /\ 0 <= n <= total h a /\ fraction h a r = n / total h a.
Proof.
  intros A B. destruct (knots h a A) as (Z0 & K0 & K1 & K2 & K3). pose proof (total_pos h a A) as T.
  assert (W : exists n, charge_within (rho h a) r n /\ fraction h a r = n / total h a).
  { unfold fraction. rewrite (Rltb_false r (knot_at h a 0)) by lra. change (whole h a 0 + whole h a 1 + whole h a 2 + whole h a 3) with (total h a).
    destruct (Rltb_spec r (knot_at h a 1)); [eexists; split; [apply within_1; [auto|lra]|reflexivity]|].
    destruct (Rltb_spec r (knot_at h a 2)); [eexists; split; [apply within_2; [auto|lra]|reflexivity]|].
    destruct (Rltb_spec r (knot_at h a 3)); [eexists; split; [apply within_3; [auto|lra]|reflexivity]|].
    destruct (Rltb_spec r (knot_at h a 4)); [eexists; split; [apply within_4; [auto|lra]|reflexivity]|].
    exists (total h a). split; [apply within_5; [auto|lra]|]. field. lra. }
  destruct W as (n & N & F). exists n. split; [exact N|]. split; [|exact F].
  apply (within_mono (rho h a) r (Rmax r (knot_at h a 4))); [intros; apply rho_pos; exact A|split; [lra|apply Rmax_l]|exact N|].
  apply within_5; [exact A|apply Rmax_r].
Qed.

(* ---------- velocities ---------- *)
Lemma pbeta_mass_pos : 0 < proton_mass * speed_of_light.
Proof. unfold proton_mass, speed_of_light. apply Rmult_lt_0_compat; [|lra]. apply Rmult_lt_0_compat; [lra|]. apply Rinv_0_lt_compat, pow_lt. lra. Qed.
Lemma beta_of p m : 0 < m -> 0 <= p -> lorentz_beta (sqrt (1 + (p / m) ^ 2)) = velocity p m.
Proof.
  intros M P. unfold lorentz_beta, velocity. pose proof (pow2_ge_0 (p / m)) as Q.
  rewrite sqrt_sqrt by lra.
  assert (D : 0 < p * p + m * m) by nra.
  replace (1 - 1 / (1 + (p / m) ^ 2)) with ((p * p) / (p * p + m * m)) by (field; repeat split; nra).
  rewrite sqrt_div by nra. rewrite sqrt_square by exact P. reflexivity.
Qed.
Lemma proton_beta_velocity p : 0 <= p -> proton_beta p = velocity p (proton_mass * speed_of_light).
Proof. intros P. unfold proton_beta, lorentz_gamma. apply beta_of; [exact pbeta_mass_pos|exact P]. Qed.
Lemma velocity_range p m : 0 < m -> 0 < p -> 0 < velocity p m < 1.
Proof.
  intros M P. unfold velocity. assert (D : p < sqrt (p * p + m * m)).
  { rewrite <- (sqrt_square p) at 1 by lra. apply sqrt_lt_1_alt. nra. }
  split; [apply Rdiv_lt_0_compat; lra|]. apply Rmult_lt_reg_r with (sqrt (p * p + m * m)); [lra|]. unfold Rdiv. rewrite Rmult_assoc, Rinv_l by lra. lra.
Qed.

(* ---------- the maximal kick ---------- *)
Lemma theta_line l pb r : r <> 0 -> rigidity l <> 0 -> ebeta l <> 0 -> pb <> 0 ->
  theta_max l pb r = Ok (line_current (opposite l) (current l) (elength l) (ebeta l) pb (rigidity l) r).
Proof.
  intros. unfold theta_max. rewrite Reqb_false by assumption.
  assert (T : 10 ^ 7 <> 0) by (apply pow_nonzero; lra).
  assert (D : r * 10 ^ 7 * rigidity l * ebeta l * pb <> 0).
  { revert T. generalize (10 ^ 7). intros. repeat apply Rmult_integral_contrapositive_currified; assumption. }
  rewrite Reqb_false by exact D.
  unfold line_current, mu0. pose proof PI_RGT_0.
  destruct (opposite l); f_equal; field; repeat split; auto; lra.
Qed.

(* ---------- the loop over the particles ---------- *)
Lemma kick_all_ok l pb f ps : forall qs, kick_all l pb f ps = Ok qs <-> Forall2 (fun p q => kick_one l pb f p = Ok q) ps qs.
Proof.
  induction ps as [|p r IH]; intros qs; cbn [kick_all].
  - split; intros H; [injection H as <-; constructor|inversion H; reflexivity].
  - destruct (kick_one l pb f p) as [q| |] eqn:K.
    2,3: split; [discriminate|intros H; inversion H; congruence].
    destruct (kick_all l pb f r) as [t| |] eqn:A.
    + split; intros H.
      * injection H as <-. constructor; [exact K|]. apply IH. reflexivity.
      * inversion H as [|? q' ? t' Q T]; subst. rewrite K in Q. injection Q as ->. apply IH in T. injection T as ->. reflexivity.
    + split; [discriminate|]. intros H. inversion H as [|? q' ? t' Q T]; subst. apply IH in T. discriminate.
    + split; [discriminate|]. intros H. inversion H as [|? q' ? t' Q T]; subst. apply IH in T. discriminate.
Qed.
(* one call: what each particle becomes *)
Definition acts (l : lens) (pb : R) (on : option (hres R)) (p q : particle) : Prop :=
  match on with None => q = p | Some f => kick_one l pb f p = Ok q end.
(* whether, and with what factor, the lens acts on this call *)
Definition switch (rnd : nat -> R) (s : hst) : option (hres R) :=
  let l := next_turn (hl s) in
  match mode l with
  | Some DC => Some (Ok 1)
  | Some AC => match ac l with Some a => Some (ac_factor a (turns l)) | None => None end
  | Some Diffusive => if Rleb 0 (rnd (hpos s)) then Some (Ok 1) else None
  | Some Turnskip => if Z.eqb (Z.rem (turns l) (if Z.eqb (skip l) 0 then 2 else skip l)%Z) 0 then Some (Ok 1) else None
  | None => None
  end.
Definition effective (pb : R) (s : hst) : R := if Reqb pb 0 then proton_beta (p0 (hb s)) else pb.
Definition moves (m : option omode) : nat := match m with Some Diffusive => 1%nat | _ => 0%nat end.
Lemma Forall2_same {A} (l l' : list A) : Forall2 (fun p q => q = p) l l' <-> l' = l.
Proof.
  split; [intros H; induction H; subst; reflexivity|]. intros ->. induction l; constructor; auto.
Qed.
Lemma do_process_ok rnd pb s s' : do_process rnd pb s = Ok s' <->
  mode (hl s) <> None /\ hl s' = next_turn (hl s) /\ hpos s' = (hpos s + moves (mode (hl s)))%nat /\
  p0 (hb s') = p0 (hb s) /\ ct0 (hb s') = ct0 (hb s) /\ qmp (hb s') = qmp (hb s) /\
  Forall2 (acts (next_turn (hl s)) (effective pb s) (switch rnd s)) (parts (hb s)) (parts (hb s')).
Proof.
  destruct s as [l b n], s' as [l' b' n']. cbn [hl hb hpos]. unfold effective. cbn [hb].
  set (e := if Reqb pb 0 then proton_beta (p0 b) else pb).
  assert (W : forall k f, match with_parts b (kick_all (next_turn l) e f (parts b)) with Ok b1 => Ok (mkH (next_turn l) b1 k) | Throw x => Throw x | UB => UB end = Ok (mkH l' b' n') <->
    (l' = next_turn l /\ n' = k /\ p0 b' = p0 b /\ ct0 b' = ct0 b /\ qmp b' = qmp b /\ Forall2 (acts (next_turn l) e (Some f)) (parts b) (parts b'))).
  { intros k f. destruct (kick_all (next_turn l) e f (parts b)) as [ps| |] eqn:K; cbn [with_parts].
    - apply kick_all_ok in K. split.
      + intros H. injection H as <- <- <-. repeat (split; [reflexivity|]). exact K.
      + intros (-> & -> & A & B & C & F). apply kick_all_ok in F. apply kick_all_ok in K. rewrite K in F. injection F as F.
        destruct b' as [x y z w]. cbn [p0 ct0 qmp parts] in *. subst. reflexivity.
    - split; [discriminate|]. intros (_ & _ & _ & _ & _ & F). apply kick_all_ok in F. congruence.
    - split; [discriminate|]. intros (_ & _ & _ & _ & _ & F). apply kick_all_ok in F. congruence. }
  assert (V : forall k, (Ok (mkH (next_turn l) b k) : hres hst) = Ok (mkH l' b' n') <->
    (l' = next_turn l /\ n' = k /\ p0 b' = p0 b /\ ct0 b' = ct0 b /\ qmp b' = qmp b /\ Forall2 (acts (next_turn l) e None) (parts b) (parts b'))).
  { intros k. cbn [acts]. rewrite Forall2_same. clear W. clearbody e. destruct b as [b1 b2 b3 b4], b' as [c1 c2 c3 c4]. cbn [p0 ct0 qmp parts]. split.
    - intros H. injection H. intros. subst. repeat split.
    - intros (-> & -> & -> & -> & -> & ->). reflexivity. }
  assert (M : forall P Q : Prop, P -> (Q <-> P /\ Q)) by tauto.
  unfold do_process, switch. cbn [hl hb hpos]. fold e. change (mode (next_turn l)) with (mode l).
  destruct (mode l) as [[]|] eqn:E; cbn [fst snd moves]; rewrite ?Nat.add_0_r, ?Nat.add_1_r.
  - rewrite W. apply M. discriminate.
  - destruct (ac (next_turn l)); [rewrite W|rewrite V]; apply M; discriminate.
  - destruct (Rleb 0 (rnd n)); [rewrite W|rewrite V]; apply M; discriminate.
  - destruct (Z.rem _ _ =? 0)%Z; [rewrite W|rewrite V]; apply M; discriminate.
  - split; [discriminate|]. intros [[] _]. reflexivity.
Qed.
Lemma push_same t p : same_place p (push t p).
Proof. repeat split. Qed.
Lemma kick_one_cases l pb f p q : kick_one l pb f p = Ok q -> q = p \/ exists t k, kick l pb (pv p) = Ok t /\ t <> 0 /\ f = Ok k /\ q = push (k * t) p.
Proof.
  unfold kick_one. destruct (kick l pb (pv p)) as [t| |]; [|discriminate|discriminate].
  destruct (Reqb_spec t 0) as [Z|Z].
  - intros H. injection H as <-. left. reflexivity.
  - destruct f as [k| |]; [|discriminate|discriminate]. intros H. injection H as <-. right. exists t, k. repeat split; auto.
Qed.
Lemma kick_one_function l pb f p q q' : kick_one l pb f p = Ok q -> kick_one l pb f p = Ok q' -> q = q'.
Proof. congruence. Qed.
Lemma sign_scale z k : 0 < k -> (0 < z * k <-> 0 < z) /\ (z * k < 0 <-> z < 0).
Proof.
  intros K. split; split; intros H.
  - destruct (Rlt_dec 0 z) as [L|L]; [exact L|]. assert (z * k <= 0) by (replace 0 with (0 * k) by ring; apply Rmult_le_compat_r; lra). lra.
  - apply Rmult_lt_0_compat; assumption.
  - destruct (Rlt_dec z 0) as [L|L]; [exact L|]. assert (0 <= z * k) by (apply Rmult_le_pos; lra). lra.
  - replace 0 with (0 * k) by ring. apply Rmult_lt_compat_r; assumption.
Qed.
(* the unit vector along which a particle is pushed *)
Lemma atan2_direction x y : let d := sqrt (x * x + y * y) in x = d * cos (atan2 y x) /\ y = d * sin (atan2 y x).
Proof.
  cbv zeta. assert (P : 0 <= x * x + y * y) by (pose proof (Rle_0_sqr x); pose proof (Rle_0_sqr y); unfold Rsqr in *; lra).
  destruct (Req_dec (x * x + y * y) 0) as [Z|N].
  - rewrite Z, sqrt_0. assert (x = 0) by nra. assert (y = 0) by nra. subst. lra.
  - set (r := sqrt (x * x + y * y)). assert (R0 : 0 < r) by (apply sqrt_lt_R0; lra).
    assert (RR : r * r = x * x + y * y) by (apply sqrt_sqrt; exact P).
    assert (U : x / r * (x / r) + y / r * (y / r) = 1) by (replace 1 with ((x * x + y * y) / (r * r)) by (rewrite RR; field; lra); field; lra).
    destruct (atan2_unit _ _ U) as [C S].
    assert (E : atan2 y x = atan2 (y / r) (x / r)).
    { unfold atan2. assert (I : 0 < / r) by (apply Rinv_0_lt_compat; exact R0).
      assert (G : forall z, (0 < z / r <-> 0 < z) /\ (z / r < 0 <-> z < 0)).
      { intros z. apply sign_scale. exact I. }
      assert (Q : x <> 0 -> y / r / (x / r) = y / x) by (intros; field; lra).
      destruct (Rltb_spec 0 x) as [A|A].
      + rewrite Rltb_true by (apply G; exact A). rewrite Q by lra. reflexivity.
      + rewrite (Rltb_false 0 (x / r)) by (destruct (Rlt_dec 0 (x / r)) as [K|K]; [apply (proj1 (proj1 (G _))) in K; lra|lra]).
        destruct (Rltb_spec x 0) as [B|B].
        * rewrite (Rltb_true (x / r) 0) by (apply G; exact B). rewrite Q by lra.
          destruct (Rleb_spec 0 y) as [C1|C1].
          -- rewrite Rleb_true; [reflexivity|]. apply Rmult_le_pos; lra.
          -- rewrite Rleb_false; [reflexivity|]. apply G. lra.
        * rewrite (Rltb_false (x / r) 0) by (destruct (Rlt_dec (x / r) 0) as [K|K]; [apply (proj1 (proj2 (G _))) in K; lra|lra]).
          destruct (Rltb_spec 0 y) as [C1|C1].
          -- rewrite Rltb_true by (apply G; exact C1). reflexivity.
          -- rewrite (Rltb_false 0 (y / r)) by (destruct (Rlt_dec 0 (y / r)) as [K|K]; [apply (proj1 (proj1 (G _))) in K; lra|lra]).
             destruct (Rltb_spec y 0) as [C2|C2].
             ++ rewrite Rltb_true by (apply G; lra). reflexivity.
             ++ assert (x = 0) by lra. assert (y = 0) by lra. subst. lra. }
    rewrite E, C, S. split; field; lra.
Qed.
Lemma push_from t p : deflected_from 0 0 t p (push t p).
Proof.
  exists (cos (atan2 (vy (pv p)) (vx (pv p)))), (sin (atan2 (vy (pv p)) (vx (pv p)))).
  split; [pose proof (sin2_cos2 (atan2 (vy (pv p)) (vx (pv p)))) as H; unfold Rsqr in H; lra|].
  split; [|split; reflexivity]. cbv zeta. rewrite !Rminus_0_r. apply atan2_direction.
Qed.
