(* Collimator settings from the optical functions.  Properties C346-C356. *)
From Verif Require Import RBase Base Aper AperSpec AperProps JawProps CollDB CollDBSpec CollDBProps.
From Coq Require Import String List Lia Lra.
Import ListNotations.
Local Open Scope string_scope.
Local Open Scope list_scope.
Local Open Scope R_scope.

Lemma width_of ex ey t r s : beam_width ex ey t r s -> beam_size ex ey t r = Ok s.
Proof.
  intros (P & E). unfold beam_size. assert (Q : w_bx r * ex * cos t * cos t + w_by r * ey * sin t * sin t = s * s) by (rewrite E; ring). rewrite Q.
  rewrite Rltb_false by (pose proof (Rle_0_sqr s) as K; unfold Rsqr in K; lra). now rewrite sqrt_square.
Qed.
(* the settings of one collimator whose optical functions are known *)
Definition ready (ex ey : R) (d : cdata) (rows : list twrow) (c : coll) (r r' : twrow) (nx ny t s s' : R) (m : nat) : Prop :=
  at_row rows (c_pos c) r r' /\ w_bx r <> 0 /\ w_by r <> 0 /\ d_tilt d = Some t /\ d_sx d = Some nx /\ d_sy d = Some ny /\ d_mat d = Some m /\ beam_width ex ey t r s /\ beam_width ex ey t r' s'.
Lemma rows_none gs cf ex ey d rows c k i : (forall q, In q rows -> w_s q <> c_pos c) -> conf_rows gs cf ex ey d rows c k i = Ok (c, k, i).
Proof.
  induction rows as [|r rows IH]; intros H; cbn [conf_rows]; [reflexivity|]. rewrite Reqb_false by (intros E; apply (H r); [now left|auto]). apply IH. intros q Q. apply H. now right.
Qed.
Lemma rows_one gs cf ex ey d u r r' v c k i : w_s r = c_pos c -> (forall q, In q (u ++ r' :: v) -> w_s q <> c_pos c) ->
  (forall x, conf_row gs cf ex ey d r r' c k i = Ok x -> c_pos (fst (fst x)) = c_pos c) ->
  conf_rows gs cf ex ey d (u ++ r :: r' :: v) c k i = conf_row gs cf ex ey d r r' c k i.
Proof.
  induction u as [|q u IH]; intros P N K; cbn [app] in *.
  - cbn [conf_rows]. rewrite Reqb_true by auto. destruct (conf_row gs cf ex ey d r r' c k i) as [[[c1 k1] i1]| |] eqn:E; cbn [bind fst snd]; [|reflexivity|reflexivity].
    specialize (K _ eq_refl). cbn [fst] in K. change (conf_rows gs cf ex ey d (r' :: v) c1 k1 i1 = Ok (c1, k1, i1)). apply rows_none. intros q Q. rewrite K. now apply N.
  - change (conf_rows gs cf ex ey d (q :: (u ++ r :: r' :: v)) c k i = conf_row gs cf ex ey d r r' c k i). cbn [conf_rows]. rewrite Reqb_false by (intros E; apply (N q); [now left|auto]). apply IH; auto. intros x X. apply N. now right.
Qed.
Lemma row_pos gs cf ex ey d r r' c k i x : conf_row gs cf ex ey d r r' c k i = Ok x -> same_place c (fst (fst x)).
Proof.
  unfold conf_row. destruct (known (d_tilt d)) as [t| |]; cbn [bind]; try discriminate. destruct (_ || _)%bool; [intros H; injection H as <-; repeat split|].
  destruct (beam_size ex ey t r) as [s| |]; cbn [bind]; try discriminate. destruct (known (d_sx d)) as [nx| |]; cbn [bind]; try discriminate. destruct (known (d_sy d)) as [ny| |]; cbn [bind]; try discriminate.
  destruct (beam_size ex ey t r') as [s'| |]; cbn [bind]; try discriminate. destruct (new_impact _ _ _ _ _) as [i'| |]; cbn [bind]; try discriminate. destruct (jaws_for _ _ _ _ _ _ _ _ _ _ _ _) as [j| |]; cbn [bind]; try discriminate.
  destruct (d_mat d); try discriminate. intros H. injection H as <-. repeat split.
Qed.
Lemma rows_ready gs cf ex ey d rows c r r' nx ny t s s' m k i : ready ex ey d rows c r r' nx ny t s s' m ->
  conf_rows gs cf ex ey d rows c k i = (do i' <- new_impact cf (d_name d) nx s i; do j <- jaws_for gs cf (d_name d) nx ny s s' t (c_len c) r r' k; Ok (fit (fst j) (Some m) c, snd j, i')).
Proof.
  intros ((u & v & -> & P & N) & BX & BY & T & X & Y & M & S & S'). rewrite rows_one; auto; [|intros x H; apply row_pos in H; apply H]. unfold conf_row. rewrite T. cbn [known bind]. rewrite (Reqb_false _ _ BX), (Reqb_false _ _ BY). cbn [orb].
  rewrite (width_of _ _ _ _ _ S), X, Y, (width_of _ _ _ _ _ S'), M. cbn [known bind]. reflexivity.
Qed.
Lemma between_at0 a b len : between 0 a len b 0 a.
Proof. exists 0. repeat split; lra. Qed.
Lemma between_atL a b len : between 0 a len b len b.
Proof. exists 1. repeat split; lra. Qed.
Lemma between_half a b len z w : between 0 a len b z w -> between 0 (a * 2) len (b * 2) z (w * 2).
Proof. intros (t & T & E & ->). exists t. split; [exact T|]. split; [exact E|ring]. Qed.

(** ** C346: jaws matched to the beam follow the orbit and open by the given multiples of the
    beam size, interpolated between entrance and exit *)
Theorem C346_matched gs cf ex ey d rows c r r' nx ny t s s' m k i : ready ex ey d rows c r r' nx ny t s s' m -> matched cf = true -> align cf = false -> impact cf = 1 ->
  0 < c_len c -> (nx * s <= nx * s' /\ ny * s <= ny * s') \/ (w_x r, w_y r, w_x r', w_y r') <> (0, 0, 0, 0) ->
  exists j, conf_rows gs cf ex ey d rows c k i = Ok (mkC (c_name c) (c_len c) (c_pos c) (Some (Matched j)) (Some m), k, i) /\
    forall x y z cx cy wz hz p q, between 0 (w_x r) (c_len c) (w_x r') z cx -> between 0 (w_y r) (c_len c) (w_y r') z cy -> between 0 (nx * s) (c_len c) (nx * s') z wz -> between 0 (ny * s) (c_len c) (ny * s') z hz ->
      seen_from cx cy t x y p q -> within_jaws j x y z = true <-> box wz hz p q.
Proof.
  intros RD MA AL I1 L N. rewrite (rows_ready _ _ _ _ _ _ _ _ _ _ _ _ _ _ _ _ _ RD). unfold new_impact, jaws_for. rewrite (Reqb_true (impact cf)), AL, MA by exact I1. cbn [negb andb bind fst snd match_jaws]. eexists. split; [reflexivity|].
  intros x y z cx cy wz hz p q BX BY BW BH S.
  rewrite (C81_tapered (nx * s * 2) (ny * s * 2) t (c_len c) (w_x r) (w_y r) (nx * s' * 2) (ny * s' * 2) (w_x r') (w_y r') x y z cx cy (wz * 2) (hz * 2) p q); auto using between_half.
  - replace (wz * 2 / 2) with wz by field. replace (hz * 2 / 2) with hz by field. reflexivity.
  - destruct N as [N|N]; [left; lra|now right].
Qed.
Print Assumptions C346_matched.

(** ** C347: the height of the jaws is the multiple of the vertical beam size.  Refuted: without
    tilt it is the multiple of the horizontal one *)
Theorem C347_refuted gs cf ex ey d rows c r r' nx ny s s' m k i : ready ex ey d rows c r r' nx ny 0 s s' m -> matched cf = true -> align cf = false -> impact cf = 1 ->
  0 < c_len c -> 0 < nx * s -> (w_x r, w_y r) <> (0, 0) ->
  exists j, conf_rows gs cf ex ey d rows c k i = Ok (mkC (c_name c) (c_len c) (c_pos c) (Some (Matched j)) (Some m), k, i) /\
    s * s = w_bx r * ex /\ forall y, within_jaws j (w_x r) y 0 = true <-> - (ny * s) < y - w_y r < ny * s.
Proof.
  intros RD MA AL I1 L P N. destruct (C346_matched gs cf ex ey d rows c r r' nx ny 0 s s' m k i RD MA AL I1 L) as (j & E & J); [right; intros X; apply N; congruence|]. exists j. split; [exact E|]. split.
  - destruct RD as (_ & _ & _ & _ & _ & _ & _ & (_ & S) & _). rewrite cos_0, sin_0 in S. rewrite S. ring.
  - intros y. rewrite (J (w_x r) y 0 (w_x r) (w_y r) (nx * s) (ny * s) 0 (y - w_y r)); [unfold box; split; intros H; [apply H|split; [lra|exact H]]|apply between_at0|apply between_at0|apply between_at0|apply between_at0|].
    unfold seen_from. rewrite cos_0, sin_0. split; ring.
Qed.
Print Assumptions C347_refuted.

(** ** C348: jaws not matched, without tilt, are parallel and just take in the openings of both
    ends *)
Theorem C348_flat gs cf ex ey d rows c r r' nx ny s s' m k i : ready ex ey d rows c r r' nx ny 0 s s' m -> matched cf = false -> align cf = false -> impact cf = 1 ->
  d_name d <> "TCDQA.A4R6.B1" -> d_name d <> "TCDQA.B4R6.B1" -> d_name d <> "TCDQA.C4R6.B1" ->
  exists j, conf_rows gs cf ex ey d rows c k i = Ok (mkC (c_name c) (c_len c) (c_pos c) (Some (Unaligned j)) (Some m), k, i) /\
    forall x y z, within_unaligned j x y z = true <->
      Rmin (w_x r - nx * s) (w_x r' - nx * s') < x < Rmax (w_x r + nx * s) (w_x r' + nx * s') /\ Rmin (w_y r - ny * s) (w_y r' - ny * s') < y < Rmax (w_y r + ny * s) (w_y r' + ny * s').
Proof.
  intros RD MA AL I1 A B C. rewrite (rows_ready _ _ _ _ _ _ _ _ _ _ _ _ _ _ _ _ _ RD). unfold new_impact, jaws_for. rewrite (Reqb_true (impact cf)), AL, MA by exact I1. cbn [negb andb bind fst snd]. unfold flat_jaws.
  replace (one_sided (d_name d)) with false. 2: { unfold one_sided. rewrite !(proj2 (String.eqb_neq _ _)); auto. }
  eexists. split; [reflexivity|]. intros x y z. replace (nx * s * 2 / 2) with (nx * s) by field. replace (ny * s * 2 / 2) with (ny * s) by field. replace (nx * s' * 2 / 2) with (nx * s') by field. replace (ny * s' * 2 / 2) with (ny * s') by field.
  set (x1 := Rmax (w_x r + _) _). set (x2 := Rmin (w_x r - _) _). set (y1 := Rmax (w_y r + _) _). set (y2 := Rmin (w_y r - _) _).
  rewrite (C81_unaligned (x1 - x2) (y1 - y2) 0 (c_len c) ((x1 + x2) / 2) ((y1 + y2) / 2) x y z (x - (x1 + x2) / 2) (y - (y1 + y2) / 2)).
  - unfold box. split; intros ((? & ?) & (? & ?)); repeat split; lra.
  - unfold seen_from. rewrite cos_0, sin_0. split; ring.
Qed.
Print Assumptions C348_flat.
Theorem C348_one_sided gs cf ex ey d rows c r r' nx ny s s' m k i : ready ex ey d rows c r r' nx ny 0 s s' m -> matched cf = false -> align cf = false -> impact cf = 1 ->
  In (d_name d) ["TCDQA.A4R6.B1"; "TCDQA.B4R6.B1"; "TCDQA.C4R6.B1"] ->
  exists j, conf_rows gs cf ex ey d rows c k i = Ok (mkC (c_name c) (c_len c) (c_pos c) (Some (OneSided j)) (Some m), k, i) /\
    forall x y z, within_onesided j x y z = true <-> x < Rmax (w_x r + nx * s) (w_x r' + nx * s') /\ Rmin (w_y r - ny * s) (w_y r' - ny * s') < y < Rmax (w_y r + ny * s) (w_y r' + ny * s').
Proof.
  intros RD MA AL I1 A. rewrite (rows_ready _ _ _ _ _ _ _ _ _ _ _ _ _ _ _ _ _ RD). unfold new_impact, jaws_for. rewrite (Reqb_true (impact cf)), AL, MA by exact I1. cbn [negb andb bind fst snd]. unfold flat_jaws.
  replace (one_sided (d_name d)) with true. 2: { unfold one_sided. destruct A as [<-|[<-|[<-|[]]]]; reflexivity. }
  eexists. split; [reflexivity|]. intros x y z. replace (nx * s * 2 / 2) with (nx * s) by field. replace (ny * s * 2 / 2) with (ny * s) by field. replace (nx * s' * 2 / 2) with (nx * s') by field. replace (ny * s' * 2 / 2) with (ny * s') by field.
  set (x1 := Rmax (w_x r + _) _). set (x2 := Rmin (w_x r - _) _). set (y1 := Rmax (w_y r + _) _). set (y2 := Rmin (w_y r - _) _).
  rewrite (C81_one_sided (x1 - x2) (y1 - y2) 0 (c_len c) ((x1 + x2) / 2) ((y1 + y2) / 2) true x y z (x - (x1 + x2) / 2) (y - (y1 + y2) / 2)).
  - split; intros (? & (? & ?)); repeat split; lra.
  - unfold seen_from. rewrite cos_0, sin_0. split; ring.
Qed.
Print Assumptions C348_one_sided.

(** ** C349: jaws not matched take in the openings of both ends.  Refuted with a tilt: turned by
    a quarter they stop the orbit itself when it moves enough *)
Theorem C349_refuted gs cf ex ey d rows c r r' nx ny s m k i : ready ex ey d rows c r r' nx ny (PI / 2) s s m -> matched cf = false -> align cf = false -> impact cf = 1 ->
  d_name d <> "TCDQA.A4R6.B1" -> d_name d <> "TCDQA.B4R6.B1" -> d_name d <> "TCDQA.C4R6.B1" -> 0 <= nx * s -> 0 <= ny * s -> w_x r <= w_x r' -> w_y r' = w_y r -> 2 * (ny * s) <= w_x r' - w_x r ->
  exists j, conf_rows gs cf ex ey d rows c k i = Ok (mkC (c_name c) (c_len c) (c_pos c) (Some (Unaligned j)) (Some m), k, i) /\ forall z, within_unaligned j (w_x r') (w_y r') z = false.
Proof.
  intros RD MA AL I1 A B C PX PY LX EY BIG. rewrite (rows_ready _ _ _ _ _ _ _ _ _ _ _ _ _ _ _ _ _ RD). unfold new_impact, jaws_for. rewrite (Reqb_true (impact cf)), AL, MA by exact I1. cbn [negb andb bind fst snd]. unfold flat_jaws.
  replace (one_sided (d_name d)) with false. 2: { unfold one_sided. rewrite !(proj2 (String.eqb_neq _ _)); auto. }
  eexists. split; [reflexivity|]. intros z. replace (nx * s * 2 / 2) with (nx * s) by field. replace (ny * s * 2 / 2) with (ny * s) by field.
  rewrite EY. rewrite (Rmax_right (w_x r + nx * s)), (Rmin_left (w_x r - nx * s)), (Rmax_left (w_y r + ny * s)), (Rmin_left (w_y r - ny * s)) by lra.
  match goal with |- ?b = false => destruct b eqn:E; [|reflexivity] end. exfalso.
  rewrite (C81_unaligned _ _ _ _ _ _ _ _ _ (w_y r - (w_y r + ny * s + (w_y r - ny * s)) / 2) (- (w_x r' - (w_x r' + nx * s + (w_x r - nx * s)) / 2))) in E.
  - destruct E as (_ & E & _). lra.
  - unfold seen_from. rewrite cos_PI2, sin_PI2. split; ring.
Qed.
Print Assumptions C349_refuted.

(** ** C350: with alignment errors each jaw is displaced by its own error and turned by its own
    angle, and both by a common one *)
Theorem C350_errors gs cf ex ey d rows c r r' nx ny t s s' m k i : ready ex ey d rows c r r' nx ny t s s' m -> matched cf = false -> align cf = true -> impact cf = 1 -> 0 < perr cf -> 0 < aerr cf -> 0 < c_len c ->
  let o1 := sqrt (perr cf) * gs k in let a1 := sqrt (aerr cf) * gs (k + 1)%nat in let o2 := sqrt (perr cf) * gs (k + 2)%nat in let a2 := sqrt (aerr cf) * gs (k + 3)%nat in let e := sqrt (25 / 10 * / 10 ^ 9) * gs (k + 4)%nat in
  w_y r <> 0 -> exists j, conf_rows gs cf ex ey d rows c k i = Ok (mkC (c_name c) (c_len c) (c_pos c) (Some (Matched j)) (Some m), (k + 5)%nat, i) /\
    forall x y z up dn hz oy p q, between 0 (w_x r + nx * s + o1 + e) (c_len c) (w_x r' + nx * s + o1 + c_len c * a1 + e) z up -> between 0 (w_x r - nx * s + o2 + e) (c_len c) (w_x r' - nx * s + o2 + c_len c * a2 + e) z dn ->
      between 0 (w_y r) (c_len c) (w_y r') z oy -> between 0 (ny * s) (c_len c) (ny * s') z hz -> seen_from ((up + dn) / 2) oy t x y p q ->
      within_jaws j x y z = true <-> box ((up - dn) / 2) hz p q.
Proof.
  intros RD MA AL I1 PP PA L o1 a1 o2 a2 e NY. rewrite (rows_ready _ _ _ _ _ _ _ _ _ _ _ _ _ _ _ _ _ RD). unfold new_impact, jaws_for. rewrite (Reqb_true (impact cf)), AL, MA by exact I1. cbn [negb andb bind fst snd]. unfold error_jaws, normal.
  assert (TP : 0 < 25 / 10 * / 10 ^ 9). { apply Rmult_lt_0_compat; [lra|]. apply Rinv_0_lt_compat. apply pow_lt. lra. }
  rewrite (Reqb_false (perr cf)), (Reqb_false (aerr cf)), (Reqb_false (25 / 10 * / 10 ^ 9)), !Rltb_false by lra. cbn [bind fst snd].
  replace (k + 5)%nat with (Datatypes.S (Datatypes.S (Datatypes.S (Datatypes.S (Datatypes.S k))))) by lia. eexists. split; [reflexivity|].
  replace (Datatypes.S k) with (k + 1)%nat by lia. replace (Datatypes.S (k + 1)) with (k + 2)%nat by lia. replace (Datatypes.S (k + 2)) with (k + 3)%nat by lia. replace (Datatypes.S (k + 3)) with (k + 4)%nat by lia.
  fold o1 a1 o2 a2 e. clearbody o1 a1 o2 a2 e. clear TP. intros x y z up dn hz oy p q BU BD BY BH S.
  replace (nx * s * 2 / 2) with (nx * s) by field. replace (ny * s * 2 / 2) with (ny * s) by field. replace (ny * s' * 2 / 2) with (ny * s') by field.
  rewrite (C81_tapered _ _ _ _ _ _ _ _ _ _ x y z ((up + dn) / 2) oy (up - dn) (hz * 2) p q).
  - replace (hz * 2 / 2) with hz by field. reflexivity.
  - exact L.
  - right. intros X. apply NY. injection X as _ X _ _. lra.
  - destruct BU as (f & F & EZ & ->), BD as (g & _ & EG & ->). assert (g = f). { apply (Rmult_eq_reg_r (c_len c)); [|lra]. lra. } subst g. exists f. split; [exact F|]. split; [exact EZ|field].
  - destruct BY as (f & F & EZ & ->). exists f. split; [exact F|]. split; [exact EZ|field].
  - destruct BU as (f & F & EZ & ->), BD as (g & _ & EG & ->). assert (g = f). { apply (Rmult_eq_reg_r (c_len c)); [|lra]. lra. } subst g. exists f. split; [exact F|]. split; [exact EZ|ring].
  - destruct BH as (f & F & EZ & ->). exists f. split; [exact F|]. split; [exact EZ|ring].
  - exact S.
Qed.
Print Assumptions C350_errors.

(** ** C351: with alignment errors of no size the jaws are where they are without.  Refuted:
    they are still displaced by a random number of 50 micrometres rms *)
Lemma fifty : sqrt (25 / 10 * / 10 ^ 9) = 5 * / 10 ^ 5.
Proof.
  replace (25 / 10 * / 10 ^ 9) with ((5 * / 10 ^ 5) * (5 * / 10 ^ 5)) by field. apply sqrt_square. apply Rmult_le_pos; [lra|]. left. apply Rinv_0_lt_compat. apply pow_lt. lra.
Qed.
Theorem C351_refuted gs cf ex ey d rows c r r' nx ny s s' m k i : ready ex ey d rows c r r' nx ny 0 s s' m -> matched cf = false -> align cf = true -> impact cf = 1 -> perr cf = 0 -> aerr cf = 0 -> 0 < c_len c -> w_y r <> 0 -> 0 < ny * s ->
  exists j, conf_rows gs cf ex ey d rows c k i = Ok (mkC (c_name c) (c_len c) (c_pos c) (Some (Matched j)) (Some m), (k + 1)%nat, i) /\
    forall x, within_jaws j x (w_y r) 0 = true <-> - (nx * s) < x - w_x r - 5 * / 10 ^ 5 * gs k < nx * s.
Proof.
  intros RD MA AL I1 PP PA L NY HP. rewrite (rows_ready _ _ _ _ _ _ _ _ _ _ _ _ _ _ _ _ _ RD). unfold new_impact, jaws_for. rewrite (Reqb_true (impact cf)), AL, MA by exact I1. cbn [negb andb bind fst snd]. unfold error_jaws, normal.
  assert (TP : 0 < 25 / 10 * / 10 ^ 9). { apply Rmult_lt_0_compat; [lra|]. apply Rinv_0_lt_compat. apply pow_lt. lra. }
  rewrite (Reqb_true (perr cf)), (Reqb_true (aerr cf)), (Reqb_false (25 / 10 * / 10 ^ 9)), Rltb_false by lra. cbn [bind fst snd].
  replace (k + 1)%nat with (Datatypes.S k) by lia. eexists. split; [reflexivity|]. rewrite fifty. set (e := 5 * / 10 ^ 5 * gs k). clearbody e. clear TP. intros x.
  replace (nx * s * 2 / 2) with (nx * s) by field. replace (ny * s * 2 / 2) with (ny * s) by field. replace (ny * s' * 2 / 2) with (ny * s') by field.
  erewrite (C81_tapered _ _ _ _ _ _ _ _ _ _ x (w_y r) 0 _ _ _ _ (x - w_x r - e) 0 L).
  2: { right. intros X. apply NY. injection X as _ X _ _. lra. } 2: apply between_at0. 2: apply between_at0. 2: apply between_at0. 2: apply between_at0.
  - unfold box. split; [intros ((? & ?) & _); split; lra|intros (? & ?); repeat split; lra].
  - unfold seen_from. rewrite cos_0, sin_0. split; field.
Qed.
Print Assumptions C351_refuted.

(** ** C352: the position error is the rms displacement of a jaw.  Refuted: its root is *)
Theorem C352_refuted gs v k : 0 < v -> exists k', normal gs v k = Ok (sqrt v * gs k, k') /\ (v < 1 -> v < sqrt v).
Proof.
  intros P. exists (Datatypes.S k). unfold normal. rewrite Reqb_false, Rltb_false by lra. split; [reflexivity|]. intros H. pose proof (sqrt_lt_R0 v P). pose proof (sqrt_sqrt v ltac:(lra)) as Q.
  assert (sqrt v < 1) by (rewrite <- sqrt_1; apply sqrt_lt_1; lra). rewrite <- Q at 1. rewrite <- (Rmult_1_r (sqrt v)) at 3. apply Rmult_lt_compat_l; lra.
Qed.
Print Assumptions C352_refuted.

(** ** C353: switching on alignment errors gives jaws with errors.  Refuted: unless matching is
    switched off as well the program ends at the first collimator *)
Theorem C353_refuted gs cf ex ey d rows c r r' nx ny t s s' m k i : ready ex ey d rows c r r' nx ny t s s' m -> matched cf = true -> align cf = true -> impact cf = 1 ->
  conf_rows gs cf ex ey d rows c k i = Throw Unsupported.
Proof.
  intros RD MA AL I1. rewrite (rows_ready _ _ _ _ _ _ _ _ _ _ _ _ _ _ _ _ _ RD). unfold new_impact, jaws_for. rewrite (Reqb_true (impact cf)), AL, MA by exact I1. reflexivity.
Qed.
Print Assumptions C353_refuted.

(** ** C354: the impact parameter of the primary collimator: the multiple of the beam size plus
    the distance in beam sizes; other collimators leave it *)
Theorem C354_impact gs cf ex ey d rows c r r' nx ny t s s' m k i : ready ex ey d rows c r r' nx ny t s s' m -> align cf = false -> 0 < s ->
  exists c', conf_rows gs cf ex ey d rows c k i = Ok (c', k, if (if Req_EM_T (impact cf) 1 then false else true) && (if string_dec (d_name d) (primary cf) then true else false) then nx + impact cf / s else i)%bool.
Proof.
  intros RD AL P. rewrite (rows_ready _ _ _ _ _ _ _ _ _ _ _ _ _ _ _ _ _ RD). unfold new_impact, jaws_for. rewrite AL.
  destruct (Reqb_spec (impact cf) 1) as [E|E], (Req_EM_T (impact cf) 1) as [E'|E']; try contradiction; cbn [negb andb bind fst snd]; [eexists; reflexivity|].
  destruct (String.eqb_spec (d_name d) (primary cf)) as [N|N], (string_dec (d_name d) (primary cf)) as [N'|N']; try contradiction; cbn [bind fst snd]; [|eexists; reflexivity].
  rewrite Reqb_false by lra. cbn [bind fst snd]. eexists. do 2 f_equal. field. lra.
Qed.
Print Assumptions C354_impact.

(** ** C355: the result is 1 when the primary collimator is not configured.  Refuted: it is the
    result of an earlier call *)
Lemma rows_impact gs cf ex ey d rows : d_name d <> primary cf -> forall c k i x, conf_rows gs cf ex ey d rows c k i = Ok x -> snd x = i.
Proof.
  intros N. induction rows as [|r rows IH]; intros c k i x H; cbn [conf_rows] in H; [injection H as <-; reflexivity|]. destruct (Reqb (c_pos c) (w_s r)); [|eauto]. destruct rows as [|r' rows]; [discriminate|].
  destruct (conf_row gs cf ex ey d r r' c k i) as [[[c1 k1] i1]| |] eqn:E; cbn [bind] in H; try discriminate. apply IH in H. cbn [fst snd] in H. rewrite H. clear -E N. unfold conf_row in E.
  destruct (known (d_tilt d)) as [t| |]; cbn [bind] in E; try discriminate. destruct (_ || _)%bool; [injection E as _ _ <-; reflexivity|].
  destruct (beam_size ex ey t r) as [s| |]; cbn [bind] in E; try discriminate. destruct (known (d_sx d)) as [nx| |]; cbn [bind] in E; try discriminate. destruct (known (d_sy d)) as [ny| |]; cbn [bind] in E; try discriminate.
  destruct (beam_size ex ey t r') as [s'| |]; cbn [bind] in E; try discriminate. unfold new_impact in E. rewrite (proj2 (String.eqb_neq _ _) N), Bool.andb_false_r in E. cbn [bind] in E.
  destruct (jaws_for _ _ _ _ _ _ _ _ _ _ _ _) as [j| |]; cbn [bind] in E; try discriminate. destruct (d_mat d); try discriminate. injection E as _ _ <-. reflexivity.
Qed.
Theorem C355_refuted gs cf ex ey rows ds : (forall d, In d ds -> d_name d <> primary cf) -> forall l k i x, configure gs cf ex ey rows ds l k i = Ok x -> snd x = i.
Proof.
  induction ds as [|d ds IH]; intros N l k i x H; cbn [configure] in H; [injection H as <-; reflexivity|].
  destruct (on_first_cases (d_name d) (fun c => conf_rows gs cf ex ey d rows c k i) k i l) as [(u & c & t & -> & _ & _ & E)|(_ & E)]; rewrite E in H.
  - destruct (conf_rows gs cf ex ey d rows c k i) as [[[c1 k1] i1]| |] eqn:F; cbn [bind fst snd] in H; try discriminate. apply rows_impact in F; [|apply N; now left]. cbn in F. subst i1. eapply IH; [|exact H]. intros d0 D. apply N. now right.
  - cbn [bind fst snd] in H. eapply IH; [|exact H]. intros d0 D. apply N. now right.
Qed.
Print Assumptions C355_refuted.
Theorem C355_first gs cf ex ey rows ds l k x : (forall d, In d ds -> d_name d <> primary cf) -> configure gs cf ex ey rows ds l k first_impact = Ok x -> snd x = 1.
Proof. intros N H. exact (C355_refuted _ _ _ _ _ _ N _ _ _ _ H). Qed.
Print Assumptions C355_first.

(** ** C356: every collimator of the file gets jaws.  Refuted: one whose position is in no row of
    the optical functions stays as it is; one at the last row is an error *)
Theorem C356_refuted gs cf ex ey d rows c k i : (forall q, In q rows -> w_s q <> c_pos c) -> conf_rows gs cf ex ey d rows c k i = Ok (c, k, i).
Proof. apply rows_none. Qed.
Print Assumptions C356_refuted.
Theorem C356_last gs cf ex ey d rows r c k i : (forall q, In q rows -> w_s q <> c_pos c) -> w_s r = c_pos c -> conf_rows gs cf ex ey d (rows ++ [r]) c k i = Throw OutOfRange.
Proof.
  induction rows as [|q rows IH]; intros N P; cbn [app conf_rows]; [now rewrite Reqb_true by auto|]. rewrite Reqb_false by (intros E; apply (N q); [now left|auto]). apply IH; auto. intros x X. apply N. now right.
Qed.
Print Assumptions C356_last.
Theorem C356_no_optics gs cf ex ey d u r r' v c k i t : d_tilt d = Some t -> w_s r = c_pos c -> (forall q, In q (u ++ r' :: v) -> w_s q <> c_pos c) -> w_bx r = 0 \/ w_by r = 0 ->
  conf_rows gs cf ex ey d (u ++ r :: r' :: v) c k i = Ok (c, k, i).
Proof.
  intros T P N Z. assert (E : conf_row gs cf ex ey d r r' c k i = Ok (c, k, i)). { unfold conf_row. rewrite T. cbn [known bind]. destruct Z as [Z|Z]; rewrite (Reqb_true _ _ Z); [reflexivity|now rewrite Bool.orb_true_r]. }
  rewrite rows_one; auto. intros x H. rewrite E in H. injection H as <-. reflexivity.
Qed.
Print Assumptions C356_no_optics.

(** ** C357: only collimators of the file are changed, and only jaws and material; each by its
    own record *)
Lemma rows_place gs cf ex ey d rows : forall c k i x, conf_rows gs cf ex ey d rows c k i = Ok x -> same_place c (fst (fst x)).
Proof.
  induction rows as [|r rows IH]; intros c k i x H; cbn [conf_rows] in H; [injection H as <-; repeat split|]. destruct (Reqb (c_pos c) (w_s r)); [|eauto]. destruct rows as [|r' rows]; [discriminate|].
  destruct (conf_row gs cf ex ey d r r' c k i) as [[[c1 k1] i1]| |] eqn:E; cbn [bind] in H; try discriminate. apply IH in H. apply row_pos in E. cbn [fst] in *. destruct H as (A & B & C), E as (A' & B' & C'). repeat split; congruence.
Qed.
Theorem C357_each gs cf ex ey rows ds : forall l k i x, NoDup (map d_name ds) -> NoDup (map c_name l) -> configure gs cf ex ey rows ds l k i = Ok x ->
  Forall2 (fun c c' => same_place c c' /\ (forall d, In d ds -> d_name d = c_name c -> exists k0 i0 k1 i1, conf_rows gs cf ex ey d rows c k0 i0 = Ok (c', k1, i1)) /\ ((forall d, In d ds -> d_name d <> c_name c) -> c' = c)) l (fst (fst x)).
Proof.
  induction ds as [|d ds IH]; intros l k i x ND NL H; cbn [configure] in H.
  - injection H as <-. apply CollDBProps.Forall2_refl. intros c _. split; [repeat split|]. split; [intros d []|auto].
  - cbn [map] in ND. inversion ND as [|? ? N1 N2]; subst.
    set (P := fun (ds : list cdata) (c c' : coll) => same_place c c' /\ (forall d, In d ds -> d_name d = c_name c -> exists k0 i0 k1 i1, conf_rows gs cf ex ey d rows c k0 i0 = Ok (c', k1, i1)) /\ ((forall d, In d ds -> d_name d <> c_name c) -> c' = c)).
    assert (FR : forall a a', c_name a <> d_name d -> P ds a a' -> P (d :: ds) a a').
    { intros a a' NX (A & B & C). split; [exact A|]. split; [intros d0 [<-|D]; [intros E; congruence|auto]|]. intros D. apply C. intros d0 D0. apply D. now right. }
    destruct (on_first_cases (d_name d) (fun c => conf_rows gs cf ex ey d rows c k i) k i l) as [(u & c & t & -> & NC & U & E)|(U & E)]; rewrite E in H.
    + destruct (conf_rows gs cf ex ey d rows c k i) as [[[c' k1] i1]| |] eqn:F; cbn [bind fst snd] in H; try discriminate. pose proof (rows_place _ _ _ _ _ _ _ _ _ _ F) as SP. cbn [fst] in SP. assert (NC' : c_name c' = d_name d) by (destruct SP as (-> & _); auto).
      assert (NL1 : NoDup (map c_name (u ++ c' :: t))). { rewrite names_app in *. now rewrite NC', <- NC. }
      specialize (IH _ _ _ _ N2 NL1 H). apply Forall2_app_inv_l in IH. destruct IH as (u' & t0 & FU & FT & ->). inversion FT as [|? c2 ? t' FC FT']; subst.
      rewrite names_app in NL. apply nodup_mid in NL. destruct NL as (NU & NT). apply Forall2_app.
      * clear -FU FR U. induction FU; constructor; [apply FR; auto; apply U; now left|apply IHFU; intros; apply U; now right].
      * constructor.
        -- assert (E2 : c2 = c'). { apply FC. intros d0 D0 EN. apply N1. rewrite <- NC', <- EN. now apply in_map. } subst c2. split; [exact SP|]. split.
           ++ intros d0 [<-|D0] EN; [eauto|]. exfalso. apply N1. rewrite <- NC, <- EN. now apply in_map.
           ++ intros D. exfalso. apply (D d); [now left|congruence].
        -- assert (T : forall a, In a t -> c_name a <> d_name d). { intros a X EN. apply (NT (c_name a)); [now apply in_map|congruence]. }
           clear -FT' FR T. induction FT'; constructor; [apply FR; auto; apply T; now left|apply IHFT'; intros; apply T; now right].
    + cbn [bind fst snd] in H. specialize (IH _ _ _ _ N2 NL H). clear -IH FR U. induction IH; constructor; [apply FR; auto; apply U; now left|apply IHIH; intros; apply U; now right].
Qed.
Print Assumptions C357_each.
Theorem C357_order gs cf ex ey rows d ds u c t k i : c_name c = d_name d -> (forall x, In x u -> c_name x <> d_name d) ->
  (forall c' k' i', conf_rows gs cf ex ey d rows c k i = Ok (c', k', i') -> configure gs cf ex ey rows (d :: ds) (u ++ c :: t) k i = configure gs cf ex ey rows ds (u ++ c' :: t) k' i') /\
  (forall e, conf_rows gs cf ex ey d rows c k i = Throw e -> configure gs cf ex ey rows (d :: ds) (u ++ c :: t) k i = Throw e) /\
  configure gs cf ex ey rows (d :: ds) u k i = configure gs cf ex ey rows ds u k i.
Proof.
  intros NC U. assert (A : forall l, (forall x, In x l -> c_name x <> d_name d) -> on_first (d_name d) (fun c => conf_rows gs cf ex ey d rows c k i) k i l = Ok (l, k, i)).
  { induction l as [|a l IH]; intros N; [reflexivity|]. cbn [on_first]. rewrite (proj2 (String.eqb_neq _ _)) by (apply N; now left). rewrite IH by (intros; apply N; now right). reflexivity. }
  assert (B : on_first (d_name d) (fun c => conf_rows gs cf ex ey d rows c k i) k i (u ++ c :: t) = (do r <- conf_rows gs cf ex ey d rows c k i; Ok (u ++ fst (fst r) :: t, snd (fst r), snd r))).
  { clear A. induction u as [|a u IH]; cbn [app on_first]; [now rewrite NC, String.eqb_refl|]. rewrite (proj2 (String.eqb_neq _ _)) by (apply U; now left). rewrite IH by (intros; apply U; now right). destruct (conf_rows gs cf ex ey d rows c k i) as [r| |]; reflexivity. }
  split; [|split].
  - intros c' k' i' E. cbn [configure]. rewrite B, E. reflexivity.
  - intros e E. cbn [configure]. rewrite B, E. reflexivity.
  - cbn [configure]. rewrite A by exact U. reflexivity.
Qed.
Print Assumptions C357_order.

(* of several rows at the position of a collimator the last one counts *)
Theorem C357_last_row gs cf ex ey d u r1 r2 rest c k i nx ny t s1 s2 m : align cf = false -> impact cf = 1 ->
  (forall q, In q u -> w_s q <> c_pos c) -> w_s r1 = c_pos c -> w_s r2 = c_pos c -> rest <> [] -> ready ex ey d (r2 :: rest) c r2 (hd r2 rest) nx ny t s2 s1 m -> 0 <= w_bx r1 * ex -> 0 <= w_by r1 * ey ->
  conf_rows gs cf ex ey d (u ++ r1 :: r2 :: rest) c k i = conf_rows gs cf ex ey d (r2 :: rest) c k i.
Proof.
  intros AL I1 U P1 P2 NE RD BX BY. destruct rest as [|r3 rest]; [contradiction|]. cbn [hd] in RD.
  assert (E : exists j, conf_row gs cf ex ey d r1 r2 c k i = Ok (mkC (c_name c) (c_len c) (c_pos c) j (match j with Some _ => Some m | None => c_mat c end), k, i) /\ (j = None -> False) \/ conf_row gs cf ex ey d r1 r2 c k i = Ok (c, k, i)).
  { destruct RD as (_ & B1 & B2 & T & X & Y & M & S & _). unfold conf_row. rewrite T. cbn [known bind].
    destruct (_ || _)%bool eqn:Z; [exists None; now right|]. apply Bool.orb_false_iff in Z. destruct Z as (Z1 & Z2).
    assert (Q1 : exists s, beam_size ex ey t r1 = Ok s).
    { unfold beam_size. rewrite Rltb_false; [eauto|]. assert (0 <= w_bx r1 * ex * (cos t * cos t)) by (apply Rmult_le_pos; [lra|apply Rle_0_sqr]). assert (0 <= w_by r1 * ey * (sin t * sin t)) by (apply Rmult_le_pos; [lra|apply Rle_0_sqr]). lra. }
    destruct Q1 as (s & ->). cbn [bind]. rewrite X, Y. cbn [known bind]. rewrite (width_of ex ey t r2 s2) by exact S. cbn [bind]. unfold new_impact, jaws_for. rewrite (Reqb_true (impact cf)), AL, M by exact I1. cbn [negb andb bind fst snd]. eexists (Some _). left. split; [reflexivity|discriminate]. }
  assert (G : forall c', same_place c c' -> conf_rows gs cf ex ey d (r2 :: r3 :: rest) c' k i = conf_rows gs cf ex ey d (r2 :: r3 :: rest) c k i).
  { intros c' (N & L & PO). rewrite (rows_ready _ _ _ _ _ _ _ _ _ _ _ _ _ _ _ k i RD). assert (RD' : ready ex ey d (r2 :: r3 :: rest) c' r2 r3 nx ny t s2 s1 m) by (unfold ready in *; now rewrite PO).
    rewrite (rows_ready _ _ _ _ _ _ _ _ _ _ _ _ _ _ _ k i RD'). unfold fit. now rewrite N, L, PO. }
  assert (C : conf_rows gs cf ex ey d (u ++ r1 :: r2 :: r3 :: rest) c k i = (do q <- conf_row gs cf ex ey d r1 r2 c k i; conf_rows gs cf ex ey d (r2 :: r3 :: rest) (fst (fst q)) (snd (fst q)) (snd q))).
  { clear E G RD. induction u as [|q u IH].
    - change (conf_rows gs cf ex ey d (r1 :: r2 :: r3 :: rest) c k i = (do q <- conf_row gs cf ex ey d r1 r2 c k i; conf_rows gs cf ex ey d (r2 :: r3 :: rest) (fst (fst q)) (snd (fst q)) (snd q))). cbn [conf_rows]. now rewrite (Reqb_true (c_pos c) (w_s r1)) by auto.
    - change ((q :: u) ++ r1 :: r2 :: r3 :: rest) with (q :: (u ++ r1 :: r2 :: r3 :: rest)). rewrite <- IH by (intros; apply U; now right). cbn [conf_rows]. now rewrite Reqb_false by (intros Q; apply (U q); [now left|auto]). }
  rewrite C. destruct E as (j & [(-> & _)| ->]); cbn [bind fst snd]; apply G; repeat split.
Qed.
Print Assumptions C357_last_row.

(** ** C358: an unknown material is reported when the optical functions are used.  Refuted: the
    null pointer is followed *)
Theorem C358_refuted gs cf ex ey d rows c r r' nx ny t s s' k i : at_row rows (c_pos c) r r' -> w_bx r <> 0 -> w_by r <> 0 -> d_tilt d = Some t -> d_sx d = Some nx -> d_sy d = Some ny -> d_mat d = None ->
  beam_width ex ey t r s -> beam_width ex ey t r' s' -> impact cf = 1 -> align cf = false -> conf_rows gs cf ex ey d rows c k i = UB.
Proof.
  intros (u & v & -> & P & N) BX BY T X Y M S S' I1 AL. assert (E : conf_row gs cf ex ey d r r' c k i = UB).
  { unfold conf_row. rewrite T. cbn [known bind]. rewrite (Reqb_false _ _ BX), (Reqb_false _ _ BY). cbn [orb]. rewrite (width_of _ _ _ _ _ S), X, Y, (width_of _ _ _ _ _ S'), M. cbn [known bind]. unfold new_impact, jaws_for. rewrite (Reqb_true (impact cf)), AL by exact I1. reflexivity. }
  rewrite rows_one; auto. intros x H. rewrite E in H. discriminate.
Qed.
Print Assumptions C358_refuted.

Definition rec0 : cdata := mkD "TCP" None None (Some 0) None None None None None (Some 6) (Some 10) (Some 1%nat).
Definition tcp : coll := mkC "TCP" 0.6 100 None None.
Definition row0 : twrow := mkW 100 4 1 0.001 0.002.
Definition row1 : twrow := mkW 100.6 9 1 0.002 0.002.
Example C346_example : ready 1 1 rec0 [mkW 99 1 1 0 0; row0; row1; mkW 110 1 1 0 0] tcp row0 row1 6 10 0 2 3 1 /\ (w_x row0, w_y row0) <> (0, 0).
Proof.
  split; [|cbn; intros H; injection H; lra]. split; [|cbn; unfold beam_width; cbn; rewrite ?cos_0, ?sin_0; do 6 (split; [lra || reflexivity|]); split; split; lra].
  exists [mkW 99 1 1 0 0], [mkW 110 1 1 0 0]. split; [reflexivity|]. split; [reflexivity|]. intros q [<-|[<-|[<-|[]]]]; cbn; lra.
Qed.
Example C349_example : ready 1 1 (mkD "TCP" None None (Some (PI / 2)) None None None None None (Some 6) (Some 10) (Some 1%nat)) [mkW 100 4 1 0 0; mkW 100.6 4 1 50 0] tcp (mkW 100 4 1 0 0) (mkW 100.6 4 1 50 0) 6 10 (PI / 2) 1 1 1.
Proof.
  split; [|cbn; unfold beam_width; cbn; rewrite ?cos_PI2, ?sin_PI2; do 6 (split; [lra || reflexivity|]); split; split; lra].
  exists [], []. split; [reflexivity|]. split; [reflexivity|]. intros q [<-|[]]; cbn; lra.
Qed.
