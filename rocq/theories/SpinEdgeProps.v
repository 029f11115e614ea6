(* Bends and the ends of magnets: C266-C272. *)
From Verif Require Import Rot RotSpec RotProofs Spin SpinSpec SpinProofs SpinProps.
From Coq Require Import ZArith.
Local Open Scope R_scope.

(* a step in the body of a magnet: neither end is passed *)
Definition in_body (st : sproc) (ds : R) : Prop := intS st <> 0 /\ eps < Rabs (intS st + ds - clength st).
Lemma body_step st f P0 ds p s s' : in_body st ds -> stepped st f P0 ds p s s' ->
  turned (body_rate (mag st) (own_rigidity P0 p) (own_gamma st P0 p) (f (psx p) (psy p))) ds s s'.
Proof. intros [I1 I2] (s1 & s2 & A & B & C & D & E). rewrite (E I2). rewrite (B I1) in C. exact C. Qed.

(* C266: relative to the design orbit of a bend the spin of any particle turns as the
   field tells it, less the turning of the frame.  Not so: off momentum the frame is
   taken to turn with the particle. *)
Theorem C266_refuted st f B b0 e1 e2 P0 ds p s' : mag st = Bend b0 e1 e2 -> in_body st ds -> P0 <> 0 -> 1 + psdp p <> 0 ->
  f (psx p) (psy p) = mkv 0 B 0 -> cos (B / rigidity P0 * ds * (psdp p / (1 + psdp p))) <> 1 ->
  stepped st f P0 ds p up s' ->
  ~ turned (bmt_frame (B / rigidity P0) (own_rigidity P0 p) (own_gamma st P0 p) (mkv 0 B 0)) ds up s'.
Proof.
  intros M I N D F C S T. apply body_step in S; [|exact I]. rewrite M, F in S. cbn [body_rate is_bend] in S. unfold body_rate, is_bend, bmt_own in S.
  set (g := own_gamma st P0 p) in *. assert (RN : rigidity P0 <> 0) by now rewrite rigidity_zero.
  assert (Q : forall h rig, bmt_frame h rig g (mkv 0 B 0) = mkv 0 (- ((1 + anomaly * g) * B / rig) + h) 0) by (intros; unfold bmt_frame, bmt; cbn [vx vy vz]; apply v3_eq; cbn [vx vy vz]; unfold Rdiv; ring).
  cbn [vy] in S. rewrite Q in S, T. pose proof (turned_fun _ _ _ _ _ S (turned_y _ ds)) as E1. pose proof (turned_fun _ _ _ _ _ T (turned_y _ ds)) as E2. rewrite E1 in E2.
  injection E2 as ES EC. apply C. etransitivity; [|exact (angles _ _ ES EC)]. rewrite <- cos_neg. f_equal. unfold own_rigidity. field. auto.
Qed.
Print Assumptions C266_refuted.
Example C266_ex : let st := inside (Bend 1 None None) (fun _ _ => mkv 0 1 0) 100 in let P0 := light / 10 ^ 9 in exists st1 b1 st2 b2 s1 s2,
  spin_step 1 (st, one P0 0 0 1 up) = Ok (st1, b1) /\ spin_step PI (st1, b1) = Ok (st2, b2) /\ spins b1 = [s1] /\ spins b2 = [s2] /\
  in_body st1 PI /\ cos (1 / rigidity P0 * PI * (1 / (1 + 1))) <> 1.
Proof.
  cbv zeta. assert (LP : 0 < light / 10 ^ 9) by (apply Rdiv_lt_0_compat; [apply light_pos | apply pow_lt; lra]).
  assert (RR : rigidity (light / 10 ^ 9) = 1) by (unfold rigidity, light; field).
  destruct (one_step (Bend 1 None None) (fun _ _ => mkv 0 1 0) 100 1 (light / 10 ^ 9) 0 0 1 up) as (s1 & E & _); [exact LP|lra|].
  set (st1 := mkSproc 1 0 0 (Some (100 / 1)) (0 + 1) 100 (Bend 1 None None) (Some (fun _ _ => mkv 0 1 0)) true) in *.
  destruct (C265_numbers st1 (fun _ _ => mkv 0 1 0) (one (light / 10 ^ 9) 0 0 1 s1) PI) as (st2 & b2 & E2); [reflexivity | exact LP | cbn; lra | intros p [<-|[]]; cbn; lra | reflexivity|].
  assert (L2 : length (spins b2) = 1%nat).
  { destruct (C264_step st1 (fun _ _ => mkv 0 1 0) (one (light / 10 ^ 9) 0 0 1 s1) PI st2 b2) as (_ & _ & _ & L & _); [reflexivity | cbn; lra | intros p [<-|[]]; cbn; lra | exact E2 | exact L]. }
  destruct (spins b2) as [|s2 [|? ?]] eqn:SB; try discriminate L2.
  exists st1, (one (light / 10 ^ 9) 0 0 1 s1), st2, b2, s1, s2. split; [exact E|]. split; [exact E2|]. split; [reflexivity|]. split; [exact SB|]. split.
  - split; cbn; [lra|]. pose proof PI_RGT_0. pose proof PI_4. pose proof eps_small. rewrite Rabs_left by lra. lra.
  - rewrite RR. replace (1 / 1 * PI * (1 / (1 + 1))) with (PI / 2) by field. rewrite cos_PI2. lra.
Qed.

(* C267: a particle of the reference momentum in the design field does. *)
Theorem C267_design st f b0 e1 e2 b ds st' b' : fld st = Some f -> mag st = Bend b0 e1 e2 -> in_body st ds -> sP0 b <> 0 -> (forall p, In p (sparts b) -> 1 + psdp p <> 0) ->
  spin_step ds (st, b) = Ok (st', b') ->
  forall i p s, nth_error (sparts b) i = Some p -> nth_error (spins b) i = Some s -> psdp p = 0 -> 
  exists s', nth_error (spins b') i = Some s' /\
    turned (bmt_frame (vy (f (psx p) (psy p)) / rigidity (sP0 b)) (rigidity (sP0 b)) (lorentz (if Req_EM_T (pspin st) 0 then sP0 b else pspin st)) (f (psx p) (psy p))) ds s s'.
Proof.
  intros F M I N D E i p s Hp Hs D0. destruct (C264_step _ _ _ _ _ _ F N D E) as (_ & _ & _ & _ & K & _). destruct (K i p s Hp Hs) as (s' & A & S). exists s'. split; [exact A|].
  apply body_step in S; [|exact I]. rewrite M in S. unfold body_rate, is_bend, bmt_own, own_rigidity, own_gamma in S. rewrite D0, Rplus_0_r, !Rmult_1_r in S. exact S.
Qed.
Print Assumptions C267_design.
Example C267_ex : let st := inside (Bend 1 None None) (fun _ _ => mkv 0 1 0) 100 in exists st1 b1, spin_step 1 (st, one 5 0 0 0 up) = Ok (st1, b1) /\ in_body st1 3 /\ sP0 b1 = 5.
Proof.
  cbv zeta. destruct (one_step (Bend 1 None None) (fun _ _ => mkv 0 1 0) 100 1 5 0 0 0 up) as (s1 & E & _); [lra|lra|]. eexists _, _. split; [exact E|]. split; [|reflexivity].
  split; cbn; [lra|]. pose proof eps_small. rewrite Rabs_left by lra. lra.
Qed.

(* a step of no length where a magnet begins: the entrance alone *)
Lemma entrance_only st f P0 p s s' : intS st = 0 -> eps < Rabs (clength st) -> stepped st f P0 0 p s s' ->
  turned (entrance_rate (mag st) (own_rigidity P0 p) (own_gamma st P0 p) (psx p) (psy p)) 1 s s'.
Proof.
  intros I L (s1 & s2 & A & B & C & D & E). rewrite (E ltac:(rewrite I, Rplus_0_l; unfold Rminus; rewrite Rplus_0_l, Rabs_Ropp; exact L)).
  apply turned_nothing_inv in C. rewrite C. now apply A.
Qed.

(* C268: the end of a solenoid turns the spin by the radial field that Gauss's law asks
   for, in proportion to the rigidity.  Not so. *)
Theorem C268_refuted st f Bz P0 p s' I : mag st = Solen Bz -> intS st = 0 -> eps < Rabs (clength st) -> P0 <> 0 -> 1 + psdp p <> 0 -> psx p <> 0 -> psy p = 0 ->
  gauss (psx p) 0 Bz I ->
  cos ((1 + anomaly * own_gamma st P0 p) * (Bz * psx p) * (/ light - / (2 * own_rigidity P0 p))) <> 1 ->
  stepped st f P0 0 p up s' ->
  ~ turned (bmt (own_rigidity P0 p) (own_gamma st P0 p) (mkv I 0 0)) 1 up s'.
Proof.
  intros M I0 L N D X Y G C S T. apply entrance_only in S; [|assumption|assumption]. rewrite M in S. cbn [entrance_rate] in S.
  set (g := own_gamma st P0 p) in *. assert (RN : own_rigidity P0 p <> 0) by (unfold own_rigidity; apply Rmult_integral_contrapositive_currified; [now rewrite rigidity_zero | assumption]). set (r := own_rigidity P0 p) in *.
  assert (GI : I = - (Bz * psx p / 2)).
  { unfold gauss in G. pose proof PI_RGT_0. apply (Rmult_eq_reg_l (2 * PI * psx p)); [|apply Rmult_integral_contrapositive_currified; [lra | exact X]]. 
    replace (2 * PI * psx p * - (Bz * psx p / 2)) with (- (PI * psx p * psx p * Bz)) by field. lra. }
  assert (Q : forall rig J, bmt rig g (mkv J 0 0) = mkv (- ((1 + anomaly * g) * J / rig)) 0 0) by (intros; unfold bmt; cbn [vx vy vz]; apply v3_eq; cbn [vx vy vz]; unfold Rdiv; ring).
  unfold solenoid_end in S. rewrite Y, Rmult_0_r in S. rewrite Q in S, T.
  pose proof (turned_fun _ _ _ _ _ S (turned_x _ 1)) as E1. pose proof (turned_fun _ _ _ _ _ T (turned_x _ 1)) as E2. rewrite E1 in E2. injection E2 as ES EC.
  apply C. assert (ES' : sin (- ((1 + anomaly * g) * (-1 * Bz * psx p) / light) * 1) = sin (- ((1 + anomaly * g) * I / r) * 1)) by lra.
  etransitivity; [|exact (angles _ _ ES' EC)]. f_equal. rewrite GI. pose proof light_pos. field. lra.
Qed.
Print Assumptions C268_refuted.
(* with a momentum given for the spin, the momentum of the beam does not matter at all *)
Theorem C268_no_momentum st f Bz P1 P2 p s s1 s2 : mag st = Solen Bz -> intS st = 0 -> eps < Rabs (clength st) -> pspin st <> 0 ->
  stepped st f P1 0 p s s1 -> stepped st f P2 0 p s s2 -> s1 = s2.
Proof.
  intros M I0 L N S1 S2. apply entrance_only in S1; [|assumption|assumption]. apply entrance_only in S2; [|assumption|assumption]. rewrite M in *. cbn [entrance_rate] in *.
  unfold own_gamma in *. destruct (Req_EM_T (pspin st) 0); [contradiction|]. exact (turned_fun _ _ _ _ _ S1 S2).
Qed.
Print Assumptions C268_no_momentum.
(* a beam of rigidity 1 Tm, and the spin half a turn off *)
Example C268_ex : let P0 := light / 10 ^ 9 in let k := (1 + anomaly * lorentz (P0 * (1 + 0))) * (/ light - / (2 * 1)) in let x := PI / k in
  gauss x 0 1 (- (x / 2)) /\ x <> 0 /\ own_rigidity P0 (at_place x 0 0) = 1 /\
  cos ((1 + anomaly * own_gamma (inside (Solen 1) (fun _ _ => mkv 0 0 1) 1) P0 (at_place x 0 0)) * (1 * x) * (/ light - / (2 * own_rigidity P0 (at_place x 0 0)))) <> 1 /\
  exists s', stepped (inside (Solen 1) (fun _ _ => mkv 0 0 1) 1) (fun _ _ => mkv 0 0 1) P0 0 (at_place x 0 0) up s'.
Proof.
  intros P0 k x. assert (LP : 0 < P0) by (apply Rdiv_lt_0_compat; [apply light_pos | apply pow_lt; lra]).
  assert (RR : rigidity P0 = 1) by (unfold rigidity, P0, light; field).
  assert (GP : 0 < lorentz (P0 * (1 + 0))) by (unfold lorentz, electron_gev; apply Rdiv_lt_0_compat; [lra|apply Rdiv_lt_0_compat; [lra|apply pow_lt; lra]]).
  assert (AP : 0 < anomaly) by (unfold anomaly; apply Rdiv_lt_0_compat; [lra|apply pow_lt; lra]).
  assert (K : k < 0). { unfold k. pose proof (Rmult_lt_0_compat _ _ AP GP) as H. assert (/ light < / (2 * 1)) by (apply Rinv_lt_contravar; unfold light; lra). set (u := 1 + _) in *. assert (0 < u) by (unfold u; lra). nra. }
  assert (XK : x * k = PI) by (unfold x; field; lra). assert (XN : x <> 0) by (intros Z; rewrite Z in XK; pose proof PI_RGT_0; lra).
  assert (OR : own_rigidity P0 (at_place x 0 0) = 1) by (unfold own_rigidity; cbn; lra).
  split; [unfold gauss; field|]. split; [exact XN|]. split; [exact OR|]. split.
  - rewrite OR. unfold own_gamma. cbn [inside enter_component new_sproc pspin at_place psdp]. destruct (Req_EM_T 0 0); [|tauto].
    replace ((1 + anomaly * lorentz (P0 * (1 + 0))) * (1 * x) * (/ light - / (2 * 1))) with (x * k) by (unfold k; ring). rewrite XK, cos_PI. lra.
  - destruct (one_step (Solen 1) (fun _ _ => mkv 0 0 1) 1 0 P0 x 0 0 up) as (s' & _ & S); [exact LP|lra|]. now exists s'.
Qed.

(* C269: the end of a dipole turns the spin by the longitudinal field that Ampere's law
   asks for.  Not so: half of it is taken. *)
Theorem C269_refuted st f B0 e1 P0 p s' I : mag st = Bend B0 None e1 -> intS st = 0 -> eps < Rabs (clength st) -> P0 <> 0 -> 1 + psdp p <> 0 ->
  ampere (psy p) 0 B0 I ->
  cos ((1 + anomaly) * (B0 * psy p) / (2 * own_rigidity P0 p)) <> 1 ->
  stepped st f P0 0 p (mkv 1 0 0) s' ->
  ~ turned (bmt (own_rigidity P0 p) (own_gamma st P0 p) (mkv 0 0 I)) 1 (mkv 1 0 0) s'.
Proof.
  intros M I0 L N D G C S T. apply entrance_only in S; [|assumption|assumption]. rewrite M in S. cbn [entrance_rate face] in S.
  set (g := own_gamma st P0 p) in *. assert (RN : own_rigidity P0 p <> 0) by (unfold own_rigidity; apply Rmult_integral_contrapositive_currified; [now rewrite rigidity_zero | assumption]). set (r := own_rigidity P0 p) in *.
  assert (GI : I = B0 * psy p) by (unfold ampere in G; lra).
  assert (Q : forall J, bmt r g (mkv 0 0 J) = mkv 0 0 (- ((1 + anomaly) * J / r))) by (intros; unfold bmt; cbn [vx vy vz]; apply v3_eq; cbn [vx vy vz]; unfold Rdiv; ring).
  assert (S2 : dipole_end 1 B0 0 (psy p) = mkv 0 0 (B0 * psy p / 2)) by (unfold dipole_end; rewrite sin_0, cos_0; apply v3_eq; cbn [vx vy vz]; ring).
  rewrite S2 in S. rewrite Q in S, T.
  pose proof (turned_fun _ _ _ _ _ S (turned_z _ 1)) as E1. pose proof (turned_fun _ _ _ _ _ T (turned_z _ 1)) as E2. rewrite E1 in E2. injection E2 as EC ES.
  apply C. etransitivity; [|exact (angles _ _ ES EC)]. f_equal. rewrite GI. field. lra.
Qed.
Print Assumptions C269_refuted.
Example C269_ex : let P0 := light / 10 ^ 9 in let y := 2 * PI / (1 + anomaly) in
  ampere y 0 1 y /\ cos ((1 + anomaly) * (1 * y) / (2 * own_rigidity P0 (at_place 0 y 0))) <> 1 /\
  exists s', stepped (inside (Bend 1 None None) (fun _ _ => mkv 0 1 0) 1) (fun _ _ => mkv 0 1 0) P0 0 (at_place 0 y 0) (mkv 1 0 0) s'.
Proof.
  intros P0 y. assert (LP : 0 < P0) by (apply Rdiv_lt_0_compat; [apply light_pos | apply pow_lt; lra]).
  assert (RR : own_rigidity P0 (at_place 0 y 0) = 1) by (unfold own_rigidity, rigidity, P0, light; cbn [at_place psdp]; field).
  assert (AP : 0 < anomaly) by (unfold anomaly; apply Rdiv_lt_0_compat; [lra|apply pow_lt; lra]).
  split; [unfold ampere; ring|]. split; [rewrite RR; replace ((1 + anomaly) * (1 * y) / (2 * 1)) with PI by (unfold y; field; lra); rewrite cos_PI; lra|].
  destruct (one_step (Bend 1 None None) (fun _ _ => mkv 0 1 0) 1 0 P0 0 y 0 (mkv 1 0 0)) as (s' & _ & S); [exact LP|lra|]. now exists s'.
Qed.

(* C270: what one end does to a spin the other end undoes: a solenoid, or a dipole with
   upright faces, of no length leaves every spin as it was. *)
Definition upright (m : magnet) : Prop :=
  match m with Bend _ e1 e2 => sin (face e1) = 0 /\ sin (face e2) = 0 /\ cos (face e1) = cos (face e2) | _ => True end.
Lemma opposite_ends m rig g x y : upright m -> exit_rate m rig g x y = mkv (- vx (entrance_rate m rig g x y)) (- vy (entrance_rate m rig g x y)) (- vz (entrance_rate m rig g x y)).
Proof.
  destruct m as [|B0 e1 e2|Bz]; cbn [upright entrance_rate exit_rate].
  - intros _. cbn. apply v3_eq; cbn; ring.
  - intros (S1 & S2 & C). unfold dipole_end, bmt. cbn [vx vy vz]. rewrite S1, S2, C. apply v3_eq; cbn [vx vy vz]; unfold Rdiv; ring.
  - intros _. unfold solenoid_end, bmt. cbn [vx vy vz]. apply v3_eq; cbn [vx vy vz]; unfold Rdiv; ring.
Qed.
Lemma nth_same {A} (l l' : list A) : (forall i, nth_error l i = nth_error l' i) -> l = l'.
Proof.
  revert l'. induction l as [|x l IH]; intros [|y l'] H; [reflexivity | discriminate (H 0%nat) | discriminate (H 0%nat)|].
  pose proof (H 0%nat) as H0. cbn in H0. injection H0 as ->. f_equal. apply IH. intros i. exact (H (S i)).
Qed.
Theorem C270_thin m f b st' b' : upright m -> sP0 b <> 0 -> (forall p, In p (sparts b) -> 1 + psdp p <> 0) -> 
  forall st, spin_step 0 (enter_component m (Some f) 0 true st, b) = Ok (st', b') -> b' = b.
Proof.
  intros U N D st E. destruct (C264_step (enter_component m (Some f) 0 true st) f b 0 st' b' eq_refl N D E) as (_ & E1 & E2 & E3 & K & T).
  destruct b as [P ps ss], b' as [P' ps' ss']. cbn [sP0 sparts spins] in *. subst P' ps'. f_equal.
  apply nth_same. intros i. destruct (le_lt_dec (length ps) i) as [H|H]; [now apply T|].
  destruct (nth_error ps i) as [p|] eqn:Hp; [|apply nth_error_None in Hp; lia].
  destruct (nth_error ss i) as [s|] eqn:Hs; [|apply nth_error_None in Hs; rewrite <- E3 in Hs; now apply nth_error_None in Hs].
  destruct (K i p s Hp Hs) as (s' & A & (s1 & s2 & B1 & _ & B3 & B4 & _)). rewrite A. f_equal.
  cbn [enter_component mag intS clength] in *. apply turned_nothing_inv in B3. subst s2.
  specialize (B1 eq_refl). assert (Z : Rabs (0 + 0 - 0) <= eps) by (replace (0 + 0 - 0) with 0 by ring; rewrite Rabs_R0; pose proof eps_pos; lra). specialize (B4 Z).
  rewrite (opposite_ends _ _ _ _ _ U) in B4. exact (turned_fun _ _ _ _ _ B4 (turned_back _ _ _ _ B1)).
Qed.
Print Assumptions C270_thin.
Example C270_ex : exists st' b', upright (Bend 1 None (Some 0)) /\ spin_step 0 (enter_component (Solen 3) (Some (fun _ _ => mkv 0 0 3)) 0 true (new_sproc 1), one 5 1 2 (1/100) up) = Ok (st', b').
Proof.
  destruct (one_step (Solen 3) (fun _ _ => mkv 0 0 3) 0 0 5 1 2 (1/100) up) as (s' & E & _); [lra|lra|]. eexists _, _. split; [|exact E]. cbn. rewrite sin_0, cos_0. auto.
Qed.

(* C271: how a magnet is cut into steps does not matter. *)
Lemma one_spin_exists st f P0 ds p s : 0 < P0 -> 0 <= pspin st -> 0 < 1 + psdp p -> exists s', one_spin st f P0 ds p s = Some s'.
Proof. intros A B C. destruct (one_spin st f P0 ds p s) as [s'|] eqn:E; [eauto | destruct (one_spin_ok st f P0 ds p s A B C E)]. Qed.
Definition moved (ds : R) (st : sproc) : sproc := mkSproc (ns st) (pspin st) (nk1 st) (dL st) (intS st + ds) (clength st) (mag st) (fld st) (act st).
Lemma stepped_join st f P0 d1 d2 p s s1 s2 : intS st + d1 <> 0 -> eps < Rabs (intS st + d1 - clength st) ->
  stepped st f P0 d1 p s s1 -> stepped (moved d1 st) f P0 d2 p s1 s2 -> stepped st f P0 (d1 + d2) p s s2.
Proof.
  intros H1 H2 (a1 & a2 & A & B & C & D & E) (b1 & b2 & A' & B' & C' & D' & E'). cbn [moved intS clength mag] in *. unfold own_gamma in *. cbn [moved pspin] in *.
  rewrite (E H2) in *. rewrite (B' H1) in C'. exists a1, b2. split; [exact A|]. split; [exact B|]. split; [exact (turned_add _ _ _ _ _ _ C C')|].
  rewrite <- Rplus_assoc. split; [exact D' | exact E'].
Qed.
Lemma spin_all_map st f P0 ds l ss : 0 < P0 -> 0 <= pspin st -> (forall p, In p l -> 0 < 1 + psdp p) -> length ss = length l ->
  exists rs, spin_all (one_spin st f P0 ds) l ss = Ok rs /\ length rs = length l /\ forall i p s s', nth_error l i = Some p -> nth_error ss i = Some s -> nth_error rs i = Some s' -> stepped st f P0 ds p s s'.
Proof.
  intros A B C L. destruct (spin_all_ok (one_spin st f P0 ds) l ss) as [rs E]; [lia | intros p s Hp; apply one_spin_ok; auto|]. exists rs. split; [exact E|].
  destruct (spin_all_nth _ _ _ _ E) as (X & _ & K & _). split; [lia|]. intros i p s s' Hp Hs Hr. destruct (K i p s Hp Hs) as (u & G & H). assert (u = s') by congruence. subst u.
  apply one_spin_stepped; [lra | apply nth_error_In in Hp; specialize (C p Hp); lra | exact G].
Qed.
Fixpoint steps (ds : list R) (x : sproc * sbunch) : res serr (sproc * sbunch) :=
  match ds with [] => Ok x | d :: ds' => do y <- spin_step d x; steps ds' y end.
(* all but the last step end inside: behind the entrance and before the exit *)
Fixpoint cuts (s len : R) (ds : list R) : Prop :=
  match ds with
  | [] => True
  | [_] => True
  | d :: ds' => s + d <> 0 /\ eps < Rabs (s + d - len) /\ cuts (s + d) len ds'
  end.
Theorem C271_steps f d ds st b : fld st = Some f -> 0 < sP0 b -> 0 <= pspin st -> (forall p, In p (sparts b) -> 0 < 1 + psdp p) -> length (spins b) = length (sparts b) ->
  cuts (intS st) (clength st) (d :: ds) -> steps (d :: ds) (st, b) = spin_step (fold_left Rplus ds d) (st, b).
Proof.
  intros F P Q D. revert d st b F P Q D. induction ds as [|d2 ds IH]; intros d st b F P Q D L C.
  - cbn [steps fold_left]. destruct (spin_step d (st, b)); reflexivity.
  - destruct C as (C1 & C2 & C3). cbn [steps].
    destruct (spin_all_map st f (sP0 b) d (sparts b) (spins b) P Q D L) as (rs & E & LR & K).
    assert (S1 : spin_step d (st, b) = Ok (moved d st, mkSB (sP0 b) (sparts b) rs)) by (unfold spin_step; rewrite F, E; cbn [bind]; unfold moved; now rewrite F). rewrite S1. cbn [bind].
    change (do y <- spin_step d2 (moved d st, mkSB (sP0 b) (sparts b) rs); steps ds y) with (steps (d2 :: ds) (moved d st, mkSB (sP0 b) (sparts b) rs)).
    rewrite (IH d2 (moved d st) (mkSB (sP0 b) (sparts b) rs)); [|exact F|exact P|exact Q|exact D|exact LR|exact C3].
    cbn [fold_left]. set (t := fold_left Rplus ds d2). assert (T : fold_left Rplus ds (d + d2) = d + t).
    { unfold t. clear. revert d d2. induction ds as [|x ds IH]; intros d d2; cbn [fold_left]; [reflexivity|]. rewrite <- (IH d (d2 + x)). f_equal. ring. }
    rewrite T.
    destruct (spin_all_map (moved d st) f (sP0 b) t (sparts b) rs P Q D LR) as (us & E2 & LU & K2).
    destruct (spin_all_map st f (sP0 b) (d + t) (sparts b) (spins b) P Q D L) as (ws & E3 & LW & K3).
    unfold spin_step. cbn [moved fld sP0 sparts spins]. rewrite F. fold (moved d st). rewrite E2, E3. cbn [bind moved ns pspin nk1 dL intS clength mag act fld]. 
    assert (UW : us = ws); [|rewrite UW, Rplus_assoc; reflexivity].
    apply nth_same. intros i. destruct (nth_error (sparts b) i) as [p|] eqn:Hp.
    + assert (LI : (i < length (sparts b))%nat) by (apply nth_error_Some; congruence).
      destruct (nth_error (spins b) i) as [s|] eqn:Hs; [|apply nth_error_None in Hs; lia]. destruct (nth_error rs i) as [r|] eqn:Hr; [|apply nth_error_None in Hr; lia].
      destruct (nth_error us i) as [u|] eqn:Hu; [|apply nth_error_None in Hu; lia]. destruct (nth_error ws i) as [w|] eqn:Hw; [|apply nth_error_None in Hw; lia]. f_equal.
      apply (stepped_fun st f (sP0 b) (d + t) p s); [|eapply K3; eassumption]. eapply stepped_join; [exact C1 | exact C2 | eapply K; eassumption | eapply K2; eassumption].
    + apply nth_error_None in Hp. transitivity (@None vec3); [|symmetry]; apply nth_error_None; lia.
Qed.
Print Assumptions C271_steps.
Example C271_ex : let st := inside (Solen 3) (fun _ _ => mkv 0 0 3) 3 in let b := one 5 1 2 (1/100) up in cuts (intS st) (clength st) [1; 1; 1] /\
  exists st' b', steps [1; 1; 1] (st, b) = Ok (st', b') /\ spin_step (1 + 1 + 1) (st, b) = Ok (st', b').
Proof.
  cbv zeta. assert (C : cuts (intS (inside (Solen 3) (fun _ _ => mkv 0 0 3) 3)) (clength (inside (Solen 3) (fun _ _ => mkv 0 0 3) 3)) [1; 1; 1]).
  { cbn. pose proof eps_small. repeat split; try lra; rewrite Rabs_left; lra. }
  split; [exact C|]. destruct (one_step (Solen 3) (fun _ _ => mkv 0 0 3) 3 (1 + 1 + 1) 5 1 2 (1/100) up) as (s' & E & _); [lra|lra|]. eexists _, _. split; [|exact E].
  rewrite (C271_steps (fun _ _ => mkv 0 0 3) 1 [1; 1]); [exact E | reflexivity | cbn; lra | cbn; lra | intros p [<-|[]]; cbn; lra | reflexivity | exact C].
Qed.

(* C272: a step of no length does nothing.  Not so where a magnet begins: each such step
   passes the entrance again.  Elsewhere it is true. *)
Theorem C272_inside st f b : fld st = Some f -> in_body st 0 -> 0 < sP0 b -> 0 <= pspin st -> (forall p, In p (sparts b) -> 0 < 1 + psdp p) -> length (spins b) = length (sparts b) ->
  spin_step 0 (st, b) = Ok (st, b).
Proof.
  intros F I P Q D L. destruct (spin_all_map st f (sP0 b) 0 (sparts b) (spins b) P Q D L) as (rs & E & LR & K). unfold spin_step. rewrite F, E. cbn [bind]. 
  assert (RS : rs = spins b).
  { apply nth_same. intros i. destruct (nth_error (sparts b) i) as [p|] eqn:Hp.
    - assert (LI : (i < length (sparts b))%nat) by (apply nth_error_Some; congruence). destruct (nth_error (spins b) i) as [s|] eqn:Hs; [|apply nth_error_None in Hs; lia]. destruct (nth_error rs i) as [r|] eqn:Hr; [|apply nth_error_None in Hr; lia].
      f_equal. pose proof (K i p s r Hp Hs Hr) as S. apply body_step in S; [|exact I]. exact (turned_nothing_inv _ _ _ S).
    - apply nth_error_None in Hp. transitivity (@None vec3); [|symmetry]; apply nth_error_None; lia. }
  rewrite RS, Rplus_0_r. destruct st, b. cbn in *. now rewrite F.
Qed.
Print Assumptions C272_inside.
Theorem C272_refuted n st f P0 p s s' : intS st = 0 -> eps < Rabs (clength st) -> 0 < P0 -> 0 <= pspin st -> 0 < 1 + psdp p -> fld st = Some f -> (0 < n)%nat ->
  steps (repeat 0 n) (st, mkSB P0 [p] [s]) = Ok (st, mkSB P0 [p] [s']) ->
  turned (entrance_rate (mag st) (own_rigidity P0 p) (own_gamma st P0 p) (psx p) (psy p)) (INR n) s s'.
Proof.
  intros I L P Q D F _. revert s. induction n as [|n IH]; intros s E.
  - cbn in E. injection E as <-. apply turned_nothing.
  - cbn [repeat steps] in E. destruct (one_spin_exists st f P0 0 p s P Q D) as [u U].
    assert (S1 : spin_step 0 (st, mkSB P0 [p] [s]) = Ok (st, mkSB P0 [p] [u])) by (unfold spin_step; rewrite F; cbn [sP0 sparts spins spin_all bind]; rewrite U; cbn [bind]; rewrite Rplus_0_r; destruct st; cbn in *; now rewrite F).
    rewrite S1 in E. cbn [bind] in E. specialize (IH _ E). apply one_spin_stepped in U; [|lra|lra]. apply entrance_only in U; [|assumption|assumption].
    rewrite S_INR. rewrite Rplus_comm. exact (turned_add _ _ _ _ _ _ U IH).
Qed.
Print Assumptions C272_refuted.
Example C272_ex : let st := inside (Solen 1) (fun _ _ => mkv 0 0 1) 1 in let x := PI * light / (1 + anomaly * lorentz (5 * (1 + 0))) in
  exists s1 s2, steps (repeat 0 1) (st, one 5 x 0 0 up) = Ok (st, one 5 x 0 0 s1) /\ steps (repeat 0 2) (st, one 5 x 0 0 up) = Ok (st, one 5 x 0 0 s2) /\ s1 = mkv 0 0 (-1) /\ s2 = mkv 0 0 1.
Proof.
  intros st x. assert (GP : 0 < 1 + anomaly * lorentz (5 * (1 + 0))).
  { assert (0 < anomaly * lorentz (5 * (1 + 0))); [|lra]. apply Rmult_lt_0_compat; [unfold anomaly; apply Rdiv_lt_0_compat; [lra|apply pow_lt; lra]|]. unfold lorentz, electron_gev. apply Rdiv_lt_0_compat; [lra|apply Rdiv_lt_0_compat; [lra|apply pow_lt; lra]]. }
  assert (LE : eps < Rabs (clength st)) by (cbn; rewrite Rabs_pos_eq by lra; pose proof eps_small; lra).
  assert (G : forall s, exists s', spin_step 0 (st, one 5 x 0 0 s) = Ok (st, one 5 x 0 0 s')).
  { intros s. destruct (one_step (Solen 1) (fun _ _ => mkv 0 0 1) 1 0 5 x 0 0 s) as (s' & E & _); [lra|lra|]. exists s'. unfold st. rewrite E. rewrite Rplus_0_r. reflexivity. }
  destruct (G up) as [s1 E1]. destruct (G s1) as [s2 E2]. exists s1, s2.
  assert (S1 : steps (repeat 0 1) (st, one 5 x 0 0 up) = Ok (st, one 5 x 0 0 s1)) by (cbn [repeat steps]; rewrite E1; reflexivity).
  assert (S2 : steps (repeat 0 2) (st, one 5 x 0 0 up) = Ok (st, one 5 x 0 0 s2)) by (cbn [repeat steps]; rewrite E1; cbn [bind]; rewrite E2; reflexivity).
  split; [exact S1|]. split; [exact S2|].
  assert (RT : entrance_rate (mag st) (own_rigidity 5 (at_place x 0 0)) (own_gamma st 5 (at_place x 0 0)) (psx (at_place x 0 0)) (psy (at_place x 0 0)) = mkv PI 0 0).
  { cbn [st inside enter_component mag entrance_rate at_place psx psy]. unfold own_gamma. cbn [st inside enter_component new_sproc pspin psdp at_place]. destruct (Req_EM_T 0 0); [|tauto]. unfold bmt, solenoid_end. cbn [vx vy vz]. unfold x. apply v3_eq; cbn [vx vy vz]; [pose proof light_pos; field; lra | unfold Rdiv; ring | unfold Rdiv; ring]. }
  pose proof (C272_refuted 1 st (fun _ _ => mkv 0 0 1) 5 (at_place x 0 0) up s1 eq_refl LE ltac:(lra) ltac:(cbn; lra) ltac:(cbn; lra) eq_refl ltac:(lia) S1) as T1.
  pose proof (C272_refuted 2 st (fun _ _ => mkv 0 0 1) 5 (at_place x 0 0) up s2 eq_refl LE ltac:(lra) ltac:(cbn; lra) ltac:(cbn; lra) eq_refl ltac:(lia) S2) as T2.
  rewrite RT in T1, T2. rewrite (turned_fun _ _ _ _ _ T1 (turned_x PI _)), (turned_fun _ _ _ _ _ T2 (turned_x PI _)).
  change (INR 1) with 1. replace (INR 2) with 2 by (cbn; ring). rewrite Rmult_1_r, sin_PI, cos_PI. replace (PI * 2) with (2 * PI) by ring. rewrite sin_2PI, cos_2PI. split; f_equal; ring.
Qed.
