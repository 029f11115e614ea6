(* Scattering of protons: multiple scattering, the full energy loss, what is kept.
   Properties C316-C320. *)
From Verif Require Import RBase Bunch Material MaterialSpec MaterialProps Scatter ScatterSpec ScatterProps.
From Coq Require Import Reals Lra Lia List ZArith.
Import ListNotations.
Local Open Scope R_scope.

(** ** C316: multiple scattering changes angle and position with the widths and the
    correlation of the Particle Data Group, the planes independently, and nothing else *)
Theorem C316_spread addr m p x E1 E2 : 0 < x -> 0 < mX0 m -> 0 < mrho m -> 0 < E1 + E2 ->
  let X := 10 * mX0 m / mrho m in let th := highland x X ((E1 + E2) / 2) in
  exists a b c d, (forall o k, exists q, straggle o addr m None k p x E1 E2 = Ok (Some (addr, X), (4 + k)%nat, q) /\
      vx (pv q) = vx (pv p) + lin a (nrm o) k /\ vxp (pv q) = vxp (pv p) + lin b (nrm o) k /\
      vy (pv q) = vy (pv p) + lin c (nrm o) k /\ vyp (pv q) = vyp (pv p) + lin d (nrm o) k /\
      vct (pv q) = vct (pv p) /\ vdp (pv q) = vdp (pv p) /\ pid q = pid p) /\
    cov a a = x ^ 2 * th ^ 2 / 3 /\ cov b b = th ^ 2 /\ cov a b = x * th ^ 2 / 2 /\
    cov c c = x ^ 2 * th ^ 2 / 3 /\ cov d d = th ^ 2 /\ cov c d = x * th ^ 2 / 2 /\
    cov a c = 0 /\ cov a d = 0 /\ cov b c = 0 /\ cov b d = 0.
Proof.
  intros HX H0 HR HE X th. set (r := / sqrt 12). assert (S12 : 0 < sqrt 12) by (apply sqrt_lt_R0; lra).
  assert (RR : r * r = / 12). { unfold r. rewrite <- Rinv_mult. now rewrite sqrt_sqrt by lra. }
  exists (x * th / 2, 0, x * th * r, 0), (th, 0, 0, 0), (0, x * th / 2, 0, x * th * r), (0, th, 0, 0). split.
  - intros o k. assert (PX : 0 < X) by (unfold X; apply Rdiv_lt_0_compat; lra).
    unfold straggle, rad_length. rewrite (Reqb_false (mrho m)) by lra. cbn [bind fst snd].
    assert (EX : 0.01 * mX0 m / (mrho m / 1000) = X). { unfold X. replace 0.01 with (1 / 100) by lra. field. lra. }
    rewrite EX. rewrite (Reqb_false X) by lra.
    assert (0 < x / X) by now apply Rdiv_lt_0_compat. rewrite Rleb_false by auto. rewrite Reqb_false by lra. cbn [orb].
    replace (0.0136 * sqrt (x / X) * (1 + 0.038 * ln (x / X)) / ((E1 + E2) / 2)) with th by (unfold th, highland; field; lra).
    eexists. split; [reflexivity|]. cbn [pv vx vxp vy vyp vct vdp pid]. unfold lin, Rdiv. fold r. repeat split; ring.
  - cbn [cov]. replace (x * th * r * (x * th * r)) with (x * th * (x * th) * (r * r)) by ring. rewrite RR. repeat split; field.
Qed.
Print Assumptions C316_spread.
Example C316_example : exists q, straggle o0 0 cu None 0 (pr 0 0) 0.6 7000 7000 = Ok (Some (0%nat, 10 * 12.86 / 8960), 4%nat, q) /\ pid q = 7%Z.
Proof.
  destruct (C316_spread 0 cu (pr 0 0) 0.6 7000 7000) as (a & b & c & d & H & _); try (cbn; lra).
  destruct (H o0 0%nat) as (q & S & _ & _ & _ & _ & _ & _ & I). exists q. split; [exact S|exact I].
Qed.

(** ** C317: the radiation length and the constants of the energy loss are those of the
    material.  Refuted: they are kept, for all models of the program, until another
    address comes; a material which was changed, or a new one at the same address, gets
    the old ones.  True: with another address before, they are those of the material *)
Theorem C317_refuted_straggle o a m m2 k p x E1 E2 k' q X : straggle o a m None k p x E1 E2 = Ok (Some (a, X), k', q) ->
  forall o' k2 p' y F1 F2, straggle o' a m2 (Some (a, X)) k2 p' y F1 F2 = straggle o' a m (Some (a, X)) k2 p' y F1 F2.
Proof. intros _ o' k2 p' y F1 F2. unfold straggle, rad_length. now rewrite Nat.eqb_refl. Qed.
Print Assumptions C317_refuted_straggle.
Theorem C317_refuted_loss o c a m m2 f k p x E : loss_full o c a m2 (Some (a, f)) k p x E = loss_full o c a m (Some (a, f)) k p x E.
Proof. unfold loss_full. now rewrite Nat.eqb_refl. Qed.
Print Assumptions C317_refuted_loss.
Theorem C317_kept o c a m k p x E E1 E2 s f s' f' k' k2 q q2 :
  (straggle o a m s k p x E1 E2 = Ok (s', k', q) -> exists X, s' = Some (a, X) /\ (s = None \/ (exists b Y, s = Some (b, Y) /\ a <> b) -> X * mrho m = 10 * mX0 m)) /\
  (loss_full o c a m f k p x E = Ok (f', k2, q2) -> exists g, f' = Some (a, g) /\ (f = None \/ (exists b Y, f = Some (b, Y) /\ a <> b) -> setup_full c m = Ok g)).
Proof.
  split; intros H.
  - unfold straggle in H. destruct (rad_length a m s) as [[s1 X]| |] eqn:L; cbn [bind fst snd] in H; [|discriminate|discriminate]. hit. injection H as <- _ _. unfold rad_length in L.
    destruct s as [[b Y]|].
    + destruct (Nat.eqb_spec a b) as [<-|N].
      * injection L as <- <-. exists Y. split; [reflexivity|]. intros [Z|(b & Y' & Z & N)]; [discriminate|]. injection Z as <- _. now destruct N.
      * destruct (Reqb_spec (mrho m) 0); [discriminate|]. injection L as <- <-. eexists. split; [reflexivity|]. intros _. replace 0.01 with (1 / 100) by lra. field. auto.
    + destruct (Reqb_spec (mrho m) 0); [discriminate|]. injection L as <- <-. eexists. split; [reflexivity|]. intros _. replace 0.01 with (1 / 100) by lra. field. auto.
  - unfold loss_full in H. destruct f as [[b Y]|].
    + destruct (Nat.eqb_spec a b) as [<-|N]; hit.
      * injection H as <- _ _. injection E0 as <-. exists Y. split; [reflexivity|]. intros [Z|(b & Y' & Z & N)]; [discriminate|]. injection Z as <- _. now destruct N.
      * injection H as <- _ _. eexists. split; [reflexivity|]. auto.
    + hit. injection H as <- _ _. eexists. split; [reflexivity|]. auto.
Qed.
Print Assumptions C317_kept.
(* copper at address 3, then a material ten times as light there: the same radiation length *)
Example C317_example o k p : exists q r, let m2 := new_material 63.546 1.232 0.782 0.00153 1.403 12.86 896 29 in
  straggle o 3 cu None k p 0.6 7000 7000 = Ok (Some (3%nat, 10 * 12.86 / 8960), (4 + k)%nat, q) /\
  straggle o 3 m2 (Some (3%nat, 10 * 12.86 / 8960)) k p 0.6 7000 7000 = Ok (Some (3%nat, 10 * 12.86 / 8960), (4 + k)%nat, r) /\ r = q.
Proof.
  destruct (C316_spread 3 cu p 0.6 7000 7000) as (a & b & c & d & H & _); try (cbn [cu new_material update mX0 mrho]; lra). destruct (H o k) as (q & S & _).
  change (mX0 cu) with 12.86 in S. change (mrho cu) with 8960 in S. exists q, q. cbn zeta. split; [exact S|]. split; [|reflexivity].
  rewrite (C317_refuted_straggle _ _ _ _ _ _ _ _ _ _ _ _ S). rewrite <- S. unfold straggle, rad_length. rewrite Nat.eqb_refl. change (mrho cu) with 8960. change (mX0 cu) with 12.86.
  rewrite (Reqb_false 8960) by lra. cbn [bind fst snd]. replace (0.01 * 12.86 / (8960 / 1000)) with (10 * 12.86 / 8960) by lra. reflexivity.
Qed.

(** ** C318: the constants of the density correction are those for an excitation energy
    below 100 eV when it is below.  Refuted: the energy, already in eV, is divided by
    eV once more, and those for more than 100 eV are always taken *)
Theorem C318_refuted c m f : setup_full c m = Ok f -> / 10 ^ 7 < f_I f -> f_C1 f = 3 /\ (f_C0 f = 0.2 /\ f_C f <= 5.215 \/ f_C0 f = 0.326 * f_C f - 1.5 /\ 5.215 < f_C f).
Proof.
  unfold setup_full. intros H HI. hit. injection H as <-. set (w := mrho m * _ * _ / _) in *. set (xi := k_xi1 c * _) in *. set (C := 1 + 2 * ln (a0 / (28.816 * sqrt w))) in *.
  assert (J : f_I (if Rltb (a0 / eV) 100 then if Rleb C 3.681 then mkF C 0.2 2 a0 xi else mkF C (0.326 * C - 1) 2 a0 xi
                   else if Rleb C 5.215 then mkF C 0.2 3 a0 xi else mkF C (0.326 * C - 1.5) 3 a0 xi) = a0).
  { destruct (Rltb _ _), (Rleb C 3.681), (Rleb C 5.215); reflexivity. }
  rewrite J in HI. rewrite Rltb_false.
  - destruct (Rleb_spec C 5.215) as [Z|Z]; cbn [f_C1 f_C0 f_C]; (split; [reflexivity|]).
    + left. split; [reflexivity|exact Z].
    + right. split; [reflexivity|lra].
  - unfold eV, Rdiv. rewrite Rinv_inv. replace 100 with (/ 10 ^ 7 * 10 ^ 9) by field. assert (0 < 10 ^ 9) by (apply pow_lt; lra). set (z := 10 ^ 9) in *. clearbody z. nra.
Qed.
Print Assumptions C318_refuted.
(* the other constants are as in the Particle Data Group's review *)
Theorem C318_values c m f : setup_full c m = Ok f ->
  (have_extra mee m = Ok true -> exists g, get_extra mee m = Ok g /\ f_I f = snd g * 10 ^ 9) /\
  (have_extra mee m = Ok false -> f_I f = 10 * mZ m) /\
  f_C f = 1 + 2 * ln (f_I f / (28.816 * sqrt (mrho m * 0.001 * mZ m / mA m))) /\
  f_xi0 f = k_xi1 c * (mZ m * (602214179 * 10 ^ 15) * mrho m / mA m).
Proof.
  unfold setup_full. intros H. destruct (have_extra mee m) as [h| |] eqn:HH; try discriminate. cbn [bind] in H.
  assert (K : forall I, (if Reqb (mA m) 0 then Throw NotNumber else
    if (Rleb (mrho m * 0.001 * mZ m / mA m) 0 || Rleb I 0)%bool then Throw NotNumber else
    let C := 1 + 2 * ln (I / (28.816 * sqrt (mrho m * 0.001 * mZ m / mA m))) in let xi := k_xi1 c * (mZ m * (602214179 * 10 ^ 15) * mrho m / mA m) in
    Ok (if Rltb (I / eV) 100 then if Rleb C 3.681 then mkF C 0.2 2 I xi else mkF C (0.326 * C - 1) 2 I xi
        else if Rleb C 5.215 then mkF C 0.2 3 I xi else mkF C (0.326 * C - 1.5) 3 I xi)) = Ok f ->
    f_I f = I /\ f_C f = 1 + 2 * ln (I / (28.816 * sqrt (mrho m * 0.001 * mZ m / mA m))) /\ f_xi0 f = k_xi1 c * (mZ m * (602214179 * 10 ^ 15) * mrho m / mA m)).
  { clear. intros I H. destruct (Reqb (mA m) 0); [discriminate|]. destruct (_ || _)%bool; [discriminate|]. injection H as <-.
    set (C := 1 + 2 * ln _). destruct (Rltb (I / eV) 100), (Rleb C 3.681), (Rleb C 5.215); repeat split; reflexivity. }
  destruct h.
  - destruct (get_extra mee m) as [g| |]; try discriminate. cbn [bind] in H. apply K in H. destruct H as (A & B & D). rewrite A. split; [|split; [discriminate|auto]].
    intros _. exists g. split; [reflexivity|]. unfold eV, Rdiv. rewrite Rinv_inv. reflexivity.
  - cbn [bind] in H. apply K in H. destruct H as (A & B & D). rewrite A. split; [discriminate|]. auto.
Qed.
Print Assumptions C318_values.
Definition k0 : consts := mkK 1 0.0072973525376.
(* carbon with its 78 eV *)
Definition carb : material := with_extra [(mee, 78 * / 10 ^ 9)] (new_material 12.011 0.331 0.231 0.000076 1.745 42.7 2265 6).
Lemma carb_setup : exists f, setup_full k0 carb = Ok f /\ f_I f = 78.
Proof.
  unfold setup_full, have_extra, get_extra. cbn [carb with_extra new_material update mextra assoc mA mZ mrho]. assert (S : str_eqb mee mee = true) by reflexivity. rewrite S. cbn [bind snd].
  rewrite (Reqb_false 12.011) by lra. rewrite Rleb_false by lra. rewrite Rleb_false.
  - cbn [orb]. eexists. split; [reflexivity|]. assert (G : 78 * / 10 ^ 9 / eV = 78) by (unfold eV; field).
    repeat match goal with |- context [if ?b then _ else _] => destruct b end; cbn [f_I]; exact G.
  - unfold eV, Rdiv. rewrite Rinv_inv. replace (78 * / 10 ^ 9 * 10 ^ 9) with 78 by field. lra.
Qed.
Example C318_example : exists f, setup_full k0 carb = Ok f /\ f_I f = 78 /\ f_C1 f = 3.
Proof.
  destruct carb_setup as (f & S & I). exists f. split; [auto|]. split; [auto|]. apply (C318_refuted _ _ _ S). rewrite I.
  assert (/ 10 ^ 7 < 1); [|lra]. apply (Rmult_lt_reg_r (10 ^ 7)); [apply pow_lt; lra|]. rewrite Rinv_l by (apply pow_nonzero; lra). rewrite Rmult_1_l. apply Rlt_pow_R1; [lra|lia].
Qed.

(** ** C319: the full energy loss of a proton is the most probable loss plus the
    fluctuation.  Refuted: the most probable loss is given to the proton instead of
    taken, and 21 ln 10 times xi is taken too much, since the units in the logarithm do
    not fit *)
Lemma ln_ten21 y : 0 < y -> ln (y * 10 ^ 21) = ln y + 21 * ln 10.
Proof. intros H. rewrite ln_mult; [|auto|apply pow_lt; lra]. rewrite ln_pow by lra. cbn [INR]. f_equal. f_equal. ring. Qed.
Lemma density_same f y : f_C0 f < f_C1 f -> density_correction f y = sternheimer (f_C f) (f_C0 f) (f_C1 f) y.
Proof.
  intros L. unfold density_correction, sternheimer. destruct (Rltb_spec (f_C1 f) y) as [A|A].
  - rewrite Rltb_false by lra. reflexivity.
  - destruct (Rltb_spec y (f_C0 f)) as [B|B].
    + rewrite Rleb_false by lra. reflexivity.
    + rewrite Rleb_true by lra. rewrite Rleb_true by lra. cbn [andb]. field. lra.
Qed.
Lemma delta_same c f x g xi d : f_C0 f < f_C1 f -> f_I f <> 0 -> delta_full c f x g = Ok (xi, d) ->
  exists beta, 0 < beta /\ beta ^ 2 * g ^ 2 = g ^ 2 - 1 /\ xi * beta ^ 2 * (echarge * 10 ^ 6) = f_xi0 f * x /\
    d = probable_loss xi beta g (f_I f * / 10 ^ 9) (higher (k_alpha c) beta (tmax_of beta g) - sternheimer (f_C f) (f_C0 f) (f_C1 f) (ln (beta * g) / ln 10)) - 21 * ln 10 * xi.
Proof.
  intros LC NI H. unfold delta_full in H. destruct (Rleb_spec g 1) as [|G]; [discriminate|]. set (beta := sqrt (1 - 1 / (g * g))) in *.
  assert (V : 0 < 1 - 1 / (g * g)). { assert (1 / (g * g) < 1); [|lra]. apply (Rmult_lt_reg_r (g * g)); [nra|]. replace (1 / (g * g) * (g * g)) with 1 by (field; nra). nra. }
  assert (PB : 0 < beta) by now apply sqrt_lt_R0.
  assert (BB : beta ^ 2 * g ^ 2 = g ^ 2 - 1). { unfold beta. rewrite pow2_sqrt by lra. field. lra. }
  set (xi1 := (f_xi0 f * x / (beta * beta)) / echarge * / 10 ^ 6) in *.
  match type of H with (if Rleb ?z 0 then _ else _) = _ => set (arg := z) in * end.
  destruct (Rleb_spec arg 0) as [|PA]; [discriminate|]. injection H as HX HD. exists beta. split; [auto|]. split; [auto|]. split.
  - rewrite <- HX. unfold xi1. assert (echarge <> 0). { unfold echarge. apply Rmult_integral_contrapositive_currified; [lra|]. apply Rinv_neq_0_compat. apply pow_nonzero. lra. }
    assert (10 ^ 6 <> 0) by (apply pow_nonzero; lra). set (e := echarge) in *. set (t := 10 ^ 6) in *. clearbody e t. field. repeat split; auto; lra.
  - rewrite <- HD, <- HX. clearbody xi1. rewrite density_same by auto. unfold log10, probable_loss.
    assert (EL : electron = me * / 1000) by (unfold electron, me; lra). assert (T3 : 0.001 = / 1000) by lra. assert (MP : mprot = mpMeV * / 1000) by (unfold mprot, mpMeV; lra).
    assert (M1 : 0 < me) by (unfold me; lra). assert (M2 : 0 < mpMeV) by (unfold mpMeV; lra).
    assert (AR : 2 * electron * beta ^ 2 * g ^ 2 * xi1 / (f_I f * / 10 ^ 9) ^ 2 = arg * 10 ^ 21). { unfold arg. rewrite EL, T3. field. auto. }
    rewrite AR, ln_ten21 by lra. unfold higher.
    match goal with |- context [ln (1 + ?u)] => match goal with |- context [2 * tmax_of beta g * electron / ?w] => assert (TM : 2 * tmax_of beta g * electron / w = u) end end.
    { unfold tmax_of. rewrite EL, MP, T3. set (h := 0.843). assert (H0 : h <> 0) by (unfold h; lra). clearbody h. clear - G M1 M2 PB H0. clearbody beta. revert M1 M2. generalize me mpMeV. intros e P M1 M2. field. split; [lra|]. split; [|exact H0]. assert (0 < g * e) by nra. assert (0 < (P + 2 * g * e) * P) by (apply Rmult_lt_0_compat; lra). nra. }
    rewrite TM. replace 0.20 with 0.2 by lra. match goal with |- context [ln (1 + ?u)] => generalize (ln (1 + u)) end. generalize (ln arg) (ln 10) (sternheimer (f_C f) (f_C0 f) (f_C1 f) (ln (beta * g) / ln 10)) 0.2 1.202001688211 (k_alpha c). intros. field. lra.
Qed.
Theorem C319_refuted o c a m fc k p x E fc' k' q f : loss_full o c a m fc k p x E = Ok (fc', k', q) -> fc' = Some (a, f) -> f_C0 f < f_C1 f -> f_I f <> 0 ->
  let g := energy E p / mprot in
  exists beta xi loss, 0 < beta /\ beta ^ 2 * g ^ 2 = g ^ 2 - 1 /\ xi * beta ^ 2 * (echarge * 10 ^ 6) = f_xi0 f * x /\
    loss = probable_loss xi beta g (f_I f * / 10 ^ 9) (higher (k_alpha c) beta (tmax_of beta g) - sternheimer (f_C f) (f_C0 f) (f_C1 f) (ln (beta * g) / ln 10)) /\
    energy E q = energy E p + loss - xi * lnd o k - 21 * ln 10 * xi /\
    (energy E q = energy E p - loss - xi * lnd o k <-> 2 * loss = 21 * ln 10 * xi) /\
    same_place p q /\ vxp (pv q) = vxp (pv p) /\ vyp (pv q) = vyp (pv p) /\ k' = S k.
Proof.
  intros H FC LC NI g. unfold loss_full in H. hit. destruct (Reqb_spec E 0) as [|NE]; [discriminate|]. injection H as <- <- <-. injection FC as ->.
  destruct a1 as [xi d]. cbn [fst snd] in *. destruct (delta_same c f x _ xi d LC NI E1) as (beta & B1 & B2 & B3 & B4).
  change (E * (1 + vdp (pv p)) / mp) with g in *. exists beta, xi, (d + 21 * ln 10 * xi).
  split; [auto|]. split; [auto|]. split; [auto|]. split; [rewrite B4; ring|].
  assert (G : energy E (set_dp6 ((E * (1 + vdp (pv p)) - (xi * lnd o k - d) - E) / E) p) = energy E p + (d + 21 * ln 10 * xi) - xi * lnd o k - 21 * ln 10 * xi).
  { unfold energy. cbn [set_dp6 pv vdp]. field. auto. }
  split; [exact G|]. split; [rewrite G; split; lra|]. unfold same_place. cbn. repeat split.
Qed.
Print Assumptions C319_refuted.

(** ** C320: whatever happens in a collimator, the proton stays the same one *)
Lemma deflect_id t E f p q : deflect t E f p = Ok q -> pid q = pid p.
Proof. unfold deflect. destruct (_ || _)%bool; [discriminate|]. intros H. injection H as <-. reflexivity. Qed.
Lemma scatter_id o T q k p E k' p' b : scatter o T q k p E = Ok (k', (p', b)) -> pid p' = pid p.
Proof.
  intros H. destruct q eqn:Q; try (eapply C308_exchange in H; [destruct H as (t & dE & _ & ((_ & _ & _ & I) & _) & _); exact I|discriminate]).
  cbn in H. now injection H as _ <- _.
Qed.
Lemma turn_id {X} (P : physics X) E0 s s' out :
  (forall x p st x' q, ph_loss P x p st = Ok (x', q) -> pid q = pid p) -> (forall x p st a b x' q, ph_strag P x p st a b = Ok (x', q) -> pid q = pid p) ->
  (forall x p E x' q b, ph_scat P x p E = Ok (x', (q, b)) -> pid q = pid p) -> turn P E0 s = Ok (s', out) -> pid (d_p s') = pid (d_p s).
Proof.
  intros HL HS HC H. unfold turn in H.
  repeat match type of H with
  | bind ?e _ = Ok _ => let E := fresh "E" in destruct e eqn:E; cbn [bind] in H; [|discriminate H|discriminate H]
  | (if ?b then _ else _) = Ok _ => let E := fresh "B" in destruct b eqn:E; try discriminate H
  end; repeat match goal with
  | E : ph_loss P _ _ _ = Ok ?a |- _ => destruct a as [? ?]; apply HL in E
  | E : ph_strag P _ _ _ _ _ = Ok ?a |- _ => destruct a as [? ?]; apply HS in E
  | E : (if ?b then ph_scat P _ _ _ else _) = Ok ?a |- _ => destruct a as [? [? ?]]; destruct b; [apply HC in E|injection E as <- <- <-]
  end; injection H as <- <-; cbn [d_p set_ct6 set_xy pid pv fst snd] in *; congruence.
Qed.
Theorem C320_same o c K T a P0 E inside int_s s p w n r out :
  do_scatter (proton o c K T a E inside) P0 int_s s p w n = Some (Ok (r, out)) -> pid (d_p r) = pid p.
Proof.
  unfold do_scatter. set (E0 := sqrt _). set (d := mkD p int_s (s - int_s) [] w). change (pid p) with (pid (d_p d)). clearbody d. revert d.
  assert (TI : forall d d' out, turn (proton o c K T a E inside) E0 d = Ok (d', out) -> pid (d_p d') = pid (d_p d)).
  { intros d d' out'. apply turn_id; cbn [ph_loss ph_strag ph_scat proton].
    - intros x q st x' q' H. destruct (sm_mode (w_model x)).
      + unfold loss_simple in H. destruct (Reqb E 0); cbn [bind] in H; [discriminate|]. hit. injection H as _ <-. hit. injection E1 as <-. reflexivity.
      + unfold loss_full in H. hit. injection H as _ <-. hit. injection E1 as <-. reflexivity.
    - intros x q st E1 E2 x' q' H. hit. injection H as _ <-. unfold straggle in E3. hit. injection E3 as <-. reflexivity.
    - intros x q Es x' q' b H. hit. injection H as _ H. destruct a0 as [[s1 k1] r1]. cbn [snd] in H. subst r1. unfold particle_scatter in E1. hit.
      destruct (sm_xs a0); [discriminate|]. hit. destruct a2 as [k2 [p2 b2]]. injection E1 as _ _ -> ->. now apply scatter_id in E4. }
  induction n as [|n IH]; intros d H; cbn [run] in H.
  - destruct (negb _); [|discriminate]. now injection H as <- _.
  - destruct (negb _); [now injection H as <- _|]. destruct (turn _ _ d) as [[d' [o1|]]| |] eqn:T1; try discriminate.
    + injection H as <- _. eauto.
    + apply TI in T1. apply IH in H. congruence.
Qed.
Print Assumptions C320_same.
(* a proton of 7000 GeV in 0.6 m of carbon *)
Example C319_example : exists f q, loss_full o0 k0 0 carb None 0 (pr 0 0) 0.6 7000 = Ok (Some (0%nat, f), 1%nat, q) /\ f_C0 f < f_C1 f /\ f_I f = 78.
Proof.
  destruct carb_setup as (f & S & I). unfold loss_full. rewrite S. cbn [bind]. rewrite (Reqb_false 7000) by lra.
  assert (F : f_C0 f < f_C1 f /\ 0 < f_xi0 f).
  { assert (I7 : / 10 ^ 7 < f_I f).
    { rewrite I. assert (/ 10 ^ 7 < 1); [|lra]. apply (Rmult_lt_reg_r (10 ^ 7)); [apply pow_lt; lra|]. rewrite Rinv_l by (apply pow_nonzero; lra). rewrite Rmult_1_l. apply Rlt_pow_R1; [lra|lia]. }
    destruct (C318_refuted _ _ _ S I7) as (C1 & C0). rewrite C1. destruct (C318_values _ _ _ S) as (_ & _ & VC & VX). split.
    - destruct C0 as [(C0 & _)|(_ & C0)]; [lra|exfalso]. rewrite VC, I in C0. change (mrho carb) with 2265 in C0. change (mZ carb) with 6 in C0. change (mA carb) with 12.011 in C0.
      set (w := 2265 * 0.001 * 6 / 12.011) in C0. assert (W : 1 <= sqrt w). { rewrite <- sqrt_1. apply sqrt_le_1_alt. unfold w. lra. }
      assert (Y : 0 < 78 / (28.816 * sqrt w) <= 78 / 28.816).
      { split; [apply Rdiv_lt_0_compat; lra|]. unfold Rdiv. apply Rmult_le_compat_l; [lra|]. apply Rinv_le_contravar; lra. }
      pose proof (exp_ineq1_le (ln (78 / (28.816 * sqrt w)))) as EI. rewrite exp_ln in EI by lra. lra.
    - rewrite VX. change (mrho carb) with 2265. change (mZ carb) with 6. change (mA carb) with 12.011. cbn [k_xi1 k0].
      assert (0 < 10 ^ 15) by (apply pow_lt; lra). set (z := 10 ^ 15) in *. clearbody z. lra. }
  destruct F as (F1 & F2).
  assert (D : exists xi d, delta_full k0 f 0.6 (7000 * (1 + vdp (pv (pr 0 0))) / mp) = Ok (xi, d)).
  { cbn [pr pv vdp]. set (g := 7000 * (1 + 0) / mp). assert (G : 1 < g) by (unfold g, mp; lra). unfold delta_full. rewrite Rleb_false by lra.
    set (beta := sqrt (1 - 1 / (g * g))).
    assert (V : 0 < 1 - 1 / (g * g)). { assert (1 / (g * g) < 1); [|lra]. apply (Rmult_lt_reg_r (g * g)); [nra|]. replace (1 / (g * g) * (g * g)) with 1 by (field; lra). nra. }
    assert (PB : 0 < beta) by now apply sqrt_lt_R0. assert (B2 : 0 < beta * beta) by nra.
    assert (XI : 0 < (f_xi0 f * 0.6 / (beta * beta)) / echarge * / 10 ^ 6).
    { apply Rmult_lt_0_compat; [|apply Rinv_0_lt_compat, pow_lt; lra]. apply Rdiv_lt_0_compat.
      - apply Rdiv_lt_0_compat; [|auto]. apply Rmult_lt_0_compat; [auto|lra].
      - unfold echarge. apply Rmult_lt_0_compat; [lra|]. apply Rinv_0_lt_compat, pow_lt. lra. }
    rewrite Rleb_false; [eauto|]. apply Rdiv_lt_0_compat.
    - apply Rmult_lt_0_compat; [|exact XI]. assert (0 < me) by (unfold me; lra). clearbody g. set (q := me) in *. clearbody q. clear - H G PB. repeat apply Rmult_lt_0_compat; lra.
    - apply pow_lt. rewrite I. lra. }
  destruct D as (xi & d & D). rewrite D. cbn [bind fst snd]. eexists f, _. split; [reflexivity|]. auto.
Qed.
(* a proton which goes through half a metre of copper, with the simple energy loss *)
Lemma cu_free : exists l, mlam cu = Val l /\ 0 < l.
Proof.
  unfold cu, new_material, update. cbn [mlam mST mSR mrho mA].
  assert (D : 0 < (1.232 + 0.00153) * 8960 * / 10 ^ 28 * (6022 * 10 ^ 20)).
  { repeat apply Rmult_lt_0_compat; try lra. }
  rewrite Reqb_false by lra. eexists. split; [reflexivity|]. apply Rdiv_lt_0_compat; [lra|exact D].
Qed.
Example C320_example : exists o w r, do_scatter (proton o k0 SixTrack T0 0 7000 (fun _ _ _ => false)) 7000 0 0.5 (pr 0 0) w 1 = Some (Ok (r, Survived)) /\ pid (d_p r) = 7%Z.
Proof.
  destruct cu_free as (l & ML & PL). set (o := mkO (fun _ => exp (- (1 / l))) (fun _ => 0) (fun _ => 0)).
  exists o, (mkPS cu 0 (mkSM Simple None [] [] []) None None).
  assert (R : exists r, do_scatter (proton o k0 SixTrack T0 0 7000 (fun _ _ _ => false)) 7000 0 0.5 (pr 0 0) (mkPS cu 0 (mkSM Simple None [] [] []) None None) 1 = Some (Ok (r, Survived))).
  { unfold do_scatter. assert (B : 7000 <= sqrt (7000 * 7000 + mp * mp)). { rewrite <- (sqrt_square 7000) at 1 by lra. apply sqrt_le_1_alt. unfold mp. lra. }
    set (E := sqrt _) in *. cbn [run d_go]. rewrite Rltb_true by lra. cbn [negb]. unfold turn. cbn [d_p d_x d_go d_z d_log ph_path proton w_mat w_k]. unfold path_length. rewrite ML.
    change (un o 0) with (exp (- (1 / l))). pose proof (exp_pos (- (1 / l))). rewrite Rleb_false by auto. rewrite ln_exp. cbn [bind fst snd].
    replace (- l * - (1 / l)) with 1 by (field; lra). rewrite (Rltb_false 1) by lra. cbn [pr pv vxp vyp]. rewrite Rltb_false by lra.
    cbn [ph_loss proton with_k w_model sm_mode w_mat w_k w_sc w_fc].
    match goal with |- context [loss_simple cu ?p ?x ?e] => destruct (C301_refuted cu p x e ltac:(lra) eq_refl) as (m' & LS & _); assert (XR : mX0 m' = 12.86 /\ mrho m' = 8960) end.
    { clear - LS. unfold loss_simple in LS. hit. injection LS as <- _. unfold get_extra in E. cbn [cu new_material update mextra assoc] in E. injection E as <-. cbn. auto. }
    destruct XR as (X0 & XR). rewrite LS. cbn [bind fst snd set_xy pv vdp].
    replace (vdp (pv (pr 0 0))) with 0 by reflexivity. rewrite Rleb_false by lra. cbn [ph_strag proton w_sc w_mat w_k w_model w_fc].
    match goal with |- context [straggle o _ _ _ _ ?q ?x ?a ?b] => destruct (C316_spread 0%nat m' q x a b) as (ca & cb & cc & cd & H1 & _) end; try lra.
    destruct (H1 o 1%nat) as (q & SG & _). rewrite SG. cbn [bind fst snd].
    rewrite Rltb_false by lra. cbn [ph_inside proton andb]. rewrite Rltb_true by lra. eauto. }
  destruct R as (r & R). exists r. split; [exact R|]. apply C320_same in R. exact R.
Qed.
