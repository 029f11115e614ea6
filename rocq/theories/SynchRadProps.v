(* C404-C412: synchrotron radiation. *)
From Coq Require Import ZArith Lia Lra List.
From Verif Require Import RBase Base Bunch SynchRad SynchRadSpec.
Import ListNotations.
Local Open Scope R_scope.

Lemma photons_total uc : forall l u, photons uc l u = u + uc * total l.
Proof. induction l as [|s l IH]; intros u; cbn [photons total]; [ring|]. rewrite IH. ring. Qed.
Lemma loss_ok k field dL P0 q ph v : loss k field dL P0 q ph v = radiated k (field (vx v) (vy v)) dL q ph (P0 * (1 + vdp v)).
Proof. unfold loss, radiated. cbv zeta. destruct q; [rewrite photons_total|]; ring. Qed.
Lemma emit_ok symp P0 u v v' : emit symp P0 u v = Ok v' -> P0 <> 0 /\ vdp v' = vdp v - u / P0 /\ vx v' = vx v /\ vy v' = vy v /\ vct v' = vct v /\
  (symp = false -> vxp v' = vxp v / (1 + u / P0) /\ vyp v' = vyp v / (1 + u / P0)) /\
  (symp = true -> 0 < pz2 v /\ (0 < 1 + vdp v -> vxp v' = vxp v * ((1 + vdp v') / (1 + vdp v)) /\ vyp v' = vyp v * ((1 + vdp v') / (1 + vdp v)))).
Proof.
  unfold emit. destruct (Reqb_spec P0 0) as [|N]; [discriminate|]. destruct symp.
  - cbv zeta. destruct (Rleb_spec ((1 + vdp v) * (1 + vdp v) - vxp v * vxp v - vyp v * vyp v) 0) as [|K]; [discriminate|]. intros [= <-]. cbn [vx vxp vy vyp vct vdp]. split; [exact N|]. do 4 (split; [reflexivity|]). split; [discriminate|]. intros _. unfold pz2. split; [lra|]. intros D.
    set (k2 := (1 + vdp v) * (1 + vdp v) - vxp v * vxp v - vyp v * vyp v) in *. assert (K2 : 0 < k2) by lra. assert (KS : 0 < sqrt k2) by now apply sqrt_lt_R0. pose proof (sqrt_sqrt k2 (Rlt_le _ _ K2)) as SS.
    assert (Q : sqrt (1 + vxp v / sqrt k2 * (vxp v / sqrt k2) + vyp v / sqrt k2 * (vyp v / sqrt k2)) = (1 + vdp v) / sqrt k2).
    { apply sqrt_lem_1; [pose proof (Rle_0_sqr (vxp v / sqrt k2)); pose proof (Rle_0_sqr (vyp v / sqrt k2)); unfold Rsqr in *; lra|apply Rlt_le, Rdiv_lt_0_compat; assumption|]. replace (1 + vxp v / sqrt k2 * (vxp v / sqrt k2) + vyp v / sqrt k2 * (vyp v / sqrt k2)) with ((sqrt k2 * sqrt k2 + vxp v * vxp v + vyp v * vyp v) / (sqrt k2 * sqrt k2)) by (field; lra). rewrite SS. unfold k2 at 3. replace ((1 + vdp v) / sqrt k2 * ((1 + vdp v) / sqrt k2)) with ((1 + vdp v) * (1 + vdp v) / (sqrt k2 * sqrt k2)) by (field; lra). rewrite SS. unfold Rdiv. f_equal. unfold k2. ring. }
    rewrite Q. split; field; lra.
  - destruct (Reqb_spec (1 + u / P0) 0); [discriminate|]. intros [= <-]. cbn [vx vxp vy vyp vct vdp]. split; [exact N|]. do 4 (split; [reflexivity|]). split; [split; reflexivity|discriminate].
Qed.
Lemma radiate_ok k field dL symp q ph b : forall l n U m U', radiate k field dL (p0 b) symp q ph n l U = Ok (m, U') -> U' = U + total (losses k field dL q ph n b l) /\ length m = length l /\
  Forall2 (fun pu r => emit symp (p0 b) (snd pu) (pv (fst pu)) = Ok (pv r) /\ pid r = pid (fst pu)) (combine l (losses k field dL q ph n b l)) m.
Proof.
  induction l as [|p l IH]; intros n U m U' E; cbn [radiate losses combine total] in *.
  - injection E as <- <-. split; [ring|]. split; [reflexivity|constructor].
  - destruct (Reqb (k_m k) 0); [discriminate|]. cbv zeta in E. destruct (emit symp (p0 b) _ (pv p)) as [v| |] eqn:V; cbn [bind] in E; try discriminate. destruct (radiate _ _ _ _ _ _ _ _ l _) as [(m1 & U1)| |] eqn:F; cbn [bind] in E; try discriminate. cbn [fst snd] in E. injection E as <- <-. destruct (IH _ _ _ _ F) as (A & B & C). rewrite loss_ok in *. fold (en b p) in *. split; [rewrite A; ring|]. split; [cbn [length]; now rewrite B|]. constructor; [|exact C]. cbn [fst snd pv pid]. split; [exact V|reflexivity].
Qed.
(* one passage of the process at a point of radiation *)
Definition at_goal (s : srp) (ds : R) : Prop := Rabs (s_ints s + ds - (IZR (s_nk s) + 1) * s_dL s) <= eps.
Lemma do_sr_goal k ph n ds s b s' b' n' : do_sr k ph n ds s b = Ok (s', b', n') -> at_goal s ds -> exists field m, s_field s = Some field /\ radiate k field (s_dL s) (p0 b) (s_symp s) (s_quantum s) ph n (parts b) 0 = Ok (m, total (losses k field (s_dL s) (s_quantum s) ph n b (parts b))) /\
  n' = (n + length (parts b))%nat /\ s_nk s' = (s_nk s + 1)%Z /\ s_ints s' = s_ints s + ds /\
  (s_adjust s = false -> b' = mkB (p0 b) (ct0 b) (qmp b) m) /\
  (s_adjust s = true -> parts b <> [] /\ let U := total (losses k field (s_dL s) (s_quantum s) ph n b (parts b)) / INR (length (parts b)) in let kk := 1 + - U / p0 b in 0 < kk * p0 b /\ b' = mkB (kk * p0 b) (ct0 b) (qmp b) (map (fun p => set_dp ((vdp (pv p) - - U / p0 b) / kk) p) m)).
Proof.
  intros E G. unfold do_sr in E. cbv zeta in E. destruct (fequal_spec (s_ints s + ds) ((IZR (s_nk s) + 1) * s_dL s)) as [_|NG]; [|contradiction]. destruct (s_field s) as [field|]; [|discriminate]. exists field.
  destruct (radiate _ _ _ _ _ _ _ _ _ _) as [(m & U)| |] eqn:F; cbn [bind] in E; try discriminate. exists m. destruct (radiate_ok _ _ _ _ _ _ _ _ _ _ _ _ F) as (A & B & C). rewrite Rplus_0_l in A. subst U. split; [reflexivity|]. split; [reflexivity|]. cbn [fst snd] in E.
  destruct (s_adjust s) eqn:AD.
  - destruct (parts b) as [|p0' ps] eqn:PS; [discriminate|]. rewrite <- PS in *. unfold adjust_ref_momentum in E. cbn [parts p0 ct0 qmp] in E. cbv zeta in E.
    match goal with E : bind (match (if Rltb 0 ?X then _ else _) with _ => _ end) _ = _ |- _ => destruct (Rltb_spec 0 X) as [L|L] end; [|discriminate]. cbn [bind] in E. injection E as <- <- <-. cbn [s_nk s_ints]. do 3 (split; [reflexivity|]). split; [discriminate|]. intros _. split; [rewrite PS; discriminate|]. cbv zeta. split; [exact L|reflexivity].
  - cbn [bind] in E. injection E as <- <- <-. cbn [s_nk s_ints]. do 3 (split; [reflexivity|]). split; [reflexivity|discriminate].
Qed.
Lemma do_sr_off k ph n ds s b : ~ at_goal s ds -> do_sr k ph n ds s b = Ok (mkS (s_ns s) (s_dsmax s) (s_incq s) (s_adjust s) (s_symp s) (s_quantum s) (s_field s) (s_dL s) (s_nk s) (s_ints s + ds) (negb (Z.eqb (s_nk s) (s_ns s))), b, n).
Proof. intros G. unfold do_sr. cbv zeta. destruct (fequal_spec (s_ints s + ds) ((IZR (s_nk s) + 1) * s_dL s)); [contradiction|]. reflexivity. Qed.
Lemma Forall2_map_r2 {A B C} (P : A -> B -> Prop) (Q : A -> C -> Prop) f : (forall a b, P a b -> Q a (f b)) -> forall l m, Forall2 P l m -> Forall2 Q l (map f m).
Proof. intros H l m F. induction F; cbn [map]; constructor; auto. Qed.
Lemma Forall2_weaken {A B} (P Q : A -> B -> Prop) : (forall a b, P a b -> Q a b) -> forall l m, Forall2 P l m -> Forall2 Q l m.
Proof. intros H l m F. induction F; constructor; auto. Qed.
(* C404: each particle loses the energy it radiates, the reference momentum the mean of these *)
Theorem C404_energy : forall k ph n ds s b s' b' n' field, do_sr k ph n ds s b = Ok (s', b', n') -> at_goal s ds -> s_field s = Some field -> p0 b <> 0 ->
  let us := losses k field (s_dL s) (s_quantum s) ph n b (parts b) in
  p0 b' = p0 b - (if s_adjust s then total us / INR (length (parts b)) else 0) /\ ct0 b' = ct0 b /\ qmp b' = qmp b /\
  Forall2 (fun pu q => en b' q = en b (fst pu) - snd pu /\ vx (pv q) = vx (pv (fst pu)) /\ vy (pv q) = vy (pv (fst pu)) /\ vct (pv q) = vct (pv (fst pu)) /\ pid q = pid (fst pu)) (combine (parts b) us) (parts b').
Proof.
  intros k ph n ds s b s' b' n' field E G FI N. destruct (do_sr_goal _ _ _ _ _ _ _ _ _ E G) as (f & m & F & RA & _ & _ & _ & A0 & A1). assert (f = field) by congruence. subst f. destruct (radiate_ok _ _ _ _ _ _ _ _ _ _ _ _ RA) as (_ & _ & FA). cbv zeta in *. set (us := losses _ _ _ _ _ _ _ _) in *. destruct (s_adjust s).
  - destruct (A1 eq_refl) as (_ & L & ->). cbn [p0 ct0 qmp parts]. set (U := total us / INR (length (parts b))) in *. assert (KN : 1 + - U / p0 b <> 0) by (intros Z; rewrite Z in L; lra). split; [field; exact N|]. do 2 (split; [reflexivity|]). eapply Forall2_map_r2; [|exact FA]. intros (p & u) r (EM & ID). cbn [fst snd] in *. destruct (emit_ok _ _ _ _ _ EM) as (_ & D & X & Y & T & _). unfold en, set_dp. cbn [p0 pv pid vx vy vct vdp]. rewrite D. split; [field; split; [exact N|]; intros Z; apply KN; field_simplify_eq; [lra|exact N]|]. auto.
  - rewrite (A0 eq_refl). cbn [p0 ct0 qmp parts]. split; [ring|]. do 2 (split; [reflexivity|]). eapply Forall2_weaken; [|exact FA]. intros (p & u) r (EM & ID). cbn [fst snd] in *. destruct (emit_ok _ _ _ _ _ EM) as (_ & D & X & Y & T & _). unfold en. cbn [p0]. rewrite D. split; [field; exact N|]. auto.
Qed.
Print Assumptions C404_energy.
(* C405: in symplectic variables and with the reference momentum left alone, directions stay *)
Theorem C405_direction : forall k ph n ds s b s' b' n', do_sr k ph n ds s b = Ok (s', b', n') -> at_goal s ds -> s_symp s = true -> s_adjust s = false -> (forall p, In p (parts b) -> 0 < 1 + vdp (pv p)) ->
  Forall2 (fun p q => vxp (pv q) = vxp (pv p) * ((1 + vdp (pv q)) / (1 + vdp (pv p))) /\ vyp (pv q) = vyp (pv p) * ((1 + vdp (pv q)) / (1 + vdp (pv p)))) (parts b) (parts b').
Proof.
  intros k ph n ds s b s' b' n' E G SY AD D. destruct (do_sr_goal _ _ _ _ _ _ _ _ _ E G) as (f & m & F & RA & _ & _ & _ & A0 & _). rewrite (A0 AD). cbn [parts]. destruct (radiate_ok _ _ _ _ _ _ _ _ _ _ _ _ RA) as (_ & _ & FA). clear RA A0 E. rewrite SY in FA. revert n m FA D. generalize (parts b) at 1 2 3 4 as l. induction l as [|p l IH]; intros n m FA D; cbn [losses combine] in FA; inversion FA as [|? ? ? ? (EM & _) FT]; subst; constructor.
  - cbn [fst snd] in EM. destruct (emit_ok _ _ _ _ _ EM) as (_ & _ & _ & _ & _ & _ & S). destruct (S eq_refl) as (_ & S'). apply S', D. now left.
  - eapply IH; [exact FT|]. intros q Q. apply D. now right.
Qed.
Print Assumptions C405_direction.
(* C406: when the reference momentum is adjusted, the symplectic variables are not, so that the directions change *)
Theorem C406_adjust_refuted : forall k ph n ds s b s' b' n', do_sr k ph n ds s b = Ok (s', b', n') -> at_goal s ds -> s_symp s = true -> s_adjust s = true -> 0 < p0 b -> (forall p, In p (parts b) -> 0 < 1 + vdp (pv p)) ->
  Forall2 (fun p q => p0 b' * vxp (pv q) = p0 b * vxp (pv p) * (en b' q / en b p) * (p0 b' / p0 b) /\ p0 b' * vyp (pv q) = p0 b * vyp (pv p) * (en b' q / en b p) * (p0 b' / p0 b)) (parts b) (parts b').
Proof.
  intros k ph n ds s b s' b' n' E G SY AD P D. destruct (do_sr_goal _ _ _ _ _ _ _ _ _ E G) as (f & m & F & RA & _ & _ & _ & _ & A1). destruct (A1 AD) as (_ & L & ->). cbv zeta in *. cbn [p0 parts]. destruct (radiate_ok _ _ _ _ _ _ _ _ _ _ _ _ RA) as (_ & _ & FA). set (U := total _ / INR (length (parts b))) in *. assert (KN : 1 + - U / p0 b <> 0) by (intros Z; rewrite Z in L; lra). clear RA A1 E. rewrite SY in FA. clearbody U.
  revert n m FA D. generalize (parts b) at 1 2 3 4 as l. induction l as [|p l IH]; intros n m FA D; cbn [losses combine] in FA; inversion FA as [|? ? ? ? (EM & _) FT]; subst; cbn [map]; constructor.
  - cbn [fst snd] in EM. destruct (emit_ok _ _ _ _ _ EM) as (_ & DP & _ & _ & _ & _ & S). destruct (S eq_refl) as (_ & S'). destruct (S' (D p (or_introl eq_refl))) as (XP & YP). specialize (D p (or_introl eq_refl)). unfold en, set_dp. cbn [pv vxp vyp vdp p0]. rewrite XP, YP. assert (KN' : p0 b + - U <> 0) by (intros Z; apply KN; replace (1 + - U / p0 b) with ((p0 b + - U) / p0 b) by (field; lra); rewrite Z; unfold Rdiv; ring). split; field; repeat split; lra.
  - eapply IH; [exact FT|]. intros q Q. apply D. now right.
Qed.
Print Assumptions C406_adjust_refuted.
(* C407: in the usual variables the angles are divided by one plus the relative loss, although photons are emitted along the direction of motion *)
Theorem C407_angles_refuted : forall k ph n ds s b s' b' n' field, do_sr k ph n ds s b = Ok (s', b', n') -> at_goal s ds -> s_field s = Some field -> s_symp s = false ->
  Forall2 (fun pu q => vxp (pv q) = vxp (pv (fst pu)) / (1 + snd pu / p0 b) /\ vyp (pv q) = vyp (pv (fst pu)) / (1 + snd pu / p0 b)) (combine (parts b) (losses k field (s_dL s) (s_quantum s) ph n b (parts b))) (parts b').
Proof.
  intros k ph n ds s b s' b' n' field E G FI SY. destruct (do_sr_goal _ _ _ _ _ _ _ _ _ E G) as (f & m & F & RA & _ & _ & _ & A0 & A1). assert (f = field) by congruence. subst f. destruct (radiate_ok _ _ _ _ _ _ _ _ _ _ _ _ RA) as (_ & _ & FA). destruct (s_adjust s).
  - destruct (A1 eq_refl) as (_ & _ & ->). cbv zeta. cbn [parts]. eapply Forall2_map_r2; [|exact FA]. intros (p & u) r (EM & ID). cbn [fst snd] in *. destruct (emit_ok _ _ _ _ _ EM) as (_ & _ & _ & _ & _ & S & _). unfold set_dp. cbn [pv vxp vyp]. now apply S.
  - rewrite (A0 eq_refl). cbn [parts]. eapply Forall2_weaken; [|exact FA]. intros (p & u) r (EM & ID). cbn [fst snd] in *. destruct (emit_ok _ _ _ _ _ EM) as (_ & _ & _ & _ & _ & S & _). now apply S.
Qed.
Print Assumptions C407_angles_refuted.
(* C408: along a component the bunch radiates at each of the points, over the whole length *)
Lemma combine_losses k field dL q ph b : forall l n, length (losses k field dL q ph n b l) = length l.
Proof. induction l as [|p l IH]; intros n; cbn [losses length]; [reflexivity|]. now rewrite IH. Qed.
Lemma do_sr_frame k ph n ds s b s' b' n' : do_sr k ph n ds s b = Ok (s', b', n') -> s_ns s' = s_ns s /\ s_dL s' = s_dL s /\ s_active s' = negb (Z.eqb (s_nk s') (s_ns s)) /\ length (parts b') = length (parts b) /\ s_ints s' = s_ints s + ds /\
  ((at_goal s ds /\ s_nk s' = (s_nk s + 1)%Z /\ n' = (n + length (parts b))%nat) \/ (~ at_goal s ds /\ s_nk s' = s_nk s /\ n' = n /\ b' = b)).
Proof.
  intros E. destruct (Rle_dec (Rabs (s_ints s + ds - (IZR (s_nk s) + 1) * s_dL s)) eps) as [G|G].
  - destruct (do_sr_goal _ _ _ _ _ _ _ _ _ E G) as (f & m & F & RA & N & NK & IS & A0 & A1). destruct (radiate_ok _ _ _ _ _ _ _ _ _ _ _ _ RA) as (_ & LM & _).
    assert (LB : length (parts b') = length (parts b)). { destruct (s_adjust s); [destruct (A1 eq_refl) as (_ & _ & ->); cbn [parts]; now rewrite map_length|rewrite (A0 eq_refl); exact LM]. }
    assert (FR : s_ns s' = s_ns s /\ s_dL s' = s_dL s /\ s_active s' = negb (Z.eqb (s_nk s') (s_ns s))). { unfold do_sr in E. cbv zeta in E. match type of E with bind ?e _ = _ => destruct e as [((x & y) & z)| |] end; cbn [bind] in E; try discriminate. injection E as <- _ _. cbn [s_ns s_dL s_active s_nk]. auto. }
    destruct FR as (F1 & F2 & F3). do 5 (split; [assumption|]). left. auto.
  - rewrite (do_sr_off _ _ _ _ _ _ G) in E. injection E as <- <- <-. cbn [s_ns s_dL s_active s_nk s_ints]. do 5 (split; [reflexivity|]). right. auto.
Qed.
Lemma run_ok k ph M : forall l n s b s' b' n', run_sr k ph n l s b = Ok (s', b', n') -> 0 < s_dL s -> IZR (s_nk s) * s_dL s <= s_ints s < (IZR (s_nk s) + 1) * s_dL s -> allowed (s_dL s) (s_nk s) (s_ints s) l -> s_ints s + total l = IZR M * s_dL s -> (0 <= s_nk s <= M)%Z ->
  ((s_ns s = M /\ s_active s = negb (Z.eqb (s_nk s) M)) \/ (s_ns s = 0%Z /\ s_active s = true /\ ((1 <= s_nk s)%Z \/ exists q, l = s_dL s :: q /\ s_ints s = 0 /\ s_nk s = 0%Z))) ->
  s_nk s' = M /\ Z.of_nat n' = (Z.of_nat n + (M - s_nk s) * Z.of_nat (length (parts b)))%Z /\ length (parts b') = length (parts b).
Proof.
  assert (TP : forall l dL nk pos, allowed dL nk pos l -> 0 <= total l). { induction l as [|ds l IH]; intros dL nk pos A; cbn [total]; [lra|]. destruct A as (D & [(_ & A)|(_ & A)]); specialize (IH _ _ _ A); lra. }
  assert (STOP : forall s (l : list R), 0 < s_dL s -> IZR (s_nk s) * s_dL s <= s_ints s < (IZR (s_nk s) + 1) * s_dL s -> s_ints s = IZR M * s_dL s -> s_nk s = M).
  { intros s l D (I1 & I2) I. rewrite I in *. apply Rmult_le_reg_r in I1; [|exact D]. apply Rmult_lt_reg_r in I2; [|exact D]. apply le_IZR in I1. rewrite <- plus_IZR in I2. apply lt_IZR in I2. lia. }
  induction l as [|ds l IH]; intros n s b s' b' n' E D IV AL TO NM MO; cbn [run_sr total] in *.
  - injection E as <- <- <-. assert (NK : s_nk s = M) by (apply (STOP s []); [exact D|exact IV|lra]). rewrite NK. split; [reflexivity|]. split; [lia|reflexivity].
  - destruct (s_active s) eqn:AC.
    + destruct (do_sr k ph n ds s b) as [((s1 & b1) & n1)| |] eqn:DO; cbn [bind] in E; try discriminate. destruct (do_sr_frame _ _ _ _ _ _ _ _ _ DO) as (F1 & F2 & F3 & F4 & F5 & F6). destruct AL as (DS & AL). destruct F6 as [(G & NK & N1)|(G & NK & N1 & B1)].
      * destruct AL as [(HIT & AL)|(LOW & _)]; [|exfalso; unfold at_goal in G; unfold Rabs in G; destruct (Rcase_abs _); pose proof eps_pos; lra].
        assert (NM1 : (s_nk s1 <= M)%Z). { rewrite NK. pose proof (TP _ _ _ _ AL). assert (LE : (IZR (s_nk s) + 1) * s_dL s <= IZR M * s_dL s) by lra. apply Rmult_le_reg_r in LE; [|exact D]. rewrite <- plus_IZR in LE. apply le_IZR in LE. lia. }
        destruct (IH n1 s1 b1 s' b' n' E) as (R1 & R2 & R3).
        -- now rewrite F2.
        -- rewrite F2, F5, NK, HIT, plus_IZR. nra.
        -- rewrite F2, F5, NK. exact AL.
        -- rewrite F2, F5. lra.
        -- split; [rewrite NK; lia|exact NM1].
        -- destruct MO as [(NS & _)|(NS & _ & _)].
           ++ left. rewrite F1, F3, NS. auto.
           ++ right. rewrite F1, F3, NS. split; [reflexivity|]. assert (Q0 : (1 <= s_nk s1)%Z) by (rewrite NK; lia). split; [apply Bool.negb_true_iff, Z.eqb_neq; lia|now left].
        -- split; [exact R1|]. split; [|congruence]. rewrite R2, N1, F4, NK. lia.
      * destruct AL as [(HIT & _)|(LOW & AL)]; [exfalso; apply G; unfold at_goal; rewrite HIT, Rminus_diag_eq, Rabs_R0 by reflexivity; pose proof eps_pos; lra|].
        subst b1 n1. destruct (IH n s1 b s' b' n' E) as (R1 & R2 & R3).
        -- now rewrite F2.
        -- rewrite F2, F5, NK. pose proof eps_pos. lra.
        -- rewrite F2, F5, NK. exact AL.
        -- rewrite F2, F5. lra.
        -- now rewrite NK.
        -- destruct MO as [(NS & _)|(NS & _ & MO)].
           ++ left. rewrite F1, F3, NS. auto.
           ++ right. rewrite F1, F3, NS. destruct MO as [MO|(q & LQ & I0 & N0)].
              ** split; [reflexivity|]. rewrite NK. split; [apply Bool.negb_true_iff, Z.eqb_neq; lia|now left].
              ** exfalso. injection LQ as -> _. rewrite I0, N0 in LOW. pose proof eps_pos. lra.
        -- rewrite NK in R2. auto.
    + injection E as <- <- <-. destruct MO as [(NS & AM)|(_ & AM & _)]; [|discriminate]. symmetry in AM. apply Bool.negb_false_iff, Z.eqb_eq in AM. rewrite AM. split; [reflexivity|]. split; [lia|reflexivity].
Qed.

Theorem C408_points : forall k ph n l s0 c len s b s' b' n', set_comp true c len s0 = Ok s -> s_active s = true -> (1 <= s_ns s0)%Z -> 0 < len -> allowed (s_dL s) 0 0 l -> total l = len -> run_sr k ph n l s b = Ok (s', b', n') ->
  IZR (s_ns s0) * s_dL s = len /\ s_nk s' = s_ns s0 /\ Z.of_nat n' = (Z.of_nat n + s_ns s0 * Z.of_nat (length (parts b)))%Z /\ length (parts b') = length (parts b).
Proof.
  intros k ph n l s0 c len s b s' b' n' SC AC NS LE AL TO RU. unfold set_comp in SC. cbv zeta in SC. destruct (Z.eqb_spec (s_ns s0) 0) as [|NZ]; [lia|]. cbn [bind] in SC. rewrite (proj2 (Z.eqb_neq _ _) NZ) in SC. injection SC as SC. subst s. cbn [s_active s_dL] in *. assert (P : 0 < IZR (s_ns s0)) by (apply IZR_lt; lia). assert (D : 0 < len / IZR (s_ns s0)) by (apply Rdiv_lt_0_compat; assumption). assert (Q : IZR (s_ns s0) * (len / IZR (s_ns s0)) = len) by (field; lra). split; [exact Q|].
  pose proof (run_ok k ph (s_ns s0) l n _ b s' b' n' RU) as H. cbn [s_dL s_nk s_ints s_ns s_active] in H. rewrite Z.sub_0_r in H. apply H; auto; try lra; try lia. left. split; [reflexivity|]. rewrite AC. destruct (Z.eqb_spec 0 (s_ns s0)); [lia|reflexivity].
Qed.
Print Assumptions C408_points.
(* C409: with a largest step, the points are not further apart than it, and all are used when the first step is not shortened *)
Lemma trunc_pos x : 0 <= x -> IZR (trunc x) <= x < IZR (trunc x) + 1.
Proof. intros H. unfold trunc. rewrite Rleb_true by exact H. destruct (archimed x). rewrite minus_IZR. lra. Qed.
Theorem C409_spacing : forall c len s0 s, set_comp true c len s0 = Ok s -> s_ns s0 = 0%Z -> 0 < s_dsmax s0 -> 0 <= len -> exists m, (1 <= m)%Z /\ IZR m * s_dL s = len /\ s_dL s < s_dsmax s0 /\ ((2 <= m)%Z -> s_dsmax s0 <= len / (IZR m - 1)) /\
  forall k ph n l b s' b' n', 0 < len -> s_active s = true -> allowed (s_dL s) 0 0 (s_dL s :: l) -> total (s_dL s :: l) = len -> run_sr k ph n (s_dL s :: l) s b = Ok (s', b', n') -> s_nk s' = m /\ Z.of_nat n' = (Z.of_nat n + m * Z.of_nat (length (parts b)))%Z.
Proof.
  intros c len s0 s SC NS DP LP. unfold set_comp in SC. cbv zeta in SC. rewrite NS in SC. cbn [Z.eqb] in SC. rewrite Reqb_false in SC by lra. set (m := trunc (1 + len / s_dsmax s0)) in *. destruct (_ && _)%bool; cbn [bind] in SC; [|discriminate].
  assert (Q : 0 <= len / s_dsmax s0) by (apply Rmult_le_pos; [exact LP|apply Rlt_le, Rinv_0_lt_compat, DP]). destruct (trunc_pos (1 + len / s_dsmax s0)) as (T1 & T2); [lra|]. fold m in T1, T2. assert (M1 : (1 <= m)%Z) by (assert (0 < m)%Z; [apply lt_IZR; lra|lia]). assert (MP : 1 <= IZR m) by (apply IZR_le in M1; exact M1).
  destruct (Z.eqb_spec m 0) as [|MN]; [lia|]. injection SC as SC. subst s. cbn [s_dL s_active]. exists m. split; [exact M1|]. split; [field; lra|]. assert (QE : len = len / s_dsmax s0 * s_dsmax s0) by (field; lra). split; [|split].
  - apply Rmult_lt_reg_r with (IZR m); [lra|]. replace (len / IZR m * IZR m) with len by (field; lra). rewrite QE at 1. rewrite Rmult_comm. apply Rmult_lt_compat_l; lra.
  - intros M2. assert (M2' : 2 <= IZR m) by (apply IZR_le in M2; exact M2). apply Rmult_le_reg_r with (IZR m - 1); [lra|]. replace (len / (IZR m - 1) * (IZR m - 1)) with len by (field; lra). rewrite QE at 1. rewrite Rmult_comm. apply Rmult_le_compat_r; lra.
  - intros k ph n l b s' b' n' LP' AC AL TO RU. pose proof (run_ok k ph m _ n _ b s' b' n' RU) as H. cbn [s_dL s_nk s_ints s_ns s_active] in H. rewrite Z.sub_0_r in H. assert (D : 0 < len / IZR m) by (apply Rdiv_lt_0_compat; lra). destruct H as (H1 & H2 & _); auto; try lra; try lia.
    + rewrite Rplus_0_l, TO. field. lra.
    + right. split; [reflexivity|]. split; [exact AC|]. right. exists l. auto.
Qed.
Print Assumptions C409_spacing.
(* C410: when another process shortens the first step, there is no radiation in the component *)
Theorem C410_split_refuted : forall k ph n c len s0 s b ds l, set_comp true c len s0 = Ok s -> s_ns s0 = 0%Z -> 0 <= ds < s_dL s - eps -> exists s', run_sr k ph n (ds :: l) s b = Ok (s', b, n).
Proof.
  intros k ph n c len s0 s b ds l SC NS DS. assert (F : s_ns s = 0%Z /\ s_nk s = 0%Z /\ s_ints s = 0). { unfold set_comp in SC. cbv zeta in SC. match type of SC with bind ?e _ = _ => destruct e as [z| |] end; cbn [bind] in SC; try discriminate. destruct (Z.eqb z 0); [discriminate|]. injection SC as SC. subst s. cbn. auto. } destruct F as (F1 & F2 & F3). cbn [run_sr]. destruct (s_active s); [|eauto].
  rewrite do_sr_off by (unfold at_goal; rewrite F2, F3; replace (0 + ds - (0 + 1) * s_dL s) with (- (s_dL s - ds)) by ring; rewrite Rabs_Ropp, Rabs_pos_eq; pose proof eps_pos; lra). cbn [bind]. rewrite F1, F2. cbn [Z.eqb negb]. destruct l; cbn [run_sr s_active]; eauto.
Qed.
Print Assumptions C410_split_refuted.
(* C411: an empty bunch, no bunch, no largest step *)
Theorem C411_empty_refuted : forall k ph n ds s b field, s_field s = Some field -> s_adjust s = true -> at_goal s ds -> parts b = [] -> do_sr k ph n ds s b = Throw SNaN.
Proof. intros k ph n ds s b field F A G P. unfold do_sr. cbv zeta. destruct (fequal_spec (s_ints s + ds) ((IZR (s_nk s) + 1) * s_dL s)); [|contradiction]. rewrite F, P, A. reflexivity. Qed.
Print Assumptions C411_empty_refuted.
Theorem C411_null_refuted : forall c len s, set_comp false c len s = UB /\ set_comp true c len (set_steps 0 s) = UB /\ set_comp true c len (set_max_step 0 s) = UB.
Proof. intros c len s. split; [reflexivity|]. unfold set_comp, set_steps, set_max_step. cbn [s_ns s_dsmax]. cbn [Z.eqb]. rewrite Reqb_true by reflexivity. split; reflexivity. Qed.
Print Assumptions C411_null_refuted.
(* C412: the components in which the bunch radiates *)
Theorem C412_components : forall c len s, (1 <= s_ns s)%Z -> exists s', set_comp true c len s = Ok s' /\ (s_active s' = true <-> (exists f, c = KBend f) \/ (s_incq s = true /\ exists f, c = KMult f)) /\
  (forall f, c = KBend f \/ (c = KMult f /\ s_incq s = true) -> s_field s' = Some f) /\ max_step s' = len / IZR (s_ns s).
Proof.
  intros c len s NS. unfold set_comp. cbv zeta. destruct (Z.eqb_spec (s_ns s) 0); [lia|]. cbn [bind]. destruct (Z.eqb_spec (s_ns s) 0); [lia|]. eexists. split; [reflexivity|]. unfold max_step. cbn [s_active s_field s_nk s_dL s_ints]. split; [|split; [|ring]].
  - destruct c as [f|f|]; [|destruct (s_incq s)|]; split; intros H; try reflexivity; try discriminate; eauto.
    + destruct H as [(g & H)|(H & _)]; discriminate.
    + destruct H as [(g & H)|(_ & g & H)]; discriminate.
  - intros f [->|(-> & I)]; [reflexivity|now rewrite I].
Qed.
Print Assumptions C412_components.
Example C408_ex : let s0 := set_steps 2 (new_sr false false) in let k := mkK 1 1 1 in let b := mkB 10 0 1 [mkP (V6 0 0 0 0 0 0) 7%Z] in
  exists s, set_comp true (KBend (fun _ _ => 0)) 2 s0 = Ok s /\ s_active s = true /\ allowed (s_dL s) 0 0 [1 / 2; 1 / 2; 1] /\ total [1 / 2; 1 / 2; 1] = 2 /\ exists r, do_sr k (fun _ => []) 0 1 s b = Ok r.
Proof.
  cbv zeta. unfold set_comp, set_steps, new_sr. cbn [s_ns Z.eqb bind s_field s_incq]. eexists. split; [reflexivity|]. cbn [s_dL s_active]. split; [reflexivity|]. pose proof eps_pos. pose proof eps_small. split; [|split].
  - cbn [allowed]. split; [lra|]. right. split; [lra|]. split; [lra|]. left. split; [lra|]. split; [lra|]. left. split; [|exact I]. cbn [Z.add]. lra.
  - cbn [total]. lra.
  - unfold do_sr. cbn [s_ints s_nk s_dL s_field s_symp s_quantum s_adjust parts p0]. cbv zeta. replace (fequal (0 + 1) ((0 + 1) * (2 / 2))) with true by (symmetry; destruct (fequal_spec (0 + 1) ((0 + 1) * (2 / 2))) as [|N]; [reflexivity|]; exfalso; apply N; replace (0 + 1 - (0 + 1) * (2 / 2)) with 0 by field; rewrite Rabs_R0; lra).
    unfold radiate, loss, emit. cbn [k_m k_1 k_2 pv pid vx vxp vy vyp vct vdp]. rewrite !(Reqb_false 1), !(Reqb_false 10) by lra. cbv zeta. replace (1 * 0 * (2 / 2) * (1 * 0 * (10 * (1 + 0) / 1) * (10 * (1 + 0) / 1))) with 0 by field. replace (1 + 0 / 10) with 1 by field. rewrite !(Reqb_false 1) by lra. cbn [bind fst snd]. unfold adjust_ref_momentum. cbn [p0 parts length INR]. rewrite Rltb_true by lra. cbn [bind]. eauto.
Qed.
