(* The prepared table of materials, C295-C298. *)
From Verif Require Import RBase Material MaterialData MaterialSpec MaterialProps MaterialTableProps MaterialDataProps.
From Coq Require Import List Permutation.
Import ListNotations.
Local Open Scope R_scope.

(* d' is d with the extra value prop of the names in l set *)
Definition added (prop : str) (l : list (str * R)) (d d' : db) : Prop :=
  forall n, match assoc n d with
  | Some (Some m) => exists m', assoc n d' = Some (Some m') /\ like m m' /\
      (forall e, mextra m = Some e -> exists e', mextra m' = Some e' /\ (forall k, k <> prop -> assoc k e' = assoc k e) /\
         assoc prop e' = match assoc n l with Some v => Some v | None => assoc prop e end)
  | x => assoc n d' = x
  end.
Definition ready (d : db) (n : str) : Prop := exists m e, assoc n d = Some (Some m) /\ mextra m = Some e.
Lemma added_ready prop l d d' n : added prop l d d' -> ready d n -> ready d' n.
Proof.
  intros A (m & e & E & X). specialize (A n). rewrite E in A. destruct A as (m' & E' & _ & F). destruct (F e X) as (e' & X' & _).
  exists m', e'. auto.
Qed.
Lemma change_all_ok prop l d : words prop = [prop] -> NoDup (map fst l) -> Forall (fun p => ready d (fst p)) l ->
  exists d', change_all prop l d = Ok d' /\ added prop l d d'.
Proof.
  intros W. revert d. induction l as [|[n v] l IH]; intros d D F.
  - exists d. split; [reflexivity|]. intros n. destruct (assoc n d) as [[m|]|] eqn:E; auto. exists m. split; [auto|]. split; [apply like_refl|].
    intros e X. exists e. cbn. auto.
  - inversion F as [|? ? R0 F']; subst. destruct R0 as (m & e & E & X). cbn [fst] in E. inversion D as [|? ? NI D']; subst.
    cbn [change_all]. unfold change. rewrite E. unfold set_extra. rewrite W, X. cbn [set_loop bind].
    set (d1 := put n (Some (with_extra (put prop v e) m)) d).
    destruct (IH d1 D') as (d' & C & A).
    { eapply Forall_impl; [|exact F']. cbn. intros [k w] (m1 & e1 & E1 & X1). cbn [fst] in *. unfold ready, d1.
      destruct (str_eqb_spec k n) as [->|N]; [rewrite assoc_put_same; eexists _, _; split; reflexivity|rewrite assoc_put_other by auto; eauto]. }
    exists d'. split; [auto|]. intros k. specialize (A k). unfold d1 in A. cbn [assoc].
    destruct (str_eqb_spec k n) as [->|N].
    + rewrite assoc_put_same in A. rewrite E. destruct A as (m' & E' & L & G). exists m'. split; [auto|].
      split; [eapply like_trans; [|exact L]; unfold like, same_bulk, with_extra; cbn; tauto|].
      intros e0 X0. rewrite X in X0. injection X0 as <-. destruct (G _ eq_refl) as (e' & X' & O1 & O2). exists e'. split; [auto|]. split.
      * intros q NQ. rewrite (O1 q NQ). now apply assoc_put_other.
      * rewrite O2. assert (Z : assoc n l = None); [|rewrite Z; apply assoc_put_same].
        clear -NI. induction l as [|[a b] l IH]; auto. cbn in *. destruct (str_eqb_spec n a) as [->|]; [exfalso; apply NI; auto|]. apply IH. tauto.
    + rewrite assoc_put_other in A by auto. exact A.
Qed.

Ltac names := repeat constructor; cbn; intuition discriminate.
Definition std_names : list str := map fst elements.
Lemma base_ready : Forall (ready base_elements) std_names.
Proof. repeat constructor; eexists _, _; split; reflexivity. Qed.
Lemma base_value n v : In (n, v) elements -> assoc n base_elements = Some (Some (element v)).
Proof.
  intros I. unfold elements in I. cbn [In] in I.
  repeat (destruct I as [I|I]; [injection I as <- <-; reflexivity|]). contradiction.
Qed.

(* the number after / 10 ^ 9 aside, what the table holds for each element *)
Definition extras_ok (n : str) (m : material) : Prop := exists e, mextra m = Some e /\
  assoc (nm "conductivity") e = assoc n conductivity /\ assoc (nm "sixtracknuclearslope") e = assoc n slopes /\
  assoc (nm "MeanExcitationEnergy") e = option_map (fun v => v * / 10 ^ 9) (assoc n excitation).

Lemma assoc_scaled n l : assoc n (map (fun p : str * R => (fst p, snd p * / 10 ^ 9)) l) = option_map (fun v => v * / 10 ^ 9) (assoc n l).
Proof. induction l as [|[k v] l IH]; [reflexivity|]. cbn [map assoc fst snd]. destruct (str_eqb n k); auto. Qed.

Definition carbon : R * R * R * R * R * R * R * R := (12.011, 0.331, 0.231, 0.000076, 1.745, 42.7, 2.265, 6).
Definition tungsten : R * R * R * R * R * R * R * R := (183.84, 2.767, 1.65, 0.00768, 1.145, 6.76, 19.3, 74).
Definition nickel : R * R * R * R * R * R * R * R := (58.6934, -1, -1, -1, -1, -1, 8.9, 28).
Definition copper : R * R * R * R * R * R * R * R := (63.546, 1.232, 0.782, 0.00153, 1.403, 12.86, 8.96, 29).
Definition aluminium : R * R * R * R * R * R * R * R := (26.9815, 0.634, 0.421, 0.00034, 1.724, 24.01, 1.204, 13).
Definition oxygen : R * R * R * R * R * R * R * R := (15.9994, -1, -1, 0.0133766, -1, -1, 1.14, 8).

Lemma tot_like (f : material * R -> R) ms ms' ps : Forall2 like ms ms' -> (forall a b p, like a b -> f (a, p) = f (b, p)) ->
  tot f (combine ms ps) = tot f (combine ms' ps).
Proof. intros F G. revert ps. induction F as [|a b ms ms' L F IH]; intros ps; [auto|]. destruct ps as [|p ps]; auto. cbn. rewrite (G a b p L), IH. auto. Qed.
Lemma blend_like ms ms' ps rho : Forall2 like ms ms' -> blend ms ps rho = blend ms' ps rho.
Proof.
  intros F. unfold blend.
  rewrite !(tot_like _ ms ms' ps F) by (intros a b p ((? & ? & ? & ? & ? & ? & ? & ?) & _ & _); unfold share, mass; cbn; congruence).
  assert (T : forall g : material -> R, (forall a b, like a b -> g a = g b) -> tot g ms = tot g ms') by (intros g G; clear -F G; induction F; cbn; [auto|now rewrite (G x y), IHF]).
  rewrite (T mSR), (T mST) by (intros a b ((? & ? & ? & ? & ? & ? & ? & ?) & _ & _); congruence).
  do 3 f_equal. clear -F. generalize (tot mSR ms') (tot mST ms'). intros u v. induction F as [|a b ms ms' L F IH]; cbn; auto. rewrite IH. destruct L as ((? & ? & ? & ? & ? & ? & ? & ?) & _ & _). congruence.
Qed.
Lemma sound_like ms ms' ps : Forall2 like ms ms' -> sound_parts (combine ms ps) -> sound_parts (combine ms' ps).
Proof.
  intros F (N1 & N2 & N3 & N4 & N5 & N6). unfold sound_parts.
  rewrite <- !(tot_like _ ms ms' ps F) by (intros a b p ((? & ? & ? & ? & ? & ? & ? & ?) & _ & _); unfold share, mass; cbn; congruence).
  repeat split; auto. clear -F N5. revert ps N5. induction F as [|a b ms ms' L F IH]; intros ps N5; [constructor|]. destruct ps as [|p ps]; [constructor|].
  cbn in *. inversion N5; subst. constructor; auto. destruct L as ((? & ? & ? & ? & ? & ? & ? & ?) & _ & _). cbn in *. congruence.
Qed.

(** ** C295: the prepared table is made without error, and holds the elements as
    listed, with their extra values, and AC150K, IT180 and Glidcop *)
Theorem C295_table lf : exists d, standard_data lf = Ok d /\
  (forall n v, In (n, v) elements -> exists m, assoc n d = Some (Some m) /\ like (element v) m /\ extras_ok n m) /\
  (exists m, assoc (nm "AC150K") d = Some (Some m) /\ mA m = 12.011 /\ mST m = 0.331 /\ mSI m = 0.231 /\ mSR m = 0.000076 /\
     mdE m = 0.68 /\ mX0 m = 42.7 /\ mrho m = 1650 /\ mZ m = 6 /\ extras_ok (nm "C") m /\ mlam m = Unset) /\
  assoc (nm "IT180") d = Some (Some (blend [element tungsten; element nickel; element copper] [0.95; 0.35; 0.15] 18060)) /\
  (exists m, assoc (nm "Glidcop") d = Some (Some m) /\ get_extra (nm "conductivity") m = Ok (m, 53800000) /\
     like (blend [element copper; element aluminium; element oxygen] [0.9972 / 63.546; 0.0015 / 26.9815; 0.0013 / 15.9994] 8930) m).
Proof.
  unfold standard_data.
  destruct (change_all_ok (nm "conductivity") conductivity base_elements eq_refl) as (d1 & C1 & A1); [names| |].
  { repeat constructor; eexists _, _; split; reflexivity. }
  rewrite C1. cbn [bind].
  assert (R1 : Forall (ready d1) std_names). { eapply Forall_impl; [|exact base_ready]. intros n. apply (added_ready _ _ _ _ _ A1). }
  destruct (change_all_ok (nm "sixtracknuclearslope") slopes d1 eq_refl) as (d2 & C2 & A2); [names| |].
  { rewrite Forall_forall in R1. repeat constructor; apply R1; cbn; tauto. }
  rewrite C2. cbn [bind].
  assert (R2 : Forall (ready d2) std_names). { eapply Forall_impl; [|exact R1]. intros n. apply (added_ready _ _ _ _ _ A2). }
  destruct (change_all_ok (nm "MeanExcitationEnergy") (map (fun p => (fst p, snd p * / 10 ^ 9)) excitation) d2 eq_refl) as (d3 & C3 & A3).
  { rewrite map_map. cbn [fst]. change (map (fun x : str * R => fst x) excitation) with (map fst excitation). names. }
  { rewrite Forall_map. cbn [fst]. rewrite Forall_forall in R2. apply Forall_forall. intros p I. apply R2.
    unfold excitation in I. cbn [In] in I. repeat (destruct I as [I|I]; [subst p; cbn; tauto|]). contradiction. }
  rewrite C3. cbn [bind].
  assert (V : forall n v, In (n, v) elements -> exists m, assoc n d3 = Some (Some m) /\ like (element v) m /\ extras_ok n m).
  { intros n v I. pose proof (base_value n v I) as B. pose proof (A1 n) as Q1. rewrite B in Q1. destruct Q1 as (m1 & E1 & L1 & X1).
    destruct (X1 [] ltac:(destruct v as [[[[[[[? ?] ?] ?] ?] ?] ?] ?]; reflexivity)) as (e1 & M1 & K1 & P1).
    pose proof (A2 n) as Q2. rewrite E1 in Q2. destruct Q2 as (m2 & E2 & L2 & X2). destruct (X2 e1 M1) as (e2 & M2 & K2 & P2).
    pose proof (A3 n) as Q3. rewrite E2 in Q3. destruct Q3 as (m3 & E3 & L3 & X3). destruct (X3 e2 M2) as (e3 & M3 & K3 & P3).
    exists m3. split; [auto|]. split; [eapply like_trans; [exact L1|]; eapply like_trans; eauto|]. exists e3. split; [auto|].
    split; [|split].
    - rewrite K3, K2, P1 by discriminate. cbn [assoc]. now destruct (assoc n conductivity).
    - rewrite K3, P2, K1 by discriminate. cbn [assoc]. now destruct (assoc n slopes).
    - rewrite P3, assoc_scaled, K2, K1 by discriminate. cbn [assoc]. now destruct (assoc n excitation). }
  destruct (V (nm "C") carbon) as (mc & EC & LC & XC); [cbn; tauto|]. rewrite EC.
  destruct XC as (ec & XC & XC'). unfold copy. rewrite XC. cbn [bind].
  set (d4 := put (nm "AC150K") _ d3).
  assert (V4 : forall n v, In (n, v) elements -> exists m, assoc n d4 = Some (Some m) /\ like (element v) m /\ extras_ok n m).
  { intros n v I. unfold d4. rewrite assoc_put_other; [apply V, I|]. intros ->. unfold elements in I. cbn [In] in I.
    repeat (destruct I as [I|I]; [discriminate|]). contradiction. }
  destruct (V4 (nm "W") tungsten) as (mw & EW & LW & _); [cbn; tauto|].
  destruct (V4 (nm "Ni") nickel) as (mn & EN & LN & _); [cbn; tauto|].
  destruct (V4 (nm "Cu") copper) as (mu & EU & LU & _); [cbn; tauto|].
  destruct (V4 (nm "Al") aluminium) as (ml & EL & LL & _); [cbn; tauto|].
  destruct (V4 (nm "O") oxygen) as (mo & EO & LO & _); [cbn; tauto|].
  assert (I0 : assoc (nm "IT180") d4 = None).
  { unfold d4. rewrite assoc_put_other by discriminate. pose proof (A3 (nm "IT180")) as Q3. pose proof (A2 (nm "IT180")) as Q2. pose proof (A1 (nm "IT180")) as Q1.
    change (assoc (nm "IT180") base_elements) with (@None (option material)) in Q1. rewrite Q1 in Q2. rewrite Q2 in Q3. exact Q3. }
  set (it := blend [element tungsten; element nickel; element copper] [0.95; 0.35; 0.15] 18060).
  assert (M5 : exists d5, done (make_mixture_va lf d4 (nm "IT180") (nm "W Ni Cu") [0.95; 0.35; 0.15; 18.06 * 1000]) = Ok d5 /\
    assoc (nm "IT180") d5 = Some (Some it) /\ forall k, k <> nm "IT180" -> assoc k d5 = assoc k d4).
  { change [0.95; 0.35; 0.15; 18.06 * 1000] with ([0.95; 0.35; 0.15] ++ [18.06 * 1000]). rewrite (proj1 (C286_arguments lf d4 (nm "IT180") (nm "W Ni Cu") [0.95; 0.35; 0.15] (18.06 * 1000) [] eq_refl)).
    unfold make_mixture, store_mixture. change (cut (nm "W Ni Cu")) with [nm "W"; nm "Ni"; nm "Cu"].
    set (d4' := if lf then touch (nm "IT180") d4 else d4).
    assert (KN : known d4' [nm "W"; nm "Ni"; nm "Cu"] [mw; mn; mu]).
    { assert (known d4 [nm "W"; nm "Ni"; nm "Cu"] [mw; mn; mu]) by (repeat constructor; auto). unfold d4'. destruct lf; auto. now apply known_touch. }
    assert (FL : Forall2 like [element tungsten; element nickel; element copper] [mw; mn; mu]) by (apply Forall2_cons; [assumption|apply Forall2_cons; [assumption|apply Forall2_cons; [assumption|apply Forall2_nil]]]).
    assert (MX : mixture d4' [nm "W"; nm "Ni"; nm "Cu"] [0.95; 0.35; 0.15] (18.06 * 1000) = Ok it).
    { rewrite (proj1 (mixture_known d4' _ _ [0.95; 0.35; 0.15] (18.06 * 1000) KN eq_refl)).
      - rewrite <- (blend_like _ _ _ _ FL). unfold it. replace (18.06 * 1000) with 18060 by lra. reflexivity.
      - apply (sound_like _ _ _ FL). unfold sound_parts, share, mass, tungsten, nickel, copper, element, new_material, update.
        cbn [combine tot fst snd mX0 mA mST mSR]. repeat split; try lra. repeat constructor; cbn [fst snd mX0]; lra. }
    rewrite MX. exists (put (nm "IT180") (Some it) d4'). split; [reflexivity|]. split; [apply assoc_put_same|].
    intros k N. rewrite assoc_put_other by auto. unfold d4'. destruct lf; auto. unfold touch. rewrite I0. now apply assoc_put_other. }
  destruct M5 as (d5 & M5 & E5 & F5). rewrite M5. cbn [bind].
  set (gl := blend [element copper; element aluminium; element oxygen] [0.9972 / 63.546; 0.0015 / 26.9815; 0.0013 / 15.9994] 8930).
  assert (M6 : exists d6, done (make_mixture_w_va lf d5 (nm "Glidcop") (nm "Cu Al O") [0.9972; 0.0015; 0.0013; 8.93 * 1000]) = Ok d6 /\
    assoc (nm "Glidcop") d6 = Some (Some gl) /\ forall k, k <> nm "Glidcop" -> assoc k d6 = assoc k d5).
  { assert (KN : known d5 [nm "Cu"; nm "Al"; nm "O"] [mu; ml; mo]).
    { repeat constructor; rewrite F5 by discriminate; auto. }
    assert (FL : Forall2 like [element copper; element aluminium; element oxygen] [mu; ml; mo]) by (apply Forall2_cons; [assumption|apply Forall2_cons; [assumption|apply Forall2_cons; [assumption|apply Forall2_nil]]]).
    assert (AU : mA mu = 63.546) by (symmetry; apply LU). assert (AL : mA ml = 26.9815) by (symmetry; apply LL). assert (AO : mA mo = 15.9994) by (symmetry; apply LO).
    unfold make_mixture_w_va. change (cut (nm "Cu Al O")) with [nm "Cu"; nm "Al"; nm "O"].
    assert (BW : by_weight d5 [nm "Cu"; nm "Al"; nm "O"] [0.9972; 0.0015; 0.0013; 8.93 * 1000] = Ok [0.9972 / 63.546; 0.0015 / 26.9815; 0.0013 / 15.9994]).
    { cbn [by_weight]. rewrite (F5 (nm "Cu")), (F5 (nm "Al")), (F5 (nm "O")), EU, EL, EO by discriminate. rewrite AU, AL, AO. rewrite !Reqb_false by lra. reflexivity. }
    rewrite BW. change (length [nm "Cu"; nm "Al"; nm "O"]) with 3%nat. cbn [nth_error]. unfold store_mixture.
    set (d5' := if lf then touch (nm "Glidcop") d5 else d5).
    assert (KN' : known d5' [nm "Cu"; nm "Al"; nm "O"] [mu; ml; mo]) by (unfold d5'; destruct lf; auto; now apply known_touch).
    assert (MX : mixture d5' [nm "Cu"; nm "Al"; nm "O"] [0.9972 / 63.546; 0.0015 / 26.9815; 0.0013 / 15.9994] (8.93 * 1000) = Ok gl).
    { rewrite (proj1 (mixture_known d5' _ _ [0.9972 / 63.546; 0.0015 / 26.9815; 0.0013 / 15.9994] (8.93 * 1000) KN' eq_refl)).
      - rewrite <- (blend_like _ _ _ _ FL). unfold gl. replace (8.93 * 1000) with 8930 by lra. reflexivity.
      - apply (sound_like _ _ _ FL). unfold sound_parts, share, mass, oxygen, aluminium, copper, element, new_material, update.
        cbn [combine tot fst snd mX0 mA mST mSR]. repeat split; try lra. repeat constructor; cbn [fst snd mX0]; lra. }
    rewrite MX. exists (put (nm "Glidcop") (Some gl) d5'). split; [reflexivity|]. split; [apply assoc_put_same|].
    intros k N. rewrite assoc_put_other by auto. unfold d5'. destruct lf; auto. unfold touch. destruct (assoc (nm "Glidcop") d5); auto. now apply assoc_put_other. }
  destruct M6 as (d6 & M6 & E6 & F6). rewrite M6. cbn [bind]. unfold change. rewrite E6.
  unfold set_extra. change (words (nm "conductivity")) with [nm "conductivity"]. change (mextra gl) with (Some (@nil (str * R))). cbn [set_loop bind].
  set (gl' := with_extra (put (nm "conductivity") 53800000 []) gl). eexists. split; [reflexivity|].
  assert (KEEP : forall k, k <> nm "IT180" -> k <> nm "Glidcop" -> assoc k (put (nm "Glidcop") (Some gl') d6) = assoc k d4).
  { intros k N1 N2. rewrite assoc_put_other, F6, F5 by auto. reflexivity. }
  split; [|split; [|split]].
  - intros n v I. rewrite KEEP; [apply V4, I| |].
    + intros ->. unfold elements in I. cbn [In] in I. repeat (destruct I as [I|I]; [discriminate|]). contradiction.
    + intros ->. unfold elements in I. cbn [In] in I. repeat (destruct I as [I|I]; [discriminate|]). contradiction.
  - rewrite KEEP by discriminate. unfold d4. rewrite assoc_put_same. eexists. split; [reflexivity|]. cbn [with_dE_rho mA mST mSI mSR mdE mX0 mrho mZ mlam mextra].
    destruct LC as ((LC1 & LC2 & LC3 & LC4 & LC5 & LC6 & LC7 & LC8) & _ & _). cbn [element carbon new_material update mA mST mSI mSR mdE mX0 mrho mZ] in *.
    repeat split; auto; [lra|]. exists ec. auto.
  - rewrite assoc_put_other by discriminate. rewrite F6 by discriminate. exact E5.
  - exists gl'. split; [apply assoc_put_same|]. split; [reflexivity|]. unfold like, same_bulk, gl', with_extra. cbn [mA mST mSI mSR mdE mX0 mrho mZ mlam mmix]. tauto.
Qed.

(** ** C296: every material of the table has a mean free path, and it is positive.
    True of the seven elements with measured values; for O, Fe, Ni and Mo it is
    negative, as their cross sections are -1, and for AC150K it was never set *)
Definition measured : list str := [nm "Al"; nm "Be"; nm "C"; nm "Cu"; nm "Pb"; nm "Si"; nm "W"].
Definition unmeasured : list str := [nm "O"; nm "Fe"; nm "Ni"; nm "Mo"].
Lemma path_sign m x : path_fits m -> mlam m = Val x -> 0 < mA m -> (0 < (mST m + mSR m) * mrho m -> 0 < x) /\ ((mST m + mSR m) * mrho m < 0 -> x < 0).
Proof.
  unfold path_fits. intros F E P. rewrite E in F. destruct F as [N F]. unfold barn, avogadro in F.
  assert (U : 0 < / 10 ^ 28) by (apply Rinv_0_lt_compat, pow_lt; lra). assert (V : 0 < 6022 * 10 ^ 20) by (apply Rmult_lt_0_compat; [lra|apply pow_lt; lra]).
  set (u := / 10 ^ 28) in *. set (v := 6022 * 10 ^ 20) in *. clearbody u v. set (q := (mST m + mSR m) * mrho m) in *.
  assert (Q : x * q * (u * v) = mA m * / 1000) by (rewrite <- F; unfold q; ring). assert (W : 0 < u * v) by (apply Rmult_lt_0_compat; auto).
  set (w := u * v) in *. clearbody w q.
  assert (XQ : 0 < x * q). { apply Rmult_lt_reg_r with w; [auto|]. lra. }
  split; intros H; nra.
Qed.
Theorem C300_measured lf d n : standard_data lf = Ok d -> In n measured ->
  exists m x, assoc n d = Some (Some m) /\ path_fits m /\ mlam m = Val x /\ 0 < x /\ 0 < mX0 m /\ 0 < mdE m.
Proof.
  intros S0 I. destruct (C295_table lf) as (d' & S1 & V & _). rewrite S0 in S1. injection S1 as <-.
  assert (G : exists v, In (n, v) elements /\ let '(a, st, si, sr, de, x, rho, z) := v in 0 < a /\ 0 < (st + sr) * (rho * 1000) /\ 0 < x /\ 0 < de).
  { unfold measured in I. cbn [In] in I. repeat (destruct I as [<-|I]; [eexists; split; [cbn [elements In]; tauto|cbn iota beta; repeat split; lra]|]). contradiction. }
  destruct G as (v & J & C). destruct (V n v J) as (m & E & (B & L & _) & _). exists m.
  destruct v as [[[[[[[a st] si] sr] de] x] rho] z]. destruct C as (P1 & P2 & P3 & P4).
  destruct B as (B1 & B2 & B3 & B4 & B5 & B6 & B7 & B8). cbn [element new_material update mA mST mSI mSR mdE mX0 mrho mZ] in B1, B2, B3, B4, B5, B6, B7, B8.
  assert (F : path_fits m).
  { pose proof (update_fits (mkM a st si sr de x (rho * 1000) z Unset (Some []) None)) as F. unfold path_fits in *.
    change (update (mkM a st si sr de x (rho * 1000) z Unset (Some []) None)) with (element (a, st, si, sr, de, x, rho, z)) in F. rewrite L in F.
    cbn [element new_material update mA mST mSR mrho] in F. now rewrite <- B1, <- B2, <- B4, <- B7. }
  destruct (mlam m) as [| |y] eqn:M; [unfold path_fits in F; rewrite M in F; contradiction| |].
  - exfalso. unfold path_fits in F. rewrite M in F. rewrite <- B2, <- B4, <- B7 in F. lra.
  - exists y. rewrite <- B5, <- B6. repeat split; auto. apply (path_sign m y F M); [now rewrite <- B1|now rewrite <- B2, <- B4, <- B7].
Qed.
Theorem C296_refuted lf d n : standard_data lf = Ok d -> In n unmeasured ->
  exists m x, assoc n d = Some (Some m) /\ mlam m = Val x /\ x < 0 /\ mX0 m = -1 /\ mdE m = -1.
Proof.
  intros S0 I. destruct (C295_table lf) as (d' & S1 & V & _). rewrite S0 in S1. injection S1 as <-.
  assert (G : exists v, In (n, v) elements /\ let '(a, st, si, sr, de, x, rho, z) := v in 0 < a /\ (st + sr) * (rho * 1000) < 0 /\ x = -1 /\ de = -1).
  { unfold unmeasured in I. cbn [In] in I. repeat (destruct I as [<-|I]; [eexists; split; [cbn [elements In]; tauto|cbn iota beta; repeat split; lra]|]). contradiction. }
  destruct G as (v & J & C). destruct (V n v J) as (m & E & (B & L & _) & _). exists m.
  destruct v as [[[[[[[a st] si] sr] de] x] rho] z]. destruct C as (P1 & P2 & P3 & P4).
  destruct B as (B1 & B2 & B3 & B4 & B5 & B6 & B7 & B8). cbn [element new_material update mA mST mSI mSR mdE mX0 mrho mZ] in B1, B2, B3, B4, B5, B6, B7, B8.
  assert (F : path_fits m).
  { pose proof (update_fits (mkM a st si sr de x (rho * 1000) z Unset (Some []) None)) as F. unfold path_fits in *.
    change (update (mkM a st si sr de x (rho * 1000) z Unset (Some []) None)) with (element (a, st, si, sr, de, x, rho, z)) in F. rewrite L in F.
    cbn [element new_material update mA mST mSR mrho] in F. now rewrite <- B1, <- B2, <- B4, <- B7. }
  destruct (mlam m) as [| |y] eqn:M; [unfold path_fits in F; rewrite M in F; contradiction| |].
  - exfalso. unfold path_fits in F. rewrite M in F. rewrite <- B2, <- B4, <- B7 in F. lra.
  - exists y. rewrite <- B5, <- B6. repeat split; auto. apply (path_sign m y F M); [now rewrite <- B1|now rewrite <- B2, <- B4, <- B7].
Qed.
Theorem C296_refuted_copy lf d : standard_data lf = Ok d -> exists m, assoc (nm "AC150K") d = Some (Some m) /\ mlam m = Unset /\ ~ path_fits m.
Proof.
  intros S0. destruct (C295_table lf) as (d' & S1 & _ & (m & E & H) & _). rewrite S0 in S1. injection S1 as <-. exists m.
  assert (U : mlam m = Unset) by tauto. split; [auto|]. split; [auto|]. unfold path_fits. rewrite U. auto.
Qed.
Example C296_example : exists d, standard_data false = Ok d.
Proof. destruct (C295_table false) as (d & H & _). eauto. Qed.

(** ** C297: the values of a mixture come from measured values.  IT180 (95% W) gets
    a radiation length of 34 g/cm2, that of W is 6.76: nickel enters with -1 *)
Theorem C297_refuted lf d : standard_data lf = Ok d ->
  exists m, assoc (nm "IT180") d = Some (Some m) /\ 33 < mX0 m < 35 /\ mA m < 142 /\ mST m < 1.7.
Proof.
  intros S0. destruct (C295_table lf) as (d' & S1 & _ & _ & H & _). rewrite S0 in S1. injection S1 as <-. eexists. split; [exact H|].
  unfold blend, update, share, mass, tungsten, nickel, copper, element, new_material, update.
  cbn [combine tot fst snd mX0 mA mST mSR mdE].
  split; [|split; lra].
  match goal with |- 33 < ?a / ?b < 35 => set (p := a); set (q := b) end.
  assert (Q : 0 < q) by (unfold q; lra). assert (33 * q < p < 35 * q) by (unfold p, q; lra).
  split; apply Rmult_lt_reg_r with q; auto; unfold Rdiv; rewrite Rmult_assoc, Rinv_l; lra.
Qed.
(** ** C298: UseSixTrackValues sets the values of SixTrack.  It reads past the end
    of its table of total cross sections for every table of materials *)
Theorem C298_refuted d : use_six_track d = UB.
Proof.
  unfold use_six_track, six_names, six_total. cbn [six_loop]. unfold change.
  assert (V : forall i, vget (E := merr) six_total i = match nth_error six_total i with Some v => Ok v | None => UB end) by reflexivity.
  cbn [six_loop vget nth_error six_total bind].
  repeat (match goal with |- context [assoc ?k ?q] => destruct (assoc k q) as [[?|]|]; cbn [bind]; [|reflexivity|reflexivity] end).
  reflexivity.
Qed.
(* before that, the prepared table gets the value of copper for aluminium, that of
   tungsten for iron and that of lead for copper, and the mean free paths stay *)
Theorem C298_shifted lf d : standard_data lf = Ok d -> exists d', six_loop (firstn 5 six_names) 0 d = Ok d' /\
  (forall n n', In (n, n') [(nm "Al", nm "Cu"); (nm "Fe", nm "W"); (nm "Cu", nm "Pb"); (nm "Be", nm "Be"); (nm "C", nm "C")] ->
   exists m m0 m', assoc n d' = Some (Some m) /\ assoc n d = Some (Some m0) /\ assoc n' d = Some (Some m') /\ mST m = mST m' /\ mlam m = mlam m0).
Proof.
  intros S0. destruct (C295_table lf) as (d0 & S1 & V & _). rewrite S0 in S1. injection S1 as <-.
  assert (G : forall n v, In (n, v) elements -> exists m, assoc n d = Some (Some m) /\ mST m = (let '(a, st, si, sr, de, x, rho, z) := v in st)).
  { intros n v I. destruct (V n v I) as (m & E & ((_ & B & _) & _) & _). exists m. split; [auto|]. rewrite <- B. destruct v as [[[[[[[? ?] ?] ?] ?] ?] ?] ?]. reflexivity. }
  destruct (G (nm "Be") _ ltac:(cbn [elements In]; tauto)) as (m1 & E1 & T1). destruct (G (nm "C") _ ltac:(cbn [elements In]; tauto)) as (m2 & E2 & T2).
  destruct (G (nm "Al") _ ltac:(cbn [elements In]; tauto)) as (m3 & E3 & T3). destruct (G (nm "Fe") _ ltac:(cbn [elements In]; tauto)) as (m4 & E4 & T4).
  destruct (G (nm "Cu") _ ltac:(cbn [elements In]; tauto)) as (m5 & E5 & T5). destruct (G (nm "W") _ ltac:(cbn [elements In]; tauto)) as (m6 & E6 & T6).
  destruct (G (nm "Pb") _ ltac:(cbn [elements In]; tauto)) as (m7 & E7 & T7). cbn iota in *. clear G V.
  cbn [six_loop firstn six_names vget nth_error six_total bind]. unfold change.
  rewrite E1. cbn [bind]. repeat rewrite assoc_put_other by discriminate. rewrite E2. cbn [bind]. repeat rewrite assoc_put_other by discriminate. rewrite E3. cbn [bind].
  repeat rewrite assoc_put_other by discriminate. rewrite E4. cbn [bind]. repeat rewrite assoc_put_other by discriminate. rewrite E5. cbn [bind].
  eexists. split; [reflexivity|]. intros n n' I. cbn [In] in I.
  repeat (destruct I as [I|I]; [injection I as <- <-;
    eexists _, _, _; repeat rewrite assoc_put_other by discriminate; rewrite assoc_put_same; split; [reflexivity|]; split; [eassumption|]; split; [eassumption|];
    split; [cbn [with_ST mST]; lra|reflexivity]|]).
  contradiction.
Qed.

Print Assumptions C295_table.
Print Assumptions C300_measured.
Print Assumptions C296_refuted.
Print Assumptions C296_refuted_copy.
Print Assumptions C297_refuted.
Print Assumptions C298_refuted.
Print Assumptions C298_shifted.
