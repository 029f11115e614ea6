(* C48, C121-C124: accelerators made from optics tables *)
From Coq Require Import String ZArith Psatz.
From Verif Require Import RBase StringPattern Cplx CplxFacts Field FieldProps Lattice Mad MadSpec MadProofs.
Local Open Scope R_scope.

(* ---- C121: in the finished model every component stands behind the ones before it ---- *)
Theorem C121_positions s rs t l e s' : mc s = Null -> appending s = false -> construct_model s rs = Fin ((t, l, e), s') ->
  in_line (zpos s) (components l) /\ zpos s' = zpos s + MadSpec.total (map clen (components l)) /\ mc s' = Null /\
  exists ms, placed s' = placed s ++ ms /\ map (fun c => (ctype c, cname c, clen c)) (components l) = map (fun m => (mtype m, mname m, mlen m)) ms.
Proof.
  intros M A H. unfold construct_model in H. rewrite M, A in H. apply omap_fin in H as (s1 & S1 & H).
  apply steps_grows in S1 as (ms & G). destruct (g_flat _ _ _ G new_model eq_refl) as (k & M1 & C). rewrite M1 in H. apply liftl_fin in H as ([[[t0 l0] e0] k0] & GM & H).
  unfold get_model in GM. destruct (stack k) as [| [i subs] st] eqn:K; [discriminate |]. destruct (negb _) eqn:N; [discriminate |].
  assert (l0 = flat k) by congruence. assert (l0 = l) by congruence. subst l0. subst l. assert (S' : placed s' = placed s1 /\ zpos s' = zpos s1 /\ mc s' = Null) by (apply (f_equal (fun o => match o with Fin (_, x) => (placed x, zpos x, mc x) | _ => (placed s', zpos s', mc s') end)) in H; cbn in H; split; [congruence |]; split; congruence).
  destruct S' as (P' & Z' & M'). cbn [flat new_model components flat_map app] in C. change (zpos (with_mc s new_model)) with (zpos s) in C. rewrite C, located_lens.
  split; [apply located_in_line |]. split; [rewrite Z', (g_z _ _ _ G); reflexivity |]. split; [exact M' |].
  exists ms. split; [rewrite P', (g_placed _ _ _ G); reflexivity | apply located_id].
Qed.
Print Assumptions C121_positions.

(* ---- C48: sums of the lengths of the rows ---- *)
Lemma names_of_instance k r b ms : instance k r b = Ok ms -> ms = [] \/ (exists m, ms = [m] /\ mname m = name_of r) \/
  (exists m d, ms = [m; d] /\ mname m = name_of r /\ mname d = $"Drift_" ++ name_of r).
Proof.
  intros H. unfold name_of. destruct k; cbn [instance] in H; unfold bend, thick, kicker, plain, cavity, cavity1, monitor in H; cbv zeta in H.
  all: peel H; try (injection H as <-).
  all: match goal with E : get_s $"NAME" _ = Ok _ |- _ => rewrite E end.
  all: try (right; left; eexists; split; [reflexivity |]; reflexivity).
  - destruct (Reqb _ 0); [left; reflexivity | right; left; eexists; split; reflexivity].
  - right. right. eexists. eexists. split; [reflexivity |]. split; reflexivity.
  - right. left. eexists. split; [reflexivity |]. destruct (str_eqb _ _); reflexivity.
Qed.
Lemma regular_step s r s' : regular s r -> step s r = Fin s' -> exists ms, grows s s' ms /\ MadSpec.total (map mlen ms) = len_of r /\
  (ms = [] \/ (exists m, ms = [m] /\ mname m = name_of r) \/ (exists m d, ms = [m; d] /\ mname m = name_of r /\ mname d = $"Drift_" ++ name_of r)).
Proof.
  intros (RL & RS & RF) H. apply step_cases in H as (type & len & T & L & H). unfold keyword in RL, RS. rewrite T in RL, RS. unfold len_of. rewrite L.
  destruct H as [(-> & Z & ->) | (r' & O & Z & H)].
  - exists []. split; [apply grows_refl |]. split; [reflexivity | left; reflexivity].
  - destruct H as [(E & _) | [(E & _) | [(E & _) | (_ & _ & ms & p & I & P & H)]]]; try contradiction.
    apply place_all_inv in H as (G & _). exists ms. split; [exact (grows_trans _ _ _ [] ms (with_mom_grows s p) G) |].
    specialize (RF r' O). pose proof (overrides_cells _ _ _ _ O) as SC.
    unfold get_instance in I. apply bind_ok in I as (kw & KW & I). unfold keyword in RF. rewrite KW in RF. destruct RF as ((k & F) & R1 & R2 & R3). rewrite F in I.
    apply lookup_factory in F. split.
    + apply (instance_length kw k r' _ ms F I R1 R2 R3). rewrite (same_d _ _ _ SC not_key_L). exact L.
    + apply names_of_instance in I. unfold name_of in *. rewrite (same_s _ _ _ SC not_key_NAME) in I. exact I.
Qed.
Lemma regular_set s s' r : same_settings s s' -> regular s r -> regular s' r.
Proof. intros (_ & _ & S1 & _ & _ & _ & S2) (A & B & C). split; [exact A |]. split; [exact B |]. rewrite S1, S2. exact C. Qed.
Lemma regular_steps rs : forall s s', Forall (regular s) rs -> steps s rs = Fin s' -> exists ms, grows s s' ms /\ MadSpec.total (map mlen ms) = MadSpec.total (map len_of rs).
Proof.
  induction rs as [| r rs IH]; intros s s' F H; cbn [steps] in H.
  - injection H as <-. exists []. split; [apply grows_refl | reflexivity].
  - apply omap_fin in H as (s1 & E & H). inversion F as [| ? ? F1 F2]; subst. destruct (regular_step s r s1 F1 E) as (m1 & G1 & L1 & _).
    destruct (IH s1 s') as (m2 & G2 & L2); [| exact H |].
    + eapply Forall_impl; [| exact F2]. intros q. apply regular_set, G1.
    + exists (m1 ++ m2). split; [exact (grows_trans _ _ _ _ _ G1 G2) |]. rewrite map_app, total_app, L1, L2. reflexivity.
Qed.
Theorem C48_positions_partial s rs1 r rs2 t l e s' : mc s = Null -> appending s = false -> Forall (regular s) (rs1 ++ [r]) -> len_of r <> 0 ->
  construct_model s (rs1 ++ r :: rs2) = Fin ((t, l, e), s') ->
  exists before c after, components l = before ++ c :: after /\ cname c = name_of r /\ cpos c = zpos s + MadSpec.total (map len_of rs1) /\
    (clen c = len_of r \/ exists d after', after = d :: after' /\ cname d = $"Drift_" ++ name_of r /\ clen c + clen d = len_of r).
Proof.
  intros M A F NZ H. unfold construct_model in H. rewrite M, A in H. apply omap_fin in H as (s3 & S1 & H).
  apply steps_app in S1 as (s1 & S1 & S2). cbn [steps] in S2. apply omap_fin in S2 as (s2 & E2 & S3).
  apply Forall_app in F as [F1 F2]. inversion F2 as [| ? ? FR _]; subst.
  destruct (regular_steps rs1 (with_mc s new_model) s1) as (m1 & G1 & L1); [exact F1 | exact S1 |].
  assert (FR1 : regular s1 r) by (apply (regular_set (with_mc s new_model)); [apply G1 | exact FR]).
  pose proof (regular_step s1 r s2 FR1 E2) as (m2 & G2 & L2 & SH). apply steps_grows in S3 as (m3 & G3).
  pose proof (grows_trans _ _ _ _ _ G1 (grows_trans _ _ _ _ _ G2 G3)) as G.
  destruct (g_flat _ _ _ G new_model eq_refl) as (k & M3 & C). rewrite M3 in H. apply liftl_fin in H as ([[[t0 l0] e0] k0] & GM & H).
  unfold get_model in GM. destruct (stack k) as [| [i subs] st] eqn:K; [discriminate |]. destruct (negb _) eqn:N; [discriminate |].
  assert (l0 = flat k) by congruence. assert (l0 = l) by congruence. subst l0. subst l. cbn [flat new_model components flat_map app] in C. change (zpos (with_mc s new_model)) with (zpos s) in C.
  rewrite C, located_app, located_app. exists (located (zpos s) m1). destruct m2 as [| m m2']; [cbn in L2; exfalso; apply NZ; rewrite <- L2; reflexivity |].
  cbn [located app]. eexists. eexists. split; [reflexivity |]. cbn [located1 cname cpos clen]. rewrite L1. split; [| split; [reflexivity |]].
  - destruct SH as [X | [(x & X & Y) | (x & d & X & Y & _)]]; [discriminate | |]; injection X as -> ->; exact Y.
  - destruct SH as [X | [(x & X & Y) | (x & d & X & Y & D)]]; [discriminate | |]; injection X as -> ->; revert L2; unfold MadSpec.total; cbn [map fold_right]; intros L2.
    + left. lra.
    + right. cbn [located app]. eexists. eexists. split; [reflexivity |]. split; [exact D |]. cbn. lra.
Qed.
Print Assumptions C48_positions_partial.

(* a type the factory does not know is dropped, and its length with it *)
Theorem C48_unknown_refuted s r type len : get_s $"KEYWORD" r = Ok type -> get_d $"L" r = Ok len -> mem type (drift_types s) = false -> mem type (zero_types s) = false ->
  lookup type factory = None -> ~ In type [$"LINE"; $"SROT"; $"LCAV"; $"RCOLLIMATOR"; $"ECOLLIMATOR"] -> inc_sr s = false -> step s r = Fin (with_mom s (mom s)).
Proof.
  intros T L D Z F N SR. cbn [In] in N. assert (NR : $"RBEND" <> type) by (intros <-; discriminate F). assert (NC : $"RFCAVITY" <> type) by (intros <-; discriminate F).
  assert (X : forall a, In a [$"LINE"; $"SROT"; $"LCAV"; $"RCOLLIMATOR"; $"ECOLLIMATOR"; $"RBEND"; $"RFCAVITY"] -> str_eqb type a = false).
  { intros a A. destruct (str_eqb_spec type a) as [-> | ?]; [exfalso | reflexivity]. cbn [In] in A. tauto. }
  assert (O : overrides (drift_types s) (single_cell s) r = Ok r).
  { unfold overrides. rewrite T. cbn [bind]. rewrite D. rewrite !X by (cbn [In]; tauto). cbn [orb bind]. destruct (single_cell s); [| reflexivity]. rewrite T. cbn [bind]. rewrite X by (cbn [In]; tauto). reflexivity. }
  unfold step. rewrite T, L. cbn [lift]. rewrite Z, andb_false_r, O. cbn [lift]. rewrite !X by (cbn [In]; tauto). unfold get_instance. rewrite T. cbn [bind]. rewrite F. cbn [lift].
  unfold radiate. rewrite SR. reflexivity.
Qed.
Print Assumptions C48_unknown_refuted.
(* markers, wire scanners and cavities change the length *)
Lemma overrides_other d sc r kw : get_s $"KEYWORD" r = Ok kw -> mem kw d = false -> ~ In kw [$"LCAV"; $"RCOLLIMATOR"; $"ECOLLIMATOR"; $"RBEND"; $"RFCAVITY"] -> overrides d sc r = Ok r.
Proof.
  intros T D N. cbn [In] in N.
  assert (X : forall a, In a [$"LCAV"; $"RCOLLIMATOR"; $"ECOLLIMATOR"; $"RBEND"; $"RFCAVITY"] -> str_eqb kw a = false).
  { intros a A. destruct (str_eqb_spec kw a) as [-> | ?]; [exfalso | reflexivity]. cbn [In] in A. tauto. }
  unfold overrides. rewrite T. cbn [bind]. rewrite D. rewrite !X by (cbn [In]; tauto). cbn [orb bind]. destruct sc; [| reflexivity]. rewrite T. cbn [bind]. rewrite X by (cbn [In]; tauto). reflexivity.
Qed.
(* a row of a known type that nothing overrides *)
Lemma step_known s r s' kw k : get_s $"KEYWORD" r = Ok kw -> lookup kw factory = Some k -> mem kw (drift_types s) = false -> mem kw (zero_types s) = false ->
  ~ In kw [$"LCAV"; $"RCOLLIMATOR"; $"ECOLLIMATOR"; $"RBEND"; $"RFCAVITY"] -> step s r = Fin s' ->
  exists ms p, instance k r (rigidity (mom s)) = Ok ms /\ radiate s kw (len_of r) r = Ok p /\ placed s' = placed s ++ ms /\ mom s' = p /\ zpos s' = zpos s + MadSpec.total (map mlen ms).
Proof.
  intros T F D Z N H. apply step_cases in H as (type & len & T' & L & H). assert (type = kw) by congruence. subst type.
  unfold len_of. rewrite L. destruct H as [(_ & Z' & _) | (r' & O & Z' & H)]; [congruence |]. rewrite (overrides_other _ _ _ _ T D N) in O. injection O as <-.
  destruct H as [(E & _) | [(E & _) | [(E & _) | (_ & _ & ms & p & I & P & H)]]]; try (subst kw; discriminate F).
  unfold get_instance in I. rewrite T in I. cbn [bind] in I. rewrite F in I. apply place_all_inv in H as (G & Q & _). exists ms, p.
  split; [exact I |]. split; [exact P |]. split; [rewrite (g_placed _ _ _ G); reflexivity |]. split; [exact Q |]. rewrite (g_z _ _ _ G). reflexivity.
Qed.
Theorem C48_lengths_refuted s r s' : inc_sr s = false -> step s r = Fin s' ->
  (get_s $"KEYWORD" r = Ok $"MARKER" -> mem $"MARKER" (drift_types s) = false -> mem $"MARKER" (zero_types s) = false -> zpos s' = zpos s) /\
  (get_s $"KEYWORD" r = Ok $"MONITOR" -> mem $"MONITOR" (drift_types s) = false -> mem $"MONITOR" (zero_types s) = false -> firstn 2 (name_of r) = $"WS" -> zpos s' = zpos s /\
     exists m, placed s' = placed s ++ [m] /\ mdev m = Profile (len_of r)).
Proof.
  intros SR H. split.
  - intros T D Z. eapply step_known in H as (ms & p & I & _ & _ & _ & Q); [| exact T | reflexivity | exact D | exact Z | cbn [In]; intuition discriminate].
    cbn [instance] in I. apply bind_ok in I as (nm & _ & I). injection I as <-. rewrite Q. unfold MadSpec.total. cbn [map fold_right mlen]. ring.
  - intros T D Z W. eapply step_known in H as (ms & p & I & _ & P & _ & Q); [| exact T | reflexivity | exact D | exact Z | cbn [In]; intuition discriminate].
    cbn [instance] in I. unfold monitor in I. peel I. unfold name_of in W. rewrite E in W. unfold len_of. rewrite E0. rewrite W, str_eqb_refl in I. injection I as <-.
    rewrite Q. unfold MadSpec.total. cbn [map fold_right mlen]. split; [ring |]. eexists. split; [exact P | reflexivity].
Qed.
Print Assumptions C48_lengths_refuted.

(* ---- C122: strengths ---- *)
Lemma rigidity_nz p : p <> 0 -> rigidity p <> 0.
Proof. intros N. unfold rigidity, eV, light, Rdiv. repeat apply Rmult_integral_contrapositive_currified; try (apply Rinv_neq_0_compat; lra); exact N. Qed.
Lemma single_strength np b skew rig len : rig <> 0 -> strength (single_n np b skew) np rig len = Some (cscale (len * (b / rig)) (unit_of skew)) /\
  forall j, j <> np -> strength (single_n np b skew) j rig len = Some c0.
Proof.
  intros R. destruct (C97_gradient np b skew) as [G1 G2]. unfold strength. split.
  - unfold get_kn in *. destruct (Reqb_spec 1 0); [lra |]. destruct (Reqb_spec rig 0); [contradiction |]. set (q := if Nat.ltb _ _ then _ else _) in G1. assert (Q : q = cscale b (unit_of skew)) by congruence.
    f_equal. transitivity (cscale (len / rig) q); [| rewrite Q; apply cx_eq; cbn; field; exact R]. unfold q.
    generalize (b0 (single_n np b skew)) (factorial np) (nth np (ex (single_n np b skew)) c0). intros B F u.
    destruct (Nat.ltb _ _); apply cx_eq; cbn; field; exact R.
  - intros j N. unfold get_kn. destruct (Reqb_spec rig 0); [contradiction |]. specialize (G2 j N). unfold coef in G2. destruct (Nat.ltb _ _); [rewrite G2 |]; f_equal; unfold cscale, c0; cbn; f_equal; ring.
Qed.

Theorem C122_multipoles kw ty n col sk s r s' : In (kw, ty, n, col, sk) multipoles -> get_s $"KEYWORD" r = Ok kw -> mem kw (drift_types s) = false -> mem kw (zero_types s) = false ->
  mom s <> 0 -> step s r = Fin s' -> exists m f K, placed s' = placed s ++ [m] /\ mtype m = ty /\ mname m = name_of r /\ mlen m = len_of r /\ mdev m = Mult f /\ get_d col r = Ok K /\
    strength f n (rigidity (mom s)) (len_of r) = Some (cscale K (unit_of sk)) /\ forall j, j <> n -> strength f j (rigidity (mom s)) (len_of r) = Some c0.
Proof.
  intros IN T D Z P H. pose proof (rigidity_nz _ P) as RN.
  assert (X : exists ms, (exists k, lookup kw factory = Some k /\ instance k r (rigidity (mom s)) = Ok ms /\ instance k r (rigidity (mom s)) = thick ty n col sk r (rigidity (mom s))) /\ placed s' = placed s ++ ms).
  { cbn [multipoles In] in IN. repeat (destruct IN as [IN | IN]; [apply (f_equal (fun q => q)) in IN; injection IN as <- <- <- <- <-;
      eapply step_known in H as (ms & p & I & _ & Q & _); [exists ms; split; [eexists; split; [reflexivity |]; split; [exact I | reflexivity] | exact Q] | exact T | reflexivity | exact D | exact Z | cbn [In]; intuition discriminate] |]). contradiction. }
  destruct X as (ms & (k & _ & I & J) & Q). rewrite J in I. unfold thick in I. peel I. injection I as <-. apply quot_ok in E2 as [NL ->].
  unfold len_of, name_of. rewrite E, E0. exists (rect ty v v0 n (rigidity (mom s) * v1 / v0) sk), (single_n n (rigidity (mom s) * v1 / v0) sk), v1.
  split; [exact Q |]. repeat (split; [reflexivity |]). split; [exact E1 |]. destruct (single_strength n (rigidity (mom s) * v1 / v0) sk (rigidity (mom s)) v0 RN) as [S1 S2]. split; [| exact S2].
  rewrite S1. f_equal. f_equal. field. split; assumption.
Qed.
Print Assumptions C122_multipoles.
(* but rows of length zero, as thin lenses have, put a division by zero into the model *)
Theorem C122_thin_refuted kw ty n col sk s r K name : In (kw, ty, n, col, sk) multipoles -> get_s $"KEYWORD" r = Ok kw -> mem kw (drift_types s) = false -> mem kw (zero_types s) = false ->
  get_d $"L" r = Ok 0 -> get_s $"NAME" r = Ok name -> get_d col r = Ok K -> step s r = Raise NaN s.
Proof.
  intros IN T D Z L N C.
  assert (X : exists k, lookup kw factory = Some k /\ instance k r (rigidity (mom s)) = thick ty n col sk r (rigidity (mom s)) /\ overrides (drift_types s) (single_cell s) r = Ok r /\ str_eqb kw $"LINE" = false /\ str_eqb kw $"SROT" = false).
  { cbn [multipoles In] in IN. repeat (destruct IN as [IN | IN]; [apply (f_equal (fun q => q)) in IN; injection IN as <- <- <- <- <-;
      eexists; split; [reflexivity |]; split; [reflexivity |]; split; [eapply overrides_other; [exact T | exact D | cbn [In]; intuition discriminate] |]; split; reflexivity |]). contradiction. }
  destruct X as (k & F & I & O & L1 & L2). unfold step. rewrite T, L. cbn [lift]. rewrite Z, andb_false_r, O. cbn [lift]. rewrite L1, L2. unfold get_instance. rewrite T. cbn [bind]. rewrite F, I.
  unfold thick. rewrite N, L, C. cbn [bind]. unfold quot. destruct (Reqb_spec 0 0); [reflexivity | lra].
Qed.
Print Assumptions C122_thin_refuted.
(* bends *)
Definition bent (s : mad) (r : row) (a : R) (ms : list made) : Prop :=
  exists m h f e1 e2 tilt K, ms = [m] /\ mtype m = $"SectorBend" /\ mname m = name_of r /\ mlen m = len_of r /\ mdev m = Bend h f e1 e2 tilt /\
    h * len_of r = a /\ strength f 0 (rigidity (mom s)) (len_of r) = Some (mkCx a 0) /\
    get_d $"K1L" r = Ok K /\ strength f 1 (rigidity (mom s)) (len_of r) = Some (mkCx K 0) /\ (forall j, (2 <= j)%nat -> strength f j (rigidity (mom s)) (len_of r) = Some c0) /\
    get_d $"TILT" r = Ok tilt /\ ((get_d $"E1" r = Ok 0 /\ get_d $"E2" r = Ok 0 /\ e1 = None /\ e2 = None) \/ (exists x y, get_d $"E1" r = Ok x /\ get_d $"E2" r = Ok y /\ x <> 0 /\ y <> 0 /\ e1 = Some x /\ e2 = Some y)).
Lemma bend_made s r a ms : mom s <> 0 -> bend (Ok a) r (rigidity (mom s)) = Ok ms -> bent s r a ms.
Proof.
  intros P I. pose proof (rigidity_nz _ P) as RN. unfold bent. set (b := rigidity (mom s)) in *. unfold bend in I.
  apply bind_ok in I as (name & N & I). apply bind_ok in I as (len & L & I). cbn [bind] in I. apply bind_ok in I as (k1l & K & I). apply bind_ok in I as (tilt & TI & I).
  apply bind_ok in I as (h & HQ & I). apply bind_ok in I as (f & F & I). apply bind_ok in I as (e1 & E1 & I). apply bind_ok in I as (e2 & E2 & I). apply bind_ok in I as (pf & PF & I). injection I as <-. apply quot_ok in HQ as [NL ->].
  unfold len_of, name_of. rewrite N, L. exists (mkM $"SectorBend" name len (Bend (a / len) f (fst pf) (snd pf) tilt)), (a / len), f, (fst pf), (snd pf), tilt, k1l.
  split; [reflexivity |]. repeat (split; [reflexivity |]). split; [field; exact NL |].
  assert (S : strength f 0 b len = Some (mkCx a 0) /\ strength f 1 b len = Some (mkCx k1l 0) /\ forall j, (2 <= j)%nat -> strength f j b len = Some c0).
  { unfold bend_field, single_r in F. unfold strength, get_kn. destruct (Reqb_spec b 0) as [X | X]; [contradiction |]. destruct (Reqb_spec k1l 0) as [-> | KN].
    - injection F as <-. unfold put, unit_of. cbn. split; [| split].
      + f_equal. apply cx_eq; cbn; field_simplify_eq; try (split; assumption); try ring. unfold factorial. cbn. destruct (Reqb_spec 0 0); [ring | lra].
      + f_equal. apply cx_eq; cbn; ring.
      + intros j J. destruct j as [| [| j]]; [lia | lia |]. cbn. f_equal. apply cx_eq; cbn; ring.
    - unfold set_component in F. cbn [b0] in F. destruct (Reqb_spec (b * (a / len) / 1 ^ 0) 0) as [Y | Y]; [discriminate |]. injection F as <-. cbn in *.
      assert (NA : a <> 0) by (intros ->; apply Y; field; exact NL).
      split; [| split].
      + f_equal. apply cx_eq; cbn; [| ring]. unfold factorial. cbn. destruct (Reqb_spec 0 0); [| lra]. field. split; assumption.
      + f_equal. apply cx_eq; cbn; unfold factorial; cbn; destruct (Reqb_spec 1 0); try lra; field; repeat split; assumption.
      + intros j J. destruct j as [| [| j]]; [lia | lia |]. cbn. f_equal. apply cx_eq; cbn; ring. }
  destruct S as (S0 & S1 & S2). split; [exact S0 |]. split; [exact K |]. split; [exact S1 |]. split; [exact S2 |]. split; [exact TI |]. revert PF. unfold faces. destruct (Reqb_spec e1 0) as [-> | N1], (Reqb_spec e2 0) as [-> | N2]; intros PF; try discriminate; injection PF as <-; [left | right]; cbn [fst snd]; eauto 10.
Qed.
Theorem C122_bend s r s' a : get_s $"KEYWORD" r = Ok $"SBEND" -> mem $"SBEND" (drift_types s) = false -> mem $"SBEND" (zero_types s) = false ->
  mom s <> 0 -> step s r = Fin s' -> (if has_col $"ANGLE" r then get_d $"ANGLE" r else get_d $"K0L" r) = Ok a ->
  exists ms, placed s' = placed s ++ ms /\ bent s r a ms.
Proof.
  intros T D Z P H A. eapply step_known in H as (ms & p & I & _ & Q & _); [| exact T | reflexivity | exact D | exact Z | cbn [In]; intuition discriminate].
  cbn [instance] in I. rewrite A in I. exists ms. split; [exact Q | exact (bend_made s r a ms P I)].
Qed.
Print Assumptions C122_bend.

(* rectangular bends, whether or not the dipole strength of the row turns them into sector bends *)
Theorem C122_rbend s r s' a : get_s $"KEYWORD" r = Ok $"RBEND" -> mem $"RBEND" (drift_types s) = false -> mem $"RBEND" (zero_types s) = false ->
  mom s <> 0 -> step s r = Fin s' -> get_d $"ANGLE" r = Ok a -> exists ms, placed s' = placed s ++ ms /\ bent s r a ms.
Proof.
  intros T D Z P H A. apply step_cases in H as (type & len & T' & L & H). assert (type = $"RBEND") by congruence. subst type.
  destruct H as [(_ & Z' & _) | (r' & O & Z' & H)]; [congruence |].
  destruct H as [(E & _) | [(E & _) | [(E & _) | (_ & _ & ms & p & I & R & H)]]]; try discriminate E.
  apply place_all_inv in H as (G & _). exists ms. split; [rewrite (g_placed _ _ _ G); reflexivity |].
  assert (B : bend (Ok a) r (rigidity (mom s)) = Ok ms).
  { pose proof (overrides_cells _ _ _ _ O) as SC.
    assert (BE : forall q, bend q r' (rigidity (mom s)) = bend q r (rigidity (mom s))).
    { intros q. unfold bend. rewrite !(same_d _ _ _ SC), !(same_s _ _ _ SC) by discriminate. reflexivity. }
    assert (HC : has_col $"ANGLE" r' = true) by (unfold has_col; rewrite (SC $"ANGLE") by discriminate; revert A; unfold get_d; destruct (cell_of $"ANGLE" r); [reflexivity | discriminate]).
    assert (KW : get_s $"KEYWORD" r' = Ok $"RBEND" \/ get_s $"KEYWORD" r' = Ok $"SBEND").
    { revert O. unfold overrides. rewrite T. cbn [bind]. rewrite D.
      replace (str_eqb $"RBEND" $"LCAV") with false by reflexivity. replace (str_eqb $"RBEND" $"RCOLLIMATOR") with false by reflexivity. replace (str_eqb $"RBEND" $"ECOLLIMATOR") with false by reflexivity.
      replace (str_eqb $"RBEND" $"RBEND") with true by reflexivity. cbn [orb]. intros O. apply bind_ok in O as (r4 & E4 & O). apply bind_ok in E4 as (k0 & _ & E4). injection E4 as <-.
      assert (CK : cell_of $"KEYWORD" r <> None) by (revert T; unfold get_s; destruct (cell_of $"KEYWORD" r); [discriminate | discriminate]).
      assert (K4 : get_s $"KEYWORD" (if Reqb k0 0 then r else set_s $"KEYWORD" $"SBEND" r) = Ok $"RBEND" \/ get_s $"KEYWORD" (if Reqb k0 0 then r else set_s $"KEYWORD" $"SBEND" r) = Ok $"SBEND").
      { destruct (Reqb k0 0); [left; exact T | right]. unfold get_s. rewrite cell_set_same by exact CK. reflexivity. }
      set (r4 := if Reqb k0 0 then r else _) in *. clearbody r4. destruct (single_cell s).
      - apply bind_ok in O as (kw' & K' & O). destruct (str_eqb_spec kw' $"RFCAVITY") as [-> | _]; [destruct K4 as [K4 | K4]; rewrite K' in K4; discriminate K4 |]. injection O as <-. exact K4.
      - injection O as <-. exact K4. }
    unfold get_instance in I. destruct KW as [KW | KW]; rewrite KW in I; cbn [bind] in I.
    - replace (lookup $"RBEND" factory) with (Some KRBend) in I by reflexivity. cbn [instance] in I. rewrite BE, (same_d _ _ _ SC), A in I by discriminate. exact I.
    - replace (lookup $"SBEND" factory) with (Some KSBend) in I by reflexivity. cbn [instance] in I. rewrite HC, BE, (same_d _ _ _ SC), A in I by discriminate. exact I. }
  exact (bend_made s r a ms P B).
Qed.
Print Assumptions C122_rbend.
(* a quadrupole component in a magnet that does not bend is divided by zero *)
Theorem C122_straight_refuted s r K name tilt len : get_s $"KEYWORD" r = Ok $"SBEND" -> mem $"SBEND" (drift_types s) = false -> mem $"SBEND" (zero_types s) = false ->
  get_d $"ANGLE" r = Ok 0 -> get_d $"L" r = Ok len -> get_s $"NAME" r = Ok name -> get_d $"TILT" r = Ok tilt -> get_d $"K1L" r = Ok K -> len <> 0 -> K <> 0 -> step s r = Raise NaN s.
Proof.
  intros T D Z A L N TI C NL NK. unfold step. rewrite T, L. cbn [lift]. rewrite Z, andb_false_r. rewrite (overrides_other _ _ _ _ T D) by (cbn [In]; intuition discriminate). cbn [lift].
  replace (str_eqb $"SBEND" $"LINE") with false by reflexivity. replace (str_eqb $"SBEND" $"SROT") with false by reflexivity. unfold get_instance. rewrite T. cbn [bind].
  replace (lookup $"SBEND" factory) with (Some KSBend) by reflexivity. cbn [instance].
  assert (HC : has_col $"ANGLE" r = true) by (unfold has_col; revert A; unfold get_d; destruct (cell_of $"ANGLE" r); [reflexivity | discriminate]).
  rewrite HC. unfold bend. rewrite A, L, N, TI, C. cbn [bind]. unfold quot. destruct (Reqb_spec len 0); [contradiction |]. cbn [bind]. destruct (Reqb_spec K 0); [contradiction |].
  unfold bend_field, set_component, single_r. cbn [b0]. destruct (Reqb_spec (rigidity (mom s) * (0 / len) / 1 ^ 0) 0) as [| X]; [reflexivity |]. exfalso. apply X. cbn. field. exact NL.
Qed.
Print Assumptions C122_straight_refuted.
(* a bend with a pole face at one end only is undefined behaviour *)
Theorem C122_one_face_refuted s r a K name tilt len e1 e2 : get_s $"KEYWORD" r = Ok $"SBEND" -> mem $"SBEND" (drift_types s) = false -> mem $"SBEND" (zero_types s) = false ->
  get_d $"ANGLE" r = Ok a -> get_d $"L" r = Ok len -> get_s $"NAME" r = Ok name -> get_d $"TILT" r = Ok tilt -> get_d $"K1L" r = Ok K -> get_d $"E1" r = Ok e1 -> get_d $"E2" r = Ok e2 ->
  mom s <> 0 -> len <> 0 -> a <> 0 -> (e1 = 0 <-> e2 <> 0) -> step s r = Bad.
Proof.
  intros T D Z A L N TI C F1 F2 P NL NA X. unfold step. rewrite T, L. cbn [lift]. rewrite Z, andb_false_r. rewrite (overrides_other _ _ _ _ T D) by (cbn [In]; intuition discriminate). cbn [lift].
  replace (str_eqb $"SBEND" $"LINE") with false by reflexivity. replace (str_eqb $"SBEND" $"SROT") with false by reflexivity. unfold get_instance. rewrite T. cbn [bind].
  replace (lookup $"SBEND" factory) with (Some KSBend) by reflexivity. cbn [instance].
  assert (HC : has_col $"ANGLE" r = true) by (unfold has_col; revert A; unfold get_d; destruct (cell_of $"ANGLE" r); [reflexivity | discriminate]).
  rewrite HC. unfold bend. rewrite A, L, N, TI, C, F1, F2. cbn [bind]. unfold quot. destruct (Reqb_spec len 0); [contradiction |]. cbn [bind].
  assert (FU : faces e1 e2 = UB) by (unfold faces; destruct (Reqb_spec e1 0), (Reqb_spec e2 0); try reflexivity; exfalso; tauto). pose proof (rigidity_nz _ P) as RN.
  assert (BF : forall o, exists f, bend_field (rigidity (mom s) * (a / len)) o = Ok f).
  { intros [b|]; [|eexists; reflexivity]. unfold bend_field, set_component, single_r. cbn [b0]. destruct (Reqb_spec (rigidity (mom s) * (a / len) / 1 ^ 0) 0) as [Y | Y]; [|eexists; reflexivity].
    exfalso. cbn in Y. assert (Q : rigidity (mom s) * (a / len) = 0) by (etransitivity; [| exact Y]; field; exact NL). apply Rmult_integral in Q. destruct Q as [Q | Q]; [contradiction |]. apply NA. replace a with (a / len * len) by (field; exact NL). rewrite Q. ring. }
  destruct (BF (if Reqb K 0 then None else Some (rigidity (mom s) * K / len))) as (f & ->). cbn [bind]. rewrite FU. reflexivity.
Qed.
Print Assumptions C122_one_face_refuted.
(* kickers: the kick of the row, upwards by a skew field, sideways by an upright one *)
Theorem C122_kickers s r s' kw ty col sign sk : In (kw, ty, col, sign, sk) [($"VKICKER", $"YCor", $"VKICK", 1, true); ($"HKICKER", $"XCor", $"HKICK", -1, false)] ->
  get_s $"KEYWORD" r = Ok kw -> mem kw (drift_types s) = false -> mem kw (zero_types s) = false -> mom s <> 0 -> step s r = Fin s' ->
  exists m f k, placed s' = placed s ++ [m] /\ mtype m = ty /\ mname m = name_of r /\ mlen m = len_of r /\ mdev m = Mult f /\ get_d col r = Ok k /\
    strength f 0 (rigidity (mom s)) (if Rltb 0 (len_of r) then len_of r else 1) = Some (cscale (sign * k) (unit_of sk)) /\
    forall j, j <> 0%nat -> strength f j (rigidity (mom s)) (len_of r) = Some c0.
Proof.
  intros IN T D Z P H. pose proof (rigidity_nz _ P) as RN.
  assert (X : exists ms, kicker ty col sign sk r (rigidity (mom s)) = Ok ms /\ placed s' = placed s ++ ms).
  { cbn [In] in IN. destruct IN as [IN | [IN | []]]; injection IN as <- <- <- <- <-;
    (eapply step_known in H as (ms & p & I & _ & Q & _); [| exact T | reflexivity | exact D | exact Z | cbn [In]; intuition discriminate]; exists ms; split; [exact I | exact Q]). }
  destruct X as (ms & I & Q). unfold kicker in I. peel I. cbv zeta in I. injection I as <-. unfold len_of, name_of. rewrite E, E0.
  set (b := rigidity (mom s)) in *. set (scale := if Rltb 0 v0 then b / v0 else b) in *.
  exists (rect ty v v0 0 (sign * scale * v1) sk), (single_n 0 (sign * scale * v1) sk), v1. split; [exact Q |]. repeat (split; [reflexivity |]). split; [exact E1 |].
  split; [| apply (single_strength 0 (sign * scale * v1) sk b v0 RN)].
  destruct (single_strength 0 (sign * scale * v1) sk b (if Rltb 0 v0 then v0 else 1) RN) as [S1 _]. rewrite S1. f_equal. f_equal. unfold scale. destruct (Rltb_spec 0 v0); field; [split; [lra | exact RN] | exact RN].
Qed.
Print Assumptions C122_kickers.
(* solenoids and cavities *)
Theorem C122_solenoid s r s' : get_s $"KEYWORD" r = Ok $"SOLENOID" -> mem $"SOLENOID" (drift_types s) = false -> mem $"SOLENOID" (zero_types s) = false -> step s r = Fin s' ->
  exists m b k, placed s' = placed s ++ [m] /\ mtype m = $"Solenoid" /\ mname m = name_of r /\ mlen m = len_of r /\ mdev m = Sol b /\ get_d $"KS" r = Ok k /\ b * len_of r = rigidity (mom s) * k.
Proof.
  intros T D Z H. eapply step_known in H as (ms & p & I & _ & Q & _); [| exact T | reflexivity | exact D | exact Z | cbn [In]; intuition discriminate].
  cbn [instance] in I. peel I. injection I as <-. apply quot_ok in E2 as [NL ->]. unfold len_of, name_of. rewrite E, E0. eexists. eexists. eexists. split; [exact Q |]. repeat (split; [reflexivity |]). split; [exact E1 |]. field. exact NL.
Qed.
Print Assumptions C122_solenoid.
Lemma round_near x : Rabs (IZR (round x) - x) <= 1 / 2.
Proof.
  unfold round. destruct (Rltb_spec x 0).
  - rewrite opp_IZR. destruct (base_Int_part (- x + 1 / 2)). apply Rabs_le. lra.
  - destruct (base_Int_part (x + 1 / 2)). apply Rabs_le. lra.
Qed.
Theorem C122_cavity s r s' : get_s $"KEYWORD" r = Ok $"RFCAVITY" -> mem $"RFCAVITY" (drift_types s) = false -> mem $"RFCAVITY" (zero_types s) = false -> single_cell s = false -> step s r = Fin s' ->
  exists m n f e phi fr v lag, placed s' = placed s ++ [m] /\ mtype m = $"SWRFStructure" /\ mname m = name_of r /\ mdev m = Cavity n f e phi /\
    get_d $"FREQ" r = Ok fr /\ get_d $"VOLT" r = Ok v /\ get_d $"LAG" r = Ok lag /\ f = fr * MHz /\ e * len_of r = v * MV /\ phi = 2 * PI * (lag - 1 / 4) /\
    mlen m = IZR n * (light / f / 2) /\ (0 < f -> Rabs (mlen m - len_of r) <= light / f / 4).
Proof.
  intros T D Z SC H. apply step_cases in H as (type & len & T' & L & H). assert (type = $"RFCAVITY") by congruence. subst type.
  destruct H as [(_ & Z' & _) | (r' & O & Z' & H)]; [congruence |].
  destruct H as [(E & _) | [(E & _) | [(E & _) | (_ & _ & ms & p & I & R & H)]]]; try discriminate E.
  apply place_all_inv in H as (G & _). pose proof (g_placed _ _ _ G) as Q. change (placed (with_mom s p)) with (placed s) in Q.
  assert (O' : r' = r).
  { revert O. unfold overrides. rewrite T. cbn [bind]. rewrite D, SC. replace (str_eqb $"RFCAVITY" $"LCAV") with false by reflexivity. replace (str_eqb $"RFCAVITY" $"RCOLLIMATOR") with false by reflexivity.
    replace (str_eqb $"RFCAVITY" $"ECOLLIMATOR") with false by reflexivity. replace (str_eqb $"RFCAVITY" $"RBEND") with false by reflexivity. cbn [orb bind]. intros O. injection O as <-. reflexivity. }
  subst r'. unfold get_instance in I. rewrite T in I. cbn [bind] in I. replace (lookup $"RFCAVITY" factory) with (Some KCav) in I by reflexivity. cbn [instance] in I. unfold cavity in I. cbv zeta in I.
  apply bind_ok in I as (nm & N & I). apply bind_ok in I as (len' & L' & I). apply bind_ok in I as (fr & F & I). apply bind_ok in I as (lag & LG & I). apply bind_ok in I as (v & V & I).
  apply bind_ok in I as (h0 & H0 & I). apply bind_ok in I as (e0 & E0 & I). apply quot_ok in H0 as [NF ->]. apply quot_ok in E0 as [NL ->].
  unfold len_of, name_of. rewrite N, L'. set (f := fr * MHz) in *. set (n := round (len' / (light / f / 2))) in *.
  exists (mkM $"SWRFStructure" nm (light / f * IZR n / 2) (Cavity n f (v * MV / len') (phase_of lag))), n, f, (v * MV / len'), (phase_of lag), fr, v, lag.
  split; [rewrite Q; f_equal; symmetry; congruence |]. repeat (split; [try reflexivity; try assumption |]).
  - field. exact NL.
  - cbn [mlen]. unfold Rdiv. ring.
  - intros PF. cbn [mlen]. assert (PH : 0 < light / f / 2) by (unfold light; apply Rdiv_lt_0_compat; [apply Rdiv_lt_0_compat; lra | lra]).
    pose proof (round_near (len' / (light / f / 2))) as RD. fold n in RD. replace (light / f * IZR n / 2) with (IZR n * (light / f / 2)) by (unfold Rdiv; ring). replace (light / f / 4) with (1 / 2 * (light / f / 2)) by (unfold Rdiv; lra).
    set (h := light / f / 2) in *. clearbody h n. replace (IZR n * h - len') with ((IZR n - len' / h) * h) by (field; lra).
    rewrite Rabs_mult, (Rabs_pos_eq h) by lra. apply Rmult_le_compat_r; lra.
Qed.
Print Assumptions C122_cavity.

(* the remaining types: name and length of the row, nothing else *)
Definition plain_types : list (str * str * device) :=
  [($"COLLIMATOR", $"Collimator", Coll); ($"RCOLLIMATOR", $"Collimator", Coll); ($"ECOLLIMATOR", $"Collimator", Coll); ($"HEL", $"HollowElectronLens", Hel);
   ($"CRABRF", $"TransverseRFStructure", CrabRF); ($"XCOR", $"XCor", Mult (single_n 0 0 false)); ($"YCOR", $"YCor", Mult (single_n 0 0 true))].
Lemma collimator_override d sc r r' kw : get_s $"KEYWORD" r = Ok kw -> mem kw d = false -> kw = $"RCOLLIMATOR" \/ kw = $"ECOLLIMATOR" -> overrides d sc r = Ok r' -> get_s $"KEYWORD" r' = Ok $"COLLIMATOR".
Proof.
  intros T D C. assert (CK : cell_of $"KEYWORD" r <> None) by (revert T; unfold get_s; destruct (cell_of $"KEYWORD" r); [discriminate | discriminate]).
  assert (K4 : get_s $"KEYWORD" (set_s $"KEYWORD" $"COLLIMATOR" r) = Ok $"COLLIMATOR") by (unfold get_s; rewrite cell_set_same by exact CK; reflexivity).
  unfold overrides. rewrite T. cbn [bind]. rewrite D.
  assert (X1 : str_eqb kw $"LCAV" = false) by (destruct C as [-> | ->]; reflexivity). assert (X2 : (str_eqb kw $"RCOLLIMATOR" || str_eqb kw $"ECOLLIMATOR")%bool = true) by (destruct C as [-> | ->]; reflexivity).
  assert (X3 : str_eqb kw $"RBEND" = false) by (destruct C as [-> | ->]; reflexivity). rewrite X1, X2, X3. cbn [bind].
  set (q := set_s _ _ r) in *. clearbody q. destruct sc; [| intros O; injection O as <-; exact K4]. rewrite K4. cbn [bind]. replace (str_eqb $"COLLIMATOR" $"RFCAVITY") with false by reflexivity. intros O. injection O as <-. exact K4.
Qed.
Theorem C122_plain kw ty d s r s' : In (kw, ty, d) plain_types -> get_s $"KEYWORD" r = Ok kw -> mem kw (drift_types s) = false -> (mem kw (zero_types s) = false \/ len_of r <> 0) -> step s r = Fin s' ->
  placed s' = placed s ++ [mkM ty (name_of r) (len_of r) d].
Proof.
  intros IN T D Z H. apply step_cases in H as (type & len & T' & L & H). assert (type = kw) by congruence. subst type. unfold len_of in *. rewrite L in *.
  destruct H as [(X & Z' & _) | (r' & O & Z' & H)]; [exfalso; destruct Z; congruence |]. pose proof (overrides_cells _ _ _ _ O) as SC.
  assert (CK : cell_of $"KEYWORD" r <> None) by (revert T; unfold get_s; destruct (cell_of $"KEYWORD" r); [discriminate | discriminate]).
  assert (X : exists kw' k, (forall b, instance k r' b = plain ty d r') /\ get_s $"KEYWORD" r' = Ok kw' /\ lookup kw' factory = Some k /\ kw <> $"LINE" /\ kw <> $"SROT").
  { unfold plain_types in IN.
    assert (OT : ~ In kw [$"LCAV"; $"RCOLLIMATOR"; $"ECOLLIMATOR"; $"RBEND"; $"RFCAVITY"] -> get_s $"KEYWORD" r' = Ok kw) by (intros NI; rewrite (overrides_other _ _ _ _ T D NI) in O; injection O as <-; exact T).
    assert (CO : kw = $"RCOLLIMATOR" \/ kw = $"ECOLLIMATOR" -> get_s $"KEYWORD" r' = Ok $"COLLIMATOR") by (intros C; exact (collimator_override _ _ _ _ _ T D C O)).
    repeat (destruct IN as [IN | IN]; [apply pair_equal_spec in IN as [IN Q3]; apply pair_equal_spec in IN as [Q1 Q2]; subst kw ty d |]); [.. | contradiction].
    - exists $"COLLIMATOR", KColl. split; [intros; reflexivity |]. split; [apply OT; cbn [In]; intuition discriminate |]. split; [reflexivity |]. split; discriminate.
    - exists $"COLLIMATOR", KColl. split; [intros; reflexivity |]. split; [apply CO; auto |]. split; [reflexivity |]. split; discriminate.
    - exists $"COLLIMATOR", KColl. split; [intros; reflexivity |]. split; [apply CO; auto |]. split; [reflexivity |]. split; discriminate.
    - exists $"HEL", KHel. split; [intros; reflexivity |]. split; [apply OT; cbn [In]; intuition discriminate |]. split; [reflexivity |]. split; discriminate.
    - exists $"CRABRF", KCrabRF. split; [intros; reflexivity |]. split; [apply OT; cbn [In]; intuition discriminate |]. split; [reflexivity |]. split; discriminate.
    - exists $"XCOR", KXCor. split; [intros; reflexivity |]. split; [apply OT; cbn [In]; intuition discriminate |]. split; [reflexivity |]. split; discriminate.
    - exists $"YCOR", KYCor. split; [intros; reflexivity |]. split; [apply OT; cbn [In]; intuition discriminate |]. split; [reflexivity |]. split; discriminate. }
  destruct X as (kw' & k & X1 & X2 & X3 & N1 & N2).
  destruct H as [(E & _) | [(E & _) | [(E & _) | (_ & _ & ms & p & I & R & H)]]]; try contradiction.
  apply place_all_inv in H as (G & _). rewrite (g_placed _ _ _ G). cbn [placed with_mom]. f_equal. unfold get_instance in I. rewrite X2 in I. cbn [bind] in I. rewrite X3, X1 in I. unfold plain in I.
  rewrite (same_s _ _ _ SC), (same_d _ _ _ SC) in I by discriminate. peel I. unfold name_of. rewrite E. assert (v0 = len) by congruence. subst v0. injection I as <-. reflexivity.
Qed.
Print Assumptions C122_plain.
(* drifts, also for the types treated as drifts *)
Theorem C122_drift kw s r s' : get_s $"KEYWORD" r = Ok kw -> kw = $"DRIFT" \/ mem kw (drift_types s) = true -> ~ In kw [$"LINE"; $"SROT"; $"LCAV"; $"RCOLLIMATOR"; $"ECOLLIMATOR"; $"RBEND"] -> step s r = Fin s' ->
  placed s' = placed s ++ (if Reqb (len_of r) 0 then [] else [mkM $"Drift" (name_of r) (len_of r) Drift_]).
Proof.
  intros T DK N H. apply step_cases in H as (type & len & T' & L & H). assert (type = kw) by congruence. subst type. unfold len_of. rewrite L.
  destruct H as [(X & Z' & ->) | (r' & O & Z' & H)]; [subst len; destruct (Reqb_spec 0 0); [rewrite app_nil_r; reflexivity | lra] |]. pose proof (overrides_cells _ _ _ _ O) as SC. cbn [In] in N.
  assert (CK : cell_of $"KEYWORD" r <> None) by (revert T; unfold get_s; destruct (cell_of $"KEYWORD" r); [discriminate | discriminate]).
  assert (KW : get_s $"KEYWORD" r' = Ok $"DRIFT").
  { assert (X : forall a, In a [$"LCAV"; $"RCOLLIMATOR"; $"ECOLLIMATOR"; $"RBEND"] -> str_eqb kw a = false).
    { intros a A. destruct (str_eqb_spec kw a) as [-> | ?]; [exfalso | reflexivity]. cbn [In] in A. tauto. }
    revert O. unfold overrides. rewrite T. cbn [bind]. rewrite !X by (cbn [In]; tauto). cbn [orb bind]. set (r1 := if mem kw (drift_types s) then _ else r) in *.
    assert (K1 : get_s $"KEYWORD" r1 = Ok $"DRIFT").
    { unfold r1. destruct (mem kw (drift_types s)) eqn:M; [unfold get_s; rewrite cell_set_same by exact CK; reflexivity |]. destruct DK as [-> | ?]; [exact T | discriminate]. }
    intros O. destruct (single_cell s); [| injection O as <-; exact K1]. rewrite K1 in O. cbn [bind] in O. replace (str_eqb $"DRIFT" $"RFCAVITY") with false in O by reflexivity. injection O as <-. exact K1. }
  destruct H as [(E & _) | [(E & _) | [(E & _) | (_ & _ & ms & p & I & R & H)]]]; try (exfalso; apply N; subst kw; tauto).
  apply place_all_inv in H as (G & _). rewrite (g_placed _ _ _ G). cbn [placed with_mom]. f_equal. unfold get_instance in I. rewrite KW in I. cbn [bind] in I. replace (lookup $"DRIFT" factory) with (Some KDrift) in I by reflexivity. cbn [instance] in I.
  rewrite (same_s _ _ _ SC), (same_d _ _ _ SC) in I by discriminate. peel I. unfold name_of. rewrite E. assert (v0 = len) by congruence. subst v0. injection I as <-. reflexivity.
Qed.
Print Assumptions C122_drift.
(* the momentum used for the magnets *)
Theorem C122_momentum s r s' : step s r = Fin s' ->
  (inc_sr s = false -> mom s' = mom s) /\
  (inc_sr s = true -> keyword r = $"SBEND" \/ keyword r = $"RBEND" -> (len_of r <> 0 \/ mem (keyword r) (zero_types s) = false) -> exists a, get_d $"ANGLE" r = Ok a /\ mom s' = mom s - 885 / 10000000 / (2 * PI) * mom s ^ 4 * (a * a) / len_of r) /\
  (keyword r <> $"SBEND" -> keyword r <> $"RBEND" -> mom s' = mom s).
Proof.
  intros H. apply step_cases in H as (type & len & T & L & H). unfold keyword, len_of. rewrite T, L.
  destruct H as [(-> & Z & ->) | (r' & O & Z & H)].
  - repeat split; auto. intros _ _ [X | X]; [lra | congruence].
  - pose proof (overrides_cells _ _ _ _ O) as SC. assert (NB : forall x, mom s' = mom s -> ($"LINE" = x \/ $"SROT" = x -> type = x -> ~ (type = $"SBEND" \/ type = $"RBEND"))) by (intros x _ [<- | <-] -> [X | X]; discriminate X).
    destruct H as [(E & _ & ->) | [(E & _ & nm & _ & H) | [(E & nm & _ & H) | (_ & _ & ms & p & I & R & H)]]].
    + repeat split; auto. intros _ [X | X]; subst type; discriminate X.
    + assert (M : mom s' = mom s).
      { unfold line_step in H. destruct (fstack s) as [| top st]; [apply open_inv in H as (_ & M & _); exact M |]. destruct (str_eqb nm top); [apply close_inv in H as (_ & M & _); exact M | apply open_inv in H as (_ & M & _); exact M]. }
      repeat split; auto. intros _ [X | X]; subst type; discriminate X.
    + apply patch_inv in H as (_ & M & _). repeat split; auto. intros _ [X | X]; subst type; discriminate X.
    + apply place_all_inv in H as (_ & M & _). change (mom (with_mom s p)) with p in M. rewrite M. unfold radiate in R.
      destruct (inc_sr s) eqn:SR; cbn [andb] in R.
      * split; [discriminate |]. split.
        -- intros _ X _. assert (B : (str_eqb type $"SBEND" || str_eqb type $"RBEND")%bool = true) by (destruct X as [-> | ->]; reflexivity). rewrite B in R. peel R. rewrite (same_d _ _ _ SC) in E by discriminate. apply quot_ok in E0 as [NL ->].
           exists v. split; [exact E |]. injection R as <-. unfold sr_loss. field. split; [apply PI_neq0 | exact NL].
        -- intros N1 N2. destruct (str_eqb_spec type $"SBEND"); [contradiction |]. destruct (str_eqb_spec type $"RBEND"); [contradiction |]. cbn [orb] in R. injection R as <-. reflexivity.
      * injection R as <-. repeat split; auto. discriminate.
Qed.
Print Assumptions C122_momentum.

(* ---- C123: pairs of LINE rows of the same name become frames around what is between them ---- *)
Lemma mirrors_mono flat hon fr fr' i ts : (forall x, In x fr -> In x fr') -> mirrors flat hon fr i ts -> mirrors flat hon fr' i ts.
Proof. intros I M. induction M; econstructor; eauto. Qed.
Lemma steps_cons_inv s r rs s' : steps s (r :: rs) = Fin s' -> exists s1, step s r = Fin s1 /\ steps s1 rs = Fin s'.
Proof. intros H. cbn [steps] in H. apply omap_fin in H as (s1 & A & B). eauto. Qed.
Lemma steps_app_inv rs1 : forall s rs2 s', steps s (rs1 ++ rs2) = Fin s' -> exists s1, steps s rs1 = Fin s1 /\ steps s1 rs2 = Fin s'.
Proof.
  induction rs1 as [| r rs1 IH]; intros s rs2 s' H; [exists s; split; [reflexivity | exact H] |]. cbn [app] in H. apply steps_cons_inv in H as (s1 & A & H).
  apply IH in H as (s2 & B & C). exists s2. split; [cbn [steps]; rewrite A; exact B | exact C].
Qed.
Lemma close_through s name s1 s2 s3 : open_frame s name = Fin s1 -> shown false (honour s) name = None -> honour s2 = honour s -> close_frame s2 name = Fin s3 -> s3 = s2.
Proof.
  unfold open_frame. intros O SH HH C. apply omap_fin in O as (o & FK & _). revert C. unfold close_frame. rewrite HH. revert SH FK. unfold shown, frame_kind.
  destruct name as [| a [| b rest]]; [discriminate | |].
  - destruct (honour s); [discriminate |]. cbn. intros _ _ C. congruence.
  - destruct (Ascii.eqb b "_") eqn:B; [| destruct (honour s); [discriminate |]; cbn; intros _ _ C; congruence].
    destruct (Ascii.eqb a "F"); [discriminate |]. destruct (Ascii.eqb a "S"); [discriminate |]. destruct (Ascii.eqb a "G"); [discriminate |]. destruct (Ascii.eqb a "M"); discriminate.
Qed.
Lemma line_row s r s' : keyword r = $"LINE" -> mem $"LINE" (zero_types s) = false -> step s r = Fin s' ->
  (flat_ s = true /\ s' = s) \/ (flat_ s = false /\ line_step s (name_of r) = Fin s').
Proof.
  intros K Z H. apply step_cases in H as (type & len & T & L & H). unfold keyword in K. rewrite T in K. subst type.
  destruct H as [(_ & X & _) | (r' & O & _ & H)]; [congruence |]. destruct H as [(_ & F & ->) | [(_ & F & nm & N & H) | [(X & _) | (X & _)]]]; [left; auto | | discriminate | contradiction].
  right. split; [exact F |]. unfold name_of. rewrite N. exact H.
Qed.
Lemma other_row s r s' : keyword r <> $"LINE" -> step s r = Fin s' -> fstack s' = fstack s /\ frames s' = frames s /\
  forall k i subs rest, mc s = Live k -> stack k = (i, subs) :: rest -> exists k' fs, mc s' = Live k' /\ stack k' = (i, subs ++ map FComp fs) :: rest /\ from_row r fs.
Proof.
  intros K H. apply step_cases in H as (type & len & T & L & H). unfold keyword in K. rewrite T in K.
  assert (Z0 : forall k i subs rest, mc s = Live k -> stack k = (i, subs) :: rest -> exists k' fs, mc s = Live k' /\ stack k' = (i, subs ++ map FComp fs) :: rest /\ from_row r fs).
  { intros k i subs rest M E. exists k, []. cbn. rewrite app_nil_r. split; [exact M |]. split; [exact E | intros f []]. }
  destruct H as [(_ & _ & ->) | (r' & O & _ & H)]; [auto |]. pose proof (overrides_cells _ _ _ _ O) as SC.
  destruct H as [(E & _) | [(E & _) | [(-> & nm & N & H) | (_ & _ & ms & p & I & R & H)]]]; [contradiction | contradiction | |].
  - apply patch_inv in H as (_ & _ & F1 & F2 & k & k' & f & i & subs & rest & M & M' & E & E' & C & FN). split; [exact F1 |]. split; [exact F2 |].
    intros k0 i0 subs0 rest0 M0 E0. assert (k0 = k) by congruence. subst k0. rewrite E in E0. injection E0 as <- <- <-. exists k', [f]. split; [exact M' |]. split; [exact E' |].
    intros f0 [<- | []]. rewrite C. unfold name_of. rewrite N. exact FN.
  - apply place_all_inv in H as (_ & _ & F1 & F2 & P). split; [exact F1 |]. split; [exact F2 |]. intros k i subs rest M E. destruct (P k i subs rest M E) as (k' & fs & M' & E' & C).
    exists k', fs. split; [exact M' |]. split; [exact E' |]. unfold get_instance in I. apply bind_ok in I as (ty & _ & I).
    assert (NM : forall m, In m ms -> mname m = name_of r \/ mname m = $"Drift_" ++ name_of r).
    { assert (NR : name_of r' = name_of r) by (unfold name_of; rewrite (same_s _ _ _ SC) by discriminate; reflexivity).
      destruct (lookup ty factory) as [kd |]; [| injection I as <-; intros m []]. apply names_of_instance in I. rewrite NR in I.
      destruct I as [-> | [(m0 & -> & A) | (m0 & d0 & -> & A & B)]]; [intros m [] | intros m [<- | []]; auto | intros m [<- | [<- | []]]; auto]. }
    intros f IF. apply (in_map fcomp) in IF. rewrite C in IF. apply in_map_iff in IF as (c & <- & IC).
    assert (LN : forall ms z c, In c (located z ms) -> exists m, In m ms /\ cname c = mname m).
    { clear. induction ms as [| m ms IH]; intros z c; cbn [located In]; [intros [] |]. intros [<- | H]; [exists m; auto |]. apply IH in H as (m' & A & B). eauto. }
    apply LN in IC as (m & A & B). rewrite B. exact (NM m A).
Qed.
Lemma nested_steps it : forall outer s s', nested outer it -> (flat_ s = false -> outer = hd_error (fstack s)) -> mem $"LINE" (zero_types s) = false -> steps s (rows_of it) = Fin s' ->
  fstack s' = fstack s /\ same_settings s s' /\ (forall x, In x (frames s) -> In x (frames s')) /\
  forall k i subs rest, mc s = Live k -> stack k = (i, subs) :: rest -> exists k' ts, mc s' = Live k' /\ stack k' = (i, subs ++ ts) :: rest /\ mirrors (flat_ s) (honour s) (frames s') it ts.
Proof.
  assert (GF : forall a b m, grows a b m -> forall x, In x (frames a) -> In x (frames b)) by (intros a b m G x X; destruct (g_frames _ _ _ G) as (fr & ->); apply in_or_app; auto).
  induction it as [| r it IH | r1 r2 sub IHs it IH]; intros outer s s' N OU Z H; cbn [rows_of nested] in *.
  - injection H as <-. split; [reflexivity |]. split; [apply settings_refl |]. split; [auto |]. intros k i subs rest M E. exists k, []. rewrite app_nil_r. split; [exact M |]. split; [exact E | constructor].
  - destruct N as (K & N). apply steps_cons_inv in H as (s1 & A & H). pose proof (step_grows _ _ _ A) as (ms & G & _). apply other_row in A as (F1 & F2 & P); [| exact K].
    pose proof (g_set _ _ _ G) as SS. destruct (g_set _ _ _ G) as (_ & Q2 & _ & Q4 & _ & Q6 & _).
    apply (IH outer) in H as (F3 & S3 & I3 & P3); [| exact N | rewrite Q2, F1; exact OU | rewrite Q6; exact Z]. split; [congruence |]. split; [exact (settings_trans _ _ _ SS S3) |]. split; [intros x X; apply I3; rewrite F2; exact X |].
    intros k i subs rest M E. destruct (P k i subs rest M E) as (k1 & fs & M1 & E1 & FR). destruct (P3 k1 i _ rest M1 E1) as (k2 & ts & M2 & E2 & MI).
    exists k2, (map FComp fs ++ ts). split; [exact M2 |]. split; [rewrite E2, app_assoc; reflexivity |]. constructor; [exact FR |]. rewrite <- Q2, <- Q4. exact MI.
  - destruct N as (K1 & K2 & NE & NO & NS & N). apply steps_cons_inv in H as (s1 & A & H). apply steps_app_inv in H as (s2 & B & H). apply steps_cons_inv in H as (s3 & C & H).
    pose proof (step_grows _ _ _ A) as (m1 & G1 & _). pose proof (steps_grows _ _ _ B) as (m2 & G2). pose proof (step_grows _ _ _ C) as (m3 & G3 & _). pose proof (steps_grows _ _ _ H) as (m4 & G4).
    pose proof (g_set _ _ _ G1) as S1. pose proof (g_set _ _ _ G3) as S3.
    apply line_row in A; [| exact K1 | exact Z]. destruct S1 as (S1a & S1b & S1c & S1d & S1e & S1f & S1g).
    destruct A as [(FL & ->) | (FL & A)].
    + (* flat *)
      apply (IHs (Some (name_of r1))) in B as (F2 & S2 & I2 & P2); [| exact NS | congruence | exact Z]. destruct (S2) as (_ & S2b & _ & S2d & _ & S2f & _).
      apply line_row in C; [| exact K2 | congruence]. destruct C as [(_ & ->) | (X & _)]; [| congruence].
      apply (IH outer) in H as (F4 & S4 & I4 & P4); [| exact N | congruence | congruence]. split; [congruence |]. split; [exact (settings_trans _ _ _ S2 S4) |]. split; [auto |].
      intros k i subs rest M E. destruct (P2 k i subs rest M E) as (k2 & ts1 & M2 & E2 & MI2). destruct (P4 k2 i _ rest M2 E2) as (k4 & ts & M4 & E4 & MI4).
      exists k4, (ts1 ++ ts). split; [exact M4 |]. split; [rewrite E4, app_assoc; reflexivity |]. apply M_through; [unfold shown; rewrite FL; reflexivity | exact (mirrors_mono _ _ _ _ _ _ I4 MI2) | congruence].
    + (* open *)
      assert (O : open_frame (with_stack s (name_of r1 :: fstack s)) (name_of r1) = Fin s1).
      { unfold line_step in A. destruct (fstack s) as [| top st] eqn:FS; [exact A |]. rewrite (OU FL) in NO. cbn [hd_error] in NO. destruct (str_eqb_spec (name_of r1) top) as [X | _]; [congruence | exact A]. }
      pose proof O as O'. apply open_inv in O as (_ & _ & FS1 & OC). cbn [fstack with_stack honour] in FS1, OC.
      apply (IHs (Some (name_of r1))) in B as (F2 & S2 & I2 & P2); [| exact NS | intros _; rewrite FS1; reflexivity | congruence]. pose proof S2 as (_ & S2b & _ & S2d & _ & S2f & _).
      apply line_row in C; [| exact K2 | congruence]. destruct C as [(X & _) | (_ & C)]; [congruence |].
      assert (CL : close_frame (with_stack s2 (fstack s)) (name_of r1) = Fin s3).
      { unfold line_step in C. rewrite F2, FS1 in C. cbn in C. rewrite <- NE, str_eqb_refl in C. exact C. }
      pose proof CL as CL'. apply close_inv in CL as (_ & _ & FS3 & FR3 & CC). cbn [fstack frames with_stack honour mc] in FS3, FR3, CC.
      destruct S3 as (_ & S3b & _ & S3d & _ & S3f & _).
      assert (SS3 : same_settings s s3) by (eapply settings_trans; [apply (g_set _ _ _ G1) |]; eapply settings_trans; [apply (g_set _ _ _ G2) | apply (g_set _ _ _ G3)]).
      apply (IH outer) in H as (F4 & S4 & I4 & P4); [| exact N | rewrite FS3; intros; apply OU; exact FL | congruence].
      split; [congruence |]. split; [exact (settings_trans _ _ _ SS3 S4) |]. split; [intros x X; eapply GF; [exact G4 |]; eapply GF; [exact G3 |]; eapply GF; [exact G2 |]; eapply GF; [exact G1 | exact X] |].
      assert (HS : shown (flat_ s) (honour s) (name_of r1) = shown false (honour s) (name_of r1)) by (rewrite FL; reflexivity).
      assert (HF : forall x, In x (frames s2) -> In x (frames s')) by (intros x X; eapply GF; [exact G4 |]; rewrite FR3; exact X).
      intros k i subs rest M E.
      destruct OC as [(SN & ->) | (kd & n & id & c & c' & SH & FR & MC & MC' & ST)].
      * (* no frame of its own *)
        cbn [mc with_stack] in P2. assert (s3 = with_stack s2 (fstack s)) by (eapply (close_through (with_stack s (name_of r1 :: fstack s))); [exact O' | exact SN | exact S2d | exact CL']). subst s3.
        destruct (P2 k i subs rest M E) as (k2 & ts1 & M2 & E2 & MI2). destruct (P4 k2 i _ rest M2 E2) as (k4 & ts & M4 & E4 & MI4).
        exists k4, (ts1 ++ ts). split; [exact M4 |]. split; [rewrite E4, app_assoc; reflexivity |]. apply M_through; [rewrite HS; exact SN | exact (mirrors_mono _ _ _ _ _ _ HF MI2) |].
        replace (flat_ s) with (flat_ (with_stack s2 (fstack s))) by (destruct SS3 as (_ & -> & _); reflexivity). replace (honour s) with (honour (with_stack s2 (fstack s))) by (destruct SS3 as (_ & _ & _ & -> & _); reflexivity). exact MI4.
      * cbn [mc with_stack] in MC. assert (c = k) by congruence. subst c. destruct (P2 c' id [] (stack k) MC' ST) as (k2 & ts1 & M2 & E2 & MI2).
        destruct CC as [(X & _) | (c2 & c3 & i2 & subs2 & j & subs' & rest' & MM2 & MM3 & EE2 & EE3)]; [rewrite S2d, S1d in X; congruence |].
        assert (c2 = k2) by congruence. subst c2. rewrite E2, E in EE2. cbn [app] in EE2. injection EE2 as <- <- <- <- <-.
        destruct (P4 c3 i _ rest MM3 EE3) as (k4 & ts & M4 & E4 & MI4). exists k4, (FSeq id ts1 :: ts). split; [exact M4 |]. split; [rewrite E4, <- app_assoc; reflexivity |].
        eapply M_frame; [rewrite HS; exact SH | apply HF, I2; rewrite FR; cbn [frames with_stack]; apply in_or_app; right; left; reflexivity | |].
        -- apply (mirrors_mono _ _ _ _ _ _ HF). rewrite <- S1b, <- S1d. exact MI2.
        -- replace (flat_ s) with (flat_ s3) by (destruct SS3 as (_ & -> & _); reflexivity). replace (honour s) with (honour s3) by (destruct SS3 as (_ & _ & _ & -> & _); reflexivity). exact MI4.
Qed.
Theorem C123_frames s it t l e s' : mc s = Null -> appending s = false -> mem $"LINE" (zero_types s) = false -> fstack s = [] -> nested None it ->
  construct_model s (rows_of it) = Fin ((t, l, e), s') -> fstack s' = [] /\ exists ts, t = FSeq 0 ts /\ mirrors (flat_ s) (honour s) (frames s') it ts.
Proof.
  intros M A Z F N H. unfold construct_model in H. rewrite M, A in H. apply omap_fin in H as (s1 & S1 & H).
  apply (nested_steps it None) in S1 as (F1 & _ & _ & P); [| exact N | intros _; cbn; rewrite F; reflexivity | exact Z]. destruct (P new_model 0%nat [] [] eq_refl eq_refl) as (k & ts & M1 & E1 & MI). cbn [app] in E1.
  rewrite M1 in H. apply liftl_fin in H as ([[[t0 l0] e0] k0] & GM & H). unfold get_model in GM. rewrite E1 in GM. destruct (negb _); [discriminate |].
  assert (t0 = FSeq 0 ts) by congruence. assert (t0 = t) by congruence.
  assert (S' : fstack s' = fstack s1 /\ frames s' = frames s1) by (apply (f_equal (fun o => match o with Fin (_, x) => (fstack x, frames x) | _ => (fstack s', frames s') end)) in H; cbn in H; split; congruence).
  destruct S' as (Q1 & Q2). split; [rewrite Q1, F1; exact F |]. exists ts. split; [congruence |]. rewrite Q2. exact MI.
Qed.
Print Assumptions C123_frames.
(* a line never closed: no model *)
Theorem C123_unclosed s r it : mc s = Null -> appending s = false -> flat_ s = false -> mem $"LINE" (zero_types s) = false -> fstack s = [] ->
  keyword r = $"LINE" -> nested (Some (name_of r)) it -> shown false (honour s) (name_of r) <> None -> forall x, construct_model s (r :: rows_of it) <> Fin x.
Proof.
  intros M A FL Z F K N SH x H. unfold construct_model in H. rewrite M, A in H. apply omap_fin in H as (s1 & S1 & H). apply steps_cons_inv in S1 as (s2 & O & S1).
  pose proof (step_grows _ _ _ O) as (ms & G & _). apply line_row in O; [| exact K | exact Z]. cbn [flat_ with_mc] in O. destruct O as [(X & _) | (_ & O)]; [congruence |].
  unfold line_step in O. cbn [fstack with_mc] in O. rewrite F in O. apply open_inv in O as (_ & _ & FS & [(X & _) | (kd & n & id & c & c' & _ & _ & MC & MC' & ST)]); [contradiction |].
  destruct (g_set _ _ _ G) as (_ & _ & _ & _ & _ & Q & _). apply (nested_steps it (Some (name_of r))) in S1 as (_ & _ & _ & P); [| exact N | intros _; rewrite FS; reflexivity | rewrite Q; exact Z].
  cbn [mc with_stack with_mc] in MC. injection MC as <-. destruct (P c' id [] _ MC' ST) as (k & ts & M1 & E1 & _). rewrite M1 in H. apply liftl_fin in H as (y & GM & _).
  unfold get_model in GM. rewrite E1 in GM. cbn [stack new_model] in GM. rewrite andb_false_r in GM. discriminate.
Qed.
Print Assumptions C123_unclosed.
(* the pairs must not carry the name of the line around them: the second row ends the outer line *)
Definition line_row_of (n : str) : row := [($"KEYWORD", CS $"LINE"); ($"NAME", CS n); ($"L", CD 0)].
Definition inner_same (n : str) : items := Line (line_row_of n) (line_row_of n) (Line (line_row_of n) (line_row_of n) Nil Nil) Nil.
Lemma inner_mirrored r fr ts : shown false false (name_of r) <> None -> mirrors false false fr (Line r r (Line r r Nil Nil) Nil) ts -> exists a b, ts = [FSeq a [FSeq b []]].
Proof.
  intros SH M. assert (NN : forall ts, mirrors false false fr Nil ts -> ts = []) by (intros t H; inversion H; reflexivity).
  assert (X : forall sub ts, mirrors false false fr (Line r r sub Nil) ts -> exists a ts1, ts = [FSeq a ts1] /\ mirrors false false fr sub ts1).
  { intros sub t H. inversion H as [| | r1 r2 sb i id k n ts1 ts' S1 IN M1 M2 E1 E2 | r1 r2 sb i ts1 ts' S1 M1 M2 E1 E2]; [| contradiction]. apply NN in M2. subst. eauto. }
  apply X in M as (a & t1 & -> & M). apply X in M as (b & t2 & -> & M). apply NN in M as ->. eauto.
Qed.
Lemma four_lines s : mc s = Live new_model -> fstack s = [] -> honour s = false -> next s = 1%nat ->
  exists k s4, omap (line_step s $"F_A") (fun a => omap (line_step a $"F_A") (fun b => omap (line_step b $"F_A") (fun c => line_step c $"F_A"))) = Fin s4 /\ mc s4 = Live k /\ stack k = [(0%nat, [FSeq 1 []; FSeq 2 []])] /\ live k = true.
Proof. destruct s as [f1 f2 f3 f4 f5 f6 f7 f8 f9 f10 f11 f12 f13 f14]. cbn [mc fstack honour next]. intros -> -> -> ->. do 2 eexists. split; [vm_compute; reflexivity |]. split; [reflexivity |]. split; reflexivity. Qed.
Theorem C123_same_name_refuted : exists t l e s', construct_model (fresh 1) (rows_of (inner_same $"F_A")) = Fin ((t, l, e), s') /\ t = FSeq 0 [FSeq 1 []; FSeq 2 []] /\
  forall ts, t = FSeq 0 ts -> ~ mirrors false false (frames s') (inner_same $"F_A") ts.
Proof.
  assert (E0 : Reqb 0 0 = true) by (destruct (Reqb_spec 0 0); congruence).
  assert (ST : forall s, zero_types s = [$"RCOLLIMATOR"] -> drift_types s = default_drifts -> single_cell s = false -> flat_ s = false -> step s (line_row_of $"F_A") = line_step s $"F_A").
  { intros s A B C D. unfold step. replace (get_s $"KEYWORD" (line_row_of $"F_A")) with (@Ok merr _ $"LINE") by reflexivity. replace (get_d $"L" (line_row_of $"F_A")) with (@Ok merr _ 0) by reflexivity. cbn [lift]. rewrite E0, A.
    replace (mem $"LINE" [$"RCOLLIMATOR"]) with false by reflexivity. cbn [andb]. rewrite B, C. replace (overrides default_drifts false (line_row_of $"F_A")) with (@Ok merr _ (line_row_of $"F_A")) by reflexivity. cbn [lift]. rewrite D.
    replace (str_eqb $"LINE" $"LINE") with true by reflexivity. replace (get_s $"NAME" (line_row_of $"F_A")) with (@Ok merr _ $"F_A") by reflexivity. cbn [lift]. reflexivity. }
  set (s0 := with_mc (fresh 1) new_model).
  assert (C : steps s0 (rows_of (inner_same $"F_A")) = omap (line_step s0 $"F_A") (fun a => omap (line_step a $"F_A") (fun b => omap (line_step b $"F_A") (fun c => line_step c $"F_A")))).
  { cbn [rows_of inner_same app steps]. rewrite ST by reflexivity. destruct (line_step s0 $"F_A") as [a | | |] eqn:L1; [| reflexivity ..]. cbn [omap].
    pose proof (line_grows _ _ _ L1) as G1. destruct (g_set _ _ _ G1) as (_ & A2 & A3 & _ & _ & A6 & A7). rewrite ST by (rewrite ?A2, ?A3, ?A6, ?A7; reflexivity).
    destruct (line_step a $"F_A") as [b | | |] eqn:L2; [| reflexivity ..]. cbn [omap].
    pose proof (line_grows _ _ _ L2) as G2. destruct (g_set _ _ _ G2) as (_ & B2 & B3 & _ & _ & B6 & B7). rewrite ST by (rewrite ?B2, ?B3, ?B6, ?B7, ?A2, ?A3, ?A6, ?A7; reflexivity).
    destruct (line_step b $"F_A") as [c | | |] eqn:L3; [| reflexivity ..]. cbn [omap].
    pose proof (line_grows _ _ _ L3) as G3. destruct (g_set _ _ _ G3) as (_ & C2 & C3 & _ & _ & C6 & C7). rewrite ST by (rewrite ?C2, ?C3, ?C6, ?C7, ?B2, ?B3, ?B6, ?B7, ?A2, ?A3, ?A6, ?A7; reflexivity).
    destruct (line_step c $"F_A"); reflexivity. }
  unfold construct_model. change (mc (fresh 1)) with Null. change (appending (fresh 1)) with false. cbv iota zeta. fold s0. rewrite C.
  assert (Q : exists k s4, omap (line_step s0 $"F_A") (fun a => omap (line_step a $"F_A") (fun b => omap (line_step b $"F_A") (fun c => line_step c $"F_A"))) = Fin s4 /\ mc s4 = Live k /\ stack k = [(0%nat, [FSeq 1 []; FSeq 2 []])] /\ live k = true)
    by (apply four_lines; reflexivity).
  destruct Q as (k & s4 & Q & MK & SK & LK). clearbody s0. clear C ST. rewrite Q. cbn [omap]. rewrite MK. unfold get_model. rewrite SK, LK. cbn [andb negb liftl].
  exists (FSeq 0 [FSeq 1 []; FSeq 2 []]). do 3 eexists. split; [reflexivity |]. split; [reflexivity |]. set (fr := frames _). clearbody fr.
  intros ts E MI. apply inner_mirrored in MI as (a & b & MI); [| discriminate]. subst ts. discriminate E.
Qed.
Print Assumptions C123_same_name_refuted.

(* ---- C124: several tables ---- *)
Lemma place_no_raise s m e x : place s m <> Raise e x.
Proof. unfold place. destruct (mc s); [discriminate |]. cbv zeta. destruct (append_component _ 0 0 k); discriminate. Qed.
Lemma place_all_no_raise ms : forall s e x, place_all s ms <> Raise e x.
Proof.
  induction ms as [| m ms IH]; intros s e x; cbn [place_all]; [discriminate |]. destruct (place s m) eqn:P; cbn [omap]; try discriminate; [apply IH |]. exfalso. exact (place_no_raise _ _ _ _ P).
Qed.
Lemma line_no_raise s n e x : line_step s n <> Raise e x.
Proof.
  assert (O : forall s, open_frame s n <> Raise e x).
  { intros s0. unfold open_frame. assert (FK : forall e0 x0, frame_kind (honour s0) n <> Raise e0 x0).
    { intros e0 x0. unfold frame_kind. destruct n as [| c rest]; [discriminate |]. destruct (match rest with [] => false | u :: _ => Ascii.eqb u "_" end); [| destruct (honour s0); discriminate].
      destruct (Ascii.eqb c "F"); [discriminate |]. destruct (Ascii.eqb c "S"); [discriminate |]. destruct (Ascii.eqb c "G"); [discriminate |]. destruct (Ascii.eqb c "M"); discriminate. }
    destruct (frame_kind (honour s0) n) as [[[k m] |] | | |] eqn:F; cbn [omap]; try discriminate; [| exfalso; exact (FK _ _ eq_refl)]. destruct (mc s0); [discriminate |]. destruct (new_frame _ _); discriminate. }
  assert (Cl : forall s, close_frame s n <> Raise e x).
  { intros s0. assert (X : match mc s0 with Null => Bad | Live c => liftl (end_frame c) (fun c' => Fin (with_mc s0 c')) end <> Raise e x) by (destruct (mc s0); [discriminate |]; destruct (end_frame k); discriminate).
    unfold close_frame. destruct n as [| a rest]; [destruct (honour s0); [exact X | discriminate] |]. destruct (negb _ && negb _)%bool; [discriminate | exact X]. }
  unfold line_step. destruct (fstack s); [apply O |]. destruct (str_eqb n s0); [apply Cl | apply O].
Qed.
Lemma step_raise s r e x : step s r = Raise e x -> x = s.
Proof.
  assert (LR : forall A (v : mres A) (f : A -> out mad), lift s v f = Raise e x -> x = s \/ exists a, f a = Raise e x) by (intros A v f H; destruct v; cbn in H; [eauto | left; congruence | discriminate]).
  unfold step. intros H. apply LR in H as [H | (type & H)]; [exact H |]. apply LR in H as [H | (len & H)]; [exact H |].
  destruct (Reqb len 0 && mem type (zero_types s))%bool; [apply LR in H as [H | (? & H)]; [exact H | discriminate] |].
  apply LR in H as [H | (r' & H)]; [exact H |]. destruct (str_eqb type $"LINE").
  - destruct (flat_ s); [discriminate |]. apply LR in H as [H | (n & H)]; [exact H |]. exfalso. exact (line_no_raise s n e x H).
  - destruct (str_eqb type $"SROT"); [apply LR in H as [H | (n & H)]; [exact H |]; exfalso; revert H; unfold place_patch; destruct (mc s); [discriminate |]; destruct (append_component_frame _ _); discriminate |].
    apply LR in H as [H | (ms & H)]; [exact H |]. apply LR in H as [H | (p & H)]; [exact H |]. exfalso. exact (place_all_no_raise _ _ _ _ H).
Qed.
Lemma steps_raise rs : forall s e x, steps s rs = Raise e x -> exists ms, grows s x ms.
Proof.
  induction rs as [| r rs IH]; intros s e x H; cbn [steps] in H; [discriminate |]. destruct (step s r) as [s1 | e1 x1 | |] eqn:E; cbn [omap] in H; try discriminate.
  - apply step_grows in E as (m1 & G1 & _). apply IH in H as (m2 & G2). exists (m1 ++ m2). exact (grows_trans _ _ _ _ _ G1 G2).
  - injection H as <- <-. apply step_raise in E as ->. exists []. apply grows_refl.
Qed.
Theorem C124_append_refuted s rs p s' : append_model s rs p = Fin s' -> mc s' = Null /\ get_model_of s' = Stop /\ (forall rs' x, construct_model s' rs' <> Fin x) /\ construct_model s' [] = Bad.
Proof.
  unfold append_model. cbv zeta. set (s2 := mkMad _ _ _ _ _ _ _ _ _ _ _ _ _ _). intros H. apply omap_fin in H as ([m s3] & H & E). injection E as <-.
  assert (A2 : appending s2 = true) by reflexivity. unfold construct_model in H.
  assert (H' : omap (steps s2 rs) (fun s1 => match mc s1 with Null => Bad | Live c => liftl (get_model c) (fun '(t, l, e, _) => Fin (t, l, e, mkMad (mom s1) (inc_sr s1) (flat_ s1) (zpos s1) (single_cell s1) (honour s1) (appending s1) (zero_types s1) (drift_types s1) Null (fstack s1) (next s1) (frames s1) (placed s1))) end) = Fin (m, s3)).
  { rewrite A2 in H. destruct (mc s2); exact H. }
  clear H. apply omap_fin in H' as (s1 & S1 & H). apply steps_grows in S1 as (ms & G). destruct (mc s1) as [| c] eqn:M1; [discriminate |].
  apply liftl_fin in H as ([[[t l] e] k] & _ & H). destruct (g_set _ _ _ G) as (_ & _ & _ & _ & A1 & _).
  assert (Q : mc s3 = Null /\ appending s3 = true) by (apply (f_equal (fun o => match o with Fin (_, x) => (mc x, appending x) | _ => (mc s3, appending s3) end)) in H; cbn in H; split; congruence).
  destruct Q as (Q1 & Q2). split; [exact Q1 |]. split; [unfold get_model_of; rewrite Q1; reflexivity |].
  assert (CM : forall rs', construct_model s3 rs' = omap (steps s3 rs') (fun s1 => match mc s1 with Null => Bad | Live c => liftl (get_model c) (fun '(t, l, e, _) => Fin (t, l, e, mkMad (mom s1) (inc_sr s1) (flat_ s1) (zpos s1) (single_cell s1) (honour s1) (appending s1) (zero_types s1) (drift_types s1) Null (fstack s1) (next s1) (frames s1) (placed s1))) end)) by (intros rs'; unfold construct_model; rewrite Q1, Q2; reflexivity).
  split; [| rewrite CM; cbn [steps omap]; rewrite Q1; reflexivity].
  intros rs' x X. rewrite CM in X. apply omap_fin in X as (s4 & S4 & X). apply steps_grows in S4 as (ms4 & G4). rewrite (g_null _ _ _ G4 Q1) in X. discriminate.
Qed.
Print Assumptions C124_append_refuted.
Theorem C124_after_exception_refuted s rs e s1 : mc s = Null -> appending s = false -> construct_model s rs = Raise e s1 -> forall rs', construct_model s1 rs' = Bad.
Proof.
  intros M A H rs'. unfold construct_model in H. rewrite M, A in H.
  assert (R : steps (with_mc s new_model) rs = Raise e s1).
  { destruct (steps (with_mc s new_model) rs) as [s2 | e2 s2 | |]; cbn [omap] in H; [| injection H as <- <-; reflexivity | discriminate | discriminate]. destruct (mc s2); [discriminate |]. destruct (get_model k) as [[[[t l] el] k'] | |]; discriminate. }
  apply steps_raise in R as (ms & G). destruct (g_flat _ _ _ G new_model eq_refl) as (k & M1 & _). destruct (g_set _ _ _ G) as (_ & _ & _ & _ & A1 & _).
  unfold construct_model. rewrite M1, A1. cbn [appending with_mc]. rewrite A. reflexivity.
Qed.
Print Assumptions C124_after_exception_refuted.
(* one table after another with ConstructModel: the second starts where the first ended *)
Theorem C176_successive s rs1 rs2 m1 s1 t l e s2 : mc s = Null -> appending s = false -> construct_model s rs1 = Fin (m1, s1) -> construct_model s1 rs2 = Fin ((t, l, e), s2) ->
  in_line (zpos s1) (components l) /\ (forall t1 l1 e1, m1 = (t1, l1, e1) -> zpos s1 = zpos s + MadSpec.total (map clen (components l1))).
Proof.
  intros M A H1 H2. destruct m1 as [[t1 l1] e1]. pose proof (C121_positions _ _ _ _ _ _ M A H1) as (_ & Z1 & N1 & _).
  assert (A1 : appending s1 = false).
  { unfold construct_model in H1. rewrite M, A in H1. apply omap_fin in H1 as (s3 & S3 & H). apply steps_grows in S3 as (ms & G). destruct (g_set _ _ _ G) as (_ & _ & _ & _ & A3 & _). destruct (mc s3); [discriminate |].
    apply liftl_fin in H as ([[[t0 l0] e0] k0] & _ & H). apply (f_equal (fun o => match o with Fin (_, x) => appending x | _ => appending s1 end)) in H. cbn in H. cbn in A3. congruence. }
  split; [apply (C121_positions _ _ _ _ _ _ N1 A1 H2) |]. intros t0 l0 e0 E. injection E as <- <- <-. exact Z1.
Qed.
Print Assumptions C176_successive.

(* ---- examples: a quadrupole between two drifts, in a line ---- *)
Definition drift_row (l : R) : row := [($"KEYWORD", CS $"DRIFT"); ($"NAME", CS $"D"); ($"L", CD l)].
Definition quad_row (l k : R) : row := [($"KEYWORD", CS $"QUADRUPOLE"); ($"NAME", CS $"QF"); ($"L", CD l); ($"K1L", CD k)].
Definition cell_items : items := Line (line_row_of $"F_CELL") (line_row_of $"F_CELL") (Row (drift_row 3) (Row (quad_row 2 (1 / 2)) (Row (drift_row 1) Nil))) Nil.
Lemma nonzero_false x : x <> 0 -> Reqb x 0 = false.
Proof. intros N. destruct (Reqb_spec x 0); congruence. Qed.
Lemma drift_step s x : x <> 0 -> drift_types s = default_drifts -> single_cell s = false -> inc_sr s = false -> step s (drift_row x) = place (with_mom s (mom s)) (mkM $"Drift" $"D" x Drift_).
Proof.
  intros NX D SC SR. unfold step, drift_row. set (r := _ :: _ :: _). replace (get_s $"KEYWORD" r) with (@Ok merr _ $"DRIFT") by reflexivity. replace (get_d $"L" r) with (@Ok merr _ x) by reflexivity. cbn [lift].
  rewrite (nonzero_false _ NX), D, SC. cbn [andb]. replace (overrides default_drifts false r) with (@Ok merr _ r) by reflexivity. cbn [lift]. replace (str_eqb $"DRIFT" $"LINE") with false by reflexivity. replace (str_eqb $"DRIFT" $"SROT") with false by reflexivity. cbv iota.
  unfold get_instance. replace (get_s $"KEYWORD" r) with (@Ok merr _ $"DRIFT") by reflexivity. cbn [bind]. replace (lookup $"DRIFT" factory) with (Some KDrift) by reflexivity. cbn [instance].
  replace (get_s $"NAME" r) with (@Ok merr _ $"D") by reflexivity. replace (get_d $"L" r) with (@Ok merr _ x) by reflexivity. cbn [bind lift]. rewrite (nonzero_false _ NX). unfold radiate. rewrite SR. cbn [andb lift place_all]. destruct (place _ _); reflexivity.
Qed.
Lemma quad_step s l k : l <> 0 -> drift_types s = default_drifts -> single_cell s = false -> inc_sr s = false ->
  step s (quad_row l k) = place (with_mom s (mom s)) (rect $"Quadrupole" $"QF" l 1 (rigidity (mom s) * k / l) false).
Proof.
  intros NX D SC SR. unfold step, quad_row. set (r := _ :: _ :: _ :: _). replace (get_s $"KEYWORD" r) with (@Ok merr _ $"QUADRUPOLE") by reflexivity. replace (get_d $"L" r) with (@Ok merr _ l) by reflexivity. cbn [lift].
  rewrite (nonzero_false _ NX), D, SC. cbn [andb]. replace (overrides default_drifts false r) with (@Ok merr _ r) by reflexivity. cbn [lift]. replace (str_eqb $"QUADRUPOLE" $"LINE") with false by reflexivity. replace (str_eqb $"QUADRUPOLE" $"SROT") with false by reflexivity. cbv iota.
  unfold get_instance. replace (get_s $"KEYWORD" r) with (@Ok merr _ $"QUADRUPOLE") by reflexivity. cbn [bind]. replace (lookup $"QUADRUPOLE" factory) with (Some KQuad) by reflexivity. cbn [instance]. unfold thick.
  replace (get_s $"NAME" r) with (@Ok merr _ $"QF") by reflexivity. replace (get_d $"L" r) with (@Ok merr _ l) by reflexivity. replace (get_d $"K1L" r) with (@Ok merr _ k) by reflexivity. cbn [bind]. unfold quot. rewrite (nonzero_false _ NX). cbn [bind lift].
  unfold radiate. rewrite SR. cbn [andb lift place_all]. destruct (place _ _); reflexivity.
Qed.
Example C121_C123_cell : exists t l e s', construct_model (fresh 1) (rows_of cell_items) = Fin ((t, l, e), s') /\ map (fun c => (cname c, cpos c, clen c)) (components l) = [($"D", 0, 3); ($"QF", 0 + 3, 2); ($"D", 0 + 3 + 2, 1)] /\
  nested None cell_items /\ exists a b c, t = FSeq 0 [FSeq 1 [FComp a; FComp b; FComp c]] /\ frames s' = [(1%nat, Sequence, $"CELL")].
Proof.
  assert (LS : forall s, zero_types s = [$"RCOLLIMATOR"] -> drift_types s = default_drifts -> single_cell s = false -> flat_ s = false -> step s (line_row_of $"F_CELL") = line_step s $"F_CELL").
  { intros s A B C D. unfold step. replace (get_s $"KEYWORD" (line_row_of $"F_CELL")) with (@Ok merr _ $"LINE") by reflexivity. replace (get_d $"L" (line_row_of $"F_CELL")) with (@Ok merr _ 0) by reflexivity. cbn [lift]. rewrite A.
    replace (mem $"LINE" [$"RCOLLIMATOR"]) with false by reflexivity. rewrite andb_false_r. rewrite B, C. replace (overrides default_drifts false (line_row_of $"F_CELL")) with (@Ok merr _ (line_row_of $"F_CELL")) by reflexivity. cbn [lift]. rewrite D.
    replace (str_eqb $"LINE" $"LINE") with true by reflexivity. replace (get_s $"NAME" (line_row_of $"F_CELL")) with (@Ok merr _ $"F_CELL") by reflexivity. cbn [lift]. reflexivity. }
  assert (PL : forall s m k i subs rest, mc s = Live k -> live k = true -> stack k = (i, subs) :: rest -> exists s' k' f, place s m = Fin s' /\ mc s' = Live k' /\ live k' = true /\ stack k' = (i, subs ++ [FComp f]) :: rest /\ flat k' = flat k ++ [f] /\ fcomp f = Some (located1 (zpos s) m) /\
     zpos s' = zpos s + mlen m /\ mom s' = mom s /\ fstack s' = fstack s /\ frames s' = frames s /\ same_settings s s').
  { intros s m k i subs rest M L K. unfold place. rewrite M. cbv zeta. unfold append_component. rewrite fequal_00. cbn [bind]. unfold append_component_frame. rewrite L. cbn [negb]. rewrite K. cbn [append_top bind liftl].
    do 3 eexists. split; [reflexivity |]. cbn [mc live stack flat zpos mom fstack frames]. split; [reflexivity |]. split; [reflexivity |]. split; [reflexivity |]. split; [reflexivity |]. split; [reflexivity |]. repeat (split; [reflexivity |]). repeat split. }
  assert (H : exists s5 k a b c, steps (with_mc (fresh 1) new_model) (rows_of cell_items) = Fin s5 /\ mc s5 = Live k /\ live k = true /\ stack k = [(0%nat, [FSeq 1 [FComp a; FComp b; FComp c]])] /\ flat k = [a; b; c] /\
    fcomp a = Some (mkC $"Drift" $"D" 3 0) /\ fcomp b = Some (mkC $"Quadrupole" $"QF" 2 (0 + 3)) /\ fcomp c = Some (mkC $"Drift" $"D" 1 (0 + 3 + 2)) /\ frames s5 = [(1%nat, Sequence, $"CELL")]).
  { set (s0 := with_mc (fresh 1) new_model). cbn [rows_of cell_items app steps]. rewrite LS by reflexivity.
    assert (O : exists s1 k1, line_step s0 $"F_CELL" = Fin s1 /\ mc s1 = Live k1 /\ live k1 = true /\ stack k1 = [(1%nat, []); (0%nat, [])] /\ flat k1 = [] /\ zpos s1 = zpos s0 /\ frames s1 = [(1%nat, Sequence, $"CELL")] /\ fstack s1 = [$"F_CELL"] /\ same_settings s0 s1).
    { assert (X : forall s, mc s = Live new_model -> fstack s = [] -> honour s = false -> next s = 1%nat -> frames s = [] -> exists s1 k1, line_step s $"F_CELL" = Fin s1 /\ mc s1 = Live k1 /\ live k1 = true /\ stack k1 = [(1%nat, []); (0%nat, [])] /\ flat k1 = [] /\ zpos s1 = zpos s /\ frames s1 = [(1%nat, Sequence, $"CELL")] /\ fstack s1 = [$"F_CELL"] /\ same_settings s s1).
      { clear. intros [f1 f2 f3 f4 f5 f6 f7 f8 f9 f10 f11 f12 f13 f14]. cbn [mc fstack honour next frames]. intros -> -> -> -> ->. do 2 eexists. split; [vm_compute; reflexivity |]. repeat (split; [reflexivity |]). repeat split. }
      apply X; reflexivity. }
    assert (SS : forall a b, same_settings a b -> drift_types a = default_drifts -> drift_types b = default_drifts) by (intros a b (_ & _ & _ & _ & _ & _ & E) D; congruence).
    assert (SC : forall a b, same_settings a b -> single_cell a = false -> single_cell b = false) by (intros a b (_ & _ & E & _) D; congruence).
    assert (SI : forall a b, same_settings a b -> inc_sr a = false -> inc_sr b = false) by (intros a b (E & _) D; congruence).
    assert (D0 : drift_types s0 = default_drifts) by reflexivity. assert (C0 : single_cell s0 = false) by reflexivity. assert (I0 : inc_sr s0 = false) by reflexivity. assert (Z0 : zpos s0 = 0) by reflexivity.
    assert (T0 : zero_types s0 = [$"RCOLLIMATOR"] /\ flat_ s0 = false /\ honour s0 = false) by (split; [reflexivity |]; split; reflexivity). clearbody s0.
    destruct O as (s1 & k1 & -> & M1 & L1 & K1 & F1 & Z1 & R1 & Q1 & S1). cbn [omap].
    rewrite drift_step by (eauto; lra). destruct (PL (with_mom s1 (mom s1)) (mkM $"Drift" $"D" 3 Drift_) k1 _ _ _ M1 L1 K1) as (s2 & k2 & a & -> & M2 & L2 & K2 & F2 & A2 & Z2 & _ & Q2 & R2 & S2). cbn [omap].
    assert (S2' : same_settings s0 s2) by (eapply settings_trans; [exact S1 | exact S2]).
    rewrite quad_step by (eauto; lra). destruct (PL (with_mom s2 (mom s2)) (rect $"Quadrupole" $"QF" 2 1 (rigidity (mom s2) * (1 / 2) / 2) false) k2 _ _ _ M2 L2 K2) as (s3 & k3 & b & -> & M3 & L3 & K3 & F3 & A3 & Z3 & _ & Q3 & R3 & S3). cbn [omap].
    assert (S3' : same_settings s0 s3) by (eapply settings_trans; [exact S2' | exact S3]).
    rewrite drift_step by (eauto; lra). destruct (PL (with_mom s3 (mom s3)) (mkM $"Drift" $"D" 1 Drift_) k3 _ _ _ M3 L3 K3) as (s4 & k4 & c & -> & M4 & L4 & K4 & F4 & A4 & Z4 & _ & Q4 & R4 & S4). cbn [omap].
    assert (S4' : same_settings s0 s4) by (eapply settings_trans; [exact S3' | exact S4]). destruct S4' as (X1 & X2 & X3 & X4 & _ & X6 & X7). destruct T0 as (T1 & T2 & T3).
    rewrite LS by congruence. cbn [fstack frames zpos with_mom mlen rect] in *. unfold line_step. rewrite Q4, Q3, Q2, Q1. rewrite str_eqb_refl. unfold close_frame. cbn [honour with_stack mc]. rewrite X4, T3.
    assert (EK : end_frame k4 = Ok (mkK [(0%nat, [FSeq 1 [FComp a; FComp b; FComp c]])] (flat k4) (repo k4) (live k4))) by (unfold end_frame; rewrite K4; reflexivity).
    replace (negb false && negb (Ascii.eqb "_" "_"))%bool with false by reflexivity. rewrite M4, EK. cbn [liftl omap].
    exists (with_mc (with_stack s4 []) (mkK [(0%nat, [FSeq 1 [FComp a; FComp b; FComp c]])] (flat k4) (repo k4) (live k4))), (mkK [(0%nat, [FSeq 1 [FComp a; FComp b; FComp c]])] (flat k4) (repo k4) (live k4)), a, b, c.
    split; [reflexivity |]. split; [reflexivity |]. split; [exact L4 |]. split; [reflexivity |]. split; [cbn [flat]; rewrite F4, F3, F2, F1; reflexivity |].
    rewrite A2, A3, A4. unfold located1. cbn [mtype mname mlen zpos with_mom rect]. rewrite Z3, Z2, Z1, Z0. cbn [mlen rect]. split; [reflexivity |]. split; [reflexivity |]. split; [reflexivity |]. cbn [frames with_mc with_stack]. congruence. }
  destruct H as (s5 & k & a & b & c & H & M & L & K & F & A & B & C & R). unfold construct_model. change (mc (fresh 1)) with Null. change (appending (fresh 1)) with false. cbv iota zeta. rewrite H. cbn [omap]. rewrite M. unfold get_model. rewrite K, L. cbn [andb negb liftl].
  do 4 eexists. split; [reflexivity |]. rewrite F. unfold components. cbn [flat_map]. rewrite A, B, C. split; [reflexivity |].
  split; [cbn [cell_items nested]; split; [reflexivity |]; split; [reflexivity |]; split; [reflexivity |]; split; [discriminate |]; split; [| exact I]; split; [discriminate |]; split; [discriminate |]; split; [discriminate | exact I] |].
  exists a, b, c. split; [reflexivity | exact R].
Qed.
Definition bend_row (l a : R) : row := [($"KEYWORD", CS $"SBEND"); ($"NAME", CS $"B"); ($"L", CD l); ($"ANGLE", CD a); ($"K1L", CD 0); ($"TILT", CD 0); ($"E1", CD (a / 2)); ($"E2", CD a)].
Example C122_bend_row : get_instance (bend_row 2 (1 / 10)) (rigidity 7) = Ok [mkM $"SectorBend" $"B" 2 (Bend (1 / 10 / 2) (single_r 0 (rigidity 7 * (1 / 10 / 2)) 1 false) (Some (1 / 10 / 2)) (Some (1 / 10)) 0)].
Proof.
  unfold get_instance, bend_row. set (r := _ :: _). replace (get_s $"KEYWORD" r) with (@Ok merr _ $"SBEND") by reflexivity. cbn [bind]. replace (lookup $"SBEND" factory) with (Some KSBend) by reflexivity. cbn [instance].
  replace (has_col $"ANGLE" r) with true by reflexivity. unfold bend. replace (get_s $"NAME" r) with (@Ok merr _ $"B") by reflexivity. replace (get_d $"L" r) with (@Ok merr _ 2) by reflexivity. replace (get_d $"ANGLE" r) with (@Ok merr _ (1 / 10)) by reflexivity.
  replace (get_d $"K1L" r) with (@Ok merr _ 0) by reflexivity. replace (get_d $"TILT" r) with (@Ok merr _ 0) by reflexivity. replace (get_d $"E1" r) with (@Ok merr _ (1 / 10 / 2)) by reflexivity. replace (get_d $"E2" r) with (@Ok merr _ (1 / 10)) by reflexivity.
  cbn [bind]. unfold quot. rewrite (nonzero_false 2) by lra. cbn [bind]. destruct (Reqb_spec 0 0) as [_ | X]; [| lra]. unfold Mad.bend_field. cbn [bind]. unfold faces. rewrite !nonzero_false by lra. reflexivity.
Qed.
Example C124_append_runs : exists s', append_model (fresh 1) [] 2 = Fin s'.
Proof. eexists. unfold append_model, construct_model. cbn. reflexivity. Qed.
Example C124_exception_runs : exists e s', construct_model (fresh 1) [[]] = Raise e s'.
Proof. do 2 eexists. unfold construct_model. cbn. reflexivity. Qed.
