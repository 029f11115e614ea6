(* C236-C239: derivatives with energy, unstable motion *)
From Coq Require Import ZArith Lia Lra.
From Verif Require Import RBase Bunch BunchSpec Optics Orbit OrbitSpec OrbitProofs LatFun LatFunSpec LatFunProofs LatFunProps LatTwissProps LatTwissEx LatTableProps.
From Verif Require Mat Gauss SympProps.
Local Open Scope R_scope.

(* ---- C236: with any function of the motion the derivative is never a number ---- *)
Lemma iterate_from factor n d tol T fuel : forall it w p r, iterate factor n d tol T fuel it w p = Ok r -> same_from n (fst (fst r)) p.
Proof.
  induction fuel as [|fuel IH]; intros it w p r H; cbn [iterate] in H; [inversion H; intros i _; reflexivity|].
  destruct (Rltb tol w); [|inversion H; intros i _; reflexivity].
  destruct (newton factor n d T p) as [x| |] eqn:N; cbn [bind] in H; try discriminate. apply IH in H. eapply same_from_trans; [exact H|].
  unfold newton in N. destruct (Reqb d 0); [discriminate|]. cbv zeta in N. destruct (svd_solve factor n _ _) as [y| |]; cbn [bind] in N; try discriminate.
  inversion N. cbn [fst]. intros i Hi. rewrite coord_vof by lia. destruct (Nat.ltb_spec i n); [lia|reflexivity].
Qed.
Lemma starts_dp factor m t s p : starts factor m t s true None p -> vdp p = 0.
Proof.
  intros (w & it & H). unfold find_orbit in H. destruct (get_ring (map lc m) 0) as [l| |]; cbn [bind] in H; try discriminate.
  destruct (rad_of _ _ _) as [r| |]; cbn [bind] in H; try discriminate. apply iterate_from in H. exact (H 5%nat ltac:(cbn; lia)).
Qed.
Lemma deriv_zero cm cp : map idx cm = map idx cp -> (exists c, In c cm /\ idx c <> (0, 0, 0)%Z) -> (forall c, In c cm -> cval c <> []) -> (forall c, In c cp -> cval c <> []) -> (forall c d, In c cm -> In d cp -> length (cval c) = length (cval d)) ->
  deriv_cols 0 cm cp = Throw NotNumber.
Proof.
  revert cp. induction cm as [|a cm IH]; intros cp I (c & Hc & Nc) L1 L2 LL; [destruct Hc|]. destruct cp as [|b cp]; [discriminate|]. cbn [map] in I.
  assert (Ia : idx a = idx b) by congruence. assert (It : map idx cm = map idx cp) by congruence. clear I. cbn [deriv_cols].
  destruct (Z.eqb (ci a) 0 && Z.eqb (cj a) 0 && Z.eqb (ck a) 0) eqn:B.
  - assert (E : idx a = (0, 0, 0)%Z). { apply andb_prop in B. destruct B as [B B3]. apply andb_prop in B. destruct B as [B1 B2]. unfold idx. apply Z.eqb_eq in B1, B2, B3. congruence. }
    assert (D : exists v, derivs true 0 (cval a) (cval b) = Ok v).
    { pose proof (LL a b (or_introl eq_refl) (or_introl eq_refl)) as L. clear - L. revert L. generalize (cval a). induction (cval b) as [|x l IH]; intros l' L; destruct l' as [|y l']; cbn [derivs length] in *; try discriminate; [eauto|].
      destruct (IH l') as [v E]; [lia|]. cbn [bind]. rewrite E. cbn. eauto. }
    destruct D as [v ->]. cbn [bind]. rewrite IH; [reflexivity|exact It| | | |].
    + exists c. split; [|exact Nc]. destruct Hc as [<-|Hc]; [congruence|exact Hc].
    + intros x Hx. apply L1. right. exact Hx.
    + intros x Hx. apply L2. right. exact Hx.
    + intros x y Hx Hy. apply LL; right; assumption.
  - assert (D : derivs false 0 (cval a) (cval b) = Throw NotNumber).
    { pose proof (L1 a (or_introl eq_refl)). pose proof (L2 b (or_introl eq_refl)). destruct (cval b) as [|x l]; [contradiction|]. destruct (cval a) as [|y l']; [contradiction|]. cbn [derivs]. destruct (Reqb_spec 0 0); [reflexivity|lra]. }
    rewrite D. reflexivity.
Qed.
Lemma calc_twice factor eig m t s t1 d1 s' : do_calculate factor eig m t s None None = Ok (t1, d1) -> do_calculate factor eig m t1 s' None None = (do r <- do_calculate factor eig m t s' None None; Ok r).
Proof.
  intros H. destruct (do_calc_inv _ _ _ _ _ _ _ _ _ H) as (p & M & ok & re & im & cs & S & D & NE & E & W & -> & _).
  assert (I : map clear_values (tcols (with_cols cs t)) = map clear_values (tcols t)).
  { destruct (walk_spec _ _ _ _ _ _ _ _ _ _ _ _ _ _ W) as (Ns & F & _). cbn [tcols with_cols]. clear - F. revert F. generalize (tcols t). intros l. revert cs. induction l as [|a l IH]; intros cs F; inversion F as [|? b ? ? [I _] F']; subst; [reflexivity|]. cbn [map]. rewrite (IH _ F'). f_equal. unfold clear_values, idx in *. cbn in I. congruence. }
  unfold do_calculate. rewrite I. clear. cbn [tcols tdelta tsymp tforce with_cols].
  change (turn_matrix (with_cols cs t)) with (turn_matrix t). change (forced (with_cols cs t)) with (forced t).
  match goal with |- bind ?X _ = _ => destruct X as [p| |]; cbn [bind]; try reflexivity end.
  destruct (turn_matrix t m s' None p) as [M0| |]; cbn [bind]; try reflexivity. destruct (forced t M0) as [M1| |]; cbn [bind]; try reflexivity.
  match goal with |- bind ?X _ = _ => destruct X as [M2| |]; cbn [bind]; try reflexivity end.
  destruct (eig M2) as [[[ok re] im]|]; [|reflexivity]. destruct (Reqb (tdelta t) 0); [reflexivity|]. destruct m as [|c m]; [reflexivity|].
  match goal with |- bind ?X _ = _ => destruct X as [cs'| |]; cbn [bind]; reflexivity end.
Qed.
Lemma scaled_same factor eig m t s pi Mi : do_calculate factor eig m (scale_bends s t) s pi Mi = (do r <- do_calculate factor eig m t s pi Mi; Ok (scale_bends s (fst r), snd r)).
Proof.
  unfold do_calculate. cbn [tcols tdelta tsymp tforce scale_bends].
  change (turn_matrix (scale_bends s t)) with (turn_matrix t). change (forced (scale_bends s t)) with (forced t).
  match goal with |- bind ?X _ = _ => destruct X as [p| |]; cbn [bind]; try reflexivity end.
  destruct (turn_matrix t m s Mi p) as [M0| |]; cbn [bind]; try reflexivity. destruct (forced t M0) as [M1| |]; cbn [bind]; try reflexivity.
  match goal with |- bind ?X _ = _ => destruct X as [M2| |]; cbn [bind]; try reflexivity end.
  destruct (eig M2) as [[[ok re] im]|]; [|reflexivity]. destruct (Reqb (tdelta t) 0); [reflexivity|]. destruct m as [|c m]; [reflexivity|].
  match goal with |- bind ?X _ = _ => destruct X as [cs'| |]; cbn [bind]; reflexivity end.
Qed.
(* both tables exist, and their difference is divided by 0 *)
Theorem C236_refuted : forall factor eig m os a b, let t := history os in torbit t = false ->
  calculate factor eig m t None None = Ok a -> calculate factor eig m (scale_bends (- tscale t) t) None None = Ok b ->
  energy_derivative factor eig m t = Throw NotNumber.
Proof.
  intros factor eig m os a b t O Ha Hb.
  assert (K : exists c, In c (tcols t) /\ idx c <> (0, 0, 0)%Z).
  { destruct (C229_columns os) as [_ [_ F]]. fold t in F. destruct (Exists_dec (fun c => ck c <> 0%Z) (tcols t)) as [E|E].
    - intros c. destruct (Z.eq_dec (ck c) 0); [right; intros H; contradiction|left; assumption].
    - apply Exists_exists in E. destruct E as (c & H1 & H2). exists c. split; [exact H1|]. unfold idx. congruence.
    - exfalso. assert (torbit t = true); [|congruence]. apply F. apply Forall_forall. intros c Hc. destruct (Z.eq_dec (ck c) 0); [assumption|]. exfalso. apply E. apply Exists_exists. exists c. split; assumption. }
  destruct (calc_inv _ _ _ _ _ _ _ O Ha) as [d1 H1]. destruct (calc_inv _ _ _ (scale_bends (- tscale t) t) _ _ _ O Hb) as [d2 H2].
  cbn [tscale scale_bends] in H2. rewrite scaled_same in H2. destruct (do_calculate factor eig m t (- tscale t) None None) as [[b' d2']| |] eqn:H3; cbn [bind fst snd] in H2; try discriminate. injection H2 as Eb Ed. subst d2.
  unfold energy_derivative. rewrite O. rewrite H1. cbn [bind fst snd].
  replace (torbit a) with false. 2: { destruct (do_calc_inv _ _ _ _ _ _ _ _ _ H1) as (? & ? & ? & ? & ? & ? & _ & _ & _ & _ & _ & -> & _). symmetry. exact O. }
  rewrite (calc_twice _ _ _ _ _ _ _ _ H1), H3. cbn [bind fst snd].
  destruct (do_calc_inv _ _ _ _ _ _ _ _ _ H1) as (p & _ & _ & _ & _ & _ & S1 & _ & _ & _ & _ & _ & -> & _).
  destruct (do_calc_inv _ _ _ _ _ _ _ _ _ H3) as (q & _ & _ & _ & _ & _ & S2 & _ & _ & _ & _ & _ & -> & _).
  rewrite (starts_dp _ _ _ _ _ S1), (starts_dp _ _ _ _ _ S2), Rminus_0_r.
  assert (Eb' : tcols b' = tcols b) by (rewrite <- Eb; reflexivity). rewrite Eb'.
  destruct (C224_rows _ _ _ _ _ _ _ _ O Ha S1) as [I1 V1]. destruct (C224_rows factor eig m (scale_bends (- tscale t) t) None None b q O Hb S2) as [I2 V2]. cbn [tcols scale_bends] in I2.
  rewrite deriv_zero; [reflexivity|congruence| | | |].
  - destruct K as (c & Hc & Nc). assert (X : In (idx c) (map idx (tcols b))) by (rewrite I2; apply in_map; exact Hc). apply in_map_iff in X. destruct X as (x & Ex & Hx). exists x. split; [exact Hx|congruence].
  - intros c Hc E. destruct (V2 c Hc) as [L _]. rewrite E in L. discriminate.
  - intros c Hc E. destruct (V1 c Hc) as [L _]. rewrite E in L. discriminate.
  - intros c d Hc Hd. destruct (V2 c Hc) as [-> _]. destruct (V1 d Hd) as [-> _]. reflexivity.
Qed.
Print Assumptions C236_refuted.

(* ---- C237: tables of the orbit only ---- *)
Lemma orbit_twice factor m t s t1 d1 s' : do_orbit factor m t s None = Ok (t1, d1) -> do_orbit factor m t1 s' None = do_orbit factor m t s' None.
Proof.
  intros H. destruct (do_orbit_inv _ _ _ _ _ _ _ H) as (p & cs & S & NE & W & -> & _).
  assert (I : map clear_values (tcols (with_cols cs t)) = map clear_values (tcols t)).
  { apply walk_orbit_spec in W. rename W into F. cbn [tcols with_cols]. clear - F. revert F. generalize (tcols t). intros l. revert cs. induction l as [|a l IH]; intros cs F; inversion F as [|? b ? ? [I _] F']; subst; [reflexivity|]. cbn [map]. rewrite (IH _ F'). f_equal. unfold clear_values, idx in *. cbn in I. congruence. }
  unfold do_orbit. rewrite I. cbn [tdelta with_cols]. reflexivity.
Qed.
Lemma derivs_spec path dp vm vp : length vm = length vp -> forall v, derivs path dp vm vp = Ok v ->
  length v = length vp /\ forall r, (r < length vp)%nat -> (path = true -> nth r v 0 = nth r vm 0) /\ (path = false -> dp <> 0 /\ nth r v 0 = (nth r vp 0 - nth r vm 0) / dp).
Proof.
  revert vm. induction vp as [|p vp IH]; intros vm L v H; destruct vm as [|m vm]; cbn [derivs length] in *; try discriminate.
  - inversion H. split; [reflexivity|]. intros r Hr. lia.
  - destruct path.
    + cbn [bind] in H. destruct (derivs true dp vm vp) as [w| |] eqn:D; cbn [bind] in H; try discriminate. inversion H. destruct (IH vm ltac:(lia) w D) as [L' V].
      split; [cbn; lia|]. intros r Hr. destruct r as [|r]; cbn [nth]; [split; [reflexivity|discriminate]|]. apply V. lia.
    + destruct (Reqb_spec dp 0) as [|N]; [discriminate|]. cbn [bind] in H. destruct (derivs false dp vm vp) as [w| |] eqn:D; cbn [bind] in H; try discriminate. inversion H. destruct (IH vm ltac:(lia) w D) as [L' V].
      split; [cbn; lia|]. intros r Hr. destruct r as [|r]; cbn [nth]; [split; [discriminate|intros _; split; [exact N|reflexivity]]|]. apply V. lia.
Qed.
Lemma deriv_cols_spec dp cm cp : map idx cm = map idx cp -> (forall c d, In c cm -> In d cp -> length (cval c) = length (cval d)) ->
  forall cs, deriv_cols dp cm cp = Ok cs -> map idx cs = map idx cm /\
    forall c, In c cs -> exists a b, In a cm /\ In b cp /\ idx a = idx c /\ idx b = idx c /\ length (cval c) = length (cval b) /\
      forall r, (r < length (cval b))%nat -> (idx c = (0, 0, 0)%Z -> at_row c r = at_row a r) /\ (idx c <> (0, 0, 0)%Z -> dp <> 0 /\ at_row c r = (at_row b r - at_row a r) / dp).
Proof.
  revert cp. induction cm as [|a cm IH]; intros cp I LL cs H; destruct cp as [|b cp]; cbn [deriv_cols map] in *; try discriminate.
  - inversion H. split; [reflexivity|]. intros c [].
  - assert (Ia : idx a = idx b) by congruence. assert (It : map idx cm = map idx cp) by congruence. clear I.
    match type of H with bind ?X _ = _ => destruct X as [v| |] eqn:D; cbn [bind] in H; try discriminate end.
    destruct (deriv_cols dp cm cp) as [w| |] eqn:D2; cbn [bind] in H; try discriminate. inversion H; subst cs. clear H.
    destruct (IH cp It ltac:(intros; apply LL; right; assumption) w D2) as [I2 V2]. split; [cbn [map]; rewrite I2; reflexivity|].
    intros c [<-|Hc].
    + exists a, b. split; [left; reflexivity|]. split; [left; reflexivity|]. split; [reflexivity|]. split; [symmetry; exact Ia|].
      destruct (derivs_spec _ _ _ _ (LL a b (or_introl eq_refl) (or_introl eq_refl)) _ D) as [L V]. split; [exact L|]. intros r Hr. destruct (V r Hr) as [V1 V3]. unfold at_row. cbn [cval]. split.
      * intros E. apply V1. destruct (idx_inv _ _ _ _ E) as (E1 & E2 & E3). cbn in E1, E2, E3. rewrite E1, E2, E3. reflexivity.
      * intros E. apply V3. destruct (Z.eqb_spec (ci a) 0), (Z.eqb_spec (cj a) 0), (Z.eqb_spec (ck a) 0); try reflexivity. exfalso. apply E. unfold idx. cbn. congruence.
    + destruct (V2 c Hc) as (x & y & X1 & X2 & X3). exists x, y. split; [right; exact X1|]. split; [right; exact X2|exact X3].
Qed.
Theorem C237_orbit : forall factor eig m t t' p q, torbit t = true -> energy_derivative factor eig m t = Ok t' ->
  starts factor m t (tscale t) false None p -> starts factor m t (- tscale t) false None q ->
  map idx (tcols t') = map idx (tcols t) /\
  forall c, In c (tcols t') -> length (cval c) = length m /\
    forall r, (r < length m)%nat ->
      (idx c = (0, 0, 0)%Z -> at_row c r = way m r) /\
      (forall i, (1 <= i <= 6)%Z -> idx c = (i, 0, 0)%Z -> vdp p <> vdp q /\
         at_row c r = (coord (Z.to_nat (i - 1)) (arrives (tscale t) m r p) - coord (Z.to_nat (i - 1)) (arrives (- tscale t) m r q)) / (vdp p - vdp q)).
Proof.
  intros factor eig m t t' p q O H Sp Sq. unfold energy_derivative in H. rewrite O in H.
  destruct (do_orbit factor m t (tscale t) None) as [[t1 d1]| |] eqn:H1; cbn [bind fst snd] in H; try discriminate.
  assert (O1 : torbit t1 = true) by (destruct (do_orbit_inv _ _ _ _ _ _ _ H1) as (? & ? & _ & _ & _ & -> & _); exact O). rewrite O1 in H.
  rewrite (orbit_twice _ _ _ _ _ _ _ H1) in H. destruct (do_orbit factor m t (- tscale t) None) as [[t2 d2]| |] eqn:H2; cbn [bind fst snd] in H; try discriminate.
  destruct (orbit_cols _ _ _ _ _ _ _ _ H1 Sp) as (-> & _ & I1 & V1). destruct (orbit_cols _ _ _ _ _ _ _ _ H2 Sq) as (-> & _ & I2 & V2).
  destruct (deriv_cols (vdp p - vdp q) (tcols t2) (tcols t1)) as [cs| |] eqn:D; cbn [bind] in H; try discriminate. inversion H; subst t'. cbn [tcols with_cols].
  assert (I12 : map idx (tcols t2) = map idx (tcols t1)) by congruence.
  destruct (deriv_cols_spec _ (tcols t2) (tcols t1) I12 ltac:(intros c d Hc Hd; destruct (V2 c Hc) as [-> _]; destruct (V1 d Hd) as [-> _]; reflexivity) _ D) as [Ic Vc].
  split; [congruence|]. intros c Hc. destruct (Vc c Hc) as (a & b & Ha & Hb & Ea & Eb & L & Vr). destruct (V1 b Hb) as [Lb Wb]. destruct (V2 a Ha) as [La Wa]. split; [congruence|].
  intros r Hr. specialize (Wa r Hr). specialize (Wb r Hr). destruct (Vr r ltac:(lia)) as [P Q]. split.
  - intros E. rewrite (P E). rewrite E in Ea. destruct (idx_inv _ _ _ _ Ea) as (E1 & E2 & E3). rewrite E1, E2, E3 in Wa. exact (value_s _ _ _ _ _ _ Wa).
  - intros i Hi E. destruct (Q ltac:(rewrite E; intros F; inversion F; lia)) as [Nz ->]. split; [lra|]. rewrite E in Ea, Eb.
    destruct (idx_inv _ _ _ _ Ea) as (E1 & E2 & E3). rewrite E1, E2, E3 in Wa. apply (value_orbit _ _ _ _ _ _ _ Hi) in Wa.
    destruct (idx_inv _ _ _ _ Eb) as (F1 & F2 & F3). rewrite F1, F2, F3 in Wb. apply (value_orbit _ _ _ _ _ _ _ Hi) in Wb. rewrite Wa, Wb. reflexivity.
Qed.
Print Assumptions C237_orbit.
Lemma derivs_ok path dp vm vp : dp <> 0 -> length vm = length vp -> exists v, derivs path dp vm vp = Ok v.
Proof.
  intros N. revert vm. induction vp as [|p vp IH]; intros vm L; destruct vm as [|m vm]; cbn [derivs length] in *; try discriminate; [eauto|].
  destruct (IH vm ltac:(lia)) as [v E]. destruct (Reqb_spec dp 0); [contradiction|]. destruct path; cbn [bind]; rewrite E; cbn; eauto.
Qed.
Lemma deriv_cols_ok dp cm cp : dp <> 0 -> (forall c d, In c cm -> In d cp -> length (cval c) = length (cval d)) -> exists cs, deriv_cols dp cm cp = Ok cs.
Proof.
  intros N. revert cp. induction cm as [|a cm IH]; intros cp L; destruct cp as [|b cp]; cbn [deriv_cols]; eauto.
  match goal with |- context [derivs ?x dp _ _] => destruct (derivs_ok x dp (cval a) (cval b) N (L a b (or_introl eq_refl) (or_introl eq_refl))) as [v ->] end.
  cbn [bind]. destruct (IH cp) as [cs ->]; [intros c d Hc Hd; apply L; right; assumption|]. cbn. eauto.
Qed.
Lemma do_orbit_ok factor m t s p : m <> [] -> starts factor m t s false None p -> Forall (fun c => legal 6 (idx c)) (tcols t) -> exists t', do_orbit factor m t s None = Ok (t', vdp p).
Proof.
  intros NE (w & it & E) L. unfold do_orbit. unfold co_transverse, new_co, co_set_delta, co_set_scale in *. cbn [cotrans corad codelta cotol comax cosize conum coscale] in *. rewrite E. cbn [of_orbit bind fst].
  destruct m as [|c m]; [contradiction|]. destruct (walk_orbit_ok s (c :: m) p 0 (map clear_values (tcols t))) as [cs W]; [rewrite Forall_map; exact L|]. rewrite W. cbn [bind]. eauto.
Qed.
Theorem C237_total : forall factor eig m t p q, torbit t = true -> m <> [] -> starts factor m t (tscale t) false None p -> starts factor m t (- tscale t) false None q ->
  vdp p <> vdp q -> Forall (fun c => legal 6 (idx c)) (tcols t) -> exists t', energy_derivative factor eig m t = Ok t'.
Proof.
  intros factor eig m t p q O NE Sp Sq N L. unfold energy_derivative. rewrite O. destruct (do_orbit_ok _ _ _ _ _ NE Sp L) as [t1 H1]. rewrite H1. cbn [bind fst snd].
  assert (O1 : torbit t1 = true) by (destruct (do_orbit_inv _ _ _ _ _ _ _ H1) as (? & ? & _ & _ & _ & -> & _); exact O). rewrite O1.
  rewrite (orbit_twice _ _ _ _ _ _ _ H1). destruct (do_orbit_ok _ _ _ _ _ NE Sq L) as [t2 H2]. rewrite H2. cbn [bind fst snd].
  destruct (orbit_cols _ _ _ _ _ _ _ _ H1 Sp) as (_ & _ & _ & V1). destruct (orbit_cols _ _ _ _ _ _ _ _ H2 Sq) as (_ & _ & _ & V2).
  destruct (deriv_cols_ok (vdp p - vdp q) (tcols t2) (tcols t1)) as [cs ->]; [lra| |cbn; eauto].
  intros c d Hc Hd. destruct (V2 c Hc) as [-> _]. destruct (V1 d Hd) as [-> _]. reflexivity.
Qed.
Print Assumptions C237_total.

(* ---- C238, C239: longitudinal motion that is not stable ---- *)
Lemma forced_ok t M : (tforce t = true -> Rabs (M 4%nat 4%nat - 1) <= / 10 ^ 8) -> exists M', forced t M = Ok M' /\ M' = (if tforce t then mset 4 4 (1 - / 1000000000000) M else M).
Proof.
  intros H. unfold forced. destruct (tforce t); [|eauto]. destruct (Rltb_spec (/ 100000000) (Rabs (M 4%nat 4%nat - 1))) as [L|L]; [|eauto].
  exfalso. specialize (H eq_refl). replace (10 ^ 8) with 100000000 in H by ring. lra.
Qed.
Definition lap_of (m : list lcomp) (t : table) (Mi : option (nat -> nat -> R)) (p : vec6) : nat -> nat -> R := match Mi with Some M => M | None => slopes (tscale t) m (length m) (tdelta t) p end.
Lemma turn_known t m Mi p : m <> [] -> tdelta t <> 0 -> exists M, turn_matrix t m (tscale t) Mi p = Ok M /\ same_mat 6 M (lap_of m t Mi p).
Proof.
  intros NE D. destruct Mi as [M|]; [exists M; split; [reflexivity|intros i j _ _; reflexivity]|].
  destruct (turn_ok t m (tscale t) p NE D) as [M H]. exists M. split; [exact H|]. exact (turn_is _ _ _ _ _ _ H).
Qed.
Lemma start_orbit factor m t pi p : starts factor m t (tscale t) true pi p ->
  match pi with
  | Some p => Ok p
  | None => do o <- of_orbit (find_orbit factor (map lc m) (co_set_scale (tscale t) (co_transverse true (co_set_delta (tdelta t) new_co))) 0 vzero); Ok (fst (fst o))
  end = Ok p.
Proof. destruct pi as [q|]; cbn [starts]; [intros ->; reflexivity|]. intros (w & it & ->). reflexivity. Qed.
(* the matrix of the first row is the unit matrix *)
Lemma first_inverse n d s l p : (n <= 6)%nat -> d <> 0 -> exists i, of_la (Gauss.inverse n n (Qat n d s l 1 p (fun k => bump k d p) 0)) = Ok i.
Proof.
  intros N D. destruct (GaussProps.C111_inverse n (Qat n d s l 1 p (fun k => bump k d p) 0)) as (B & q & -> & _); [|eexists; reflexivity].
  exists Mat.mid. assert (E : Mat.meq n (Qat n d s l 1 p (fun k => bump k d p) 0) Mat.mid).
  { intros i j Hi Hj. unfold Qat. replace (prun n s l 1 (bump j d p) 0) with (grow_by n 1 (bump j d p)) by (destruct l; reflexivity). replace (gat l 1 0) with 1 by (destruct l; reflexivity). rewrite !grow_one. change (arrives s l 0 p) with p. rewrite bump_nudge by lia.
    pose proof (slopes_0 s l d p D i j ltac:(lia) ltac:(lia)) as Q. unfold slopes in Q. change (arrives s l 0 (nudge j d p)) with (nudge j d p) in Q. change (arrives s l 0 p) with p in Q. rewrite Q. unfold delta_, Mat.mid. reflexivity. }
  split; intros i j Hi Hj.
  - rewrite (mmul_meq_r n _ Mat.mid) by assumption. apply MatFacts.mmul_id_l. exact Hi.
  - rewrite (mmul_meq_l n _ Mat.mid) by assumption. apply MatFacts.mmul_id_l. exact Hi.
Qed.
Lemma row_illegal s p N cs : Forall (fun c => legal 4 (idx c) \/ ck c = 3%Z) cs -> Exists (fun c => ck c = 3%Z) cs -> calc_row 4 false s p N cs = Throw Illegal.
Proof.
  intros F E. induction F as [|c cs H _ IH]; [inversion E|]. cbn [calc_row]. destruct (Z.eq_dec (ck c) 3) as [K|K].
  - rewrite K. reflexivity.
  - destruct H as [H|H]; [|contradiction]. destruct (value_legal 4 false s p N _ _ _ eq_refl H) as [v ->]. cbn [bind]. rewrite IH; [reflexivity|]. inversion E; [contradiction|assumption].
Qed.
Theorem C238_unstable : forall factor eig m t pi Mi p re im, torbit t = false -> starts factor m t (tscale t) true pi p -> m <> [] -> tdelta t <> 0 -> tsymp t = false ->
  (tforce t = true -> Rabs (lap_of m t Mi p 4%nat 4%nat - 1) <= / 10 ^ 8) ->
  says eig (turn_of t m (tscale t) Mi p) false re im ->
  Forall (fun c => legal 4 (idx c) \/ ck c = 3%Z) (tcols t) -> Exists (fun c => ck c = 3%Z) (tcols t) ->
  calculate factor eig m t pi Mi = Throw Illegal.
Proof.
  intros factor eig m t pi Mi p re im O S NE D Y Fo E F X. unfold calculate. rewrite O. unfold do_calculate. rewrite (start_orbit _ _ _ _ _ S). cbn [bind].
  destruct (turn_known t m Mi p NE D) as (M & -> & SM). cbn [bind]. destruct (forced_ok t M) as (M' & -> & EM).
  { intros T. rewrite (SM 4%nat 4%nat) by lia. exact (Fo T). }
  cbn [bind]. rewrite Y. cbn [bind]. rewrite (E M').
  2: { subst M'. unfold turn_of, lap_of in *. intros i j Hi Hj. specialize (SM i j Hi Hj). destruct (tforce t); [|exact SM]. unfold mset. destruct (Nat.eqb i 4 && Nat.eqb j 4); [|exact SM]. replace (10 ^ 12) with 1000000000000 by ring. reflexivity. }
  destruct (Reqb_spec (tdelta t) 0); [contradiction|]. destruct m as [|c m]; [contradiction|]. rewrite walk_unfold. cbv zeta.
  destruct (first_inverse 4 (tdelta t) (tscale t) (c :: m) p ltac:(lia) D) as [i Hi]. change (if false then 6 else 4)%nat with 4%nat. rewrite Hi. cbn [bind].
  rewrite row_illegal; [reflexivity| |].
  - rewrite Forall_map. exact F.
  - apply Exists_exists in X. destruct X as (x & X1 & X2). apply Exists_exists. exists (clear_values x). split; [apply in_map; exact X1|exact X2].
Qed.
Print Assumptions C238_unstable.
(* ForceLongitudinalStability leaves the program if one turn changes ct by more than 1e-8 of it *)
Theorem C238_forced : forall factor eig m t pi Mi p, torbit t = false -> starts factor m t (tscale t) true pi p -> m <> [] -> tdelta t <> 0 -> tforce t = true ->
  / 10 ^ 8 < Rabs (lap_of m t Mi p 4%nat 4%nat - 1) -> calculate factor eig m t pi Mi = Throw Exit1.
Proof.
  intros factor eig m t pi Mi p O S NE D Y G. unfold calculate. rewrite O. unfold do_calculate. rewrite (start_orbit _ _ _ _ _ S). cbn [bind].
  destruct (turn_known t m Mi p NE D) as (M & -> & SM). cbn [bind]. unfold forced. rewrite Y, (SM 4%nat 4%nat) by lia.
  destruct (Rltb_spec (/ 100000000) (Rabs (lap_of m t Mi p 4%nat 4%nat - 1))) as [L|L]; [reflexivity|]. exfalso. apply L. replace (10 ^ 8) with 100000000 in G by ring. exact G.
Qed.
Print Assumptions C238_forced.
Definition falls : eigsys := fun _ => Some (false, qre, qim).
Example C238_instance : calculate (fun _ _ => None) falls qring new_table (Some vzero) None = Throw Illegal /\
  calculate (fun _ _ => None) falls qring (force_stable true new_table) (Some vzero) None = Throw Exit1 /\
  (exists t', calculate (fun _ _ => None) falls qring (history [TOrbit; TAdd 1 1 1; TAdd 0 0 2]) (Some vzero) None = Ok t').
Proof.
  split; [|split].
  - apply (C238_unstable _ _ _ _ _ _ vzero qre qim); [reflexivity|reflexivity|discriminate|exact qdelta|reflexivity|discriminate|intros B _; reflexivity| |].
    + match goal with |- Forall _ ?l => let v := eval vm_compute in l in change l with v end. repeat (apply Forall_cons; [first [right; reflexivity|left; cbn; lia]|]). apply Forall_nil.
    + match goal with |- Exists _ ?l => let v := eval vm_compute in l in change l with v end. do 11 apply Exists_cons_tl. apply Exists_cons_hd. reflexivity.
  - apply (C238_forced _ _ _ _ _ _ vzero); [reflexivity|reflexivity|discriminate|exact qdelta|reflexivity|].
    cbn [lap_of tscale tdelta force_stable]. rewrite (qslopes 2 _ qdelta (le_n 2)) by lia. cbn [qmat Nat.eqb Nat.add Nat.even andb]. unfold qmat. cbn. unfold Rabs. destruct (Rcase_abs (0 - 1)); lra.
  - apply (C224_total (fun _ _ => None) falls qring (history [TOrbit; TAdd 1 1 1; TAdd 0 0 2]) vzero None false qre qim eq_refl ltac:(discriminate) qdelta eq_refl qcoast).
    + discriminate.
    + intros B _. reflexivity.
    + intros r Hr. cbn [dim]. destruct r as [|r].
      * apply (has_inverse_ext 4 _ delta_); [intros i j Hi Hj; apply (qslopes 0 _ qdelta); lia|]. exists delta_. split; intros i j Hi Hj; unfold product; apply (tot_delta 4 i (fun k => delta_ k j) Hi).
      * apply (has_inverse_ext 4 _ qmat); [intros i j Hi Hj; apply (qslopes (S r) _ qdelta); cbn in Hr; lia|]. exists (fun i j => qmat j i). split; intros i j Hi Hj;
          do 4 (destruct i as [|i]; [do 4 (destruct j as [|j]; [cbv [product tot seq sum map fold_right qmat delta_ Nat.eqb Nat.even Nat.add andb]; ring|]); lia|]); lia.
    + legals.
Qed.
(* MakeTMSymplectic takes away the case of a beam that is stable only across *)
Theorem C239_refuted : forall factor eig m t p M re im, torbit t = false -> m <> [] -> tdelta t <> 0 -> tforce t = false -> tsymp t = true ->
  SympProps.symplectic M -> Mat.invertible 6 (Mat.madd Mat.mid M) -> says eig M false re im ->
  calculate factor eig m t (Some p) (Some M) = UB.
Proof.
  intros factor eig m t p M re im O NE D Fo Y SM I E. unfold calculate. rewrite O. unfold do_calculate. cbn [bind turn_matrix]. unfold forced. rewrite Fo. cbn [bind]. rewrite Y.
  destruct (SympProps.C112_unchanged M SM I) as (B & -> & SB). cbn [of_la bind]. rewrite (E B) by exact SB.
  destruct (Reqb_spec (tdelta t) 0); [contradiction|]. destruct m as [|c m]; [contradiction|]. rewrite walk_unfold. cbv zeta.
  destruct (first_inverse 4 (tdelta t) (tscale t) (c :: m) p ltac:(lia) D) as [i Hi]. change (if false then 6 else 4)%nat with 4%nat. rewrite Hi. reflexivity.
Qed.
Print Assumptions C239_refuted.
Lemma mid_symplectic : SympProps.symplectic Mat.mid.
Proof.
  intros i j Hi Hj. do 6 (destruct i as [|i]; [do 6 (destruct j as [|j]; [cbv [Mat.mmul Mat.mtr Mat.mid Mat.sumn Nat.eqb Gauss.symp_s Nat.even Nat.add Nat.sub andb]; ring|]); lia|]). lia.
Qed.
Example C239_instance : calculate (fun _ _ => None) falls qring (make_symplectic true (history [TOrbit; TAdd 1 1 1])) (Some vzero) (Some Mat.mid) = UB.
Proof.
  apply (C239_refuted _ _ _ _ _ _ qre qim); try reflexivity; [discriminate|exact qdelta|exact mid_symplectic| |intros B _; reflexivity].
  exists (fun i j => if Nat.eqb i j then / 2 else 0). split; intros i j Hi Hj; do 6 (destruct i as [|i]; [do 6 (destruct j as [|j]; [cbv [Mat.mmul Mat.madd Mat.mid Mat.sumn Nat.eqb]; field|]); lia|]); lia.
Qed.

(* ---- examples for C236 and C237 ---- *)
Definition ones : fact := fun _ _ => Some (delta_, fun _ => 1, fun i j => - delta_ i j).
Lemma ones_solve n M b : (n = 4 \/ n = 6)%nat -> exists x, svd_solve ones n M b = Ok x /\ forall i, (i < n)%nat -> x i = - b i.
Proof.
  intros N. unfold svd_solve, ones.
  assert (E : all_small (fun _ => 1) (threshold * largest (fun _ => 1) (n - 1)) n = false).
  { assert (L : forall k, largest (fun _ => 1) k = 1) by (induction k as [|k IH]; cbn; [reflexivity|]; rewrite IH; unfold Rmax; destruct (Rle_dec 1 1); lra).
    rewrite L. destruct n as [|n]; [lia|]. cbn [all_small]. destruct (Rleb_spec 1 (threshold * 1)) as [Q|Q]; [unfold threshold in Q; lra|]. apply andb_false_r. }
  rewrite E. eexists. split; [reflexivity|]. intros i Hi. cbv beta.
  assert (L : forall k, largest (fun _ => 1) k = 1) by (induction k as [|k IH]; cbn; [reflexivity|]; rewrite IH; unfold Rmax; destruct (Rle_dec 1 1); lra).
  rewrite L. destruct (Rleb_spec 1 (threshold * 1)) as [Q|Q]; [unfold threshold in Q; lra|]. destruct (Reqb_spec 1 0); [lra|].
  destruct N as [-> | ->]; [do 4 (destruct i as [|i]; [cbn; field|])|do 6 (destruct i as [|i]; [cbn; field|])]; lia.
Qed.
Lemma ones_newton (n : nat) (d : R) (T : vec6 -> vec6) (p q : vec6) : (n = 4 \/ n = 6)%nat -> d <> 0 -> (forall i, (i < 6)%nat -> coord i q = if Nat.ltb i n then coord i (T p) else coord i p) ->
  exists w, newton ones n d T p = Ok (q, w).
Proof.
  intros N D E. unfold newton. destruct (Reqb_spec d 0); [contradiction|]. cbv zeta.
  match goal with |- context [svd_solve ones n ?A ?b] => destruct (ones_solve n A b N) as (x & -> & X) end. cbn [bind]. eexists. f_equal. f_equal.
  apply vec_eq. intros i Hi. rewrite coord_vof by exact Hi. rewrite E by exact Hi. destruct (Nat.ltb_spec i n); [rewrite X by assumption; ring|reflexivity].
Qed.
Lemma ones_iterate (n : nat) (d tol : R) (T : vec6 -> vec6) (fuel : nat) (p q : vec6) : (n = 4 \/ n = 6)%nat -> d <> 0 -> (forall i, (i < 6)%nat -> coord i q = if Nat.ltb i n then coord i (T p) else coord i p) ->
  (forall i, (i < n)%nat -> coord i (T q) = coord i q) -> forall it w, exists w' it', iterate ones n d tol T fuel it w q = Ok (q, w', it').
Proof.
  intros N D E C. induction fuel as [|fuel IH]; intros it w; cbn [iterate]; [eauto|]. destruct (Rltb tol w); [|eauto].
  destruct (ones_newton n d T q q N D) as [w1 ->]; [intros i Hi; destruct (Nat.ltb_spec i n); [symmetry; apply C; assumption|reflexivity]|]. cbn [bind fst snd]. apply IH.
Qed.
Lemma ones_starts (m : list lcomp) (t : table) (s : R) (b : bool) (q : vec6) : m <> [] -> tdelta t <> 0 -> (forall i, (i < 6)%nat -> coord i q = if Nat.ltb i (if b then 4 else 6)%nat then coord i (through s None (map lc m) vzero) else 0) ->
  (forall i, (i < if b then 4 else 6)%nat -> coord i (through s None (map lc m) q) = coord i q) -> starts ones m t s b None q.
Proof.
  intros NE D E C. cbn [starts]. unfold find_orbit. cbn [cotrans codelta cotol coscale corad cosize conum co_set_scale co_transverse co_set_delta new_co comax].
  assert (G : get_ring (map lc m) 0 = Ok (map lc m)). { unfold get_ring. rewrite map_length. destruct m as [|c m]; [contradiction|]. cbn [length Z.leb andb]. destruct (Z.ltb_spec 0 (Z.of_nat (S (length m)))); [|lia]. cbn [Z.to_nat skipn firstn]. rewrite app_nil_r. reflexivity. }
  rewrite G. cbn [bind]. cbn [rad_of bind]. change (Z.to_nat (20 - 1)) with (S 18). generalize 18%nat. intros fuel. cbn [iterate]. destruct (Rltb_spec (/ 100000000000000000000000000) 1); [|lra].
  assert (N : ((if b then 4 else 6) = 4 \/ (if b then 4 else 6) = 6)%nat) by (destruct b; [left|right]; reflexivity).
  assert (E' : forall i, (i < 6)%nat -> coord i q = if Nat.ltb i (if b then 4 else 6)%nat then coord i (through s None (map lc m) vzero) else coord i vzero).
  { intros i Hi. rewrite E by exact Hi. destruct (Nat.ltb i _); [reflexivity|]. do 6 (destruct i as [|i]; [reflexivity|]). lia. }
  destruct (ones_newton (if b then 4 else 6)%nat (tdelta t) (through s None (map lc m)) vzero q N D E') as [w ->]. cbn [bind fst snd].
  apply (ones_iterate _ _ _ _ _ vzero q N D E' C).
Qed.
Lemma started factor eig m t p Mi : starts factor m t (tscale t) true None p -> torbit t = false -> calculate factor eig m t None Mi = calculate factor eig m t (Some p) Mi.
Proof.
  intros S O. unfold calculate. rewrite O. unfold do_calculate. pose proof (start_orbit _ _ _ _ _ S) as E. cbv iota beta in E. rewrite E. reflexivity.
Qed.
Lemma qscaled s : exists t', calculate ones qeig qring (scale_bends s qtable) None None = Ok t'.
Proof.
  assert (P : forall c, In c qring -> cbend (lc c) = false) by (intros c [<-|[<-|[]]]; reflexivity).
  assert (A : forall r v, arrives s qring r v = arrives 0 qring r v).
  { assert (B : forall l, (forall c, In c l -> cbend (lc c) = false) -> forall r v, arrives s l r v = arrives 0 l r v).
    { induction l as [|c l IH]; intros Hl r v; destruct r as [|r]; try reflexivity. rewrite !arrives_S. unfold pass. rewrite (Hl c (or_introl eq_refl)), !andb_false_r. apply IH. intros x Hx. apply Hl. right. exact Hx. }
    apply B. exact P. }
  assert (Z : through s None (map lc qring) vzero = vzero) by (rewrite <- arrives_all, A; cbn; unfold arrives, moved; cbn; unfold quarter; cbn; rewrite Ropp_0; reflexivity).
  rewrite (started ones qeig qring (scale_bends s qtable) vzero None).
  - apply (C224_total ones qeig qring (scale_bends s qtable) vzero None true qre qim eq_refl ltac:(discriminate) qdelta eq_refl qcoast).
    + discriminate.
    + intros B _. reflexivity.
    + intros r Hr. apply (has_inverse_ext 6 _ (slopes 0 qring r (tdelta qtable) vzero)); [|apply qinv; [exact qdelta|exact Hr]]. intros i j _ _. unfold slopes. cbn [tscale scale_bends tdelta]. rewrite !A. reflexivity.
    + exact qlegal.
  - apply ones_starts; [discriminate|exact qdelta| |]; cbn [tscale scale_bends].
    + intros i Hi. rewrite Z. do 6 (destruct i as [|i]; [reflexivity|]). lia.
    + intros i Hi. rewrite Z. reflexivity.
  - reflexivity.
Qed.
Example C236_instance : energy_derivative ones qeig qring (history [TAdd 0 0 1; TScale (/ 1000)]) = Throw NotNumber.
Proof.
  destruct (qscaled (/ 1000)) as [a Ha]. destruct (qscaled (- / 1000)) as [b Hb]. apply (C236_refuted ones qeig qring [TAdd 0 0 1; TScale (/ 1000)] a b); [reflexivity|exact Ha|exact Hb].
Qed.
(* a bend, then something that makes the delay the position and the momentum *)
Definition delays : list lcomp := [mkL (mkC 2 true (fun _ v => v)) 1; mkL (mkC 1 false (fun _ v => V6 (vct v) 0 0 0 0 (vct v))) 1].
Lemma delays_start t s : tdelta t <> 0 -> s <> 0 -> starts ones delays t s false None (V6 (s * 2) 0 0 0 0 (s * 2)).
Proof.
  intros D N. apply ones_starts; [discriminate|exact D| |]; intros i Hi; cbn; unfold pass; cbn; destruct (Reqb_spec s 0); try contradiction; cbn;
    (do 6 (destruct i as [|i]; [cbn; ring|])); lia.
Qed.
Example C237_instance : exists t', energy_derivative ones qeig delays (history [TOrbit; TScale (/ 10)]) = Ok t' /\
  forall c, In c (tcols t') -> idx c = (1, 0, 0)%Z -> at_row c 0 = 1.
Proof.
  set (t := history [TOrbit; TScale (/ 10)]).
  assert (D : tdelta t <> 0) by exact qdelta.
  assert (Sp : starts ones delays t (tscale t) false None (V6 (/ 10 * 2) 0 0 0 0 (/ 10 * 2))) by (apply delays_start; [exact D|cbn; lra]).
  assert (Sq : starts ones delays t (- tscale t) false None (V6 (- / 10 * 2) 0 0 0 0 (- / 10 * 2))) by (apply delays_start; [exact D|cbn; lra]).
  destruct (C237_total ones qeig delays t _ _ eq_refl ltac:(discriminate) Sp Sq ltac:(cbn; lra) ltac:(legals)) as [t' H].
  exists t'. split; [exact H|]. intros c Hc E. destruct (C237_orbit _ _ _ t _ _ _ eq_refl H Sp Sq) as [_ V]. destruct (V c Hc) as [_ V']. destruct (V' 0%nat ltac:(cbn; lia)) as [_ W].
  destruct (W 1%Z ltac:(lia) E) as [_ ->]. cbn. field.
Qed.
