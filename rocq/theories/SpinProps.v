(* Properties of the rotation of spins: C262-C266, C277. *)
From Verif Require Import Rot RotSpec RotProofs Spin SpinSpec SpinProofs.
From Coq Require Import ZArith.
Local Open Scope R_scope.

(* C262: no history of operations changes the length of a spin. *)
Definition of_length (L : R) (o : sop) : Prop :=
  match o with
  | OAdd _ => L = 1
  | OAddSpin _ s => len2 s = L
  | OTransform t => exists e, rr t = rrun e
  | _ => True
  end.
Lemma remove_nth_incl {A} n (l r : list A) : remove_nth n l = Some r -> incl r l.
Proof.
  revert n r. induction l as [|x l IH]; intros n r; [intros E; discriminate E|]. destruct n as [|n]; cbn.
  - intros E. injection E as <-. apply incl_tl, incl_refl.
  - destruct (remove_nth n l) as [q|] eqn:Q; [|intros E; discriminate E]. intros E. injection E as <-. intros y [<-|H]; [now left | right; exact (IH _ _ Q _ H)].
Qed.
Theorem C262_step_keeps ds st b st' b' : spin_step ds (st, b) = Ok (st', b') -> map len2 (spins b') = map len2 (spins b).
Proof.
  unfold spin_step. destruct (fld st) as [f|].
  - destruct (spin_all _ _ _) as [r|e|] eqn:Q; try discriminate. cbn [bind]. intros E. injection E as <- <-. cbn [spins].
    eapply spin_all_len2; [|exact Q]. intros p s s'. apply one_spin_len.
  - destruct (sparts b); [|discriminate]. intros E. now injection E as <- <-.
Qed.
Theorem C262_transform_keeps t e b : rr t = rrun e -> map len2 (spins (sb_transform t b)) = map len2 (spins b).
Proof.
  intros E. unfold sb_transform. cbn [spins]. destruct (ris_identity (rr t)); [reflexivity|]. rewrite map_map. apply map_ext. intros s.
  rewrite E. exact (rotate_vdot (rrun e) s s (wf_run e)).
Qed.
Theorem C262_length L ops : Forall (of_length L) ops -> forall st b st' b',
  Forall (fun s => len2 s = L) (spins b) -> sop_run ops (st, b) = Ok (st', b') -> Forall (fun s => len2 s = L) (spins b').
Proof.
  assert (M : forall a c, map len2 a = map len2 c -> Forall (fun s => len2 s = L) c -> Forall (fun s => len2 s = L) a).
  { intros a c E H. apply (Forall_map len2 (fun q => q = L)). rewrite E. now apply Forall_map. }
  induction 1 as [|o ops Ho _ IH]; intros st b st' b' F E.
  - cbn in E. now injection E as <- <-.
  - cbn [sop_run] in E. destruct (sop_step o (st, b)) as [[st1 b1]|e|] eqn:Q; try discriminate. cbn [bind] in E. refine (IH _ _ _ _ _ E). clear E IH.
    destruct o as [p|p s|n| |l|t|n|p|m f len|ds]; cbn [sop_step of_length] in *.
    + injection Q as <- <-. cbn. apply Forall_app. split; [exact F|]. constructor; [|constructor]. unfold len2. cbn. lra.
    + injection Q as <- <-. cbn. apply Forall_app. split; [exact F|]. constructor; [assumption|constructor].
    + unfold sb_erase in Q. destruct (remove_nth n (sparts b)); [|discriminate]. destruct (remove_nth n (spins b)) as [r|] eqn:R; [|discriminate]. cbn in Q. injection Q as <- <-. cbn.
      rewrite Forall_forall in *. intros x Hx. apply F. exact (remove_nth_incl _ _ _ R _ Hx).
    + now injection Q as <- <-.
    + now injection Q as <- <-.
    + injection Q as <- <-. destruct Ho as [e He]. exact (M _ _ (C262_transform_keeps t e b He) F).
    + now injection Q as <- <-.
    + now injection Q as <- <-.
    + now injection Q as <- <-.
    + exact (M _ _ (C262_step_keeps _ _ _ _ _ Q) F).
Qed.
Print Assumptions C262_length.

(* C263: outside bends and away from the ends of solenoids the spin obeys the equation
   of Thomas, Bargmann, Michel and Telegdi exactly, each with its own momentum. *)
Theorem C263_solution Om ds s : exists s', turned Om ds s s' /\ forall u, turned Om ds s u -> u = s'.
Proof. destruct (turned_exists Om ds s) as [s' H]. exists s'. split; [exact H|]. intros u K. exact (turned_fun _ _ _ _ _ K H). Qed.
Print Assumptions C263_solution.
Theorem C263_precession st f b ds st' b' : fld st = Some f -> is_bend (mag st) = false ->
  mag st = Plain \/ intS st <> 0 /\ eps < Rabs (intS st + ds - clength st) ->
  sP0 b <> 0 -> spin_step ds (st, b) = Ok (st', b') ->
  forall i p s, nth_error (sparts b) i = Some p -> nth_error (spins b) i = Some s -> 1 + psdp p <> 0 ->
  exists s', nth_error (spins b') i = Some s' /\
    turned (bmt (rigidity (sP0 b) * (1 + psdp p)) (lorentz ((if Req_EM_T (pspin st) 0 then sP0 b else pspin st) * (1 + psdp p))) (f (psx p) (psy p))) ds s s'.
Proof.
  intros F NB W N E i p s Hp Hs D. unfold spin_step in E. rewrite F in E. destruct (spin_all _ _ _) as [r|e|] eqn:Q; try discriminate. cbn [bind] in E. injection E as <- <-. cbn [spins].
  destruct (spin_all_nth _ _ _ _ Q) as (_ & _ & K & _). destruct (K i p s Hp Hs) as (s' & G & H). exists s'. split; [exact H|].
  apply one_spin_stepped in G; [|assumption|assumption]. destruct G as (s1 & s2 & A & B & C & X & Y). unfold body_rate in C. rewrite NB in C.
  destruct W as [Pl | [I0 I1]].
  - rewrite Pl in *. cbn [entrance_rate exit_rate] in *. assert (Z : len2 (mkv 0 0 0) = 0) by (unfold len2; cbn; ring).
    assert (s1 = s) by (destruct (Req_dec (intS st) 0) as [I|I]; [exact (turned_fun _ _ _ _ _ (A I) (turned_zero 1 s _ Z)) | now apply B]). subst s1.
    assert (s' = s2) by (destruct (Rle_lt_dec (Rabs (intS st + ds - clength st)) eps) as [I|I]; [exact (turned_fun _ _ _ _ _ (X I) (turned_zero 1 s2 _ Z)) | now apply Y]). subst s'. exact C.
  - rewrite (Y I1). rewrite (B I0) in C. exact C.
Qed.
Print Assumptions C263_precession.

(* C264: a step takes in the fringe field where a magnet is entered, the body over the
   length of the step, and the fringe field where the magnet is left; it changes the
   spins of the particles and nothing else. *)
Theorem C264_step st f b ds st' b' : fld st = Some f -> sP0 b <> 0 -> (forall p, In p (sparts b) -> 1 + psdp p <> 0) ->
  spin_step ds (st, b) = Ok (st', b') ->
  st' = mkSproc (ns st) (pspin st) (nk1 st) (dL st) (intS st + ds) (clength st) (mag st) (fld st) (act st) /\
  sP0 b' = sP0 b /\ sparts b' = sparts b /\ length (spins b') = length (spins b) /\
  (forall i p s, nth_error (sparts b) i = Some p -> nth_error (spins b) i = Some s -> exists s', nth_error (spins b') i = Some s' /\ stepped st f (sP0 b) ds p s s') /\
  (forall i, (length (sparts b) <= i)%nat -> nth_error (spins b') i = nth_error (spins b) i).
Proof.
  intros F N D E. unfold spin_step in E. rewrite F in E. destruct (spin_all _ _ _) as [r|e|] eqn:Q; try discriminate. cbn [bind] in E. injection E as <- <-. cbn [spins sP0 sparts].
  destruct (spin_all_nth _ _ _ _ Q) as (A & _ & K & T). split; [now rewrite F|]. split; [reflexivity|]. split; [reflexivity|]. split; [exact A|]. split; [|exact T].
  intros i p s Hp Hs. destruct (K i p s Hp Hs) as (s' & G & H). exists s'. split; [exact H|]. apply one_spin_stepped; auto. apply D. eapply nth_error_In, Hp.
Qed.
Print Assumptions C264_step.
Theorem C264_determined st f P0 ds p s a b : stepped st f P0 ds p s a -> stepped st f P0 ds p s b -> a = b.
Proof. apply stepped_fun. Qed.
Print Assumptions C264_determined.

(* C265: with positive momenta no spin becomes a non-number. *)
Lemma edge_ok bend b s gamma : 0 < gamma -> (vx b <> 0 \/ vy b <> 0 \/ vz b <> 0) -> forall ds, rotate_spin bend b ds s gamma <> None.
Proof.
  intros G H ds E. apply rotate_spin_none in E. unfold len2, rate in E. cbn [vx vy vz] in E. apply sq3_zero in E. destruct E as (X & Y & Z).
  assert (P : 0 < ge) by (unfold ge; lra). assert (Q : 0 < ge * gamma) by (now apply Rmult_lt_0_compat).
  destruct H as [H|[H|H]].
  - apply Rmult_integral in X. destruct X; [lra|contradiction].
  - apply Rmult_integral in Y. destruct bend, Y; try contradiction; lra.
  - apply Rmult_integral in Z. destruct Z; [lra|contradiction].
Qed.
Lemma test3 b : negb (Reqb (vx b) 0) || negb (Reqb (vy b) 0) || negb (Reqb (vz b) 0) = true -> vx b <> 0 \/ vy b <> 0 \/ vz b <> 0.
Proof. destruct (Reqb_spec (vx b) 0); [|auto]. destruct (Reqb_spec (vy b) 0); [|auto]. destruct (Reqb_spec (vz b) 0); [|auto]. discriminate. Qed.
Lemma mul3 n b : 0 < n -> vx b <> 0 \/ vy b <> 0 \/ vz b <> 0 -> let c := mkv (vx b * n) (vy b * n) (vz b * n) in vx c <> 0 \/ vy c <> 0 \/ vz c <> 0.
Proof. cbv zeta. cbn [vx vy vz]. intros P [H|[H|H]]; [left|right; left|right; right]; apply Rmult_integral_contrapositive_currified; lra. Qed.
Lemma rigidity_pos P : 0 < P -> 0 < rigidity P.
Proof. intros H. unfold rigidity, light. apply Rdiv_lt_0_compat; [|lra]. apply Rmult_lt_0_compat; [assumption|]. apply pow_lt. lra. Qed.
Lemma one_spin_ok st f P0 ds p s : 0 < P0 -> 0 <= pspin st -> 0 < 1 + psdp p -> one_spin st f P0 ds p s <> None.
Proof.
  intros P Q D. unfold one_spin. cbv zeta. rewrite field_norm_eq by lra. rewrite gamma_eq.
  assert (G : 0 < lorentz ((if Reqb (pspin st) 0 then P0 else pspin st) * (1 + psdp p))).
  { unfold lorentz, electron_gev. apply Rdiv_lt_0_compat; [|apply Rdiv_lt_0_compat; [lra|apply pow_lt; lra]]. apply Rmult_lt_0_compat; [|assumption]. destruct (Reqb_spec (pspin st) 0); lra. }
  set (g := lorentz _) in *. assert (NP : 0 < light / (rigidity P0 * (1 + psdp p))) by (apply Rdiv_lt_0_compat; [apply light_pos|]; apply Rmult_lt_0_compat; [now apply rigidity_pos | assumption]).
  set (n := light / (rigidity P0 * (1 + psdp p))) in *.
  assert (BE : forall B0 e sz u, bend_edge B0 e sz (Some n) p u g <> None).
  { intros B0 e sz u. unfold bend_edge. cbv zeta. cbn [vx vz]. match goal with |- (if negb (Reqb ?x 0) || negb (Reqb ?y 0) then _ else _) <> _ => destruct (Reqb_spec x 0); destruct (Reqb_spec y 0) end; cbn [negb orb]; try discriminate; apply edge_ok; cbn [vx vy vz]; auto. }
  assert (SE : forall Bz sr u, solen_edge Bz sr p u g <> None).
  { intros Bz sr u. unfold solen_edge. cbv zeta. cbn [vx vy]. match goal with |- (if negb (Reqb ?x 0) || negb (Reqb ?y 0) then _ else _) <> _ => destruct (Reqb_spec x 0); destruct (Reqb_spec y 0) end; cbn [negb orb]; try discriminate; apply edge_ok; cbn [vx vy vz]; auto. }
  destruct (if Reqb (intS st) 0 then entrance_edge (mag st) (Some n) p s g else Some s) as [s1|] eqn:E1.
  2: { exfalso. destruct (Reqb (intS st) 0); [|discriminate]. destruct (mag st); cbn [entrance_edge] in E1; [discriminate | eapply BE, E1 | eapply SE, E1]. }
  cbn [obind]. destruct (body (mag st) f ds (Some n) p s1 g) as [s2|] eqn:E2.
  2: { exfalso. unfold body in E2. set (b := f (psx p) (psy p)) in *. destruct (negb (Reqb (vx b) 0) || negb (Reqb (vy b) 0) || negb (Reqb (vz b) 0)) eqn:T; [|discriminate]. eapply edge_ok; [exact G | | exact E2]. apply mul3; [exact NP|]. now apply test3. }
  cbn [obind]. destruct (fequal (intS st + ds) (clength st)); [|discriminate]. destruct (mag st); cbn [exit_edge]; [discriminate | apply BE | apply SE].
Qed.
Theorem C265_numbers st f b ds : fld st = Some f -> 0 < sP0 b -> 0 <= pspin st -> (forall p, In p (sparts b) -> 0 < 1 + psdp p) ->
  length (spins b) = length (sparts b) -> exists st' b', spin_step ds (st, b) = Ok (st', b').
Proof.
  intros F P Q D L. unfold spin_step. rewrite F. destruct (spin_all_ok (one_spin st f (sP0 b) ds) (sparts b) (spins b)) as [rs E]; [lia| |].
  - intros p s Hp. apply one_spin_ok; auto.
  - rewrite E. cbn [bind]. eauto.
Qed.
Print Assumptions C265_numbers.

(* ... but a particle that has lost all its momentum poisons its spin in any field *)
Theorem C265_stopped st f b ds p l s ss : fld st = Some f -> is_bend (mag st) = false -> mag st = Plain -> sparts b = p :: l -> spins b = s :: ss -> length ss = length l ->
  (forall q, In q l -> 0 < 1 + psdp q) -> 0 < sP0 b -> 0 <= pspin st -> psdp p = -1 -> 0 < len2 (f (psx p) (psy p)) -> spin_step ds (st, b) = Throw NotNumber.
Proof.
  intros F _ M SP SS L D P Q Hp B. unfold spin_step. rewrite F, SP, SS. cbn [spin_all].
  destruct (spin_all_ok (one_spin st f (sP0 b) ds) l ss) as [rs E]; [lia|intros q u Hq; apply one_spin_ok; auto|]. rewrite E. cbn [bind].
  assert (G : one_spin st f (sP0 b) ds p s = None); [|now rewrite G].
  unfold one_spin. cbv zeta. rewrite M. cbn [entrance_edge exit_edge]. replace (field_norm (sP0 b / unit_ev / light_speed) (psdp p)) with (@None R) by (unfold field_norm; rewrite (Reqb_true (1 + psdp p) 0) by lra; now rewrite Bool.orb_true_r).
  assert (BN : body Plain f ds None p s (spin_gamma (if Reqb (pspin st) 0 then sP0 b else pspin st) (psdp p)) = None).
  { unfold body. set (v := f (psx p) (psy p)) in *. destruct (Reqb_spec (vx v) 0) as [X|]; [|reflexivity]. destruct (Reqb_spec (vy v) 0) as [Y|]; [|reflexivity]. destruct (Reqb_spec (vz v) 0) as [Z|]; [|reflexivity]. exfalso. unfold len2 in B. rewrite X, Y, Z in B. lra. }
  destruct (Reqb (intS st) 0); cbn [obind]; rewrite BN; reflexivity.
Qed.
Print Assumptions C265_stopped.

(* cases *)
Definition at_place (x y dp : R) : part := mkps x 0 y 0 0 dp 0%nat.
Definition one (P x y dp : R) (s : vec3) : sbunch := mkSB P [at_place x y dp] [s].
Definition up : vec3 := mkv 0 0 1.
Definition inside (m : magnet) (f : R -> R -> vec3) (len : R) : sproc := enter_component m (Some f) len true (new_sproc 1).
Lemma one_step m f len ds P x y dp s : 0 < P -> 0 < 1 + dp -> exists s', spin_step ds (inside m f len, one P x y dp s) = Ok (mkSproc 1 0 0 (Some (len / 1)) (0 + ds) len m (Some f) true, one P x y dp s') /\ stepped (inside m f len) f P ds (at_place x y dp) s s'.
Proof.
  intros HP D. destruct (one_spin (inside m f len) f P ds (at_place x y dp) s) as [s'|] eqn:E.
  2: { exfalso. revert E. apply one_spin_ok; cbn; lra. }
  exists s'. unfold spin_step. cbn [inside enter_component fld one sparts spins sP0 spin_all bind]. fold (inside m f len). rewrite E. cbn. split; [reflexivity|]. apply one_spin_stepped; [lra | cbn; lra | exact E].
Qed.
Example C262_ex : exists st' b', sop_run [OAdd (at_place 1 2 0); OEnter (Solen 3) (Some (fun _ _ => mkv 0 0 3)) 5; OStep 5; OTransform (mkt (mkv 0 0 0) (rrun (EAxis AX 1))); OErase 0; OAddSpin (at_place 0 1 0) (mkv 1 0 0)] (new_sproc 1, mkSB 7 [] []) = Ok (st', b') /\ spins b' = [mkv 1 0 0].
Proof.
  cbn [sop_run sop_step bind]. fold (inside (Solen 3) (fun _ _ => mkv 0 0 3) 5). unfold sb_add, sb_add_spin. cbn [sP0 sparts spins app].
  change (mkSB 7 [at_place 1 2 0] [mkv 0 0 1]) with (one 7 1 2 0 up).
  destruct (one_step (Solen 3) (fun _ _ => mkv 0 0 3) 5 5 7 1 2 0 up) as (s' & E & _); [lra|lra|].
  match goal with |- context [spin_step ?a ?b] => change (spin_step a b) with (spin_step 5 (inside (Solen 3) (fun _ _ => mkv 0 0 3) 5, one 7 1 2 0 up)) end. rewrite E. cbn [bind sop_run sop_step].
  eexists _, _. unfold sb_erase, sb_transform, one. cbn [sP0 sparts spins rr]. 
  destruct (tr_is_identity _), (ris_identity _); cbn; split; reflexivity.
Qed.
(* a vertical field of 1 T over a length that turns the spin once by a quarter *)
Example C263_ex : let rate := (1 + anomaly * lorentz (5 * (1 + 0))) * 1 / (rigidity 5 * (1 + 0)) in exists st' b',
  spin_step (PI / 2 / rate) (inside Plain (fun _ _ => mkv 0 1 0) 1000000, one 5 1 2 0 up) = Ok (st', b') /\ spins b' = [mkv (-1) 0 0].
Proof.
  intros rate. assert (RP : 0 < rate).
  { unfold rate. apply Rdiv_lt_0_compat; [|rewrite Rplus_0_r, Rmult_1_r; apply rigidity_pos; lra]. rewrite Rmult_1_r. 
    assert (0 < anomaly * lorentz (5 * (1 + 0))); [|lra]. apply Rmult_lt_0_compat; [unfold anomaly; apply Rdiv_lt_0_compat; [lra|apply pow_lt; lra]|]. unfold lorentz, electron_gev. apply Rdiv_lt_0_compat; [lra|apply Rdiv_lt_0_compat; [lra|apply pow_lt; lra]]. }
  destruct (one_step Plain (fun _ _ => mkv 0 1 0) 1000000 (PI / 2 / rate) 5 1 2 0 up) as (s' & E & _); [lra|lra|]. eexists _, _. split; [exact E|].
  destruct (C263_precession (inside Plain (fun _ _ => mkv 0 1 0) 1000000) (fun _ _ => mkv 0 1 0) (one 5 1 2 0 up) (PI / 2 / rate) _ _ eq_refl eq_refl (or_introl eq_refl) (Rgt_not_eq 5 0 ltac:(lra)) E 0%nat (at_place 1 2 0) up eq_refl eq_refl) as (u & U & T); [cbn; lra|].
  cbn in U. injection U as <-. cbn [one spins]. f_equal.
  assert (Q : bmt (rigidity (sP0 (one 5 1 2 0 up)) * (1 + psdp (at_place 1 2 0))) (lorentz ((if Req_EM_T (pspin (inside Plain (fun _ _ => mkv 0 1 0) 1000000)) 0 then sP0 (one 5 1 2 0 up) else pspin (inside Plain (fun _ _ => mkv 0 1 0) 1000000)) * (1 + psdp (at_place 1 2 0)))) (mkv 0 1 0) = mkv 0 (- rate) 0).
  { cbn [one sP0 at_place psdp inside enter_component new_sproc pspin]. destruct (Req_EM_T 0 0); [|tauto]. unfold bmt. cbn [vx vy vz]. unfold rate. apply v3_eq; cbn [vx vy vz]; unfold Rdiv; ring. }
  rewrite Q in T. rewrite (turned_fun _ _ _ _ _ T (turned_y (- rate) (PI / 2 / rate))). replace (- rate * (PI / 2 / rate)) with (- (PI / 2)) by (field; lra). rewrite sin_neg, cos_neg, sin_PI2, cos_PI2. reflexivity.
Qed.
Example C264_ex : exists st' b' s', spin_step 2 (inside (Bend 1 (Some (1/5)) None) (fun _ _ => mkv 0 1 0) 2, one 5 1 2 (1/100) up) = Ok (st', b') /\
  spins b' = [s'] /\ stepped (inside (Bend 1 (Some (1/5)) None) (fun _ _ => mkv 0 1 0) 2) (fun _ _ => mkv 0 1 0) 5 2 (at_place 1 2 (1/100)) up s'.
Proof.
  destruct (one_step (Bend 1 (Some (1/5)) None) (fun _ _ => mkv 0 1 0) 2 2 5 1 2 (1/100) up) as (s' & E & S); [lra|lra|].
  eexists _, _, s'. split; [exact E|]. split; [reflexivity | exact S].
Qed.
Example C265_ex : (0 < sP0 (one 5 1 2 (-1/2) up)) /\ (forall p, In p (sparts (one 5 1 2 (-1/2) up)) -> 0 < 1 + psdp p) /\ length (spins (one 5 1 2 (-1/2) up)) = length (sparts (one 5 1 2 (-1/2) up)) /\
  spin_step 1 (inside Plain (fun _ _ => mkv 0 1 0) 4, one 5 1 2 (-1) up) = Throw NotNumber.
Proof.
  split; [cbn; lra|]. split; [intros p [<-|[]]; cbn; lra|]. split; [reflexivity|].
  apply (C265_stopped _ (fun _ _ => mkv 0 1 0) _ 1 (at_place 1 2 (-1)) [] up []); try reflexivity; try (cbn; lra); [intros q []|unfold len2; cbn; lra].
Qed.
