(* Properties of the modes of the hollow electron lens over the turns, of its use in
   steps, of the velocity it assumes and of its printed profile. *)
From Verif Require Import RBase Rot RotProofs Bunch HollowLens HollowLensSpec HollowLensProofs HollowLensProps HollowDirProps.
From Coq Require Import ZArith List Lia.
Import ListNotations.
Local Open Scope R_scope.

(* ---------- C249 ---------- *)
Definition sweep_fine (a : acp) : Prop := a_var a = 0 \/ a_delta a = 0 \/ (a_tps a <> 0 /\ a_nstep a <> 0).
Definition usable (l : lens) : Prop :=
  mode l <> None /\ (exists a b, rmin l = Some a /\ rmax l = Some b /\ 0 <= a) /\ rigidity l <> 0 /\ ebeta l <> 0 /\
  (forall a, ac l = Some a -> sweep_fine a).
Lemma usable_next l : usable l -> usable (next_turn l).
Proof. intros H. exact H. Qed.
Lemma kick_total l pb v : usable l -> pb <> 0 -> exists k, kick l pb v = Ok k.
Proof.
  intros (_ & (a & b & A & B & P) & N1 & N2 & _) N3. unfold kick, kick_simple, kick_radial. rewrite A, B.
  assert (G : forall c, a < distance l v -> exists k, times c (theta_max l pb (distance l v)) = Ok k).
  { intros c D. rewrite theta_line by lra. eexists. reflexivity. }
  destruct (simple l); destruct (Rleb_spec (distance l v) a) as [L|L]; try (eexists; reflexivity).
  - rewrite (Rltb_true a) by lra. rewrite Bool.andb_true_r. destruct (Rltb_spec (distance l v) b) as [Q|Q].
    + rewrite Reqb_false by (simpl; nra). apply G. lra.
    + apply G. lra.
  - apply G. lra.
Qed.
Lemma factor_total a t : sweep_fine a -> exists k, ac_factor a t = Ok k.
Proof.
  intros F. unfold ac_factor, op_tune. destruct (Reqb_spec (a_var a) 0) as [V|V]; cbn [negb andb]; [eexists; reflexivity|].
  destruct (Reqb_spec (a_delta a) 0) as [D|D]; cbn [negb]; [eexists; reflexivity|].
  destruct F as [F|[F|[F F']]]; [contradiction|contradiction|]. rewrite !Reqb_false by assumption. cbn [orb]. eexists. reflexivity.
Qed.
Lemma switch_total rnd s : usable (hl s) -> switch rnd s = None \/ exists k, switch rnd s = Some (Ok k).
Proof.
  intros (M & _ & _ & _ & F). unfold switch. cbn [next_turn mode ac]. destruct (mode (hl s)) as [[]|]; [| | | |auto].
  - right. eexists. reflexivity.
  - destruct (ac (hl s)) as [a|]; [|auto]. destruct (factor_total a (turns (next_turn (hl s))) (F a eq_refl)) as [k K]. right. exists k. rewrite <- K. reflexivity.
  - destruct (Rleb 0 _); [right; eexists; reflexivity|auto].
  - destruct (_ =? 0)%Z; [right; eexists; reflexivity|auto].
Qed.
Lemma do_process_total rnd pb s : usable (hl s) -> pb <> 0 -> exists s', do_process rnd pb s = Ok s'.
Proof.
  intros U N. assert (F : exists qs, Forall2 (acts (next_turn (hl s)) (effective pb s) (switch rnd s)) (parts (hb s)) qs).
  { unfold effective. rewrite Reqb_false by exact N. destruct (switch_total rnd s U) as [S|[k S]]; rewrite S.
    - exists (parts (hb s)). apply Forall2_same. reflexivity.
    - induction (parts (hb s)) as [|p r [qs IH]]; [exists []; constructor|].
      destruct (kick_total (hl s) pb (pv p) U N) as [t T].
      exists ((if Reqb t 0 then p else push (k * t) p) :: qs). constructor; [|exact IH]. cbn [acts]. unfold kick_one. rewrite next_turn_kick, T. destruct (Reqb t 0); reflexivity. }
  destruct F as [qs F]. exists (mkH (next_turn (hl s)) (mkB (p0 (hb s)) (ct0 (hb s)) (qmp (hb s)) qs) (hpos s + moves (mode (hl s)))).
  apply do_process_ok. cbn [hl hb hpos p0 ct0 qmp parts]. destruct U as (M & _). repeat (split; [assumption || reflexivity|]). exact F.
Qed.
Lemma proton_beta_pos p : 0 < p -> 0 < proton_beta p < 1.
Proof. intros P. rewrite proton_beta_velocity by lra. apply velocity_range; [exact pbeta_mass_pos|exact P]. Qed.
(* a lens with mode and radii set works on every bunch, for any number of turns and steps *)
Theorem C249_total rnd n s : usable (hl s) -> 0 < p0 (hb s) -> exists s', pass rnd n s = Ok s' /\ usable (hl s') /\ p0 (hb s') = p0 (hb s) /\ turns (hl s') = (turns (hl s) + Z.of_nat n)%Z.
Proof.
  intros U P. unfold pass. assert (N : proton_beta (p0 (hb s)) <> 0) by (pose proof (proton_beta_pos _ P); lra).
  revert N. generalize (proton_beta (p0 (hb s))). intros pb N. revert s U P. induction n as [|n IH]; intros s U P; cbn [do_steps].
  - exists s. split; [reflexivity|]. split; [exact U|]. split; [reflexivity|]. lia.
  - destruct (do_process_total rnd pb s U N) as [s1 S]. rewrite S. apply do_process_ok in S. destruct S as (_ & L & _ & Q & _).
    destruct (IH s1) as (s' & A & B & C & D); [rewrite L; exact U|rewrite Q; exact P|]. exists s'. split; [exact A|]. split; [exact B|]. split; [congruence|].
    rewrite D, L. cbn [next_turn turns]. lia.
Qed.
Theorem C249_turns rnd k s : usable (hl s) -> 0 < p0 (hb s) -> exists s', passes rnd k s = Ok s' /\ usable (hl s') /\ p0 (hb s') = p0 (hb s) /\ turns (hl s') = (turns (hl s) + Z.of_nat k)%Z.
Proof.
  revert s. induction k as [|k IH]; intros s U P; cbn [passes].
  - exists s. split; [reflexivity|]. split; [exact U|]. split; [reflexivity|]. lia.
  - destruct (C249_total rnd 1 s U P) as (s1 & -> & U1 & P1 & T1). destruct (IH s1 U1) as (s' & A & B & C & D); [rewrite P1; exact P|].
    exists s'. split; [exact A|]. split; [exact B|]. split; [congruence|]. rewrite D, T1. lia.
Qed.
Print Assumptions C249_total.
Print Assumptions C249_turns.
Example C249_case : usable demo /\ usable (set_ac 3 1 (1 / 2) 10 1 demo) /\ usable (set_turnskip 7 demo) /\ 0 < p0 (demo_bunch [at_xy 4 0]).
Proof.
  unfold usable, sweep_fine. cbn. repeat split; try discriminate; try lra; try (exists 1, 2; repeat split; lra).
  intros a H. injection H as <-. right. right. cbn. split; lra.
Qed.

(* ---------- C250: refuted: an invalid mode, radii not set ---------- *)
Theorem C250_invalid_mode_refuted rnd pb m cur be rig len b pos : (m < 0 \/ 3 < m)%Z -> do_process rnd pb (mkH (new_lens m cur be rig len) b pos) = UB.
Proof.
  intros M. unfold do_process. cbn [hl hb hpos next_turn mode new_lens].
  rewrite (proj2 (Z.eqb_neq m 0)), (proj2 (Z.eqb_neq m 1)), (proj2 (Z.eqb_neq m 2)), (proj2 (Z.eqb_neq m 3)) by lia. reflexivity.
Qed.
Theorem C250_radii_refuted rnd pb cur be rig len p ps m t q pos : do_process rnd pb (mkH (new_lens 0 cur be rig len) (mkB m t q (p :: ps)) pos) = UB.
Proof. reflexivity. Qed.
(* with any of the four modes the mode is the one asked for *)
Theorem C250_modes cur be rig len : mode (new_lens 0 cur be rig len) = Some DC /\ mode (new_lens 1 cur be rig len) = Some AC /\
  mode (new_lens 2 cur be rig len) = Some Diffusive /\ mode (new_lens 3 cur be rig len) = Some Turnskip.
Proof. repeat split. Qed.
Print Assumptions C250_invalid_mode_refuted.
Print Assumptions C250_radii_refuted.
Print Assumptions C250_modes.

(* ---------- C253 ---------- *)
Definition parts_of (r : hres hst) : option (list particle) := match r with Ok s => Some (parts (hb s)) | _ => None end.
Definition with_mode (m : omode) (s : hst) : hst := mkH (set_mode m (hl s)) (hb s) (hpos s).
Lemma acts_mode m l pb f p q : acts (next_turn (set_mode m l)) pb f p q <-> acts (next_turn l) pb f p q.
Proof. unfold acts. destruct f; [|reflexivity]. unfold kick_one. rewrite !next_turn_kick. reflexivity. Qed.
Lemma acts_fun l pb f p q q' : acts l pb f p q -> acts l pb f p q' -> q = q'.
Proof. unfold acts. destruct f; congruence. Qed.
Lemma Forall2_fun {A B} (P : A -> B -> Prop) l m m' : (forall a b b', P a b -> P a b' -> b = b') -> Forall2 P l m -> Forall2 P l m' -> m = m'.
Proof.
  intros F H. revert m'. induction H; intros m' G; inversion G; subst; [reflexivity|]. f_equal; [eapply F; eassumption|auto].
Qed.
(* a call which is on does to the particles what the lens in DC mode does *)
Lemma on_is_dc rnd pb s s1 s2 : switch rnd s = Some (Ok 1) -> do_process rnd pb s = Ok s1 -> do_process rnd pb (with_mode DC s) = Ok s2 -> parts (hb s1) = parts (hb s2).
Proof.
  intros S A B. apply do_process_ok in A. apply do_process_ok in B. destruct A as (_ & _ & _ & _ & _ & _ & A). destruct B as (_ & _ & _ & _ & _ & _ & B).
  rewrite S in A. change (effective pb (with_mode DC s)) with (effective pb s) in B. change (switch rnd (with_mode DC s)) with (Some (Ok 1 : hres R)) in B. cbn [with_mode hl hb] in B.
  apply (Forall2_fun (acts (next_turn (hl s)) (effective pb s) (Some (Ok 1))) (parts (hb s))); [intros ? ? ?; apply acts_fun|exact A|]. eapply Forall2_impl; [|exact B]. intros p q. apply acts_mode.
Qed.
Lemma off_is_nothing rnd pb s s1 : switch rnd s = None -> do_process rnd pb s = Ok s1 -> parts (hb s1) = parts (hb s).
Proof. intros S A. apply do_process_ok in A. destruct A as (_ & _ & _ & _ & _ & _ & A). rewrite S in A. cbn [acts] in A. apply Forall2_same in A. exact A. Qed.
Lemma usable_mode m l : usable l -> usable (set_mode m l).
Proof. intros (A & B & C & D & E). split; [discriminate|]. split; [exact B|]. split; [exact C|]. split; [exact D|exact E]. Qed.

Lemma pass_one rnd s s1 : pass rnd 1 s = Ok s1 <-> do_process rnd (proton_beta (p0 (hb s))) s = Ok s1.
Proof. unfold pass. cbn [do_steps]. destruct (do_process rnd _ s); split; congruence. Qed.
Lemma unchanged_trans a b c : unchanged a b -> unchanged b c -> unchanged a c.
Proof. unfold unchanged. intuition congruence. Qed.
Lemma passes_last rnd j : forall w, passes rnd (S j) w = match passes rnd j w with Ok v => pass rnd 1 v | Throw e => Throw e | UB => UB end.
Proof.
  induction j as [|j IH]; intros w.
  - cbn [passes]. destruct (pass rnd 1 w); reflexivity.
  - change (passes rnd (S (S j)) w) with (match pass rnd 1 w with Ok v => passes rnd (S j) v | Throw e => Throw e | UB => UB end).
    change (passes rnd (S j) w) with (match pass rnd 1 w with Ok v => passes rnd j v | Throw e => Throw e | UB => UB end).
    destruct (pass rnd 1 w); [apply IH|reflexivity|reflexivity].
Qed.
Lemma passes_keep rnd k : forall s s', passes rnd k s = Ok s' -> unchanged (hl s) (hl s') /\ p0 (hb s') = p0 (hb s) /\ turns (hl s') = (turns (hl s) + Z.of_nat k)%Z.
Proof.
  induction k as [|k IH]; intros s s' H; cbn [passes] in H.
  - injection H as <-. split; [repeat split|]. split; [reflexivity|lia].
  - destruct (pass rnd 1 s) as [s1| |] eqn:E; [|discriminate|discriminate]. apply pass_one in E. apply C244_only_angles in E. destruct E as (_ & P & _ & _ & T & U).
    apply IH in H. destruct H as (U2 & P2 & T2). split; [eapply unchanged_trans; eassumption|]. split; [congruence|]. rewrite T2, T. lia.
Qed.
(* the number of turns between kicks *)
Definition spacing (n : Z) : Z := if Z.eqb n 0 then 2%Z else n.
(* in mode Turnskip the lens acts on the turns whose number is a multiple of the one
   set (2 when none was set), and then as a lens which is always on; the turns are
   numbered from the construction of the lens or the last call of SetAC *)
Theorem C253_turnskip rnd s k before after : mode (hl s) = Some Turnskip ->
  passes rnd k s = Ok before -> passes rnd (S k) s = Ok after ->
  ((spacing (skip (hl s)) | turns (hl s) + Z.of_nat (S k))%Z -> forall dc, pass rnd 1 (with_mode DC before) = Ok dc -> parts (hb after) = parts (hb dc)) /\
  (~ (spacing (skip (hl s)) | turns (hl s) + Z.of_nat (S k))%Z -> parts (hb after) = parts (hb before)).
Proof.
  intros M B A. rewrite passes_last, B in A. apply pass_one in A. apply passes_keep in B. destruct B as (U & P & T).
  assert (Mb : mode (hl before) = Some Turnskip) by (unfold unchanged in U; intuition congruence).
  assert (Sb : skip (hl before) = skip (hl s)) by (unfold unchanged in U; intuition congruence).
  set (m := spacing (skip (hl s))) in *. assert (M0 : m <> 0%Z) by (unfold m, spacing; destruct (Z.eqb_spec (skip (hl s)) 0); lia).
  set (t := (turns (hl s) + Z.of_nat (S k))%Z) in *.
  assert (Sw : switch rnd before = if Z.eqb (Z.rem t m) 0 then Some (Ok 1) else None).
  { unfold switch. cbn [next_turn mode turns skip]. rewrite Mb, Sb, T. fold (spacing (skip (hl s))). fold m. replace (turns (hl s) + Z.of_nat k + 1)%Z with t by (unfold t; lia). reflexivity. }
  assert (Dv : (m | t)%Z <-> Z.rem t m = 0%Z) by (symmetry; apply Z.rem_divide; exact M0).
  rewrite Dv. split; intros Z.
  - intros dc D. apply pass_one in D. rewrite Z in Sw. cbn [Z.eqb] in Sw. eapply on_is_dc; eassumption.
  - rewrite (proj2 (Z.eqb_neq _ _) Z) in Sw. eapply off_is_nothing; eassumption.
Qed.
Print Assumptions C253_turnskip.
(* such turns exist: the lens of the examples with every third turn; the third one
   kicks, the first does not *)
Example C253_case rnd : exists b1 b2 b3, passes rnd 1 (mkH (set_turnskip 3 demo) (demo_bunch [at_xy 4 0]) 0) = Ok b1 /\
  passes rnd 2 (mkH (set_turnskip 3 demo) (demo_bunch [at_xy 4 0]) 0) = Ok b2 /\ passes rnd 3 (mkH (set_turnskip 3 demo) (demo_bunch [at_xy 4 0]) 0) = Ok b3 /\
  parts (hb b1) = [at_xy 4 0] /\ parts (hb b2) = [at_xy 4 0] /\ parts (hb b3) <> [at_xy 4 0].
Proof.
  set (s := mkH (set_turnskip 3 demo) (demo_bunch [at_xy 4 0]) 0).
  assert (U : usable (hl s)) by (unfold usable; cbn; split; [discriminate|]; split; [exists 1, 2; repeat split; lra|]; split; [lra|]; split; [lra|]; intros ? H; discriminate).
  destruct (C249_turns rnd 1 s U) as (b1 & B1 & _); [cbn; lra|]. destruct (C249_turns rnd 2 s U) as (b2 & B2 & U2 & P2 & _); [cbn; lra|]. destruct (C249_turns rnd 3 s U) as (b3 & B3 & _); [cbn; lra|].
  exists b1, b2, b3. repeat (split; [assumption|]).
  assert (E1 : parts (hb b1) = [at_xy 4 0]).
  { destruct (C253_turnskip rnd s 0 s b1) as [_ H]; [reflexivity|reflexivity|exact B1|]. apply H. cbn. intros [z Z]. lia. }
  assert (E2 : parts (hb b2) = [at_xy 4 0]).
  { destruct (C253_turnskip rnd s 1 b1 b2) as [_ H]; [reflexivity|exact B1|exact B2|]. rewrite <- E1. apply H. cbn. intros [z Z]. lia. }
  split; [exact E1|]. split; [exact E2|].
  destruct (C249_total rnd 1 (with_mode DC b2)) as (dc & D & _); [apply usable_mode; exact U2|cbn [with_mode hb]; rewrite P2; cbn; lra|].
  destruct (C253_turnskip rnd s 2 b2 b3) as [H _]; [reflexivity|exact B2|exact B3|]. rewrite (H ltac:(exists 1%Z; reflexivity) dc D). clear H.
  apply pass_one in D. apply passes_keep in B2. destruct B2 as (K & Pq & _).
  assert (V : kick (set_mode DC (hl b2)) (proton_beta 1) (pv (at_xy 4 0)) <> Ok 0 /\ exists k, kick (set_mode DC (hl b2)) (proton_beta 1) (pv (at_xy 4 0)) = Ok k).
  { assert (Ph : physical (set_mode DC (hl b2)) (proton_beta 1) 1 2).
    { unfold unchanged in K. cbn [s hl set_turnskip demo set_radii new_lens current ebeta rigidity elength rmin rmax] in K. unfold physical. cbn [set_mode rmin rmax current elength rigidity ebeta].
      destruct K as (-> & -> & -> & -> & -> & -> & _). pose proof (proton_beta_pos 1 Rlt_0_1). assert (0 < 10 ^ 7) by (apply pow_lt; lra). repeat split; try reflexivity; try assumption; lra. }
    destruct (kick_sign _ _ _ _ (pv (at_xy 4 0)) Ph) as (k & Kk & N & _); [|split; [congruence|exists k; exact Kk]].
    unfold distance. cbn [set_mode xoff yoff at_xy pv vx vy]. unfold unchanged in K. destruct K as (_ & _ & _ & _ & _ & _ & _ & -> & -> & _). cbn [s hl set_turnskip demo set_radii new_lens xoff yoff].
    replace ((4 - 0) ^ 2 + (0 - 0) ^ 2) with (4 * 4) by ring. rewrite sqrt_square; lra. }
  destruct V as (V0 & k & V). assert (N : k <> 0) by congruence. cbn [with_mode hb] in D. rewrite Pq in D. change (p0 (hb s)) with 1 in D.
  apply do_process_ok in D. destruct D as (_ & _ & _ & _ & _ & _ & F). cbn [with_mode hl hb] in F. rewrite E2 in F.
  unfold effective in F. rewrite Reqb_false in F by (pose proof (proton_beta_pos 1 Rlt_0_1); lra).
  change (switch rnd (with_mode DC b2)) with (Some (Ok 1 : hres R)) in F.
  inversion F as [|? q ? r A B]; subst. inversion B; subst. cbn [acts] in A. unfold kick_one in A. rewrite next_turn_kick, V, Reqb_false in A by exact N. injection A as <-.
  rewrite demo_push by lra. unfold at_xy. intros X. injection X as X. lra.
Qed.

(* ---------- C254 ---------- *)
(* in AC mode every particle gets the kick of the lens which is always on times a
   factor between 0 and 1, the same for all of them and given by the tune *)
Theorem C254_ac_factor rnd pb s s' a : do_process rnd pb s = Ok s' -> mode (hl s) = Some AC -> ac (hl s) = Some a -> pb <> 0 ->
  (exists p, In p (parts (hb s)) /\ kick (hl s) pb (pv p) <> Ok 0) ->
  exists q f, op_tune a (turns (hl s) + 1) = Ok q /\ f = (1 + cos (2 * PI * (a_mult a * IZR (turns (hl s) + 1) * q))) / 2 /\ 0 <= f <= 1 /\
  Forall2 (fun p p' => exists k, kick (hl s) pb (pv p) = Ok k /\ (k <> 0 -> deflected_from 0 0 (f * k) p p') /\ (k = 0 -> p' = p)) (parts (hb s)) (parts (hb s')).
Proof.
  intros H M A N (p & I & K). apply do_process_ok in H. destruct H as (_ & _ & _ & _ & _ & _ & F).
  unfold effective in F. rewrite Reqb_false in F by exact N. unfold switch in F. cbn [next_turn mode ac turns] in F. rewrite M, A in F.
  assert (Q : exists q, op_tune a (turns (hl s) + 1) = Ok q).
  { clear A. destruct (op_tune a (turns (hl s) + 1)) as [q|e|] eqn:E; [eauto| |].
    all: exfalso; apply In_nth_error in I; destruct I as [i I]; revert i I; induction F as [|x y r r' X F IH]; intros i I; [destruct i; discriminate|]; destruct i as [|i]; [|eapply IH; exact I].
    all: cbn [nth_error] in I; injection I as ->; cbn [acts] in X; unfold kick_one, ac_factor in X; rewrite next_turn_kick, E in X; destruct (kick (hl s) pb (pv p)) as [t| |]; try discriminate; destruct (Reqb_spec t 0); try discriminate; subst; apply K; reflexivity. }
  destruct Q as [q Q]. exists q, ((1 + cos (2 * PI * (a_mult a * IZR (turns (hl s) + 1) * q))) / 2). split; [exact Q|]. split; [reflexivity|].
  set (c := 2 * PI * (a_mult a * IZR (turns (hl s) + 1) * q)). split; [pose proof (COS_bound c); lra|].
  eapply Forall2_impl; [|exact F]. intros x y X. cbn beta in *. cbn [acts] in X. unfold kick_one, ac_factor in X. rewrite next_turn_kick, Q in X.
  destruct (kick (hl s) pb (pv x)) as [t| |]; [|discriminate|discriminate]. exists t. split; [reflexivity|]. destruct (Reqb_spec t 0) as [T|T].
  - injection X as <-. split; [contradiction|reflexivity].
  - injection X as <-. split; [|contradiction]. intros _. replace (a_mult a * (IZR (turns (hl s) + 1) * q * 2 * PI)) with c by (unfold c; ring).
    replace (0.5 * (1 + cos c) * t) with ((1 + cos c) / 2 * t) by lra. apply push_from.
Qed.
(* without SetAC a lens in AC mode does nothing *)
Theorem C254_not_set rnd pb s s' : do_process rnd pb s = Ok s' -> mode (hl s) = Some AC -> ac (hl s) = None -> parts (hb s') = parts (hb s).
Proof. intros H M A. eapply off_is_nothing; [|exact H]. unfold switch. cbn [next_turn mode ac]. rewrite M, A. reflexivity. Qed.
Print Assumptions C254_ac_factor.
Print Assumptions C254_not_set.
Example C254_case : op_tune (mkAC (1 / 2) 0 0 0 1 (1 / 2) 1) 1 = Ok (1 / 2) /\ (1 + cos (2 * PI * (1 * 1 * (1 / 2)))) / 2 = 0 /\ (1 + cos (2 * PI * (1 * 2 * (1 / 2)))) / 2 = 1.
Proof.
  split; [unfold op_tune; cbn [a_var a_delta a_tune]; rewrite Reqb_true by reflexivity; reflexivity|].
  split; [replace (2 * PI * (1 * 1 * (1 / 2))) with PI by field; rewrite cos_PI; lra|]. replace (2 * PI * (1 * 2 * (1 / 2))) with (2 * PI) by field. rewrite cos_2PI. lra.
Qed.

(* ---------- C255 ---------- *)
Lemma floor_of x z : IZR z <= x < IZR z + 1 -> Int_part x = z.
Proof. intros H. destruct (base_Int_part x) as [A B]. assert (IZR (Int_part x) < IZR z + 1) by lra. assert (IZR z < IZR (Int_part x) + 1) by lra. rewrite <- plus_IZR in *. apply lt_IZR in H0. apply lt_IZR in H1. lia. Qed.
Lemma fmod_int n m : (0 <= n)%Z -> (0 < m)%Z -> fmod (IZR n) (IZR m) = IZR (n mod m).
Proof.
  intros N M. assert (M' : 0 < IZR m) by (apply IZR_lt; exact M). unfold fmod, rtrunc.
  assert (Q : 0 <= IZR n / IZR m) by (apply Rmult_le_pos; [apply IZR_le; exact N|left; apply Rinv_0_lt_compat; exact M']).
  rewrite Rleb_true by exact Q. rewrite (floor_of _ (n / m)).
  - rewrite <- mult_IZR, <- minus_IZR. f_equal. rewrite Z.mod_eq by lia. lia.
  - pose proof (Z.mod_pos_bound n m M) as B. pose proof (Z.div_mod n m ltac:(lia)) as D.
    assert (E : IZR n = IZR m * IZR (n / m) + IZR (n mod m)) by (rewrite <- mult_IZR, <- plus_IZR; f_equal; exact D).
    rewrite E. replace ((IZR m * IZR (n / m) + IZR (n mod m)) / IZR m) with (IZR (n / m) + IZR (n mod m) / IZR m) by (field; lra).
    assert (0 <= IZR (n mod m)) by (apply IZR_le; lia). assert (IZR (n mod m) < IZR m) by (apply IZR_lt; lia).
    assert (0 <= IZR (n mod m) / IZR m) by (apply Rmult_le_pos; [lra|left; apply Rinv_0_lt_compat; lra]).
    assert (IZR (n mod m) / IZR m < 1) by (apply Rmult_lt_reg_r with (IZR m); [lra|]; unfold Rdiv; rewrite Rmult_assoc, Rinv_l by lra; lra). lra.
Qed.
(* a sweep whose range is a whole number of steps: one step higher every so many
   turns, from the lowest tune to the highest and then from the lowest again *)
Theorem C255_sweep tune delta var tps mult l n t : 0 < var -> 0 < tps -> 2 * delta = IZR n * var -> (0 < n)%Z -> (0 <= t)%Z ->
  forall a, ac (set_ac tune delta var tps mult l) = Some a ->
  exists j, (0 <= j)%Z /\ IZR j * tps <= IZR t < (IZR j + 1) * tps /\
  op_tune a t = Ok (tune - delta + IZR (j mod (n + 1)) * var) /\ tune - delta <= tune - delta + IZR (j mod (n + 1)) * var <= tune + delta.
Proof.
  intros V T D N T0 a A. injection A as <-. assert (N' : 0 < IZR n) by (apply IZR_lt; exact N).
  assert (D0 : 0 < delta) by (assert (0 < IZR n * var) by (apply Rmult_lt_0_compat; lra); lra).
  assert (TT : 0 <= IZR t) by (apply IZR_le; exact T0).
  set (x := IZR t / tps). assert (X : 0 <= x) by (apply Rmult_le_pos; [exact TT|left; apply Rinv_0_lt_compat; exact T]).
  destruct (base_Int_part x) as [B1 B2]. exists (Int_part x).
  assert (J : (0 <= Int_part x)%Z) by (assert (-1 < IZR (Int_part x)) by lra; apply lt_IZR in H; lia).
  assert (XT : x * tps = IZR t) by (unfold x; field; lra).
  split; [exact J|]. split; [rewrite <- XT; split; [apply Rmult_le_compat_r; lra|apply Rmult_lt_compat_r; lra]|].
  assert (NS : 2 * delta / var + 1 = IZR (n + 1)) by (rewrite plus_IZR, D; field; lra).
  assert (B : (0 <= Int_part x mod (n + 1) < n + 1)%Z) by (apply Z.mod_pos_bound; lia).
  split.
  - unfold op_tune. cbn [a_var a_delta a_tps a_nstep a_min]. rewrite !Reqb_false; try lra; [|rewrite NS; apply IZR_neq; lia]. cbn [negb andb orb].
    unfold rfloor. fold x. rewrite NS, fmod_int by lia. reflexivity.
  - assert (0 <= IZR (Int_part x mod (n + 1))) by (apply IZR_le; lia). assert (IZR (Int_part x mod (n + 1)) <= IZR n) by (apply IZR_le; lia).
    assert (0 <= IZR (Int_part x mod (n + 1)) * var) by (apply Rmult_le_pos; lra). assert (IZR (Int_part x mod (n + 1)) * var <= IZR n * var) by (apply Rmult_le_compat_r; lra). lra.
Qed.
(* without a range or without a step the tune is the one given *)
Theorem C255_fixed tune delta var tps mult l t : var = 0 \/ delta = 0 -> forall a, ac (set_ac tune delta var tps mult l) = Some a -> op_tune a t = Ok tune.
Proof.
  intros H a A. injection A as <-. unfold op_tune. cbn [a_var a_delta a_tune]. destruct H as [->| ->]; rewrite (Reqb_true 0 0) by reflexivity; cbn [negb andb]; [reflexivity|].
  rewrite Bool.andb_false_r. reflexivity.
Qed.
Print Assumptions C255_sweep.
Print Assumptions C255_fixed.
Example C255_case : 2 * 1 = IZR 4 * (1 / 2) /\ (7 mod (4 + 1) = 2)%Z.
Proof. split; [lra|reflexivity]. Qed.

(* ---------- C256: refuted for other sweeps ---------- *)
(* a range which is not a whole number of steps is left upwards: from 2 to 4 in steps
   of 0.8, one turn each *)
Theorem C256_range_left_refuted mult l : exists a q, ac (set_ac 3 1 (4 / 5) 1 mult l) = Some a /\ op_tune a 3 = Ok q /\ q > 3 + 1.
Proof.
  eexists. exists (2 + 3 * (4 / 5)). split; [reflexivity|]. split; [|lra].
  unfold op_tune. cbn [a_var a_delta a_tps a_nstep a_min]. rewrite !Reqb_false by lra. cbn [negb andb orb]. f_equal.
  unfold rfloor. rewrite (floor_of _ 3) by lra. unfold fmod, rtrunc. rewrite Rleb_true by lra. rewrite (floor_of _ 0) by lra. lra.
Qed.
(* and a sweep of zero turns per step gives no number *)
Theorem C256_zero_turns_refuted tune delta var mult l t : var <> 0 -> delta <> 0 -> exists a, ac (set_ac tune delta var 0 mult l) = Some a /\ op_tune a t = Throw NotNumber.
Proof.
  intros V D. eexists. split; [reflexivity|]. unfold op_tune. cbn [a_var a_delta a_tps a_nstep a_min]. rewrite (Reqb_false var 0), (Reqb_false delta 0) by assumption. rewrite (Reqb_true 0 0) by reflexivity. reflexivity.
Qed.
Print Assumptions C256_range_left_refuted.
Print Assumptions C256_zero_turns_refuted.

(* ---------- C257 ---------- *)
(* in diffusive mode one random number decides for the whole bunch *)
Theorem C257_diffusive rnd pb s s' : do_process rnd pb s = Ok s' -> mode (hl s) = Some Diffusive ->
  hpos s' = S (hpos s) /\
  (0 <= rnd (hpos s) -> forall dc, do_process rnd pb (with_mode DC s) = Ok dc -> parts (hb s') = parts (hb dc)) /\
  (rnd (hpos s) < 0 -> parts (hb s') = parts (hb s)).
Proof.
  intros H M. assert (Sw : switch rnd s = if Rleb 0 (rnd (hpos s)) then Some (Ok 1) else None) by (unfold switch; cbn [next_turn mode]; rewrite M; reflexivity).
  split; [apply do_process_ok in H; destruct H as (_ & _ & -> & _); rewrite M; cbn; lia|]. split; intros L.
  - intros dc D. rewrite Rleb_true in Sw by exact L. eapply on_is_dc; eassumption.
  - rewrite Rleb_false in Sw by exact L. eapply off_is_nothing; eassumption.
Qed.
(* the other modes use no random numbers *)
Theorem C257_others rnd rnd' pb s : mode (hl s) <> Some Diffusive -> do_process rnd pb s = do_process rnd' pb s /\ (forall s', do_process rnd pb s = Ok s' -> hpos s' = hpos s).
Proof.
  intros M. split.
  - unfold do_process. cbn [next_turn mode]. destruct (mode (hl s)) as [[]|]; try reflexivity. contradiction.
  - intros s' H. apply do_process_ok in H. destruct H as (_ & _ & -> & _). destruct (mode (hl s)) as [[]|]; try (cbn; lia). contradiction.
Qed.
Print Assumptions C257_diffusive.
Print Assumptions C257_others.
Example C257_case : mode (new_lens 2 1 1 1 1) = Some Diffusive /\ exists s', do_process (fun _ => -1) 1 (mkH (new_lens 2 1 1 1 1) (demo_bunch [at_xy 4 0]) 0) = Ok s' /\ parts (hb s') = [at_xy 4 0].
Proof.
  split; [reflexivity|]. eexists. split; [apply do_process_ok|]. 2: instantiate (1 := mkH (next_turn (new_lens 2 1 1 1 1)) (demo_bunch [at_xy 4 0]) 1); reflexivity.
  cbn [hl hb hpos]. split; [discriminate|]. repeat (split; [reflexivity|]). constructor; [|constructor]. unfold switch. cbn [hl hpos next_turn mode new_lens Z.eqb]. rewrite Rleb_false by lra. reflexivity.
Qed.

(* ---------- C258: refuted: the kick depends on the number of steps ---------- *)
(* a lens crossed in n steps kicks n times *)
Theorem C258_steps_refuted rnd n k x : 2 <= x -> k = - (10 / x) ->
  do_steps rnd (1 / 2) n (mkH demo (demo_bunch [at_xy x 0]) 0) =
  Ok (mkH (mkL (10 ^ 7) (1 / 2) 1 1 (Some 1) (Some 2) None 0 0 (Some DC) None (Z.of_nat n) 0 true true false) (demo_bunch [mkP (V6 x (INR n * k) 0 0 7 8) 5]) 0).
Proof.
  intros X ->. set (k := - (10 / x)).
  assert (G : forall m j, do_steps rnd (1 / 2) m (mkH (mkL (10 ^ 7) (1 / 2) 1 1 (Some 1) (Some 2) None 0 0 (Some DC) None (Z.of_nat j) 0 true true false) (demo_bunch [mkP (V6 x (INR j * k) 0 0 7 8) 5]) 0) =
    Ok (mkH (mkL (10 ^ 7) (1 / 2) 1 1 (Some 1) (Some 2) None 0 0 (Some DC) None (Z.of_nat (j + m)) 0 true true false) (demo_bunch [mkP (V6 x (INR (j + m) * k) 0 0 7 8) 5]) 0)).
  { induction m as [|m IH]; intros j; cbn [do_steps]; [rewrite Nat.add_0_r; reflexivity|].
    replace (do_process rnd (1 / 2) _) with (Ok (mkH (mkL (10 ^ 7) (1 / 2) 1 1 (Some 1) (Some 2) None 0 0 (Some DC) None (Z.of_nat (S j)) 0 true true false) (demo_bunch [mkP (V6 x (INR (S j) * k) 0 0 7 8) 5]) 0) : hres hst).
    - rewrite IH. replace (S j + m)%nat with (j + S m)%nat by lia. reflexivity.
    - symmetry. apply do_process_ok. cbn [hl hb hpos mode]. split; [discriminate|]. split; [unfold next_turn; cbn; f_equal; lia|]. repeat (split; [reflexivity|]).
      cbn [demo_bunch parts]. constructor; [|constructor]. unfold effective. rewrite Reqb_false by lra. unfold switch. cbn [hl next_turn mode]. cbn [acts]. unfold kick_one.
      match goal with |- context [kick ?l ?p ?v] => replace (kick l p v) with (kick demo (1 / 2) (pv (at_xy x 0))) by reflexivity end.
      rewrite demo_kick by exact X. fold k. assert (P : 0 < 10 / x) by (apply Rdiv_lt_0_compat; lra). rewrite Reqb_false by (unfold k; lra).
      unfold push. cbn [pv vx vxp vy vyp vct vdp pid]. unfold atan2. rewrite Rltb_true by lra. replace (0 / x) with 0 by (field; lra). rewrite atan_0, cos_0, sin_0.
      rewrite S_INR. f_equal. f_equal. f_equal; ring. }
  specialize (G n 0%nat). cbn [Nat.add INR] in G. rewrite Rmult_0_l in G. rewrite <- G. reflexivity.
Qed.
Print Assumptions C258_steps_refuted.
Example C258_case rnd : exists l, do_steps rnd (1 / 2) 2 (mkH demo (demo_bunch [at_xy 4 0]) 0) = Ok (mkH l (demo_bunch [mkP (V6 4 (-5) 0 0 7 8) 5]) 0).
Proof. eexists. rewrite (C258_steps_refuted rnd 2 (- (10 / 4)) 4) by (lra || reflexivity). cbn [INR]. replace ((1 + 1) * - (10 / 4)) with (-5) by lra. reflexivity. Qed.

(* ---------- C259: refuted: the velocity of the protons ---------- *)
(* the momentum is in GeV and the mass in kilogram: the velocity found is that of
   light whatever the momentum *)
Theorem C259_velocity_refuted p : / 10 ^ 6 <= p -> 1 - / 10 ^ 6 < proton_beta p < 1.
Proof.
  intros P. assert (P0 : 0 < p) by (assert (0 < / 10 ^ 6) by (apply Rinv_0_lt_compat, pow_lt; lra); lra).
  split; [|apply proton_beta_pos; exact P0]. rewrite proton_beta_velocity by lra. unfold velocity.
  set (m := proton_mass * speed_of_light). assert (M : 0 < m) by exact pbeta_mass_pos.
  assert (M2 : m <= / 10 ^ 12) by (unfold m, proton_mass, speed_of_light; lra).
  assert (MP : m <= / 10 ^ 6 * p) by lra.
  assert (S : sqrt (p * p + m * m) <= p + m) by (rewrite <- (sqrt_square (p + m)) by lra; apply sqrt_le_1_alt; nra).
  assert (S0 : 0 < sqrt (p * p + m * m)) by (apply sqrt_lt_R0; nra).
  apply Rmult_lt_reg_r with (sqrt (p * p + m * m)); [exact S0|]. unfold Rdiv. rewrite Rmult_assoc, Rinv_l, Rmult_1_r by lra.
  apply Rle_lt_trans with ((1 - / 10 ^ 6) * (p + m)); [apply Rmult_le_compat_l; lra|]. nra.
Qed.
(* the true velocity at the momentum 0.938272013 GeV, the rest energy of the proton, is 0.71 *)
Theorem C259_slow_proton_refuted : velocity 0.938272013 0.938272013 < 0.71 /\ 1 - / 10 ^ 6 < proton_beta 0.938272013.
Proof.
  split; [|apply C259_velocity_refuted; lra]. unfold velocity.
  assert (S : 0.938272013 / 0.71 < sqrt (0.938272013 * 0.938272013 + 0.938272013 * 0.938272013)).
  { rewrite <- (sqrt_square (0.938272013 / 0.71)) by lra. apply sqrt_lt_1_alt. lra. }
  apply Rmult_lt_reg_r with (sqrt (0.938272013 * 0.938272013 + 0.938272013 * 0.938272013)); [lra|]. unfold Rdiv at 1. rewrite Rmult_assoc, Rinv_l, Rmult_1_r by lra. lra.
Qed.
(* the formula itself is right when momentum and mass are in the same unit *)
Theorem C259_formula p m : 0 <= p -> 0 < m -> lorentz_beta (lorentz_gamma p m) = velocity p (m * speed_of_light).
Proof. intros P M. apply beta_of; [|exact P]. unfold speed_of_light. lra. Qed.
Print Assumptions C259_velocity_refuted.
Print Assumptions C259_slow_proton_refuted.
Print Assumptions C259_formula.

(* ---------- C260, C261: the printed profile ---------- *)
Definition row := (R * R * R * R * R)%type.
Lemma sq_abs x : sqrt (x ^ 2) = Rabs x.
Proof. replace (x ^ 2) with (Rsqr x) by (unfold Rsqr; ring). apply sqrt_Rsqr_abs. Qed.
Lemma rows_spec l pb s dr n : forall r t, rows l pb s dr n r = Ok t -> length t = n /\
  forall i w, nth_error t i = Some w -> exists a b, kick_radial l pb (r + INR i * dr) = Ok a /\ kick_simple l pb (r + INR i * dr) = Ok b /\ w = ((r + INR i * dr) / s, a, b, Rabs a, Rabs b).
Proof.
  induction n as [|n IH]; intros r t H; cbn [rows] in H.
  - injection H as <-. split; [reflexivity|]. intros [|i] w W; discriminate.
  - destruct (kick_radial l pb r) as [a| |] eqn:A; [|destruct (kick_simple l pb r); discriminate|discriminate].
    destruct (kick_simple l pb r) as [b| |] eqn:B; [|discriminate|discriminate].
    destruct (rows l pb s dr n (r + dr)) as [t'| |] eqn:T; [|discriminate|discriminate]. injection H as <-. apply IH in T. destruct T as [L T].
    split; [cbn [length]; congruence|]. intros [|i] w W; cbn [nth_error] in W.
    + injection W as <-. exists a, b. change (INR 0) with 0. rewrite Rmult_0_l, Rplus_0_r. split; [exact A|]. split; [exact B|].
      rewrite <- !sq_abs. reflexivity.
    + apply T in W. rewrite S_INR. replace (r + (INR i + 1) * dr) with (r + dr + INR i * dr) by ring. exact W.
Qed.
Theorem C260_rows l e mn mx s t : sigma_x l = Some s -> output_profile (Some l) e mn mx = Ok t -> length t = 999%nat /\
  forall i w, nth_error t i = Some w -> exists a b, let x := INR i * (mx - mn) / 1000 in
  kick_radial l (proton_beta e) (x * s) = Ok a /\ kick_simple l (proton_beta e) (x * s) = Ok b /\ w = (x, a, b, Rabs a, Rabs b).
Proof.
  intros S H. unfold output_profile in H. rewrite S in H. destruct (rmin l); [|discriminate]. destruct (rmax l); [|discriminate]. destruct (Reqb_spec s 0) as [Z|Z]; [discriminate|].
  apply rows_spec in H. destruct H as [L H]. split; [exact L|]. intros i w W. apply H in W. destruct W as (a & b & A & B & C). exists a, b. cbv zeta.
  replace (INR i * (mx - mn) / 1000 * s) with (0 + INR i * ((mx - mn) / 1000 * s)) by (field; lra). split; [exact A|]. split; [exact B|]. rewrite C.
  replace ((0 + INR i * ((mx - mn) / 1000 * s)) / s) with (INR i * (mx - mn) / 1000) by (field; exact Z). reflexivity.
Qed.
(* a usable lens with its beam size set has a profile *)
Theorem C260_exists l e mn mx s : usable l -> sigma_x l = Some s -> s <> 0 -> 0 < e -> exists t, output_profile (Some l) e mn mx = Ok t.
Proof.
  intros U S N E. assert (Pb : proton_beta e <> 0) by (pose proof (proton_beta_pos e E); lra).
  assert (K : forall r, (exists a, kick_radial l (proton_beta e) r = Ok a) /\ exists b, kick_simple l (proton_beta e) r = Ok b).
  { intros r. destruct U as (_ & (a & b & A & B & P) & N1 & N2 & _). unfold kick_radial, kick_simple. rewrite A, B.
    destruct (Rleb_spec r a) as [L|L]; [split; eexists; reflexivity|]. rewrite theta_line by lra. split; [eexists; reflexivity|].
    rewrite (Rltb_true a r) by lra. rewrite Bool.andb_true_r. destruct (Rltb_spec r b); [rewrite Reqb_false by (simpl; nra)|]; eexists; reflexivity. }
  unfold output_profile. destruct U as (_ & (a & b & A & B & P) & _). rewrite A, B, S. rewrite Reqb_false by exact N.
  generalize 999%nat, ((mx - mn) / 1000 * s), 0. intros n d. induction n as [|n IH]; intros r; [exists []; reflexivity|]. cbn [rows].
  destruct (K r) as [[x X] [y Y]]. rewrite X, Y. destruct (IH (r + d)) as [t T]. rewrite T. eexists. reflexivity.
Qed.
Print Assumptions C260_rows.
Print Assumptions C260_exists.
Example C260_case : usable (set_sigma (1 / 4) demo) /\ sigma_x (set_sigma (1 / 4) demo) = Some (1 / 4).
Proof. split; [|reflexivity]. unfold usable. cbn. split; [discriminate|]. split; [exists 1, 2; repeat split; lra|]. split; [lra|]. split; [lra|]. intros ? H. discriminate. Qed.

(* refuted: the profile does not start at the lower end, it starts at 0; the range
   from min to max is printed as that from 0 to max - min *)
Theorem C261_range_refuted ol e mn mx : output_profile ol e mn mx = output_profile ol e 0 (mx - mn).
Proof. unfold output_profile. rewrite Rminus_0_r. reflexivity. Qed.
Theorem C261_lower_end_refuted l e mn mx s t : sigma_x l = Some s -> output_profile (Some l) e mn mx = Ok t -> exists a b c d, nth_error t 0 = Some (0, a, b, c, d).
Proof.
  intros S H. destruct (C260_rows l e mn mx s t S H) as [L W]. destruct t as [|w t]; [discriminate|]. destruct (W 0%nat w eq_refl) as (a & b & _ & _ & E).
  exists a, b, (Rabs a), (Rabs b). cbn [nth_error]. rewrite E. cbn [INR]. do 5 f_equal. field.
Qed.
(* and without a beam size, which nothing sets, it reads a member never set *)
Theorem C261_sigma_refuted m cur be rig len a b e mn mx : output_profile (Some (set_radii a b (new_lens m cur be rig len))) e mn mx = UB.
Proof. reflexivity. Qed.
Print Assumptions C261_range_refuted.
Print Assumptions C261_lower_end_refuted.
Print Assumptions C261_sigma_refuted.
