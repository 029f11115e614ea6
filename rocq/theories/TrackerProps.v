(* C21-C24: tracking through one component. *)
From Verif Require Import RBase Ranges Tracker TrackerSpec TrackerProofs.
Local Open Scope R_scope.

(* Any sequence of calls is accepted, refused and answered as the description
   on histories says, and has exactly the events it lists. *)
Theorem C139_state_machine : forall init calls,
  match do_calls calls (new_tracker init), spec_calls init calls PIdle with
  | Ok (t', answers), Ok (expected, events) => answers = expected /\ tlog t' = events
  | Throw e, Throw e' => e = e'
  | UB, UB => True
  | _, _ => False
  end.
Proof.
  intros init calls. destruct (new_tracker_ok init) as (A & B & C & D).
  pose proof (calls_same init calls (new_tracker init) PIdle) as S.
  rewrite C in S. apply S. split; [exact D | auto].
Qed.
Print Assumptions C139_state_machine.

(* Steps, tracking and questions are refused before a component is chosen. *)
Theorem C139_refused_before_choice : forall init ds rest,
  do_calls (CStep ds :: rest) (new_tracker init) = Throw AssertFailed /\
  do_calls (CTrack :: rest) (new_tracker init) = Throw AssertFailed /\
  do_calls (CRemaining :: rest) (new_tracker init) = Throw AssertFailed /\
  do_calls (CIntegrated :: rest) (new_tracker init) = Throw AssertFailed.
Proof.
  intros init ds rest. destruct (new_tracker_ok init) as (A & _ & _ & _).
  cbn [do_calls do_call]. unfold track_step, track, get_remaining, get_integrated. rewrite A. auto.
Qed.
Print Assumptions C139_refused_before_choice.

(* A component is reported as unknown exactly if no class it derives from has
   an integrator; otherwise the most derived one with an integrator is used. *)
Theorem C139_unknown : forall init c,
  prepare c (new_tracker init) = Throw UnknownComponent <->
  Forall (fun n => handler_of init n = HNone) (classes c).
Proof.
  intros init c. destruct (new_tracker_ok init) as (A & B & C & D).
  assert (M : matches init (new_tracker init) PIdle) by (split; auto).
  pose proof (prepare_same init c (classes c) (new_tracker init) PIdle M eq_refl) as S.
  fold (prepare c (new_tracker init)) in S. unfold choose in S. cbn [free] in S.
  unfold handler_in in S. split; intros H.
  - rewrite H in S. destruct (find _ (classes c)) as [n |] eqn:F.
    + apply find_some in F as [_ F]. destruct (handler_of init n); try discriminate; contradiction.
    + apply Forall_forall. intros n Hn. pose proof (find_none _ _ F n Hn) as K. cbn in K.
      destruct (handler_of init n); try discriminate; reflexivity.
  - destruct (find _ (classes c)) as [n |] eqn:F.
    + apply find_some in F as [Hn F]. rewrite Forall_forall in H. rewrite (H n Hn) in F. discriminate.
    + destruct (prepare c (new_tracker init)); try contradiction. congruence.
Qed.
Print Assumptions C139_unknown.

Definition init3 : list (nat * nat) := [(2, 20); (3, 30); (marker_id, 10); (3, 31)]%nat.
Definition bend : component := mkC 7 3 [5; 3; 0]%nat.
Example C21_case : handler_for init3 bend = HIntg 31 /\ handler_for [(2, 20)]%nat (mkC 0 0 [1; 0]%nat) = HBuiltin.
Proof. split; reflexivity. Qed.
Lemma near_no : forall x y, 1/4 <= x - y \/ 1/4 <= y - x -> near x y = false.
Proof. intros. apply near_false. pose proof eps_small. lra. Qed.
Ltac nr := repeat (cbn; unfold left_over, passed, choose; cbn;
  match goal with
  | |- context [near ?x ?y] =>
      first [ rewrite (near_no x y) by lra
            | rewrite (near_true x y) by (unfold Rabs; destruct (Rcase_abs _); pose proof eps_pos; lra) ]
  | |- context [between_dec ?a ?b ?x] =>
      destruct (between_dec a b x) as [_ | ?N]; [| exfalso; apply N; unfold between; lra]
  end).
Example C21_run : exists t' a, do_calls [CPrepare bend; CStep 1; CStep 2; CRemaining; CSelect 2 (mkC 8 0 [2]%nat)]
    (new_tracker init3) = Ok (t', a) /\
  tlog t' = [EvEntrance 31 7; EvBody 31 7 0 1; EvBody 31 7 1 2; EvExit 31 7].
Proof.
  pose proof (C139_state_machine init3 [CPrepare bend; CStep 1; CStep 2; CRemaining; CSelect 2 (mkC 8 0 [2]%nat)]) as S.
  assert (E : exists b, spec_calls init3 [CPrepare bend; CStep 1; CStep 2; CRemaining; CSelect 2 (mkC 8 0 [2]%nat)] PIdle
     = Ok (b, [EvEntrance 31 7; EvBody 31 7 0 1; EvBody 31 7 1 2; EvExit 31 7])).
  { nr.
    cbn. eexists. rewrite ?Rplus_0_r. reflexivity. }
  destruct E as [b E]. rewrite E in S.
  destruct (do_calls _ _) as [[t' a] | |]; try contradiction. exists t', a. split; [reflexivity | apply S].
Qed.

(* A step answers the number of the state reached, not the length left. *)
Theorem C21_step_answer_refuted : forall i, exists t' a,
  do_calls [CPrepare bend; CStep (1/2); CRemaining] (new_tracker [(3%nat, i)]) = Ok (t', a) /\
  a = [AUnit; AReal 2; AReal (5/2)].
Proof.
  intros i. pose proof (C139_state_machine [(3%nat, i)] [CPrepare bend; CStep (1/2); CRemaining]) as S.
  assert (E : exists es, spec_calls [(3%nat, i)] [CPrepare bend; CStep (1/2); CRemaining] PIdle
     = Ok ([AUnit; AReal 2; AReal (5/2)], es)).
  { nr. eexists.
    replace (3 - (1 / 2 + 0)) with (5/2) by lra. reflexivity. }
  destruct E as [es E]. rewrite E in S.
  destruct (do_calls _ _) as [[t' a] | |]; try contradiction. exists t', a. split; [reflexivity | apply S].
Qed.
Print Assumptions C21_step_answer_refuted.

(* A failed choice after a finished component leaves no integrator behind, yet
   the tracker does not know: asking it is undefined. *)
Theorem C21_question_after_failure_refuted : forall init i c, handler_of init 3 = HIntg i -> handler_of init 4 = HNone ->
  do_calls [CSelect 3 c; CTrack; CSelect 4 c; CRemaining] (new_tracker init) = UB.
Proof.
  intros init i c H3 H4.
  pose proof (C139_state_machine init [CSelect 3 c; CTrack; CSelect 4 c; CRemaining]) as S.
  remember (do_calls [CSelect 3 c; CTrack; CSelect 4 c; CRemaining] (new_tracker init)) as r eqn:E. clear E.
  cbn [spec_calls spec_call choose free] in S. rewrite H3 in S. cbn [spec_calls spec_call bind] in S.
  unfold choose, free, exhausted in S. rewrite H4 in S.
  cbn [sum fold_right] in S. rewrite Rplus_0_r, near_refl in S. cbn in S.
  destruct r as [[t' a] | |]; try contradiction. reflexivity.
Qed.
Print Assumptions C21_question_after_failure_refuted.
Example C21_failure_case : handler_of [(3, 7)]%nat 3 = HIntg 7 /\ handler_of [(3, 7)]%nat 4 = HNone.
Proof. split; reflexivity. Qed.

(* The integrator built in for markers cannot be used with bunches: a set of
   integrators without one for markers makes every marker undefined, until the
   set is replaced. *)
Theorem C21_marker_refuted : forall c, classes c = [marker_id; 0%nat] ->
  prepare c (new_tracker []) = UB /\
  prepare c (set_integrator_set [] (new_tracker [])) = Throw UnknownComponent.
Proof. intros c H. unfold prepare. rewrite H. split; reflexivity. Qed.
Print Assumptions C21_marker_refuted.
Example C21_marker_case : classes (mkC 1 0 [marker_id; 0%nat]) = [marker_id; 0%nat].
Proof. reflexivity. Qed.

(* Replacing the integrators makes exactly the new ones available, the last
   registered for each class. *)
Theorem C139_replaced_set : forall init t n,
  lookup n (tset (set_integrator_set init t)) =
    match find (fun x => Nat.eqb (fst x) n) (rev init) with Some x => Some (Some (snd x)) | None => None end.
Proof. exact set_integrators_ok. Qed.
Print Assumptions C139_replaced_set.

(* Registering: the answer is whether one was replaced; no other class is
   affected. *)
Theorem C139_register : forall n i t, let '(t', b) := register n i t in
  b = match lookup n (tset t) with Some _ => true | None => false end /\
  lookup n (tset t') = Some (Some i) /\ (forall m, m <> n -> lookup m (tset t') = lookup m (tset t)) /\
  tst t' = tst t /\ tint t' = tint t /\ tlog t' = tlog t.
Proof.
  intros n i t. destruct (register_keeps n i t) as (A & B & C & D).
  destruct (register n i t) as [t' b] eqn:E. cbn in A, B, C, D.
  split; [| split; [| split]].
  - rewrite <- (add_flag n (Some i)). unfold register in E. destruct (set_add _ _ _). injection E as _ <-. reflexivity.
  - rewrite D, lookup_add, Nat.eqb_refl. reflexivity.
  - intros m N. rewrite D, lookup_add. destruct (Nat.eqb_spec n m); [congruence | reflexivity].
  - auto.
Qed.
Print Assumptions C139_register.

(* C22: whatever the steps, one entrance first, the steps in order, one exit
   last.  Missing for the full statement: steps so short that the place reached
   is within the tolerance of an end. *)
Theorem C140_once : forall init i c steps,
  classes c <> [] -> handler_for init c = HIntg i ->
  steps <> [] -> Forall (fun x => 0 <= x) steps -> sum steps = clen c ->
  (clen c = 0 \/ eps < clen c) ->
  (forall a b, steps = a ++ b -> a <> [] -> b <> [] -> eps < sum a /\ eps < sum b) ->
  exists t' ans, do_calls (CPrepare c :: map CStep steps) (new_tracker init) = Ok (t', ans) /\
    tlog t' = EvEntrance i (cid c) :: bodies i (cid c) 0 steps ++ [EvExit i (cid c)] /\
    tst t' = Finished.
Proof.
  intros init i c steps NC H NE HP HS HT HA.
  pose proof (C139_state_machine init (CPrepare c :: map CStep steps)) as S.
  cbn [spec_calls spec_call] in S. destruct (classes c) as [| k ks] eqn:K; [congruence |].
  unfold choose in S. cbn [free] in S. rewrite H in S.
  destruct (steps_run init i c steps [] HP HA HS HT NE) as (ans & E & EA).
  rewrite E in S. cbn [bind fst snd] in S.
  destruct (do_calls (CPrepare c :: map CStep steps) (new_tracker init)) as [[t' a] | |] eqn:D; try contradiction.
  exists t', a. split; [reflexivity |]. destruct S as [SA SL]. split; [exact SL |].
  assert (L : last a AUnit = AReal 3).
  { rewrite SA, EA. change (AUnit :: map (fun _ : R => AReal 2) (tl steps) ++ [AReal 3])
      with ((AUnit :: map (fun _ : R => AReal 2) (tl steps)) ++ [AReal 3]). apply last_last. }
  clear - D L NE. revert D L. generalize (new_tracker init). intros t D L.
  cbn [do_calls do_call] in D. destruct (prepare c t) as [t1 | |]; cbn [bind fst snd] in D; try discriminate.
  destruct (do_calls (map CStep steps) t1) as [[t2 a2] | |] eqn:D2; cbn [bind fst snd] in D; try discriminate.
  injection D as <- <-.
  revert t1 a2 D2 L. induction steps as [| x steps IH]; intros t1 a2 D2 L; [congruence |].
  cbn [map do_calls do_call] in D2.
  destruct (track_step x t1) as [[t3 r] | |] eqn:T; cbn [bind fst snd] in D2; try discriminate.
  destruct (do_calls (map CStep steps) t3) as [[t4 a4] | |] eqn:D4; cbn [bind fst snd] in D2; try discriminate.
  injection D2 as <- <-. destruct steps as [| y steps].
  - cbn in D4. injection D4 as <- <-. cbn in L. injection L as ->.
    unfold track_step in T. destruct (tst t1); try discriminate; destruct (tint t1) as [j |]; try discriminate;
      destruct (negb _); try discriminate; destruct (itag j) as [g |]; try discriminate;
      destruct (intg_track j g x) as [[j' es] rem]; injection T as <- E;
      destruct (fequal rem 0); cbn in E |- *; try reflexivity; exfalso; lra.
  - apply (IH ltac:(discriminate) t3 a4); [exact D4 |].
    destruct a4 as [| b a4]; [| exact L].
    exfalso. cbn [map do_calls do_call] in D4.
    destruct (track_step y t3) as [[t5 r5] | |]; cbn [bind fst snd] in D4; try discriminate.
    destruct (do_calls (map CStep steps) t5) as [[t6 a6] | |]; cbn [bind fst snd] in D4; discriminate.
Qed.
Print Assumptions C140_once.
Example C22_case : let steps := [1/2; 1; 3/2] in
  sum steps = clen bend /\ Forall (fun x => 0 <= x) steps /\ eps < clen bend /\
  (forall a b, steps = a ++ b -> a <> [] -> b <> [] -> eps < sum a /\ eps < sum b).
Proof.
  pose proof eps_small as ES. cbn. split; [lra |]. split; [repeat constructor; lra |]. split; [lra |].
  intros a b H NA NB.
  destruct a as [| x [| y [| z [| w a]]]]; try congruence; cbn in H; inversion H; subst; cbn;
    try lra; try congruence.
Qed.

(* A first step within the tolerance: two entrances. *)
Theorem C22_tiny_step_refuted : forall init i c, classes c <> [] -> handler_for init c = HIntg i -> clen c = 1 ->
  exists t' ans, do_calls [CPrepare c; CStep (eps / 2); CStep (1 - eps / 2)] (new_tracker init) = Ok (t', ans) /\
    tlog t' = [EvEntrance i (cid c); EvBody i (cid c) 0 (eps / 2);
               EvEntrance i (cid c); EvBody i (cid c) (eps / 2) (1 - eps / 2); EvExit i (cid c)].
Proof.
  intros init i c NC H L. pose proof eps_small as ES. pose proof eps_pos as EP.
  pose proof (C139_state_machine init [CPrepare c; CStep (eps / 2); CStep (1 - eps / 2)]) as S.
  assert (E : exists b, spec_calls init [CPrepare c; CStep (eps / 2); CStep (1 - eps / 2)] PIdle
     = Ok (b, [EvEntrance i (cid c); EvBody i (cid c) 0 (eps / 2);
               EvEntrance i (cid c); EvBody i (cid c) (eps / 2) (1 - eps / 2); EvExit i (cid c)])).
  { cbn [spec_calls spec_call]. destruct (classes c); [congruence |]. unfold choose. cbn [free]. rewrite H.
    repeat (cbn; unfold left_over, passed; cbn; rewrite ?L, ?Rplus_0_r, ?Rplus_0_l;
      match goal with
      | |- context [near ?x ?y] =>
          first [ rewrite (near_false x y) by lra
                | rewrite (near_true x y) by (unfold Rabs; destruct (Rcase_abs _); lra) ]
      | |- context [between_dec ?a ?b ?x] =>
          destruct (between_dec a b x) as [_ | ?N]; [| exfalso; apply N; unfold between; lra]
      end).
    cbn. eexists. reflexivity. }
  destruct E as [b E]. rewrite E in S.
  destruct (do_calls _ _) as [[t' a] | |]; try contradiction. exists t', a. split; [reflexivity | apply S].
Qed.
Print Assumptions C22_tiny_step_refuted.
Example C22_tiny_case : classes (mkC 7 1 [3]%nat) <> [] /\ handler_for init3 (mkC 7 1 [3]%nat) = HIntg 31.
Proof. split; [discriminate | reflexivity]. Qed.

(* C24: the measurements of a passage are all at the measurement point, but
   there are as many as steps ending beyond it. *)
Theorem C142_count : forall len mp steps cur, len <> 0 ->
  exists es, monitor_run len mp cur steps = Ok es /\ drifted es = sum steps /\
    places cur es = repeat (mp + len / 2) (ends_beyond (mp + len / 2) cur steps).
Proof. exact monitor_count. Qed.
Print Assumptions C142_count.

(* Exactly once if only the last step ends beyond the point. *)
Theorem C142_once : forall len mp steps last_step, len <> 0 ->
  Forall (fun x => 0 <= x) steps ->
  sum steps <= mp + len / 2 < sum (steps ++ [last_step]) ->
  exists es, monitor_run len mp 0 (steps ++ [last_step]) = Ok es /\
    drifted es = sum (steps ++ [last_step]) /\ places 0 es = [mp + len / 2].
Proof.
  intros len mp steps x N HP H. destruct (monitor_count len mp (steps ++ [x]) 0 N) as (es & E & D & P).
  exists es. split; [exact E |]. split; [exact D |]. rewrite P.
  assert (G : forall l cur, Forall (fun x => 0 <= x) l -> cur + sum l <= mp + len / 2 ->
     mp + len / 2 < cur + sum (l ++ [x]) -> ends_beyond (mp + len / 2) cur (l ++ [x]) = 1%nat).
  { induction l as [| y l IH]; intros cur HL H1 H2.
    - cbn in *. destruct (Rlt_dec _ _); [reflexivity | lra].
    - inversion HL; subst. cbn [app ends_beyond].
      pose proof (sum_nonneg l H5). change (sum (y :: l)) with (y + sum l) in H1.
      cbn [app] in H2. change (sum (y :: (l ++ [x]))) with (y + sum (l ++ [x])) in H2.
      destruct (Rlt_dec _ _); [lra |]. cbn [Nat.add]. apply IH; try assumption; lra. }
  rewrite (G steps 0 HP) by lra. reflexivity.
Qed.
Print Assumptions C142_once.
Example C24_case : sum [1/4] <= 0 + 1/2 < sum ([1/4] ++ [3/4]).
Proof. cbn. lra. Qed.
(* A monitor without length measures once per step, and only steps of zero
   length are allowed. *)
Theorem C142_thin : forall mp steps cur, Forall (fun x => x = 0) steps ->
  monitor_run 0 mp cur steps = Ok (map (fun _ => MMeasure) steps).
Proof.
  intros mp. induction steps as [| x r IH]; intros cur H; [reflexivity |].
  inversion H; subst. cbn [monitor_run]. unfold monitor_step. rewrite !Reqb_true by reflexivity.
  cbn [bind]. rewrite IH by assumption. reflexivity.
Qed.
Print Assumptions C142_thin.
Example C24_thin_case : Forall (fun x : R => x = 0) [0; 0].
Proof. repeat constructor. Qed.

Theorem C24_repeated_refuted : exists es,
  monitor_run 1 0 0 [1/2; 1/4; 1/4] = Ok es /\ places 0 es = [1/2; 1/2].
Proof.
  destruct (monitor_count 1 0 [1/2; 1/4; 1/4] 0) as (es & E & D & P); [lra |].
  exists es. split; [exact E |]. rewrite P. cbn.
  repeat (destruct (Rlt_dec _ _); try lra). cbn. replace (0 + 1/2) with (1/2) by lra. reflexivity.
Qed.
Print Assumptions C24_repeated_refuted.
Theorem C24_never_refuted : forall steps, Forall (fun x => 0 <= x) steps -> sum steps = 1 ->
  exists es, monitor_run 1 (1/2) 0 steps = Ok es /\ places 0 es = [].
Proof.
  intros steps HP H. destruct (monitor_count 1 (1/2) steps 0) as (es & E & D & P); [lra |].
  exists es. split; [exact E |]. rewrite P.
  assert (G : forall l cur, Forall (fun x => 0 <= x) l -> cur + sum l <= 1 ->
    ends_beyond (1/2 + 1/2) cur l = O).
  { induction l as [| x l IH]; intros cur HL HC; [reflexivity |]. inversion HL; subst.
    change (sum (x :: l)) with (x + sum l) in HC. pose proof (sum_nonneg l H3).
    cbn [ends_beyond]. destruct (Rlt_dec _ _); [lra |]. apply IH; [assumption | lra]. }
  rewrite G; [reflexivity | assumption | lra].
Qed.
Print Assumptions C24_never_refuted.
Example C24_never_case : Forall (fun x => 0 <= x) [1/3; 2/3] /\ sum [1/3; 2/3] = 1.
Proof. split; [repeat constructor; lra | cbn; lra]. Qed.

(* C23: the divider makes equal steps covering the component ... *)
Theorem C141_equal_steps : forall l n m d, 0 < l -> (1 <= n)%Z -> 0 <= m ->
  set_component l (new_divider n m) = Ok d ->
  exists k : Z, (1 <= k)%Z /\ ddelta d = l / IZR k /\ dnext d = ddelta d /\ ds_ d = 0 /\
    (l / IZR n < m \/ k = n).
Proof.
  intros l n m d Hl Hn Hm H. destruct (set_component_ok l n m d Hl Hn Hm H) as (k & A & B & C & D & _ & _ & E).
  exists k. destruct (Rlt_dec (l / IZR n) m); auto 10.
Qed.
Print Assumptions C141_equal_steps.

(* ... and, given increments that stop at the boundaries, triggers once for
   each boundary reached (within the tolerance): after the increments [xs] the
   number of triggers is the number of boundaries up to there. *)
Theorem C141_triggers : forall l n m d xs d' count, 0 < l -> (1 <= n)%Z -> 0 <= m ->
  set_component l (new_divider n m) = Ok d -> eps < ddelta d ->
  increments xs d = Some (d', count) ->
  INR count * ddelta d - eps <= sum xs < (INR count + 1) * ddelta d - eps /\
  distance d' = (INR count + 1) * ddelta d - sum xs /\
  (sum xs = l -> exists k : Z, (1 <= k)%Z /\ l / IZR k = ddelta d /\ count = Z.to_nat k).
Proof.
  intros l n m d xs d' count Hl Hn Hm H HE HI. pose proof eps_pos as EP.
  destruct (set_component_ok l n m d Hl Hn Hm H) as (k & K & B & C & D & _ & _ & _).
  destruct (increments_count (ddelta d) xs d d' count O 0 HE eq_refl D) as (X & Y & Z).
  - rewrite C. cbn. ring.
  - cbn. lra.
  - exact HI.
  - rewrite Nat.add_0_l, Rplus_0_l in *. split; [exact X |]. split; [unfold distance; rewrite Y, Z; reflexivity |].
    intros HS. exists k. split; [exact K |]. split; [symmetry; exact B |].
    assert (KD : IZR k * ddelta d = l) by (rewrite B, Rmult_comm; apply divide_by, K).
    rewrite HS, <- KD in X.
    assert (IZR k < INR count + 1) by (apply (Rmult_lt_reg_r (ddelta d)); lra).
    assert (INR count < IZR k + 1).
    { apply (Rmult_lt_reg_r (ddelta d)); [lra |]. lra. }
    rewrite INR_IZR_INZ in *. rewrite <- plus_IZR in *. apply lt_IZR in H0. apply lt_IZR in H1. lia.
Qed.
Print Assumptions C141_triggers.
Example C23_case : exists d d', set_component 1 (new_divider 2 (1/4)) = Ok d /\ eps < ddelta d /\
  increments [1/4; 1/4; 1/2] d = Some (d', 2%nat).
Proof.
  pose proof eps_small as ES. pose proof eps_pos as EP.
  unfold set_component. cbn [new_divider dn dmin]. rewrite (Reqb_false 1 0) by lra. cbn [Z.eqb].
  rewrite (Rltb_false (1 / 2)) by lra. eexists _, _. split; [reflexivity |]. split; [cbn; lra |].
  cbn [increments]. unfold distance. cbn [dnext ds_].
  destruct (Rle_dec 0 (1/4)); [| lra]. destruct (Rle_dec (1/4) (1/2 - 0)); [| lra].
  unfold increment. cbn [ds_ dnext ddelta dmin dn].
  destruct (fequal_spec (0 + 1/4) (1/2)) as [K | K];
    [exfalso; revert K; unfold Rabs; destruct (Rcase_abs _); lra |].
  cbn [dnext ds_ ddelta dmin dn]. destruct (Rle_dec (1/4) (1/2 - (0 + 1/4))); [| lra].
  destruct (fequal_spec (0 + 1/4 + 1/4) (1/2)) as [K1 | K1];
    [| exfalso; apply K1; unfold Rabs; destruct (Rcase_abs _); lra].
  cbn [dnext ds_ ddelta dmin dn]. destruct (Rle_dec 0 (1/2)); [| lra].
  destruct (Rle_dec (1/2) (1/2 + 1/2 - (0 + 1/4 + 1/4))); [| lra].
  destruct (fequal_spec (0 + 1/4 + 1/4 + 1/2) (1/2 + 1/2)) as [K2 | K2];
    [| exfalso; apply K2; unfold Rabs; destruct (Rcase_abs _); lra].
  reflexivity.
Qed.

(* When the requested steps are too short they are replaced by steps that still
   are, the longest equal ones below the minimum. *)
Theorem C23_minimum_refuted : forall l n m d, 0 < l -> (1 <= n)%Z -> 0 < m -> l / IZR n < m ->
  set_component l (new_divider n m) = Ok d ->
  ddelta d < m /\
  exists k : Z, (1 <= k)%Z /\ ddelta d = l / IZR k /\ forall j : Z, (1 <= j)%Z -> l / IZR j < m -> (k <= j)%Z.
Proof.
  intros l n m d Hl Hn Hm L H. destruct (set_component_ok l n m d Hl Hn (Rlt_le _ _ Hm) H) as (k & A & B & C & D & _ & _ & E).
  destruct (Rlt_dec (l / IZR n) m); [| contradiction]. destruct E as [E1 E2]. split; [exact E1 |]. eauto.
Qed.
Print Assumptions C23_minimum_refuted.
Example C23_minimum_case : exists d, set_component 1 (new_divider 4 (1/2)) = Ok d /\ ddelta d = 1/3.
Proof.
  unfold set_component. cbn [new_divider dn dmin]. rewrite (Reqb_false 1 0) by lra. cbn [Z.eqb].
  rewrite (Rltb_true (1 / 4)), (Reqb_false (1/2) 0) by lra.
  assert (T : trunc (1 / (1 / 2) + 1) = 3%Z).
  { rewrite trunc_pos by lra. pose proof (Int_part_bounds (1 / (1 / 2) + 1)) as B.
    replace (1 / (1 / 2) + 1) with 3 in * by lra. set (z := Int_part 3) in *. clearbody z.
    assert (B1 : IZR z < 4) by lra. assert (B2 : 2 < IZR z) by lra.
    apply lt_IZR in B1. apply lt_IZR in B2. lia. }
  rewrite T. cbn. eexists. split; [reflexivity |]. cbn. lra.
Qed.
(* Zero or negative numbers of steps have no meaning. *)
Theorem C141_bad_counts : forall l n m, 0 < l ->
  (n = 0%Z -> set_component l (new_divider n m) = UB) /\
  ((n < 0)%Z -> m = 0 -> set_component l (new_divider n m) = UB) /\
  set_component 0 (new_divider n m) = Ok (mkD 0 0 0 m n).
Proof.
  intros l n m Hl. unfold set_component. cbn [new_divider dn dmin ddelta].
  rewrite (Reqb_false l 0), (Reqb_true 0 0) by lra. split; [| split; [| reflexivity]].
  - intros ->. reflexivity.
  - intros Hn ->. destruct (Z.eqb_spec n 0); [lia |].
    rewrite Rltb_true, Reqb_true; [reflexivity | reflexivity |].
    apply IZR_lt in Hn. unfold Rdiv. pose proof (Rinv_lt_0_compat _ Hn). nra.
Qed.
Print Assumptions C141_bad_counts.
