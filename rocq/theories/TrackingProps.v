From Verif Require Import Base Ring StringPattern Tracking TrackingSpec TrackingProofs.
From Coq Require Import Lia.

Definition nofail : list tev -> option failure := fun _ => None.
Definition marks (s : sim) (rec : frame -> bool) : Prop := forall f, rec f = true <-> wants (s_out s) f.

Lemma flat_map_ext_all {A B} (f g : A -> list B) l : (forall a, f a = g a) -> flat_map f l = flat_map g l.
Proof. intros H. induction l; cbn; congruence. Qed.
Lemma turn_rec s rec i a b l : marks s rec -> turn i a b (recorded (s_out s)) l = turn i a b rec l.
Proof.
  intros H. assert (E : forall f, recorded (s_out s) f = rec f).
  { intros f. specialize (H f). rewrite <- recorded_iff in H. destruct (recorded _ f), (rec f); firstorder congruence. }
  assert (A : forall k f, around i k b (recorded (s_out s)) f = around i k b rec f).
  { intros k f. unfold around, after. now rewrite E. }
  destruct l; [reflexivity|]. cbn [turn]. rewrite A. f_equal. now apply flat_map_ext_all.
Qed.
Lemma rec_initial_eq s b : s_bunch s = Some b -> rec_initial s = start_record (s_out s) b.
Proof. intros H. unfold rec_initial, start_record. now rewrite H. Qed.
Lemma rec_final_eq s b : s_bunch s = Some b -> rec_final s = end_record (s_out s) b.
Proof. intros H. unfold rec_final, end_record. now rewrite H. Qed.

(* one pass, from a state with a bunch *)
Lemma pass_ok s b init rec :
  usable (s_kind s) -> s_busy s = false -> s_bunch s = Some b -> marks s rec ->
  exists s', do_run nofail false init s = (s', Done) /\ s_busy s' = false /\
    keep s s' (start_record (s_out s) b ++ opt init (EInit b) ++
               turn (s_incx s) (s_onaxis s) b rec (order (s_kind s)) ++ end_record (s_out s) b).
Proof.
  intros U B HB R. unfold do_run. rewrite HB. cbn [orb andb]. rewrite orb_false_r.
  rewrite (rec_initial_eq s b HB).
  set (s1 := add (start_record (s_out s) b) s).
  assert (HB1 : s_bunch s1 = Some b) by exact HB. rewrite HB1.
  assert (K1 : keep s s1 (start_record (s_out s) b)) by apply keep_add.
  assert (B1 : s_busy s1 = false) by exact B.
  clearbody s1.
  set (s2 := if init then add [EInit b] s1 else s1).
  assert (K2 : keep s s2 (start_record (s_out s) b ++ opt init (EInit b))) by (eapply keep_trans; [exact K1|apply keep_opt]).
  assert (B2 : s_busy s2 = false) by (unfold s2; now rewrite busy_opt).
  clearbody s2.
  assert (E := K2). destruct E as (S & Hb & _). unfold same_setup in S. decompose [and] S.
  rewrite (pass_eq nofail b true (s_kind s2) s2) by congruence.
  destruct (perform_ok nofail b (fun _ => eq_refl) (order (s_kind s2)) true s2 B2) as (s3 & P1 & P2 & P3).
  rewrite P1. eexists; split; [reflexivity|]. split; [exact P2|].
  assert (K3 := keep_trans _ _ _ _ _ K2 P3).
  assert (Hb3 : s_bunch s3 = Some b) by (destruct K3 as (_ & Q & _); congruence).
  rewrite (rec_final_eq s3 b Hb3).
  assert (O3 : s_out s3 = s_out s) by (destruct (setup_of K3) as (_ & Q & _); exact Q).
  rewrite O3. assert (K4 := keep_trans _ _ _ _ _ K3 (keep_add (end_record (s_out s) b) s3)).
  replace (s_incx s2) with (s_incx s) in K4 by congruence. replace (s_onaxis s2) with (s_onaxis s) in K4 by congruence.
  replace (s_kind s2) with (s_kind s) in K4 by congruence. replace (s_out s2) with (s_out s) in K4 by congruence.
  cbn [andb] in K4. rewrite (turn_rec s rec) in K4 by exact R. rewrite <- !app_assoc in K4. exact K4.
Qed.

(* C20: a run constructs a bunch and takes it once through every frame *)
Theorem C138_run : forall s rec,
  usable (s_kind s) -> s_busy s = false -> s_ctor s = true -> marks s rec ->
  let b := s_next s in
  exists s', run nofail s = (s', Done) /\ same_setup s s' /\ s_busy s' = false /\
    s_bunch s' = Some b /\ s_next s' = S b /\
    s_log s' = s_log s ++ EConstruct b :: start_record (s_out s) b ++ EInit b ::
                 turn (s_incx s) (s_onaxis s) b rec (order (s_kind s)) ++ end_record (s_out s) b.
Proof.
  intros s rec U B C R b. unfold run.
  assert (E : do_run nofail true true s = do_run nofail false true (construct_bunch s)).
  { unfold do_run. rewrite C. reflexivity. }
  rewrite E. destruct (pass_ok (construct_bunch s) b true rec) as (s' & P1 & P2 & (S & Q1 & Q2 & Q3)); auto.
  exists s'. split; [exact P1|]. cbn in S, Q1, Q2, Q3. repeat split; auto; try apply S.
  rewrite Q3, <- app_assoc. reflexivity.
Qed.
Print Assumptions C138_run.

(* ... and every continuation takes the same bunch once more through *)
Theorem C138_turns : forall n s b rec,
  usable (s_kind s) -> s_busy s = false -> s_bunch s = Some b -> marks s rec ->
  exists s', turns (continue nofail) n s = (s', Done) /\ same_setup s s' /\ s_busy s' = false /\
    s_bunch s' = Some b /\ s_next s' = s_next s /\
    s_log s' = s_log s ++ concat (repeat (start_record (s_out s) b ++
        turn (s_incx s) (s_onaxis s) b rec (order (s_kind s)) ++ end_record (s_out s) b) n).
Proof.
  induction n as [|n IH]; intros s b rec U B HB R.
  { exists s. repeat split; auto. cbn. now rewrite app_nil_r. }
  cbn [turns]. unfold continue at 1.
  destruct (pass_ok s b false rec U B HB R) as (s1 & P1 & P2 & K). rewrite P1.
  assert (K' := K). destruct K' as (S & Q1 & Q2 & Q3). unfold same_setup in S. decompose [and] S.
  destruct (IH s1 b rec) as (s2 & T1 & T2 & T3 & T4 & T5 & T6); try congruence.
  { intros f. replace (s_out s1) with (s_out s) by congruence. apply R. }
  exists s2. split; [exact T1|]. unfold same_setup in T2. decompose [and] T2.
  repeat split; try congruence.
  rewrite T6, Q3. cbn [repeat concat opt app]. rewrite <- !app_assoc.
  replace (s_out s1) with (s_out s) by congruence. replace (s_incx s1) with (s_incx s) by congruence.
  replace (s_onaxis s1) with (s_onaxis s) by congruence. replace (s_kind s1) with (s_kind s) by congruence.
  reflexivity.
Qed.
Print Assumptions C138_turns.

(* without injection on axis the turns are all alike: entrance, component, exit *)
Theorem C138_run_and_turns : forall n s rec,
  usable (s_kind s) -> s_busy s = false -> s_ctor s = true -> marks s rec ->
  s_onaxis s = false \/ s_incx s = false ->
  let b := s_next s in
  let one := start_record (s_out s) b ++ flat_map (around (s_incx s) false b rec) (order (s_kind s)) ++
             end_record (s_out s) b in
  exists s1 s2, run nofail s = (s1, Done) /\ turns (continue nofail) n s1 = (s2, Done) /\
    filter (fun e => match e with EConstruct _ | EInit _ => false | _ => true end) (s_log s2) =
    filter (fun e => match e with EConstruct _ | EInit _ => false | _ => true end) (s_log s) ++
    concat (repeat one (S n)).
Proof.
  intros n s rec U B C R A b one.
  destruct (C138_run s rec U B C R) as (s1 & P1 & P2 & P3 & P4 & P5 & P6). fold b in P4, P6.
  unfold same_setup in P2. decompose [and] P2.
  destruct (C138_turns n s1 b rec) as (s2 & T1 & T2 & T3 & T4 & T5 & T6); try congruence.
  { intros f. replace (s_out s1) with (s_out s) by congruence. apply R. }
  exists s1, s2. split; [exact P1|]. split; [exact T1|].
  assert (E : turn (s_incx s) (s_onaxis s) b rec (order (s_kind s)) =
              flat_map (around (s_incx s) false b rec) (order (s_kind s))).
  { destruct A as [A|A]; rewrite A; [apply turn_false|]. destruct (order (s_kind s)); reflexivity. }
  replace (s_out s1) with (s_out s) in T6 by congruence. replace (s_incx s1) with (s_incx s) in T6 by congruence.
  replace (s_onaxis s1) with (s_onaxis s) in T6 by congruence. replace (s_kind s1) with (s_kind s) in T6 by congruence.
  rewrite E in T6, P6. fold one in T6. rewrite T6, P6.
  assert (F : forall l, (forall e, In e l -> match e with EConstruct _ | EInit _ => False | _ => True end) ->
     filter (fun e => match e with EConstruct _ | EInit _ => false | _ => true end) l = l).
  { induction l as [|e l IH]; intros H'; [reflexivity|]. cbn [filter].
    assert (W := H' e (or_introl eq_refl)). destruct e; try contradiction; rewrite IH; auto; intros; apply H'; now right. }
  assert (AR : forall f e, In e (around (s_incx s) false b rec f) -> match e with EConstruct _ | EInit _ => False | _ => True end).
  { intros f e. unfold around, before, after, opt.
    destruct (s_incx s && negb false), (fpin f), (is_component f), (fpout f), (s_incx s), (rec f); cbn;
      intuition (subst; exact I). }
  assert (FM : forall e, In e (flat_map (around (s_incx s) false b rec) (order (s_kind s))) -> match e with EConstruct _ | EInit _ => False | _ => True end).
  { intros e HI. apply in_flat_map in HI. destruct HI as (f & _ & HI). eapply AR; eauto. }
  assert (SR : forall e, In e (start_record (s_out s) b) -> match e with EConstruct _ | EInit _ => False | _ => True end).
  { intros e. unfold start_record, opt. destruct (s_out s) as [o|]; [|contradiction]. destruct (o_initial o); cbn; intuition (subst; exact I). }
  assert (ER : forall e, In e (end_record (s_out s) b) -> match e with EConstruct _ | EInit _ => False | _ => True end).
  { intros e. unfold end_record, opt. destruct (s_out s) as [o|]; [|contradiction]. destruct (o_final o); cbn; intuition (subst; exact I). }
  assert (ON : forall e, In e one -> match e with EConstruct _ | EInit _ => False | _ => True end).
  { intros e HI. unfold one in HI. rewrite !in_app_iff in HI. destruct HI as [HI|[HI|HI]]; [exact (SR e HI)|exact (FM e HI)|exact (ER e HI)]. }
  rewrite !filter_app. cbn [filter]. rewrite !filter_app. cbn [filter]. rewrite filter_app.
  rewrite (F _ SR), (F _ FM), (F _ ER).
  rewrite (F (concat (repeat one n))).
  2: { intros e HI. apply in_concat in HI. destruct HI as (l & HL & HI). apply repeat_spec in HL. subst l. exact (ON e HI). }
  cbn [repeat concat]. unfold one at 2. rewrite <- !app_assoc. reflexivity.
Qed.
Print Assumptions C138_run_and_turns.

(* each component is tracked exactly once per turn, in lattice order *)
Theorem C138_each_component_once : forall n s b rec,
  usable (s_kind s) -> s_busy s = false -> s_bunch s = Some b -> marks s rec ->
  exists s', turns (continue nofail) n s = (s', Done) /\
    tracked (s_log s') = tracked (s_log s) ++ concat (repeat (component_ids (order (s_kind s))) n) /\
    (NoDup (map fid (order (s_kind s))) -> forall f, In f (order (s_kind s)) -> is_component f = true ->
       count_occ Nat.eq_dec (tracked (s_log s')) (fid f) = count_occ Nat.eq_dec (tracked (s_log s)) (fid f) + n).
Proof.
  intros n s b rec U B HB R.
  destruct (C138_turns n s b rec U B HB R) as (s' & T1 & _ & _ & _ & _ & T6).
  assert (E : tracked (s_log s') = tracked (s_log s) ++ concat (repeat (component_ids (order (s_kind s))) n)).
  { rewrite T6, tracked_app. f_equal. clear T1 T6. induction n as [|n IH]; [reflexivity|].
    cbn [repeat concat]. rewrite !tracked_app, tracked_turn, IH.
    replace (tracked (start_record (s_out s) b)) with (@nil nat).
    2: { unfold start_record, opt. destruct (s_out s) as [o|]; [|reflexivity]. now destruct (o_initial o). }
    replace (tracked (end_record (s_out s) b)) with (@nil nat).
    2: { unfold end_record, opt. destruct (s_out s) as [o|]; [|reflexivity]. now destruct (o_final o). }
    now rewrite app_nil_r. }
  exists s'. split; [exact T1|]. split; [exact E|].
  intros ND f HI HC. rewrite E, count_occ_app. f_equal.
  assert (C1 : count_occ Nat.eq_dec (component_ids (order (s_kind s))) (fid f) = 1).
  { assert (ND' : NoDup (component_ids (order (s_kind s)))).
    { unfold component_ids. induction (order (s_kind s)) as [|g l IH]; [constructor|].
      cbn in ND. inversion ND as [|? ? N1 N2]. cbn [filter].
      assert (IH' : NoDup (map fid (filter is_component l))).
      { clear -N2. induction l as [|g l IH]; [constructor|]. inversion N2; subst. cbn [filter].
        destruct (is_component g); [|auto]. cbn [map]. constructor; auto.
        intros HH. apply H1. apply in_map_iff in HH. destruct HH as (h & <- & HH). apply filter_In in HH. now apply in_map. }
      destruct (is_component g); [|exact IH']. cbn [map]. constructor; [|exact IH'].
      intros HH. apply N1. apply in_map_iff in HH. destruct HH as (h & <- & HH). apply filter_In in HH. now apply in_map. }
    apply NoDup_count_occ'; [exact ND'|]. unfold component_ids. apply in_map. now apply filter_In. }
  induction n as [|n IH]; [reflexivity|]. cbn [repeat concat]. rewrite count_occ_app, C1.
  f_equal. clear - C1. induction n as [|n IH]; [reflexivity|]. cbn [repeat concat]. rewrite count_occ_app, C1, IH. lia.
Qed.
Print Assumptions C138_each_component_once.

(* a run interrupted by an exception has had exactly the effects up to the
   component that failed; it ends normally only if the exception is one of the
   library's and handling was asked for *)
Theorem C138_interrupted : forall fails s rec s' o,
  usable (s_kind s) -> s_busy s = false -> s_ctor s = true -> marks s rec ->
  run fails s = (s', o) ->
  let b := s_next s in
  let head := s_log s ++ EConstruct b :: start_record (s_out s) b ++ [EInit b] in
  let order := order (s_kind s) in
  (o = Done /\ s_busy s' = false /\
     s_log s' = head ++ turn (s_incx s) (s_onaxis s) b rec order ++ end_record (s_out s) b) \/
  (exists x l1 f l2 lg, order = l1 ++ f :: l2 /\ is_component f = true /\
     let seen := head ++ turn (s_incx s) (s_onaxis s) b rec l1 ++
                 before (s_incx s) (match l1 with [] => s_onaxis s | _ => false end) b f in
     fails lg = Some x /\ lg ++ [ETrack b (fid f)] = seen /\ s_busy s' = xinside x /\
     if s_handle s && match xkind x with Merlin => true | Foreign => false end
     then o = Done /\ s_log s' = seen ++ end_record (s_out s) b
     else o = Raised (xkind x) /\ s_log s' = seen).
Proof.
  intros fails s rec s' o U B C R H b head ord. unfold run, do_run in H. rewrite C in H.
  cbn [orb negb andb] in H. change (s_next s) with b in H.
  set (s0 := construct_bunch s) in H.
  assert (E0 : rec_initial s0 = start_record (s_out s) b) by (apply (rec_initial_eq s0 b); reflexivity).
  rewrite E0 in H. cbn [s_bunch add s0 construct_bunch] in H. fold s0 in H.
  change (s_next s) with b in H.
  set (s1 := add [EInit b] (add (start_record (s_out s) b) s0)) in H.
  assert (L1 : s_log s1 = head).
  { unfold head. cbn. rewrite <- !app_assoc. reflexivity. }
  assert (B1 : s_busy s1 = false) by exact B.
  assert (SU : same_setup s s1) by (repeat split).
  assert (Hb1 : s_bunch s1 = Some b) by reflexivity.
  change (s_kind (add [EInit b] (add (start_record (s_out s) b) s0))) with (s_kind s1) in H.
  clearbody s1. unfold same_setup in SU. decompose [and] SU.
  rewrite (pass_eq fails b true (s_kind s1) s1) in H by congruence.
  assert (P := perform_any fails b (TrackingSpec.order (s_kind s1)) true s1 B1). cbv zeta in P.
  replace (s_kind s1) with (s_kind s) in * by congruence. fold ord in H, P.
  replace (s_incx s1) with (s_incx s) in P by congruence. replace (s_onaxis s1) with (s_onaxis s) in P by congruence.
  replace (s_out s1) with (s_out s) in P by congruence. cbn [andb] in P.
  destruct P as [(s2 & P1 & P2 & P3)|(s2 & x & l1 & f & l2 & lg & P1 & P2 & P3 & P4 & P5 & P6 & P7)].
  - rewrite P1 in H. left. inversion H; subst s' o. split; [auto|]. split; [exact P2|].
    destruct P3 as (SU2 & Q1 & _ & Q3). unfold same_setup in SU2. decompose [and] SU2.
    rewrite (rec_final_eq s2 b) by congruence. cbn [add s_log]. rewrite Q3, L1.
    replace (s_out s2) with (s_out s) by congruence. rewrite (turn_rec s rec) by exact R. now rewrite <- app_assoc.
  - rewrite P1 in H. right. exists x, l1, f, l2, lg. split; [exact P3|]. split; [exact P4|]. cbv zeta.
    destruct P7 as (SU2 & Q1 & _ & Q3). unfold same_setup in SU2. decompose [and] SU2.
    rewrite (turn_rec s rec) in Q3 by exact R. rewrite L1 in Q3.
    assert (HH : s_handle s2 = s_handle s) by congruence.
    assert (RF : rec_final s2 = end_record (s_out s) b).
    { rewrite (rec_final_eq s2 b) by congruence. f_equal. congruence. }
    split; [exact P5|]. split; [congruence|].
    destruct (xkind x) eqn:XK; [|rewrite andb_false_r; inversion H; subst; auto].
    rewrite HH, RF in H. destruct (s_handle s); cbn [andb]; inversion H; subst s' o; auto.
    split; [exact P2|]. split; [reflexivity|]. cbn [add s_log]. now rewrite Q3.
Qed.
Print Assumptions C138_interrupted.

(* Track: an external bunch is taken through once, freshly initialised, and
   the simulation is left without a bunch, so that it cannot be continued *)
Theorem C138_track_bunch : forall s b rec,
  usable (s_kind s) -> s_busy s = false -> marks s rec ->
  exists s', track_bunch nofail b s = (s', Done) /\ same_setup s s' /\ s_bunch s' = None /\ s_next s' = s_next s /\
    s_log s' = s_log s ++ start_record (s_out s) b ++ EInit b ::
                 turn (s_incx s) (s_onaxis s) b rec (order (s_kind s)) ++ end_record (s_out s) b /\
    snd (continue nofail s') = Undef.
Proof.
  intros s b rec U B R. unfold track_bunch.
  destruct (pass_ok (set_bunch (Some b) s) b true rec) as (s1 & P1 & P2 & (S & Q1 & Q2 & Q3)); auto.
  rewrite P1. eexists; split; [reflexivity|]. unfold same_setup in *. cbn in S, Q3 |- *.
  decompose [and] S. repeat split; auto.
Qed.
Print Assumptions C138_track_bunch.

(* stepping component by component has the effects of a run when every frame
   holds a component and none has a patch *)
Definition plain (l : list frame) : Prop :=
  Forall (fun f => is_component f = true /\ fpin f = false /\ fpout f = false) l.
Theorem C138_stepping : forall s l rec,
  s_kind s = Line l -> l <> [] -> plain l -> s_busy s = false -> s_ctor s = true -> marks s rec ->
  let b := s_next s in
  exists s1 s2, init_stepper true s = (s1, Done) /\
    steps (step_component nofail) (length l) s1 = (s2, Done, false) /\
    s_log s2 = s_log s ++ EConstruct b :: EInit b :: turn (s_incx s) false b rec l /\
    forall s3, s3 = s2 -> snd (fst (step_component nofail s3)) = Assert.
Proof.
  intros s l rec HK HN HP B C R b. unfold init_stepper. rewrite C. cbn [negb orb].
  set (s0 := construct_bunch s). cbn [s_bunch s0 construct_bunch]. fold s0.
  change (s_next s) with b.
  change (s_kind (add [EInit b] s0)) with (s_kind s). rewrite HK.
  destruct l as [|f0 l0] eqn:EL; [congruence|]. rewrite <- EL in *.
  exists (set_rest (Some l) (add [EInit b] s0)).
  assert (G : forall m s1, plain m -> s_rest s1 = Some m -> m <> [] -> s_bunch s1 = Some b -> s_busy s1 = false ->
     exists s2, steps (step_component nofail) (length m) s1 = (s2, Done, false) /\ s_rest s2 = Some [] /\
       s_log s2 = s_log s1 ++ flat_map (around (s_incx s1) false b (recorded (s_out s1))) m).
  { clear. induction m as [|f m IH]; intros s1 HP HR HN HB B; [congruence|].
    inversion HP as [|? ? (F1 & F2 & F3) HP']. subst.
    cbn [length steps]. unfold step_component at 1. rewrite HR, HB, F1. cbn [negb].
    unfold track_component at 1. rewrite busy_opt, B. unfold nofail at 1. cbv beta iota.
    set (sx := if s_incx s1 then add [EEnter b (fid f)] s1 else s1).
    set (sy := add [ETrack b (fid f)] sx).
    set (sz := if s_incx sy then add [EExit b (fid f)] sy else sy).
    set (sw := if recorded (s_out sz) f then add [ERec b (fid f)] sz else sz).
    assert (KX : keep s1 sx (opt (s_incx s1) (EEnter b (fid f)))) by apply keep_opt.
    assert (KY := keep_trans _ _ _ _ _ KX (keep_add [ETrack b (fid f)] sx)). fold sy in KY.
    assert (KZ : keep sy sz (opt (s_incx sy) (EExit b (fid f)))) by apply keep_opt.
    assert (KW : keep sz sw (opt (recorded (s_out sz) f) (ERec b (fid f)))) by apply keep_opt.
    assert (OZ : s_out sz = s_out s1).
    { destruct (setup_of KY) as (_ & Q & _), (setup_of KZ) as (_ & Q' & _). congruence. }
    assert (IY : s_incx sy = s_incx s1) by (destruct (setup_of KY) as (Q & _); exact Q).
    rewrite OZ in KW. rewrite IY in KZ.
    assert (K := keep_trans _ _ _ _ _ (keep_trans _ _ _ _ _ KY KZ) KW).
    assert (EV : ((opt (s_incx s1) (EEnter b (fid f)) ++ [ETrack b (fid f)]) ++ opt (s_incx s1) (EExit b (fid f))) ++
                 opt (recorded (s_out s1) f) (ERec b (fid f)) = around (s_incx s1) false b (recorded (s_out s1)) f).
    { unfold around, before, after. rewrite F1, F2, F3. cbn [negb opt app]. rewrite andb_true_r, <- !app_assoc. reflexivity. }
    rewrite EV in K.
    assert (BW : s_busy sw = false).
    { unfold sw. rewrite busy_opt. unfold sz. rewrite busy_opt. unfold sy. cbn [s_busy add]. unfold sx. now rewrite busy_opt. }
    clearbody sw. clear KX KY KZ KW EV OZ IY. clear sz sy sx.
    destruct K as (SU & Q1 & Q2 & Q3). unfold same_setup in SU. decompose [and] SU.
    destruct m as [|g m].
    - cbn [length flat_map]. eexists; split; [reflexivity|]. cbn. rewrite app_nil_r. auto.
    - destruct (IH (set_rest (Some (g :: m)) sw) HP' eq_refl) as (s2 & T1 & T2 & T3); try discriminate; cbn; try congruence.
      cbn [length] in T1. exists s2. split; [exact T1|]. split; [exact T2|].
      rewrite T3. cbn [set_rest s_log s_incx s_out]. rewrite Q3, <- app_assoc. cbn [flat_map].
      replace (s_incx sw) with (s_incx s1) by congruence. replace (s_out sw) with (s_out s1) by congruence. reflexivity. }
  destruct (G l (set_rest (Some l) (add [EInit b] s0)) HP eq_refl HN eq_refl B) as (s2 & T1 & T2 & T3).
  exists s2. split; [rewrite EL; reflexivity|]. split; [exact T1|]. split.
  - rewrite T3. cbn. rewrite <- !app_assoc. cbn [app].
    rewrite <- turn_false, (turn_rec s rec) by exact R. reflexivity.
  - intros s3 ->. unfold step_component. rewrite T2. reflexivity.
Qed.
Print Assumptions C138_stepping.

(* ---- witnesses ---- *)
Definition q (n : nat) (s : string) : frame := mkFr n (Some (of_string s)) false false.
Definition l3 : list frame := [q 1 "Quadrupole.QF"; mkFr 2 None true false; mkFr 3 (Some (of_string "Drift.D1")) true true].
Definition sim0 (k : kind) (onaxis handle : bool) : sim :=
  mkS None true 7 k true onaxis handle (Some (mkO false true true [of_string "Quad*"])) false None [].
Definition qrec (f : frame) : bool := Nat.eqb (fid f) 1.

Example C20_run_ex :
  usable (s_kind (sim0 (Line l3) false false)) /\
  s_log (fst (run nofail (sim0 (Line l3) false false))) =
  [EConstruct 7; ERecInit (Some 7); EInit 7; EEnter 7 1; ETrack 7 1; EExit 7 1; ERec 7 1;
   EEnter 7 2; EPatchIn 7 2; EExit 7 2; EEnter 7 3; EPatchIn 7 3; ETrack 7 3; EPatchOut 7 3; EExit 7 3; ERecFinal (Some 7)].
Proof. split; [discriminate|]. vm_compute. reflexivity. Qed.
Example C20_ring_ex :
  usable (RingAt l3 2) /\
  tracked (s_log (fst (turns (continue nofail) 2 (fst (run nofail (sim0 (RingAt l3 2) false false)))))) = [3; 1; 3; 1; 3; 1].
Proof. split; [cbn; lia|]. vm_compute. reflexivity. Qed.
Example C20_marks_ex : wants (s_out (sim0 (Line l3) false false)) (q 1 "Quadrupole.QF") /\
  ~ wants (s_out (sim0 (Line l3) false false)) (mkFr 3 (Some (of_string "Drift.D1")) true true).
Proof. split; [apply recorded_iff; vm_compute; reflexivity|]. rewrite <- recorded_iff. vm_compute. discriminate. Qed.

(* with injection on axis every continuation omits the first entrance again *)
Theorem C20_injection_refuted : exists s s1 s2,
  s_onaxis s = true /\ run nofail s = (s1, Done) /\ continue nofail s1 = (s2, Done) /\
  count_occ Nat.eq_dec (flat_map (fun e => match e with EEnter _ f => [f] | _ => [] end) (s_log s2)) 1 = 0 /\
  count_occ Nat.eq_dec (flat_map (fun e => match e with EExit _ f => [f] | _ => [] end) (s_log s2)) 1 = 2.
Proof.
  exists (sim0 (RingAt l3 0) true false). do 2 eexists.
  split; [reflexivity|]. split; [vm_compute; reflexivity|]. split; [vm_compute; reflexivity|].
  split; vm_compute; reflexivity.
Qed.
Print Assumptions C20_injection_refuted.

(* stepping omits patches and the injection setting, and frames without a
   component are undefined *)
Theorem C20_stepping_refuted :
  (exists s s1 s2 s3 s4 b, let l := [mkFr 3 (Some (of_string "Drift.D1")) true true] in
     s_kind s = Line l /\ init_stepper true s = (s1, Done) /\ step_component nofail s1 = (s2, Done, false) /\
     run nofail s = (s3, Done) /\ s_log s2 = [EConstruct 7; EInit 7; EEnter 7 3; ETrack 7 3; EExit 7 3] /\
     s_log s3 = s4 ++ [EEnter b 3; EPatchIn b 3; ETrack b 3; EPatchOut b 3; EExit b 3; ERecFinal (Some b)]) /\
  (exists s s1, s_kind s = Line [mkFr 2 None true false] /\ snd (run nofail s) = Done /\
     init_stepper true s = (s1, Done) /\ snd (fst (step_component nofail s1)) = Undef) /\
  (exists s s1, s_kind s = Line [q 1 "Quadrupole.QF"] /\ s_onaxis s = true /\ init_stepper true s = (s1, Done) /\
     In (EEnter 7 1) (s_log (fst (fst (step_component nofail s1)))) /\ ~ In (EEnter 7 1) (s_log (fst (run nofail s)))).
Proof.
  split; [|split].
  - exists (sim0 (Line [mkFr 3 (Some (of_string "Drift.D1")) true true]) false false).
    do 3 eexists. exists [EConstruct 7; ERecInit (Some 7); EInit 7], 7. cbv zeta. split; [reflexivity|].
    split; [vm_compute; reflexivity|]. split; [vm_compute; reflexivity|]. split; [vm_compute; reflexivity|].
    split; vm_compute; reflexivity.
  - exists (sim0 (Line [mkFr 2 None true false]) false false). eexists. split; [reflexivity|].
    split; [vm_compute; reflexivity|]. split; [vm_compute; reflexivity|]. vm_compute; reflexivity.
  - exists (sim0 (Line [q 1 "Quadrupole.QF"]) true false). eexists. split; [reflexivity|]. split; [reflexivity|].
    split; [vm_compute; reflexivity|]. vm_compute. split; [auto 10|]. intuition discriminate.
Qed.
Print Assumptions C20_stepping_refuted.

(* undefined and refused uses *)
Theorem C138_refusals : forall fails s,
  (s_ctor s = false -> run fails s = (s, Assert)) /\
  (s_bunch s = None -> snd (continue fails s) = Undef) /\
  (forall b, s_bunch s = Some b -> s_kind s = Line [] -> snd (continue fails s) = Undef) /\
  (forall b, s_bunch s = Some b -> s_kind s = NoLattice -> snd (continue fails s) = Undef) /\
  (forall l k, s_kind s = RingAt l k -> s_ctor s = true -> exists s', init_stepper true s = (s', Done) /\
      step_component fails s' = (s', Assert, false)).
Proof.
  intros fails s. repeat split.
  - intros C. unfold run, do_run. now rewrite C.
  - intros HB. unfold continue, do_run. rewrite HB. cbn [add s_bunch orb andb]. now rewrite HB.
  - intros b HB HK. unfold continue, do_run. rewrite HB. cbn [add s_bunch orb andb s_kind]. now rewrite HB, HK.
  - intros b HB HK. unfold continue, do_run. rewrite HB. cbn [add s_bunch orb andb s_kind]. now rewrite HB, HK.
  - intros l k HK C. unfold init_stepper. rewrite C. cbn [negb orb construct_bunch s_bunch add s_kind]. rewrite HK.
    eexists; split; [reflexivity|]. reflexivity.
Qed.
Print Assumptions C138_refusals.
Example C20_refusals_ex : s_bunch (sim0 (Line l3) false false) = None.
Proof. reflexivity. Qed.

Example C20_interrupted_ex :
  let f := fun lg : list tev => if Nat.eqb (length (tracked lg)) 1 then Some (mkX Merlin true) else None in
  run f (sim0 (Line l3) false true) =
  (mkS (Some 7) true 8 (Line l3) true false true (Some (mkO false true true [of_string "Quad*"])) true None
     [EConstruct 7; ERecInit (Some 7); EInit 7; EEnter 7 1; ETrack 7 1; EExit 7 1; ERec 7 1;
      EEnter 7 2; EPatchIn 7 2; EExit 7 2; EEnter 7 3; EPatchIn 7 3; ETrack 7 3; ERecFinal (Some 7)], Done).
Proof. vm_compute. reflexivity. Qed.

Example C20_stepping_ex : plain [q 1 "Quadrupole.QF"; q 3 "Drift.D1"].
Proof. repeat constructor. Qed.

(* C68: a run after a run that ended with a handled exception *)
(* if the exception left the transport inside a component, the next run fails an
   assertion at its first component *)
Theorem C68_run_again_refuted : exists f s s',
  usable (s_kind s) /\ s_busy s = false /\ run f s = (s', Done) /\
  snd (run nofail s') = Assert /\ snd (run nofail s) = Done.
Proof.
  exists (fun lg => if Nat.eqb (length (tracked lg)) 1 then Some (mkX Merlin true) else None), (sim0 (Line l3) false true).
  eexists. split; [discriminate|]. split; [reflexivity|]. split; [vm_compute; reflexivity|].
  split; vm_compute; reflexivity.
Qed.
Print Assumptions C68_run_again_refuted.

Theorem C158_unusable_afterwards : forall fails s b f l,
  s_busy s = true -> order (s_kind s) = f :: l -> usable (s_kind s) -> is_component f = true ->
  s_ctor s = true -> s_bunch s = Some b ->
  snd (run fails s) = Assert /\ snd (continue fails s) = Assert.
Proof.
  intros fails s b f l B O U C CT HB.
  assert (G : forall s1 b1 init, s_busy s1 = true -> s_kind s1 = s_kind s -> s_bunch s1 = Some b1 ->
             snd (do_run fails false init s1) = Assert).
  { intros s1 b1 init B1 K1 H1. unfold do_run. rewrite H1. cbn [orb andb]. rewrite orb_false_r.
    cbn [add s_bunch]. rewrite H1.
    set (s2 := if init then _ else _).
    assert (K2 : s_kind s2 = s_kind s) by (unfold s2; destruct init; exact K1).
    assert (B2 : s_busy s2 = true) by (unfold s2; destruct init; exact B1). clearbody s2.
    rewrite (pass_eq fails b1 true (s_kind s2) s2) by congruence.
    rewrite K2, O. cbn [perform]. destruct (visit_busy fails b1 true f s2 B2 C) as (s3 & V). rewrite V. reflexivity. }
  split.
  - unfold run. replace (do_run fails true true s) with (do_run fails false true (construct_bunch s)).
    + eapply (G (construct_bunch s)); [exact B|reflexivity|reflexivity].
    + unfold do_run. rewrite CT. reflexivity.
  - unfold continue. eapply G; eauto.
Qed.
Print Assumptions C158_unusable_afterwards.
Example C68_unusable_ex : order (RingAt l3 2) = mkFr 3 (Some (of_string "Drift.D1")) true true :: [q 1 "Quadrupole.QF"; mkFr 2 None true false]
  /\ usable (RingAt l3 2).
Proof. split; [reflexivity|cbn; lia]. Qed.

(* if the exceptions are raised when the transport has finished the component,
   the next run has the effects of a first one *)
Theorem C158_run_again : forall fails s rec s',
  (forall lg x, fails lg = Some x -> xkind x = Merlin /\ xinside x = false) ->
  s_handle s = true -> usable (s_kind s) -> s_busy s = false -> s_ctor s = true -> marks s rec ->
  run fails s = (s', Done) ->
  let whole b := EConstruct b :: start_record (s_out s) b ++ EInit b ::
                 turn (s_incx s) (s_onaxis s) b rec (order (s_kind s)) ++ end_record (s_out s) b in
  exists t t', run nofail s' = (t, Done) /\ run nofail s = (t', Done) /\
    s_log t = s_log s' ++ whole (S (s_next s)) /\ s_log t' = s_log s ++ whole (s_next s).
Proof.
  intros fails s rec s' HF HH U B C R H whole.
  assert (SS : same_setup s s' /\ s_next s' = S (s_next s) /\ s_busy s' = false).
  { unfold run, do_run in H. rewrite C in H. cbn [orb negb andb] in H.
    set (s0 := construct_bunch s) in H. set (s1 := add (rec_initial s0) s0) in H.
    assert (Hb1 : s_bunch s1 = Some (s_next s)) by reflexivity. rewrite Hb1 in H.
    set (s2 := add [EInit (s_next s)] s1) in H.
    assert (S2 : same_setup s s2 /\ s_next s2 = S (s_next s) /\ s_busy s2 = false) by (repeat split; exact B).
    clearbody s2. destruct S2 as (S2 & N2 & B2). unfold same_setup in S2. decompose [and] S2.
    rewrite (pass_eq fails (s_next s) true (s_kind s2) s2) in H by congruence.
    destruct (perform_any fails (s_next s) (order (s_kind s2)) true s2 B2)
      as [(s3 & P1 & P2 & P3)|(s3 & x & l1 & f & l2 & lg & P1 & P2 & P3 & P4 & P5 & P6 & P7)].
    - rewrite P1 in H. inversion H; subst s'. cbn [add s_next s_busy]. destruct P3 as (Q & _ & Q2 & _).
      unfold same_setup in Q |- *. decompose [and] Q. cbn. repeat split; congruence.
    - rewrite P1 in H. destruct (HF _ _ P5) as [X1 X2]. rewrite X1 in H. destruct P7 as (Q & _ & Q2 & _).
      unfold same_setup in Q |- *. decompose [and] Q.
      destruct (s_handle s3) eqn:HH3; [|discriminate]. inversion H; subst s'. cbn. repeat split; congruence. }
  destruct SS as (SS & N & B'). unfold same_setup in SS. decompose [and] SS.
  destruct (C138_run s' rec) as (t & T1 & _ & _ & _ & _ & T6); try congruence.
  { intros f. replace (s_out s') with (s_out s) by congruence. apply R. }
  destruct (C138_run s rec U B C R) as (t' & T1' & _ & _ & _ & _ & T6').
  exists t, t'. split; [exact T1|]. split; [exact T1'|].
  unfold whole. rewrite T6, T6', N.
  replace (s_out s') with (s_out s) by congruence. replace (s_incx s') with (s_incx s) by congruence.
  replace (s_onaxis s') with (s_onaxis s) by congruence. replace (s_kind s') with (s_kind s) by congruence. auto.
Qed.
Print Assumptions C158_run_again.
Example C68_run_again_ex :
  let f := fun lg : list tev => if Nat.eqb (length (tracked lg)) 1 then Some (mkX Merlin false) else None in
  (forall lg x, f lg = Some x -> xkind x = Merlin /\ xinside x = false) /\
  snd (run f (sim0 (Line l3) false true)) = Done /\
  tracked (s_log (fst (run f (sim0 (Line l3) false true)))) = [1; 3].
Proof.
  split; [|vm_compute; auto]. intros lg x H. cbv beta zeta in H. destruct (Nat.eqb _ 1); [|discriminate]. inversion H. auto.
Qed.
