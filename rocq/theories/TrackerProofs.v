From Verif Require Import RBase Ranges Tracker TrackerSpec.
Local Open Scope R_scope.

Lemma near_fequal : forall x y, near x y = fequal x y.
Proof.
  intros x y. unfold near. destruct (fequal_spec x y), (Rle_dec (Rabs (x - y)) eps);
    try reflexivity; contradiction.
Qed.
Lemma near_sym : forall x y, near x y = near y x.
Proof. intros. unfold near. rewrite Rabs_minus_sym. reflexivity. Qed.
Lemma fequal_diff : forall x y, fequal (y - x) 0 = near x y.
Proof.
  intros. rewrite <- near_fequal, near_sym. unfold near.
  replace (0 - (y - x)) with (x - y) by ring. reflexivity.
Qed.

Lemma sum_app1 : forall l x, sum (l ++ [x]) = sum l + x.
Proof. unfold sum. induction l as [| y l IH]; intros x; cbn; [ring | rewrite IH; ring]. Qed.

(* the map of integrators *)
Lemma lookup_add : forall n i s m, lookup m (fst (set_add n i s)) = if Nat.eqb n m then Some i else lookup m s.
Proof.
  induction s as [| [k j] s IH]; intros m; cbn.
  - destruct (Nat.eqb n m); reflexivity.
  - destruct (Nat.eqb_spec k n) as [-> | N].
    + cbn. destruct (Nat.eqb n m); reflexivity.
    + specialize (IH m). destruct (set_add n i s) as [r b]. cbn in IH |- *.
      destruct (Nat.eqb_spec k m) as [-> | N2]; [| exact IH].
      destruct (Nat.eqb_spec n m); [congruence | reflexivity].
Qed.

Lemma add_flag : forall n i s, snd (set_add n i s) = match lookup n s with Some _ => true | None => false end.
Proof.
  induction s as [| [k j] s IH]; cbn; [reflexivity |].
  destruct (Nat.eqb_spec k n) as [-> | N]; [reflexivity |].
  destruct (set_add n i s) as [r b]. cbn in IH |- *. exact IH.
Qed.

Lemma register_keeps : forall n i t, tst (fst (register n i t)) = tst t /\
  tint (fst (register n i t)) = tint t /\ tlog (fst (register n i t)) = tlog t /\
  tset (fst (register n i t)) = fst (set_add n (Some i) (tset t)).
Proof. intros. unfold register. destruct (set_add n (Some i) (tset t)). cbn. auto. Qed.

Lemma find_app : forall {A} (f : A -> bool) a b,
  find f (a ++ b) = match find f a with Some x => Some x | None => find f b end.
Proof. induction a as [| x a IH]; intros b; cbn; [reflexivity |]. destruct (f x); [reflexivity | apply IH]. Qed.

Definition in_table (init : list (nat * nat)) (n : nat) (other : option (option nat)) : option (option nat) :=
  match find (fun x => Nat.eqb (fst x) n) (rev init) with
  | Some x => Some (Some (snd x))
  | None => other
  end.

Lemma fold_register : forall init t, let t' := fold_left (fun t x => fst (register (fst x) (snd x) t)) init t in
  tst t' = tst t /\ tint t' = tint t /\ tlog t' = tlog t /\
  forall n, lookup n (tset t') = in_table init n (lookup n (tset t)).
Proof.
  induction init as [| [k i] init IH]; intros t; cbn [fold_left fst snd].
  - cbn. auto.
  - destruct (IH (fst (register k i t))) as (A & B & C & D).
    destruct (register_keeps k i t) as (A1 & B1 & C1 & D1).
    cbv zeta. rewrite A, B, C, A1, B1, C1. repeat split; try reflexivity.
    intros n. rewrite D, D1, lookup_add. unfold in_table. cbn [rev].
    rewrite find_app. destruct (find _ (rev init)) as [x |]; [reflexivity |].
    cbn. destruct (Nat.eqb k n); reflexivity.
Qed.

Definition table_ok (init : list (nat * nat)) (s : iset) : Prop :=
  forall n, lookup n s = match handler_of init n with
                         | HNone => None | HBuiltin => Some None | HIntg i => Some (Some i) end.

Lemma new_tracker_ok : forall init, tst (new_tracker init) = Undefined /\
  tint (new_tracker init) = None /\ tlog (new_tracker init) = [] /\ table_ok init (tset (new_tracker init)).
Proof.
  intros init. destruct (fold_register init base_tracker) as (A & B & C & D).
  unfold new_tracker. repeat split; try assumption.
  intros n. rewrite D. unfold in_table, handler_of.
  destruct (find _ (rev init)); [reflexivity |].
  cbn [base_tracker tset lookup]. rewrite Nat.eqb_sym.
  destruct (Nat.eqb n marker_id); reflexivity.
Qed.

Lemma set_integrators_ok : forall init t n,
  lookup n (tset (set_integrator_set init t)) =
    match find (fun x => Nat.eqb (fst x) n) (rev init) with Some x => Some (Some (snd x)) | None => None end.
Proof.
  intros init t n.
  destruct (fold_register init (mkT (tst t) (tint t) [] (tlog t))) as (_ & _ & _ & D).
  unfold set_integrator_set. rewrite D. reflexivity.
Qed.

(* simulation *)
Definition state_of (c : component) (steps : list R) : tstate :=
  match steps with [] => Initialised | _ => if near (sum steps) (clen c) then Finished else Tracking end.
Definition matches (init : list (nat * nat)) (t : tracker) (p : phase) : Prop :=
  table_ok init (tset t) /\
  match p with
  | PIdle => tst t = Undefined /\ tint t = None
  | PGone => tst t = Finished /\ tint t = None
  | POn i c steps =>
      tst t = state_of c steps /\ tint t = Some (mkI (Some i) c (sum steps) (clen c))
  end.

Lemma free_state : forall init t p, matches init t p ->
  free p = match tst t with Undefined | Finished => true | _ => false end.
Proof.
  intros init t [| | i c steps] (_ & H & _); rewrite H; try reflexivity.
  cbn. unfold state_of, exhausted. destruct steps; [reflexivity |]. destruct (near _ _); reflexivity.
Qed.

Lemma dropped_matches : forall init t p, matches init t p -> free p = true ->
  matches init (mkT (tst t) None (tset t) (tlog t)) (dropped p).
Proof.
  intros init t p H F. pose proof (free_state _ _ _ H) as G. rewrite F in G.
  destruct H as [T H]. split; [exact T |].
  destruct p as [| | i c steps]; cbn; destruct H as [H1 H2]; auto.
  split; [| reflexivity]. rewrite H1 in *. unfold state_of in *.
  destruct steps; [discriminate |]. destruct (near _ _); [reflexivity | discriminate].
Qed.

(* the outcome of one call, with the events it adds *)
Definition same_call (init : list (nat * nat)) (t : tracker) (r : res terr (tracker * answer))
    (s : res terr (phase * answer * list ev)) : Prop :=
  match r, s with
  | Ok (t', a), Ok (p', b, es) => a = b /\ tlog t' = tlog t ++ es /\ matches init t' p'
  | Throw e, Throw e' => e = e'
  | UB, UB => True
  | _, _ => False
  end.

Lemma select_same : forall init t p n c, matches init t p ->
  match select n c t, choose (handler_of init n) c p (Ok (dropped p, ABool false, [])) (ABool true) with
  | Ok (t', b), Ok (p', a, es) =>
      a = ABool b /\ tlog t' = tlog t ++ es /\ matches init t' p' /\
      (b = false -> handler_of init n = HNone /\ p' = dropped p) /\ es = []
  | Throw e, Throw e' => e = e'
  | UB, UB => True
  | _, _ => False
  end.
Proof.
  intros init t p n c H. pose proof (free_state _ _ _ H) as F. pose proof (dropped_matches _ _ _ H) as DM.
  unfold select, choose. pose proof (proj1 H n) as T.
  destruct (free p) eqn:FP.
  - destruct (tst t); try discriminate F; rewrite T; destruct (handler_of init n);
      try exact I; cbn; rewrite app_nil_r; repeat split; try apply H; auto; try congruence;
      try (apply (DM eq_refl)).
  - destruct (tst t); try discriminate F; reflexivity.
Qed.

Definition handler_in (init : list (nat * nat)) (ks : list nat) : handler :=
  match find (fun n => match handler_of init n with HNone => false | _ => true end) ks with
  | Some n => handler_of init n
  | None => HNone
  end.

Lemma prepare_same : forall init c ks t p, matches init t p -> free p = true ->
  match prepare_classes ks c t, choose (handler_in init ks) c p (Throw UnknownComponent) AUnit with
  | Ok t', Ok (p', a, es) => a = AUnit /\ es = [] /\ tlog t' = tlog t /\ matches init t' p'
  | Throw e, Throw e' => e = e'
  | UB, UB => True
  | _, _ => False
  end.
Proof.
  intros init c. induction ks as [| k ks IH]; intros t p H F.
  - cbn. unfold choose. rewrite F. reflexivity.
  - cbn [prepare_classes]. pose proof (select_same init t p k c H) as S.
    unfold choose in S |- *. rewrite F in S |- *. unfold handler_in. cbn [find].
    destruct (select k c t) as [[t' b] | e |]; destruct (handler_of init k) eqn:HK; try contradiction; try discriminate;
      cbn [bind fst snd].
    + destruct S as (A & B & C & D & E). injection A as <-.
      fold (handler_in init ks). specialize (IH t' (dropped p) C).
      assert (FD : free (dropped p) = true) by (destruct p; reflexivity).
      specialize (IH FD). unfold choose in IH. rewrite FD in IH.
      rewrite app_nil_r in B. rewrite B in IH. exact IH.
    + destruct S as (A & B & C & D & E). injection A as <-. rewrite HK. cbn. rewrite app_nil_r in B. auto.
    + rewrite HK. exact I.
Qed.

Lemma remaining_left : forall i c steps,
  remaining (mkI (Some i) c (sum steps) (clen c)) = left_over c steps.
Proof. intros. unfold remaining, left_over. cbn. rewrite fequal_diff. reflexivity. Qed.

Lemma valid_between : forall i c steps ds,
  is_valid_step (mkI (Some i) c (sum steps) (clen c)) ds =
  if between_dec 0 (left_over c steps) ds then true else false.
Proof.
  intros. unfold is_valid_step. rewrite remaining_left. set (r := left_over c steps).
  unfold contains, range_of, is_unbounded.
  assert (U : forall r', fequal 0 1 && r' = false).
  { intros r'. destruct (fequal_spec 0 1) as [K | K]; [| reflexivity].
    pose proof eps_small. unfold Rabs in K. destruct (Rcase_abs _); lra. }
  destruct (Rltb_spec r 0) as [L | L]; cbn [lower upper].
  - destruct (fequal_spec 0 (-1)) as [K | K].
    { exfalso. pose proof eps_small. unfold Rabs in K. destruct (Rcase_abs _); lra. }
    rewrite andb_false_r.
    destruct (between_dec 0 r ds) as [B | B]; unfold between in B;
      destruct (Rleb_spec r ds), (Rleb_spec ds 0); cbn; try reflexivity; exfalso; lra.
  - rewrite U. destruct (between_dec 0 r ds) as [B | B]; unfold between in B;
      destruct (Rleb_spec 0 ds), (Rleb_spec ds r); cbn; try reflexivity; exfalso; lra.
Qed.

Lemma intg_track_ok : forall i c steps ds,
  intg_track (mkI (Some i) c (sum steps) (clen c)) i ds =
  (mkI (Some i) c (sum (steps ++ [ds])) (clen c), passed i c steps ds, left_over c (steps ++ [ds])).
Proof.
  intros. unfold intg_track, passed, at_entrance, at_exit. cbn [icur icomp itot itag].
  rewrite !sum_app1, <- !near_fequal, Rplus_0_l. f_equal.
  rewrite <- sum_app1. apply remaining_left.
Qed.

Lemma left_zero : forall c steps, fequal (left_over c steps) 0 = near (sum steps) (clen c).
Proof.
  intros. unfold left_over. destruct (near (sum steps) (clen c)) eqn:E.
  - apply fequal_refl.
  - rewrite fequal_diff. exact E.
Qed.

Lemma state_app : forall c steps ds,
  state_of c (steps ++ [ds]) = if near (sum (steps ++ [ds])) (clen c) then Finished else Tracking.
Proof. intros c [| x steps] ds; reflexivity. Qed.

Lemma call_same : forall init k t p, matches init t p ->
  same_call init t (do_call k t) (spec_call init k p).
Proof.
  intros init k t p H. destruct k as [n c | c | ds | | | |]; cbn [do_call spec_call].
  - pose proof (select_same init t p n c H) as S.
    destruct (select n c t) as [[t' b] | e |]; destruct (choose _ _ _ _ _) as [[[p' a] es] | e' |];
      cbn in *; try contradiction; auto. intuition congruence.
  - unfold prepare. destruct (free p) eqn:F.
    + pose proof (prepare_same init c (classes c) t p H F) as S.
      destruct (classes c) as [| k ks] eqn:K; [exact eq_refl |].
      unfold handler_for. rewrite K. fold (handler_in init (k :: ks)).
      destruct (prepare_classes _ _ _) as [t' | e |]; destruct (choose _ _ _ _ _) as [[[p' a] es] | e' |];
        cbn in *; try contradiction; auto.
      destruct S as (-> & -> & S & M). rewrite app_nil_r. auto.
    + destruct (classes c) as [| k ks]; [exact eq_refl |]. cbn [prepare_classes].
      unfold choose. rewrite F. pose proof (free_state _ _ _ H) as G. rewrite F in G.
      unfold select. destruct (tst t); try discriminate; exact eq_refl.
  - destruct H as [T H]. destruct p as [| | i c steps]; destruct H as [H1 H2]; unfold track_step; rewrite H1;
      try exact eq_refl.
    unfold exhausted, state_of.
    assert (G : forall st, st = Initialised \/ st = Tracking ->
      same_call init t
       (do r <- match st with
                | Initialised | Tracking =>
                  match tint t with
                  | None => UB
                  | Some i0 =>
                      if negb (is_valid_step i0 ds) then Throw AssertFailed else
                      match itag i0 with
                      | None => UB
                      | Some tag =>
                          let '(i', es, rem) := intg_track i0 tag ds in
                          let st := if fequal rem 0 then Finished else Tracking in
                          Ok (mkT st (Some i') (tset t) (tlog t ++ es), state_num st)
                      end
                  end
                | _ => Throw AssertFailed
                end; Ok (fst r, AReal (snd r)))
       (if between_dec 0 (left_over c steps) ds
          then Ok (POn i c (steps ++ [ds]),
                   AReal (if near (sum (steps ++ [ds])) (clen c) then 3 else 2),
                   passed i c steps ds)
          else Throw AssertFailed)).
    { intros st [-> | ->]; rewrite H2, valid_between;
        (destruct (between_dec 0 (left_over c steps) ds); [| exact eq_refl]);
        cbn [negb itag]; rewrite intg_track_ok, left_zero; cbn;
        (split; [destruct (near _ _); reflexivity |]); (split; [reflexivity |]);
        (split; [exact T |]); rewrite state_app; cbn; auto. }
    destruct steps as [| x steps].
    + apply (G Initialised). auto.
    + destruct (near (sum (x :: steps)) (clen c)) eqn:E; [exact eq_refl |]. apply (G Tracking). auto.
  - destruct H as [T H]. destruct p as [| | i c steps]; destruct H as [H1 H2]; unfold track; rewrite H1;
      try exact eq_refl.
    unfold state_of. destruct steps as [| x steps].
    + rewrite H2. cbn [itag icomp]. rewrite intg_track_ok. cbn.
      split; [reflexivity |]. split; [reflexivity |]. split; [exact T |].
      cbn. split; [| reflexivity].
      rewrite Rplus_0_r. rewrite near_fequal, fequal_refl. reflexivity.
    + destruct (near _ _); exact eq_refl.
  - cbn. rewrite app_nil_r. repeat split. apply H.
  - destruct p as [| | i c steps]; destruct H as [T [H1 H2]]; unfold get_remaining; rewrite H1, ?H2; try exact eq_refl; try exact I.
    assert (G : same_call init t (Ok (t, AReal (remaining (mkI (Some i) c (sum steps) (clen c)))))
       (Ok (POn i c steps, AReal (left_over c steps), []))).
    { cbn. rewrite remaining_left, app_nil_r. repeat split; auto. }
    unfold state_of. destruct steps as [| x steps]; [exact G |]. destruct (near _ _) in |- *; exact G.
  - destruct p as [| | i c steps]; destruct H as [T [H1 H2]]; unfold get_integrated; rewrite H1, ?H2; try exact eq_refl; try exact I.
    assert (G : same_call init t (Ok (t, AReal (sum steps))) (Ok (POn i c steps, AReal (sum steps), []))).
    { cbn. rewrite app_nil_r. repeat split; auto. }
    unfold state_of. destruct steps as [| x steps]; [exact G |]. destruct (near _ _) in |- *; exact G.
Qed.

Lemma calls_same : forall init ks t p, matches init t p ->
  match do_calls ks t, spec_calls init ks p with
  | Ok (t', a), Ok (b, es) => a = b /\ tlog t' = tlog t ++ es
  | Throw e, Throw e' => e = e'
  | UB, UB => True
  | _, _ => False
  end.
Proof.
  intros init. induction ks as [| k ks IH]; intros t p H; cbn [do_calls spec_calls].
  - rewrite app_nil_r. auto.
  - pose proof (call_same init k t p H) as S. unfold same_call in S.
    destruct (do_call k t) as [[t' a] | e |]; destruct (spec_call init k p) as [[[p' b] es] | e' |];
      try contradiction; cbn [bind fst snd]; auto.
    destruct S as (-> & L & M). specialize (IH t' p' M).
    destruct (do_calls ks t') as [[t'' a'] | e |]; destruct (spec_calls init ks p') as [[b' es'] | e' |];
      try contradiction; cbn [bind fst snd]; auto.
    destruct IH as [-> L']. rewrite L', L, app_assoc. auto.
Qed.

(* steps *)
Lemma sum_nonneg : forall l, Forall (fun x => 0 <= x) l -> 0 <= sum l.
Proof. unfold sum. induction 1; cbn; lra. Qed.
Lemma sum_app : forall a b, sum (a ++ b) = sum a + sum b.
Proof. unfold sum. induction a as [| x a IH]; intros b; cbn; [ring | rewrite IH; ring]. Qed.

Definition apart (steps : list R) : Prop :=
  forall a b, steps = a ++ b -> a <> [] -> b <> [] -> eps < sum a /\ eps < sum b.

Lemma near_true : forall x y, Rabs (x - y) <= eps -> near x y = true.
Proof. intros x y H. unfold near. destruct (Rle_dec _ _); [reflexivity | contradiction]. Qed.
Lemma near_false : forall x y, eps < x - y \/ eps < y - x -> near x y = false.
Proof.
  intros x y H. unfold near. destruct (Rle_dec _ _) as [K |]; [| reflexivity].
  exfalso. revert K. unfold Rabs. destruct (Rcase_abs _); lra.
Qed.
Lemma near_refl : forall x, near x x = true.
Proof. intros. rewrite near_fequal. apply fequal_refl. Qed.

Lemma steps_run : forall init i c rest done,
  Forall (fun x => 0 <= x) (done ++ rest) -> apart (done ++ rest) ->
  sum (done ++ rest) = clen c -> (clen c = 0 \/ eps < clen c) -> rest <> [] ->
  exists ans, spec_calls init (map CStep rest) (POn i c done) =
    Ok (ans, (match done with [] => [EvEntrance i (cid c)] | _ => [] end)
             ++ bodies i (cid c) (sum done) rest ++ [EvExit i (cid c)]) /\
    ans = map (fun _ => AReal 2) (tl rest) ++ [AReal 3].
Proof.
  intros init i c. pose proof eps_pos as EP.
  induction rest as [| ds r IH]; intros done HP HA HS HT NE; [congruence |].
  pose proof HP as HP'. apply Forall_app in HP' as [HD HR]. inversion HR; subst.
  pose proof (sum_nonneg _ HD) as ND. pose proof (sum_nonneg _ H2) as NR.
  rewrite sum_app in HS. change (sum (ds :: r)) with (ds + sum r) in HS.
  cbn [map spec_calls spec_call].
  assert (EX : exhausted c done = false).
  { unfold exhausted. destruct done as [| x done]; [reflexivity |].
    apply near_false. right. destruct (HA (x :: done) (ds :: r) eq_refl) as [_ K]; try discriminate.
    change (sum (ds :: r)) with (ds + sum r) in K. lra. }
  rewrite EX.
  assert (BT : between 0 (left_over c done) ds).
  { left. split; [assumption |]. unfold left_over. destruct (near (sum done) (clen c)) eqn:E.
    - destruct done as [| x done].
      + cbn in E, HS. destruct HT as [Z | Z]; [lra |]. rewrite near_false in E by lra. discriminate.
      + unfold exhausted in EX. congruence.
    - lra. }
  destruct (between_dec 0 (left_over c done) ds) as [_ | N]; [| contradiction].
  unfold passed.
  assert (EN : (if near (sum done) 0 then [EvEntrance i (cid c)] else [])
               = match done with [] => [EvEntrance i (cid c)] | _ => [] end).
  { destruct done as [| x done].
    - cbn. rewrite near_refl. reflexivity.
    - rewrite near_false; [reflexivity |].
      destruct (HA (x :: done) (ds :: r) eq_refl) as [K _]; try discriminate. lra. }
  rewrite EN. destruct r as [| y r].
  - cbn [map spec_calls bind fst snd bodies]. rewrite !sum_app1.
    cbn in HS. rewrite near_true by (replace (sum done + ds - clen c) with 0 by lra; rewrite Rabs_R0; lra).
    eexists. split; [| reflexivity]. rewrite app_nil_r. reflexivity.
  - assert (APP : (done ++ [ds]) ++ y :: r = done ++ ds :: y :: r) by (rewrite <- app_assoc; reflexivity).
    destruct (HA (done ++ [ds]) (y :: r)) as [K1 K2]; try discriminate; try (symmetry; exact APP).
    { destruct done; discriminate. }
    change (sum (y :: r)) with (y + sum r) in *.
    destruct (IH (done ++ [ds])) as (ans & E & EA); try (rewrite APP; assumption); try discriminate; try assumption.
    { rewrite APP, sum_app. change (sum (ds :: y :: r)) with (ds + (y + sum r)). lra. }
    rewrite E. cbn [bind fst snd]. rewrite !sum_app1.
    rewrite near_false by lra. eexists. split.
    + f_equal. f_equal.
      replace (match done ++ [ds] with [] => [EvEntrance i (cid c)] | _ :: _ => [] end) with (@nil ev)
        by (destruct done; reflexivity).
      cbn [app]. rewrite <- !app_assoc. cbn [app bodies]. reflexivity.
    + rewrite EA. reflexivity.
Qed.

(* monitors *)
Lemma places_app : forall a b x, places x (a ++ b) = places x a ++ places (x + drifted a) b.
Proof.
  induction a as [| [d |] a IH]; intros b x; cbn.
  - f_equal. ring.
  - rewrite IH. do 2 f_equal. ring.
  - rewrite IH. reflexivity.
Qed.
Lemma drifted_app : forall a b, drifted (a ++ b) = drifted a + drifted b.
Proof. induction a as [| [d |] a IH]; intros b; cbn; rewrite ?IH; ring. Qed.

Lemma monitor_count : forall len mp steps cur, len <> 0 ->
  exists es, monitor_run len mp cur steps = Ok es /\ drifted es = sum steps /\
    places cur es = repeat (mp + len / 2) (ends_beyond (mp + len / 2) cur steps).
Proof.
  intros len mp. induction steps as [| ds r IH]; intros cur N.
  - exists []. auto.
  - destruct (IH (cur + ds) N) as (es & E & D & P).
    assert (S : exists e, monitor_step len mp cur ds = Ok e /\ drifted e = ds /\
       places cur e = if Rlt_dec (mp + len / 2) (cur + ds) then [mp + len / 2] else []).
    { unfold monitor_step. destruct (Reqb_spec len 0); [contradiction |]. cbv zeta.
      destruct (Rltb_spec (mp + len / 2) (cur + ds)) as [L | L];
        destruct (Rlt_dec (mp + len / 2) (cur + ds)); try contradiction.
      - eexists. split; [reflexivity |]. cbn. split; [ring |]. f_equal. ring.
      - eexists. split; [reflexivity |]. cbn. split; [ring | reflexivity]. }
    destruct S as (e & E1 & D1 & P1). exists (e ++ es). cbn [monitor_run]. rewrite E1. cbn [bind].
    rewrite E. cbn [bind]. split; [reflexivity |]. rewrite drifted_app, D1, D. split; [reflexivity |].
    rewrite places_app, D1, P1, P. cbn [ends_beyond].
    destruct (Rlt_dec (mp + len / 2) (cur + ds)); reflexivity.
Qed.

(* dividers *)
Lemma Int_part_bounds : forall x, IZR (Int_part x) <= x < IZR (Int_part x) + 1.
Proof. intros x. destruct (base_Int_part x). lra. Qed.
Lemma trunc_pos : forall x, 0 <= x -> trunc x = Int_part x.
Proof. intros x H. unfold trunc. rewrite Rltb_false by lra. reflexivity. Qed.

Lemma divide_by : forall l (k : Z), (1 <= k)%Z -> l / IZR k * IZR k = l.
Proof. intros l k H. apply IZR_le in H. field. lra. Qed.

Lemma set_component_ok : forall l n m d, 0 < l -> (1 <= n)%Z -> 0 <= m ->
  set_component l (new_divider n m) = Ok d ->
  exists k : Z, (1 <= k)%Z /\ ddelta d = l / IZR k /\ dnext d = ddelta d /\ ds_ d = 0 /\
    dmin d = m /\ dn d = n /\
    (if Rlt_dec (l / IZR n) m
     then ddelta d < m /\ forall j : Z, (1 <= j)%Z -> l / IZR j < m -> (k <= j)%Z
     else k = n).
Proof.
  intros l n m d Hl Hn Hm H. unfold set_component, new_divider in H. cbn [dn dmin ddelta] in H.
  destruct (Reqb_spec l 0) as [Z | _]; [lra |].
  destruct (Z.eqb_spec n 0) as [Z | _]; [lia |]. cbv zeta in H.
  destruct (Rltb_spec (l / IZR n) m) as [L | L]; destruct (Rlt_dec (l / IZR n) m) as [L' | L']; try contradiction.
  - destruct (Reqb_spec m 0) as [Z | Nm]; [discriminate |].
    assert (Q : 0 < l / m) by (apply Rdiv_lt_0_compat; lra).
    rewrite trunc_pos in H by lra.
    destruct (Int_part_bounds (l / m + 1)) as [B1 B2].
    set (k := Int_part (l / m + 1)) in *.
    destruct (_ || _ || _) eqn:E in H; [discriminate |]. injection H as <-.
    assert (K : (1 <= k)%Z). { assert (0 < IZR k) by lra. apply lt_IZR in H. lia. }
    assert (KM : l < m * IZR k).
    { apply (Rmult_lt_compat_l m) in B2; [| lra]. replace (m * (l / m + 1)) with (l + m) in B2 by (field; lra). lra. }
    exists k. cbn. repeat split; try assumption; try reflexivity.
    + assert (0 < IZR k) by (apply IZR_le in K; lra).
      apply (Rmult_lt_reg_r (IZR k)); [assumption |]. rewrite divide_by by assumption. lra.
    + intros j Hj Hjm. assert (JP : 0 < IZR j) by (apply IZR_le in Hj; lra).
      apply (Rmult_lt_compat_r (IZR j)) in Hjm; [| assumption]. rewrite divide_by in Hjm by assumption.
      assert (l / m < IZR j).
      { apply (Rmult_lt_reg_r m); [lra |]. replace (l / m * m) with l by (field; lra). lra. }
      assert (IZR k < IZR j + 1) by lra. rewrite <- plus_IZR in H0. apply lt_IZR in H0. lia.
  - injection H as <-. exists n. cbn. repeat split; try assumption; try reflexivity.
Qed.

Lemma increments_count : forall delta l d d' n (k : nat) s,
  eps < delta -> ddelta d = delta -> ds_ d = s -> dnext d = (INR k + 1) * delta ->
  INR k * delta - eps <= s < (INR k + 1) * delta - eps ->
  increments l d = Some (d', n) ->
  INR (k + n) * delta - eps <= s + sum l < (INR (k + n) + 1) * delta - eps /\
  dnext d' = (INR (k + n) + 1) * delta /\ ds_ d' = s + sum l.
Proof.
  intros delta l. pose proof eps_pos as EP.
  induction l as [| x r IH]; intros d d' n k s Hd D1 D2 D3 HI H.
  - cbn in H. injection H as <- <-. rewrite Nat.add_0_r. change (sum []) with 0. rewrite Rplus_0_r. auto.
  - cbn [increments] in H.
    destruct (Rle_dec 0 x) as [HX | ]; [| discriminate].
    destruct (Rle_dec x (distance d)) as [HD | ]; [| discriminate].
    unfold distance in HD. unfold increment in H. rewrite D1, D2, D3 in *.
    destruct (fequal_spec (s + x) ((INR k + 1) * delta)) as [F | F].
    + match type of H with context [increments r ?dd] => remember dd as d1 end.
      destruct (increments r d1) as [[d2 m] |] eqn:E; [| discriminate]. injection H as <- <-.
      assert (LB : (INR k + 1) * delta - eps <= s + x).
      { revert F. unfold Rabs. destruct (Rcase_abs _); lra. }
      destruct (IH d1 d2 m (S k) (s + x)) as (A & B & C); subst d1; cbn [dnext ddelta ds_]; try assumption; try reflexivity.
      * rewrite S_INR. ring.
      * rewrite S_INR. lra.
      * cbn [Nat.add]. replace (k + S m)%nat with (S k + m)%nat by lia.
        change (sum (x :: r)) with (x + sum r). rewrite <- Rplus_assoc. auto.
    + match type of H with context [increments r ?dd] => remember dd as d1 end.
      destruct (increments r d1) as [[d2 m] |] eqn:E; [| discriminate]. injection H as <- <-.
      assert (UB' : s + x < (INR k + 1) * delta - eps).
      { apply Rnot_le_lt in F. revert F. unfold Rabs. destruct (Rcase_abs _); lra. }
      destruct (IH d1 d2 m k (s + x)) as (A & B & C); subst d1; cbn [dnext ddelta ds_]; try assumption; try reflexivity.
      * lra.
      * change (sum (x :: r)) with (x + sum r). rewrite <- Rplus_assoc. auto.
Qed.
