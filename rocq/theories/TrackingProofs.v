From Verif Require Import Base Ring RingProps StringPattern Tracking TrackingSpec.
From Coq Require Import Lia.

Definition keep (s s' : sim) (ev : list tev) : Prop :=
  same_setup s s' /\ s_bunch s' = s_bunch s /\ s_next s' = s_next s /\ s_log s' = s_log s ++ ev.
Lemma keep_refl s : keep s s [].
Proof. repeat split; auto. now rewrite app_nil_r. Qed.
Lemma keep_trans a b c e f : keep a b e -> keep b c f -> keep a c (e ++ f).
Proof.
  intros (S1 & B1 & N1 & L1) (S2 & B2 & N2 & L2). unfold keep, same_setup in *.
  decompose [and] S1; decompose [and] S2. rewrite app_assoc, <- L1. repeat split; congruence.
Qed.
Lemma keep_add ev s : keep s (add ev s) ev.
Proof. repeat split. Qed.
Lemma keep_opt (b : bool) e s : keep s (if b then add [e] s else s) (opt b e).
Proof. destruct b; [apply keep_add|apply keep_refl]. Qed.
Lemma keep_busy b s : keep s (set_busy b s) [].
Proof. repeat split. cbn. now rewrite app_nil_r. Qed.

Lemma busy_opt (b : bool) e s : s_busy (if b then add [e] s else s) = s_busy s.
Proof. now destruct b. Qed.

(* the log just before the component is tracked *)
Definition at_track (fb : bool) (b : nat) (f : frame) (s : sim) : list tev :=
  s_log s ++ opt (s_incx s && negb (fb && s_onaxis s)) (EEnter b (fid f)) ++ opt (fpin f) (EPatchIn b (fid f)).

Lemma visit_spec fails b fb f s :
  s_busy s = false ->
  let ax := fb && s_onaxis s in
  match (if is_component f then fails (at_track fb b f s) else None) with
  | None => exists s', visit fails b fb f s = (s', Done) /\ s_busy s' = false /\
              keep s s' (around (s_incx s) ax b (recorded (s_out s)) f)
  | Some x => exists s', visit fails b fb f s = (s', Raised (xkind x)) /\ s_busy s' = xinside x /\
              keep s s' (before (s_incx s) ax b f)
  end.
Proof.
  intros HB ax. unfold visit.
  set (s1 := if s_incx s && negb (fb && s_onaxis s) then add [EEnter b (fid f)] s else s).
  assert (K1 : keep s s1 (opt (s_incx s && negb ax) (EEnter b (fid f)))) by apply keep_opt.
  assert (B1 : s_busy s1 = s_busy s) by apply busy_opt.
  set (s2 := if fpin f then add [EPatchIn b (fid f)] s1 else s1).
  assert (K2 : keep s s2 (opt (s_incx s && negb ax) (EEnter b (fid f)) ++ opt (fpin f) (EPatchIn b (fid f)))).
  { eapply keep_trans; [exact K1|apply keep_opt]. }
  assert (B2 : s_busy s2 = false) by (unfold s2; rewrite busy_opt; congruence).
  assert (L2 : s_log s2 = at_track fb b f s) by apply K2.
  clearbody s2; clear s1 K1 B1.
  assert (R : forall s3, keep s s3 (before (s_incx s) ax b f) -> s_busy s3 = false ->
     exists s', (let s4 := if fpout f then add [EPatchOut b (fid f)] s3 else s3 in
                 let s5 := if s_incx s4 then add [EExit b (fid f)] s4 else s4 in
                 let s6 := if recorded (s_out s5) f then add [ERec b (fid f)] s5 else s5 in (s6, Done)) = (s', Done)
       /\ s_busy s' = false /\ keep s s' (around (s_incx s) ax b (recorded (s_out s)) f)).
  { intros s3 K3 B3. eexists; split; [reflexivity|]. split.
    - now rewrite !busy_opt.
    - eapply keep_trans; [exact K3|].
      assert (E : s_incx s = s_incx s3 /\ s_out s = s_out s3).
      { destruct K3 as (S & _). unfold same_setup in S. decompose [and] S. split; congruence. }
      destruct E as [-> ->]. unfold after.
      set (s4 := if fpout f then _ else s3).
      assert (K4 : keep s3 s4 (opt (fpout f) (EPatchOut b (fid f)))) by apply keep_opt.
      assert (E : s_incx s4 = s_incx s3 /\ s_out s4 = s_out s3).
      { destruct K4 as (S & _). unfold same_setup in S. decompose [and] S. split; congruence. }
      destruct E as [E E']. rewrite E. clearbody s4.
      eapply keep_trans; [exact K4|].
      set (s5 := if s_incx s3 then _ else s4).
      assert (K5 : keep s4 s5 (opt (s_incx s3) (EExit b (fid f)))) by apply keep_opt.
      assert (E5 : s_out s5 = s_out s3).
      { destruct K5 as (S & _). unfold same_setup in S. decompose [and] S. congruence. }
      clearbody s5. eapply keep_trans; [exact K5|]. rewrite E5. apply keep_opt. }
  destruct (is_component f) eqn:C.
  - unfold track_component. rewrite B2, L2.
    assert (K3 : keep s (add [ETrack b (fid f)] s2) (before (s_incx s) ax b f)).
    { unfold before. rewrite C, app_assoc. eapply keep_trans; [exact K2|apply keep_add]. }
    destruct (fails (at_track fb b f s)) as [x|].
    + eexists; split; [reflexivity|]. split; [reflexivity|].
      rewrite <- (app_nil_r (before _ _ _ _)). eapply keep_trans; [exact K3|apply keep_busy].
    + cbv beta iota. apply R; auto.
  - cbv beta iota. apply R; auto. unfold before. rewrite C. cbn [opt]. now rewrite app_nil_r.
Qed.

Lemma visit_busy fails b fb f s :
  s_busy s = true -> is_component f = true -> exists s', visit fails b fb f s = (s', Assert).
Proof.
  intros HB HC. unfold visit. rewrite HC. unfold track_component. rewrite !busy_opt, HB. eauto.
Qed.

Definition setup_of {s s' ev} (K : keep s s' ev) :
  s_incx s' = s_incx s /\ s_out s' = s_out s /\ s_onaxis s' = s_onaxis s.
Proof. destruct K as (S & _). unfold same_setup in S. decompose [and] S. auto. Qed.

Lemma nth_error_skipn_cons {A} (f : A) : forall n l, nth_error l n = Some f -> skipn n l = f :: skipn (S n) l.
Proof.
  induction n as [|n IH]; intros [|a l] H; cbn in *; try discriminate; [congruence|].
  rewrite (IH _ H). reflexivity.
Qed.

(* a list visited one frame after the other *)
Fixpoint perform (fails : list tev -> option failure) (b : nat) (fb : bool) (l : list frame) (s : sim) : sim * outcome :=
  match l with
  | [] => (s, Done)
  | f :: l' => match visit fails b fb f s with (s', Done) => perform fails b false l' s' | r => r end
  end.

Lemma perform_line_eq fails b : forall l fb s, l <> [] -> perform_line fails b fb l s = perform fails b fb l s.
Proof.
  induction l as [|f l IH]; intros fb s H; [congruence|].
  cbn [perform_line perform]. destruct (visit fails b fb f s) as [s' o]. destruct o; auto.
  destruct l; [reflexivity|]. now apply IH.
Qed.

Lemma perform_ring_eq fails b l k : k < length l -> forall m n fb s,
  m = length l - n -> n < length l ->
  perform_ring fails m b fb l (mkRing (length l) ((k + n) mod length l)) (mkRing (length l) k) s =
  perform fails b fb (skipn n (skipn k l ++ firstn k l)) s.
Proof.
  intros HK. set (L := skipn k l ++ firstn k l).
  assert (HL : length L = length l).
  { unfold L. rewrite app_length, skipn_length, firstn_length. lia. }
  assert (NTH : forall n, n < length l -> nth_error l ((k + n) mod length l) = nth_error L n).
  { intros n Hn. unfold L. destruct (Nat.lt_ge_cases n (length l - k)) as [C|C].
    - rewrite nth_error_app1 by (rewrite skipn_length; lia).
      rewrite Nat.mod_small by lia.
      rewrite <- (firstn_skipn k l) at 1. rewrite nth_error_app2 by (rewrite firstn_length; lia).
      rewrite firstn_length. f_equal. lia.
    - rewrite nth_error_app2 by (rewrite skipn_length; lia). rewrite skipn_length.
      replace (k + n) with ((k + n - length l) + 1 * length l) by lia.
      rewrite Nat.mod_add, Nat.mod_small by lia.
      rewrite <- (firstn_skipn k l) at 1. rewrite nth_error_app1 by (rewrite firstn_length; lia).
      f_equal. lia. }
  induction m as [|m IH]; intros n fb s Hm Hn; [lia|].
  cbn [perform_ring]. unfold deref. cbn [curr].
  assert (NN := NTH n Hn).
  destruct (nth_error L n) as [f|] eqn:E.
  2: { apply nth_error_None in E. lia. }
  rewrite NN.
  assert (SK : skipn n L = f :: skipn (S n) L).
  { apply nth_error_skipn_cons; auto. }
  rewrite SK. cbn [perform]. destruct (visit fails b fb f s) as [s' o]. destruct o; auto.
  rewrite pre_inc_mod by (cbn; apply Nat.mod_upper_bound; lia).
  cbn [curr cont_size].
  assert (PM : (((k + n) mod length l) + 1) mod length l = (k + S n) mod length l).
  { rewrite Nat.add_mod_idemp_l by lia. f_equal. lia. }
  assert (PM' : S ((k + n) mod length l) mod length l = (k + S n) mod length l).
  { rewrite <- PM. f_equal. lia. }
  rewrite ?PM, ?PM'.
  destruct (Nat.eqb_spec ((k + S n) mod length l) k) as [Q|Q].
  - assert (S n = length l).
    { destruct (Nat.lt_ge_cases (k + S n) (length l)) as [D|D].
      - rewrite Nat.mod_small in Q by lia. lia.
      - replace (k + S n) with ((k + S n - length l) + 1 * length l) in Q by lia.
        rewrite Nat.mod_add, Nat.mod_small in Q by lia. lia. }
    rewrite skipn_all2 by lia. reflexivity.
  - assert (S n <> length l).
    { intros D. apply Q. rewrite D. replace (k + length l) with (k + 1 * length l) by lia.
      rewrite Nat.mod_add, Nat.mod_small by lia. reflexivity. }
    apply IH; lia.
Qed.

(* the events of the list *)
Definition all_around incx ax b rec (l : list frame) : list tev := turn incx ax b rec l.
Lemma turn_false incx b rec l : turn incx false b rec l = flat_map (around incx false b rec) l.
Proof. destruct l; reflexivity. Qed.

Lemma perform_ok fails b : (forall lg, fails lg = None) -> forall l fb s,
  s_busy s = false ->
  exists s', perform fails b fb l s = (s', Done) /\ s_busy s' = false /\
     keep s s' (turn (s_incx s) (fb && s_onaxis s) b (recorded (s_out s)) l).
Proof.
  intros HF. induction l as [|f l IH]; intros fb s HB.
  { exists s. repeat split; auto. cbn. now rewrite app_nil_r. }
  cbn [perform]. assert (V := visit_spec fails b fb f s HB). cbv zeta in V.
  assert (E : (if is_component f then fails (at_track fb b f s) else None) = None) by (destruct (is_component f); auto).
  rewrite E in V. destruct V as (s1 & V1 & V2 & V3). rewrite V1.
  destruct (IH false s1 V2) as (s2 & P1 & P2 & P3).
  exists s2. split; [exact P1|]. split; [exact P2|].
  destruct (setup_of V3) as (E1 & E2 & E3). rewrite E1, E2 in P3. cbn [andb] in P3. rewrite turn_false in P3.
  cbn [turn]. eapply keep_trans; eauto.
Qed.

(* an interrupted pass: the events up to and including the component that failed *)
Lemma perform_any fails b : forall l fb s, s_busy s = false ->
  let rec := recorded (s_out s) in
  (exists s', perform fails b fb l s = (s', Done) /\ s_busy s' = false /\
     keep s s' (turn (s_incx s) (fb && s_onaxis s) b rec l)) \/
  (exists s' x l1 f l2 lg, perform fails b fb l s = (s', Raised (xkind x)) /\ s_busy s' = xinside x /\
     l = l1 ++ f :: l2 /\ is_component f = true /\ fails lg = Some x /\
     s_log s' = lg ++ [ETrack b (fid f)] /\
     keep s s' (turn (s_incx s) (fb && s_onaxis s) b rec l1 ++
                before (s_incx s) (match l1 with [] => fb && s_onaxis s | _ => false end) b f)).
Proof.
  induction l as [|f l IH]; intros fb s HB rec.
  { left. exists s. repeat split; auto. cbn. now rewrite app_nil_r. }
  cbn [perform]. assert (V := visit_spec fails b fb f s HB). cbv zeta in V.
  destruct (if is_component f then fails (at_track fb b f s) else None) as [x|] eqn:E.
  - destruct V as (s1 & V1 & V2 & V3). rewrite V1. right. exists s1, x, [], f, l, (at_track fb b f s).
    destruct (is_component f) eqn:C; [|discriminate].
    repeat split; auto; try apply V3.
    destruct V3 as (_ & _ & _ & L). rewrite L. unfold at_track, before. rewrite C, <- !app_assoc. reflexivity.
  - destruct V as (s1 & V1 & V2 & V3). rewrite V1.
    destruct (setup_of V3) as (E1 & E2 & E3).
    destruct (IH false s1 V2) as [(s2 & P1 & P2 & P3)|(s2 & x & l1 & g & l2 & lg & P1 & P2 & P3 & P4 & P5 & P6 & P7)].
    + left. exists s2. split; [exact P1|]. split; [exact P2|].
      rewrite E1, E2 in P3. cbn [andb] in P3. rewrite turn_false in P3.
      cbn [turn]. eapply keep_trans; eauto.
    + right. exists s2, x, (f :: l1), g, l2, lg. subst l. repeat split; auto; try solve [
        assert (K := keep_trans _ _ _ _ _ V3 P7); destruct K as (A & B & C & D); unfold same_setup in A; decompose [and] A; auto].
      rewrite E1, E2 in P7. cbn [andb] in P7. rewrite turn_false in P7.
      assert (K := keep_trans _ _ _ _ _ V3 P7). destruct K as (_ & _ & _ & D). rewrite D.
      cbn [turn]. rewrite <- !app_assoc. destruct l1; reflexivity.
Qed.

Lemma pass_eq fails b fb k s : usable k ->
  (match k with
   | Line l => perform_line fails b fb l s
   | RingAt l n => perform_ring fails (length l) b fb l (mkRing (length l) n) (mkRing (length l) n) s
   | NoLattice => (s, Undef)
   end) = perform fails b fb (order k) s.
Proof.
  destruct k as [l|l n|]; cbn [usable order]; intros U.
  - now apply perform_line_eq.
  - assert (P := perform_ring_eq fails b l n U (length l) 0 fb s). rewrite Nat.add_0_r, Nat.mod_small in P by lia.
    cbn [skipn] in P. apply P; lia.
  - contradiction.
Qed.

Lemma recorded_iff o f : recorded o f = true <-> wants o f.
Proof.
  unfold recorded, wants. split.
  - destruct o as [out|]; [|discriminate]. destruct (fname f) as [n|]; [|discriminate].
    intros H. exists out, n. split; [auto|]. split; [auto|]. apply orb_prop in H. destruct H as [H|H]; [now left|right].
    unfold is_member in H. apply existsb_exists in H. destruct H as (p & P1 & P2).
    exists p. split; [exact P1|]. destruct (Match _ n) as [[|]| |]; congruence.
  - intros (out & n & -> & -> & [H|(p & P1 & P2)]).
    + now rewrite H.
    + rewrite orb_true_iff. right. unfold is_member. apply existsb_exists. exists p. now rewrite P2.
Qed.

Lemma tracked_app a b : tracked (a ++ b) = tracked a ++ tracked b.
Proof. unfold tracked. now rewrite flat_map_app. Qed.
Lemma tracked_around i k b r f : tracked (around i k b r f) = if is_component f then [fid f] else [].
Proof.
  unfold around, before, after. rewrite !tracked_app.
  destruct (i && negb k), (fpin f), (is_component f), (fpout f), i, (r f); reflexivity.
Qed.
Lemma tracked_turn i a b r l : tracked (turn i a b r l) = component_ids l.
Proof.
  destruct l as [|f l]; [reflexivity|]. cbn [turn]. rewrite tracked_app, tracked_around.
  assert (H : tracked (flat_map (around i false b r) l) = component_ids l).
  { induction l as [|g l IH]; [reflexivity|]. cbn [flat_map]. rewrite tracked_app, tracked_around, IH.
    unfold component_ids. cbn [filter]. destruct (is_component g); reflexivity. }
  rewrite H. unfold component_ids. cbn [filter]. destruct (is_component f); reflexivity.
Qed.
