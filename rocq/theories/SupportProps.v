From Verif Require Import Rot RotSpec RotProofs Support SupportSpec.
Local Open Scope R_scope.

Definition ready (girder : bool) (loc ent gT tout : tr3) (s0 e1 e2 : R) : option mount :=
  consolidate gT tout s0 e1 e2 (new_mount girder loc ent).

Lemma rotate_zero : forall r, rotate r (mkv 0 0 0) = mkv 0 0 0.
Proof. intros r. rewrite rotate_matrix. apply vec3_eq; cbn; ring. Qed.

Lemma off_move : forall k a l, off a = offset_after l -> off (apply_move k a) = offset_after (k :: l).
Proof.
  intros [v | v |] a l H; cbn; try reflexivity. rewrite H. reflexivity.
Qed.

Lemma run_app : forall l1 l2 m, run (l1 ++ l2) m =
  match run l1 m with Some m' => run l2 m' | None => None end.
Proof.
  induction l1 as [| o l1 IH]; intros l2 m; [reflexivity |].
  cbn [app run]. destruct (step o m); [apply IH | reflexivity].
Qed.

(* Everything that holds whatever is done. *)
Definition tracks (m m' : mount) (l : list op) : Prop :=
  rg m' = rg m /\ local m' = local m /\ tin m' = tin m /\
  off (sup1 m') = offset1 l /\
  sx (sup1 m') = sx (sup1 m) /\ sz (sup1 m') = sz (sup1 m) /\
  match sup2 m with
  | NoSup => sup2 m' = NoSup
  | Sup b => exists b', sup2 m' = Sup b' /\ off b' = offset2 l /\ sx b' = sx b /\ sz b' = sz b
  | Wild => True
  end.

Lemma firsts_app : forall a b, firsts (a ++ b) = firsts a ++ firsts b.
Proof. intros. apply flat_map_app. Qed.
Lemma seconds_app : forall a b, seconds (a ++ b) = seconds a ++ seconds b.
Proof. intros. apply flat_map_app. Qed.

Lemma offset1_snoc : forall l o, offset1 (l ++ [o]) =
  match o with First k => offset_after (k :: rev (firsts l)) | _ => offset1 l end.
Proof.
  intros l o. unfold offset1. rewrite firsts_app, rev_app_distr. destruct o; reflexivity.
Qed.
Lemma offset2_snoc : forall l o, offset2 (l ++ [o]) =
  match o with Second k => offset_after (k :: rev (seconds l)) | _ => offset2 l end.
Proof.
  intros l o. unfold offset2. rewrite seconds_app, rev_app_distr. destruct o; reflexivity.
Qed.

Lemma sx_move : forall k a, sx (apply_move k a) = sx a /\ sz (apply_move k a) = sz a
  /\ modified (apply_move k a) = true.
Proof. intros [] a; repeat split. Qed.

Definition allowed (m : mount) (l : list op) : Prop :=
  match sup2 m with NoSup => seconds l = [] | Sup _ => True | Wild => False end.

Lemma tracks_step : forall m m' l o, tracks m m' l -> allowed m (l ++ [o]) ->
  exists m'', step o m' = Some m'' /\ tracks m m'' (l ++ [o]).
Proof.
  intros m m' l o (Hr & Hl & Ht & H1 & Hx & Hz & H2) A. unfold allowed in A.
  rewrite seconds_app in A.
  unfold tracks. rewrite offset1_snoc, offset2_snoc.
  destruct o as [k | k |].
  - eexists. split; [reflexivity |]. cbn [rg local tin sup1 sup2].
    destruct (sx_move k (sup1 m')) as (-> & -> & _).
    repeat split; try assumption. apply off_move. exact H1.
  - cbn [step]. destruct (sup2 m) as [| b |]; [| | contradiction].
    + apply app_eq_nil in A as [_ A]. discriminate A.
    + destruct H2 as (b' & -> & O2 & X2 & Z2).
      eexists. split; [reflexivity |]. cbn [rg local tin sup1 sup2].
      repeat split; try assumption.
      exists (apply_move k b'). destruct (sx_move k b') as (-> & -> & _).
      repeat split; try assumption. apply off_move. exact O2.
  - cbn [step]. unfold update. destruct (modified (sup1 m')); cbn [negb].
    + destruct (sup2 m) as [| b |]; [| | contradiction].
      * rewrite H2. eexists. split; [reflexivity |]. cbn. repeat split; assumption.
      * destruct H2 as (b' & E & O2 & X2 & Z2). rewrite E.
        destruct (modified b'); cbn [negb]; eexists; (split; [reflexivity |]); cbn;
          repeat split; try assumption.
        -- eexists; repeat split; assumption.
        -- rewrite E. eexists; repeat split; assumption.
    + eexists. split; [reflexivity |]. repeat split; try assumption.
Qed.

Lemma allowed_app : forall m a b, allowed m (a ++ b) -> allowed m a.
Proof.
  intros m a b. unfold allowed. destruct (sup2 m); auto.
  rewrite seconds_app. intros H. apply app_eq_nil in H. tauto.
Qed.

Definition untouched (m : mount) : Prop :=
  off (sup1 m) = mkv 0 0 0 /\
  match sup2 m with Sup b => off b = mkv 0 0 0 | _ => True end.

Lemma tracks_run : forall l m, untouched m -> allowed m l ->
  exists m', run l m = Some m' /\ tracks m m' l.
Proof.
  induction l as [| o l IH] using rev_ind; intros m U A.
  - exists m. split; [reflexivity |]. destruct U as [U1 U2]. unfold tracks.
    repeat split; try assumption.
    destruct (sup2 m); [reflexivity | eexists; repeat split; assumption | exact I].
  - destruct (IH m U (allowed_app _ _ _ A)) as (m' & R & T).
    destruct (tracks_step _ _ _ _ T A) as (m'' & S & T'').
    exists m''. split; [| exact T'']. rewrite run_app, R. cbn [run]. rewrite S. reflexivity.
Qed.

(* A simple mount: the cache is right whenever the flag is clear. *)
Definition fresh_simple (m : mount) : Prop :=
  sup2 m = NoSup /\
  (modified (sup1 m) = false -> ts m = Some (mkt (rotate (rg m) (off (sup1 m))) RI)).

Lemma vec3_eta : forall v, mkv (vx v) (vy v) (vz v) = v.
Proof. intros []; reflexivity. Qed.

Lemma fresh_simple_step : forall o m m', fresh_simple m -> step o m = Some m' -> fresh_simple m'.
Proof.
  intros o m m' [N F] S. destruct o as [k | k |]; cbn in S.
  - injection S as <-. split; [exact N |]. cbn. destruct (sx_move k (sup1 m)) as (_ & _ & ->). discriminate.
  - rewrite N in S. discriminate.
  - unfold update in S. rewrite N in S. destruct (modified (sup1 m)) eqn:E; cbn [negb] in S.
    + injection S as <-. split; [reflexivity |]. intros _. cbn.
      unfold tr_translation. rewrite vec3_eta. reflexivity.
    + injection S as <-. split; [exact N | intros _; apply F; reflexivity].
Qed.

Lemma fresh_simple_run : forall l m m', fresh_simple m -> run l m = Some m' -> fresh_simple m'.
Proof.
  induction l as [| o l IH]; intros m m' F R; cbn in R.
  - injection R as <-. exact F.
  - destruct (step o m) as [m1 |] eqn:E; [| discriminate].
    eapply IH; [| exact R]. eapply fresh_simple_step; eassumption.
Qed.

Lemma mul_translation : forall loc v p, twf loc ->
  tr_pt (tr_mul loc (mkt v RI)) p = tr_pt loc (vsub p v).
Proof.
  intros loc v p H. rewrite tr_mul_pt; [| exact H | exact I]. reflexivity.
Qed.

(* C106: a simple mount follows its support. *)
Theorem C106_follows : forall loc ent gT tout s0 e1 e2 ops m,
  twf loc -> ready false loc ent gT tout s0 e1 e2 = Some m ->
  seconds ops = [] ->
  exists m' t m'', run ops m = Some m' /\ query m' = Some (Some t, m'') /\
    (forall p, tr_pt t p = tr_pt loc (vsub p (rotate (rr gT) (offset1 ops)))) /\
    export m'' = Some [mkS (offset1 ops) false (vx (x0 gT)) (vz (x0 gT)) s0].
Proof.
  intros loc ent gT tout s0 e1 e2 ops m W R N. unfold ready in R. cbn in R.
  injection R as <-.
  set (m := mkM _ _ _ _ _ _).
  destruct (tracks_run ops m) as (m' & R & T); [split; reflexivity || exact I | exact N |].
  assert (F : fresh_simple m').
  { eapply fresh_simple_run; [| exact R]. split; [reflexivity |]. intros _. cbn.
    rewrite rotate_zero. reflexivity. }
  destruct T as (Hr & Hl & Ht & H1 & Hx & Hz & H2). cbn in Hr, Hl, Hx, Hz, H2.
  destruct F as [_ F].
  assert (HS : s_pos (sup1 m') = s0).
  { clear - R N. subst m.
    assert (K : forall l a b, seconds l = [] -> sup2 a = NoSup -> run l a = Some b ->
                s_pos (sup1 b) = s_pos (sup1 a)).
    { induction l as [| o l IH]; intros a b Ns Na Ra; cbn in Ra; [congruence |].
      destruct (step o a) as [c |] eqn:E; [| discriminate].
      assert (C : sup2 c = NoSup /\ s_pos (sup1 c) = s_pos (sup1 a) /\ seconds l = []).
      { destruct o as [k | k |]; cbn in E.
        - injection E as <-. cbn. repeat split; [assumption | destruct k; reflexivity | exact Ns].
        - rewrite Na in E. discriminate.
        - unfold update in E. rewrite Na in E.
          destruct (modified (sup1 a)); cbn in E; injection E as <-; repeat split; assumption. }
      destruct C as (C1 & C2 & C3). rewrite (IH c b C3 C1 Ra). exact C2. }
    apply K in R; [exact R | exact N | reflexivity]. }
  exists m'.
  assert (Q : update m' = Some (mkM (clear (sup1 m')) NoSup (rg m')
              (Some (mkt (rotate (rg m') (off (sup1 m'))) RI)) (local m') (tin m'))).
  { unfold update. rewrite H2. destruct (modified (sup1 m')) eqn:E; cbn [negb].
    - unfold tr_translation. rewrite vec3_eta. reflexivity.
    - rewrite <- (F eq_refl). destruct m' as [[o md x z s] s2 r t l e]. cbn in *. subst. reflexivity. }
  eexists _, _. split; [exact R |]. split.
  { unfold query. rewrite Q. reflexivity. }
  cbn [ts local]. split.
  - intros p. rewrite Hl, Hr, H1. apply mul_translation. exact W.
  - unfold export. cbn. unfold clear. rewrite H1, Hx, Hz, HS. reflexivity.
Qed.
Print Assumptions C106_follows.

Example C106_case :
  let ops := [First (MSet (mkv 1 2 3)); Query; First (MInc (mkv 1 0 0)); Query; Query] in
  seconds ops = [] /\ offset1 ops = mkv 2 2 3 /\
  exists m, ready false tr_id tr_id tr_id tr_id 5 0 0 = Some m.
Proof.
  cbv zeta. split; [reflexivity |]. split.
  - apply vec3_eq; cbn; lra.
  - eexists. reflexivity.
Qed.

(* A girder has a support at each end, and reports the offset of each. *)
Lemma ends_step : forall o a c b, sup2 a = Sup b -> step o a = Some c ->
  exists b', sup2 c = Sup b' /\ s_pos (sup1 c) = s_pos (sup1 a) /\ s_pos b' = s_pos b.
Proof.
  intros o a c b Sa E. destruct o as [k | k |]; cbn in E.
  - injection E as <-. exists b. cbn. repeat split; [exact Sa | destruct k; reflexivity].
  - rewrite Sa in E. injection E as <-. exists (apply_move k b). cbn. repeat split. destruct k; reflexivity.
  - unfold update in E. rewrite Sa in E. destruct (modified (sup1 a)); cbn [negb] in E; [destruct (modified b); cbn [negb] in E |]; injection E as <-; cbn.
    + exists (clear b). repeat split.
    + exists b. repeat split; exact Sa.
    + exists b. repeat split; exact Sa.
Qed.
Lemma ends_run : forall l a c b, sup2 a = Sup b -> run l a = Some c ->
  exists b', sup2 c = Sup b' /\ s_pos (sup1 c) = s_pos (sup1 a) /\ s_pos b' = s_pos b.
Proof.
  induction l as [| o l IH]; intros a c b Sa E; cbn in E.
  - injection E as <-. exists b. auto.
  - destruct (step o a) as [d |] eqn:Es; [| discriminate]. destruct (ends_step o a d b Sa Es) as (b1 & B1 & B2 & B3).
    destruct (IH d c b1 B1 E) as (b2 & C1 & C2 & C3). exists b2. repeat split; congruence.
Qed.
Theorem C128_girder_ends : forall loc ent gT tout s0 e1 e2 ops m,
  ready true loc ent gT tout s0 e1 e2 = Some m ->
  exists m' a b, run ops m = Some m' /\ export m' = Some [a; b] /\
    off a = offset1 ops /\ off b = offset2 ops /\
    (sx a, sz a, s_pos a) = (vx (x0 (tr_mul ent gT)), vz (x0 (tr_mul ent gT)), s0 + e1) /\
    (sx b, sz b, s_pos b) = (vx (x0 (tr_mul tout gT)), vz (x0 (tr_mul tout gT)), s0 + e2).
Proof.
  intros loc ent gT tout s0 e1 e2 ops m R. unfold ready in R. cbn -[tr_mul] in R. injection R as <-. set (m := mkM _ _ _ _ _ _).
  destruct (tracks_run ops m) as (m' & R & T); [split; reflexivity | exact I |].
  destruct (ends_run ops m m' _ eq_refl R) as (b & B1 & B2 & B3). destruct T as (_ & _ & _ & O1 & X1 & Z1 & T2). cbn -[tr_mul] in T2.
  destruct T2 as (b' & B1' & O2 & X2 & Z2). rewrite B1 in B1'. injection B1' as <-. exists m', (sup1 m'), b. split; [exact R |]. split; [unfold export; rewrite B1; reflexivity |].
  split; [exact O1 |]. split; [exact O2 |]. split; [rewrite X1, Z1, B2 | rewrite X2, Z2, B3]; reflexivity.
Qed.
Print Assumptions C128_girder_ends.
Example C128_case : let q := [First (MSet (mkv 1 2 3)); Query; Second (MInc (mkv 1 0 0)); First MReset] in
  offset1 q = mkv 0 0 0 /\ offset2 q = mkv (0 + 1) (0 + 0) (0 + 0) /\ exists m, ready true tr_id tr_id tr_id (tr_translation 0 0 2) 5 0 2 = Some m.
Proof. cbv zeta. split; [reflexivity |]. split; [reflexivity |]. eexists. reflexivity. Qed.

(* The copy of a girder is a new girder with the same frame. *)
Theorem C127_girder_copy_partial : forall loc ent gT tout s0 e1 e2 ops m m',
  ready true loc ent gT tout s0 e1 e2 = Some m -> run ops m = Some m' ->
  exists c, copy_mount m' = Some c /\
    forall gT' tout' s0' e1' e2', consolidate gT' tout' s0' e1' e2' c = ready true loc ent gT' tout' s0' e1' e2'.
Proof.
  intros loc ent gT tout s0 e1 e2 ops m m' R E. unfold ready in R. cbn -[tr_mul] in R. injection R as <-.
  set (m := mkM _ _ _ _ _ _) in E. destruct (tracks_run ops m) as (m2 & E2 & T); [split; reflexivity | exact I |]. rewrite E in E2. injection E2 as <-. destruct T as (_ & L & TI & _ & _ & _ & T2). cbn -[tr_mul] in L, TI, T2.
  destruct T2 as (b' & B & _). unfold copy_mount. rewrite B, L, TI. eexists. split; [reflexivity |]. reflexivity.
Qed.
Print Assumptions C127_girder_copy_partial.

(* The copy of a simple mount cannot be used. *)
Theorem C127_copy_refuted : forall m, sup2 m = NoSup ->
  exists c, copy_mount m = Some c /\ export c = None /\
    forall k, exists c', step (First k) c = Some c' /\ query c' = None.
Proof.
  intros m N. unfold copy_mount. rewrite N. eexists. split; [reflexivity |]. split; [reflexivity |].
  intros k. eexists. split; [reflexivity |].
  unfold query, update. cbn. destruct k; reflexivity.
Qed.
Print Assumptions C127_copy_refuted.

(* C54: girders. *)
Lemma quiet_flags : forall post m m' b, quiet post -> sup2 m = Sup b -> run post m = Some m' ->
  ts m' = ts m /\
  (firsts post <> [] \/ modified (sup1 m) = true -> modified (sup1 m') = true) /\
  exists b', sup2 m' = Sup b' /\ (seconds post <> [] \/ modified b = true -> modified b' = true).
Proof.
  induction post as [| o post IH]; intros m m' b Q S R; cbn in R.
  - injection R as <-. split; [reflexivity |]. split; [intros [K | K]; [contradiction (K eq_refl) | exact K] |].
    exists b. split; [exact S |]. intros [K | K]; [contradiction (K eq_refl) | exact K].
  - assert (Q' : quiet post) by (intros K; apply Q; right; exact K).
    destruct o as [k | k |]; cbn [step] in R.
    + edestruct IH with (m' := m') (b := b) as (H1 & H2 & b' & H3 & H4); [exact Q' | | exact R |];
        [exact S |].
      cbn [ts sup1] in H1, H2. destruct (sx_move k (sup1 m)) as (_ & _ & E). rewrite E in H2.
      split; [exact H1 |]. split; [intros _; apply H2; right; reflexivity |].
      exists b'. split; [exact H3 | exact H4].
    + rewrite S in R.
      edestruct IH with (m' := m') (b := apply_move k b) as (H1 & H2 & b' & H3 & H4);
        [exact Q' | | exact R |]; [reflexivity |].
      destruct (sx_move k b) as (_ & _ & E). rewrite E in H4.
      split; [exact H1 |]. split; [exact H2 |].
      exists b'. split; [exact H3 | intros _; apply H4; right; reflexivity].
    + exfalso. apply Q. left. reflexivity.
Qed.

Lemma rotate_turn : forall a b p,
  rotate (rdot (rotation_x a) (rotation_y b)) p = turn_x a (turn_y b p).
Proof.
  intros a b p. rewrite rotate_dot by (apply (wf_rotation AX) || apply (wf_rotation AY)).
  unfold rotation_x, rotation_y.
  destruct (Reqb_spec a 0) as [-> |], (Reqb_spec b 0) as [-> |]; apply vec3_eq; cbn;
    rewrite ?cos_0, ?sin_0; ring.
Qed.

Lemma wf_turn : forall a b, wf (rdot (rotation_x a) (rotation_y b)).
Proof. intros. apply wf_dot; [apply (wf_rotation AX) | apply (wf_rotation AY)]. Qed.

Definition close (u v : vec3) : Prop :=
  Rabs (vx u - vx v) <= eps /\ Rabs (vy u - vy v) <= eps /\ Rabs (vz u - vz v) <= eps.

Lemma twf_inv : forall t, twf t -> twf (tr_inv t).
Proof. intros t H. unfold twf, tr_inv. cbn. apply wf_inv. exact H. Qed.
Lemma twf_mul : forall s t, twf s -> twf t -> twf (tr_mul s t).
Proof. intros s t Hs Ht. unfold twf, tr_mul, tr_mul_by in *. cbn. apply wf_dot; assumption. Qed.

(* Both ends moved since the last query: the girder is where its ends put it,
   in axes of the entrance plane.  d is the distance of the ends. *)
Theorem C54_girder_partial : forall loc ent gT tout s0 e1 e2 pre post m,
  twf loc -> twf ent -> ready true loc ent gT tout s0 e1 e2 = Some m ->
  quiet post -> firsts post <> [] -> seconds post <> [] ->
  let t1 := tr_mul ent gT in
  let t2 := tr_mul tout gT in
  let X1 := rotate (rr t1) (offset1 (pre ++ post)) in
  let X2 := rotate (rr t1) (offset2 (pre ++ post)) in
  let d := sqrt ((vx (x0 t2) - vx (x0 t1))² + (vz (x0 t2) - vz (x0 t1))²) in
  d <> 0 ->
  exists m' t m'', run (pre ++ post) m = Some m' /\ query m' = Some (Some t, m'') /\
    (close X1 X2 -> forall p, tr_pt t p = tr_pt loc (vsub p X1)) /\
    (~ close X1 X2 -> forall q, tr_pt t (tr_pt (tr_inv ent) q) =
       tr_pt loc (tr_pt (tr_inv ent)
         (turn_x (- (vy X2 - vy X1) / d) (turn_y ((vx X2 - vx X1) / d) (vsub q X1))))).
Proof.
  intros loc ent gT tout s0 e1 e2 pre post m Wl We R Q NF NS t1 t2 X1 X2 d D.
  unfold ready in R. cbn in R. injection R as <-.
  set (m := mkM _ _ _ _ _ _).
  assert (A : allowed m (pre ++ post)) by exact I.
  destruct (tracks_run (pre ++ post) m) as (m' & R & T); [split; reflexivity | exact A |].
  destruct (tracks_run pre m) as (mp & Rp & Tp); [split; reflexivity | exact I |].
  assert (Rq : run post mp = Some m') by (rewrite run_app, Rp in R; exact R).
  destruct Tp as (_ & _ & _ & _ & _ & _ & bp & Sp & _).
  destruct (quiet_flags post mp m' bp Q Sp Rq) as (_ & M1 & b' & Sb & M2).
  specialize (M1 (or_introl NF)). specialize (M2 (or_introl NS)).
  destruct T as (Hr & Hl & Ht & H1 & Hx & Hz & b & Sb' & H2 & Hx2 & Hz2).
  rewrite Sb in Sb'. injection Sb' as <-.
  cbn in Hr, Hl, Ht, Hx, Hz, Hx2, Hz2.
  fold t1 in Hr, Hx, Hz. fold t2 in Hx2, Hz2.
  assert (DT : distance_to (sup1 m') b' = d).
  { unfold distance_to, d, Rsqr. rewrite Hx, Hz, Hx2, Hz2. reflexivity. }
  assert (V : veq X1 X2 = true <-> close X1 X2).
  { unfold veq, close, fequal, fequal_tol.
    destruct (Rleb_spec (Rabs (vx X1 - vx X2)) eps), (Rleb_spec (Rabs (vy X1 - vy X2)) eps),
      (Rleb_spec (Rabs (vz X1 - vz X2)) eps); cbn [andb]; split; intros K;
      first [discriminate | reflexivity | repeat split; assumption
            | exfalso; destruct K as (K1 & K2 & K3); lra]. }
  exists m'. unfold query, update. rewrite M1, Sb, M2. cbn [negb].
  unfold girder_ts. rewrite H1, H2, Hr, Ht, Hl, DT. cbn [rr tr_mul tr_mul_by] in *.
  change (rotate _ (offset1 (pre ++ post))) with X1.
  change (rotate _ (offset2 (pre ++ post))) with X2.
  destruct (veq X1 X2) eqn:E.
  - eexists _, _. split; [exact R |]. split; [reflexivity |]. cbn [local ts]. split.
    + intros _ p. unfold tr_translation. rewrite vec3_eta. apply mul_translation. exact Wl.
    + intros K. exfalso. apply K. apply V. reflexivity.
  - destruct (Reqb_spec d 0) as [D0 | D0]; [contradiction |].
    eexists _, _. split; [exact R |]. split; [reflexivity |]. cbn [local ts]. split.
    + intros K. apply V in K. discriminate.
    + intros _ q. rewrite vec3_eta.
      set (r := rdot _ _).
      assert (Wr : wf r) by apply wf_turn.
      assert (W1 : twf (mkt X1 r)) by exact Wr.
      pose proof (twf_inv _ We) as Wi.
      rewrite tr_mul_pt; [| exact Wl | apply twf_mul; [apply twf_mul; [exact Wi | exact W1] | exact We]].
      rewrite tr_mul_pt; [| apply twf_mul; [exact Wi | exact W1] | exact We].
      rewrite tr_mul_pt; [| exact Wi | exact W1].
      rewrite tr_inv_r by exact We.
      f_equal. f_equal. unfold tr_pt. cbn [rr x0]. unfold r. rewrite rotate_turn. reflexivity.
Qed.
Print Assumptions C54_girder_partial.

(* The ends of a two metre girder are raised by 1 and 2. *)
Example C54_case :
  let ent := tr_translation 0 0 (-1) in
  let out := tr_translation 0 0 1 in
  let pre := [First (MSet (mkv 0 5 0)); Query] in
  let post := [Second (MSet (mkv 0 2 0)); First (MSet (mkv 0 1 0))] in
  twf ent /\ quiet post /\ firsts post <> [] /\ seconds post <> [] /\
  sqrt ((vx (x0 (tr_mul out tr_id)) - vx (x0 (tr_mul ent tr_id)))² +
        (vz (x0 (tr_mul out tr_id)) - vz (x0 (tr_mul ent tr_id)))²) = 2 /\
  ~ close (rotate (rr (tr_mul ent tr_id)) (offset1 (pre ++ post)))
          (rotate (rr (tr_mul ent tr_id)) (offset2 (pre ++ post))).
Proof.
  cbv zeta. split; [exact I |]. split; [intros [K | [K | []]]; discriminate |].
  split; [discriminate |]. split; [discriminate |]. split.
  - cbn. replace (_ + _) with (2 * 2) by (unfold Rsqr; ring). apply sqrt_square. lra.
  - cbn. intros (_ & K & _). cbn in K. rewrite Rabs_left in K by lra. pose proof eps_small. lra.
Qed.

(* A girder of which only one end is ever moved does not move. *)
Lemma stuck_step : forall o m m' b, step o m = Some m' -> sup2 m = Sup b ->
  (modified (sup1 m) = false /\ firsts [o] = [] \/ modified b = false /\ seconds [o] = []) ->
  ts m' = ts m /\ local m' = local m /\ exists b', sup2 m' = Sup b' /\
  (firsts [o] = [] -> modified (sup1 m) = false -> modified (sup1 m') = false) /\
  (seconds [o] = [] -> modified b = false -> modified b' = false).
Proof.
  intros o m m' b S B H. destruct o as [k | k |]; cbn in S.
  - injection S as <-. cbn. split; [reflexivity |]. split; [reflexivity |]. exists b.
    repeat split; try assumption; [discriminate | intros _ K; exact K].
  - rewrite B in S. injection S as <-. cbn. split; [reflexivity |]. split; [reflexivity |].
    exists (apply_move k b). split; [reflexivity |]. split; [intros _ K; exact K | discriminate].
  - unfold update in S. rewrite B in S.
    destruct (modified (sup1 m)) eqn:E1; cbn [negb] in S.
    + destruct (modified b) eqn:E2; cbn [negb] in S.
      * destruct H as [[H _] | [H _]]; discriminate.
      * injection S as <-. split; [reflexivity |]. split; [reflexivity |]. exists b.
        repeat split; try assumption; congruence.
    + injection S as <-. split; [reflexivity |]. split; [reflexivity |]. exists b.
      repeat split; try assumption; congruence.
Qed.

Lemma stuck_run : forall l m m' b, run l m = Some m' -> sup2 m = Sup b ->
  (modified (sup1 m) = false /\ firsts l = [] \/ modified b = false /\ seconds l = []) ->
  ts m' = ts m /\ local m' = local m /\ exists b', sup2 m' = Sup b' /\
  (modified (sup1 m') = false \/ modified b' = false).
Proof.
  induction l as [| o l IH]; intros m m' b R B H; cbn in R.
  - injection R as <-. split; [reflexivity |]. split; [reflexivity |]. exists b.
    split; [exact B | destruct H as [[H _] | [H _]]; auto].
  - destruct (step o m) as [m1 |] eqn:S; [| discriminate].
    change (o :: l) with ([o] ++ l) in H. rewrite firsts_app, seconds_app in H.
    edestruct stuck_step as (T & L & b1 & B1 & F1 & F2); [exact S | exact B | |].
    { destruct H as [[H N] | [H N]]; apply app_eq_nil in N; tauto. }
    destruct (IH m1 m' b1 R B1) as (T' & L' & b' & B' & F').
    { destruct H as [[H N] | [H N]]; apply app_eq_nil in N; destruct N; [left | right]; auto. }
    split; [congruence |]. split; [congruence |]. exists b'. split; assumption.
Qed.

Theorem C54_one_end_refuted : forall loc ent gT tout s0 e1 e2 ops m, twf loc ->
  ready true loc ent gT tout s0 e1 e2 = Some m ->
  firsts ops = [] \/ seconds ops = [] ->
  exists m' t m'', run ops m = Some m' /\ query m' = Some (Some t, m'') /\
    forall p, tr_pt t p = tr_pt loc p.
Proof.
  intros loc ent gT tout s0 e1 e2 ops m W R N. unfold ready in R. cbn in R. injection R as <-.
  set (m := mkM _ _ _ _ _ _).
  destruct (tracks_run ops m) as (m' & R & _); [split; reflexivity | exact I |].
  edestruct (stuck_run ops m m') as (T & L & b' & B & F); [exact R | reflexivity | |].
  { cbn. tauto. }
  exists m', (tr_mul loc tr_id), m'. split; [exact R |]. split.
  - unfold query, update. rewrite B. cbn in T, L.
    assert (K : (match ts m' with Some t => Some (tr_mul (local m') t) | None => None end)
                = Some (tr_mul loc tr_id)) by (rewrite T, L; reflexivity).
    destruct (modified (sup1 m')); cbn [negb]; [| rewrite K; reflexivity].
    destruct F as [F | F]; [discriminate |]. rewrite F. cbn [negb]. rewrite K. reflexivity.
  - intros p. rewrite tr_mul_pt; [| exact W | exact I]. f_equal.
    unfold tr_pt. cbn. apply vec3_eq; cbn; ring.
Qed.
Print Assumptions C54_one_end_refuted.

Example C54_one_end_case : let ops := [First (MSet (mkv 0 1 0)); Query] in
  seconds ops = [] /\ offset1 ops <> offset2 ops.
Proof. cbv zeta. split; [reflexivity |]. cbn. intros K. injection K. lra. Qed.

(* The same move of both ends is applied along the axes of the entrance plane
   although the transformation is about the middle: a bent girder goes the
   wrong way. *)
Theorem C54_bent_girder_refuted : exists ent tout m u m' t m'',
  twf ent /\ ready true tr_id ent tr_id tout 0 0 0 = Some m /\
  run [First (MSet u); Second (MSet u)] m = Some m' /\
  query m' = Some (Some t, m'') /\
  tr_pt t (mkv 0 0 0) <> vsub (mkv 0 0 0) u.
Proof.
  set (ent := mkt (mkv 0 0 (-1)) (RY 0 1)). set (out := mkt (mkv 0 0 1) (RY 0 (-1))).
  destruct (ready true tr_id ent tr_id out 0 0 0) as [m |] eqn:E; [| discriminate E].
  assert (We : twf ent) by (cbn; lra).
  destruct (C54_girder_partial tr_id ent tr_id out 0 0 0 []
              [First (MSet (mkv 1 0 0)); Second (MSet (mkv 1 0 0))] m)
    as (m' & t & m'' & R & Q & A & _).
  - exact I.
  - exact We.
  - exact E.
  - intros [K | [K | []]]; discriminate.
  - discriminate.
  - discriminate.
  - cbn. replace (_ + _) with (2 * 2) by (unfold Rsqr; ring). rewrite sqrt_square by lra. lra.
  - exists ent, out, m, (mkv 1 0 0), m', t, m''.
    split; [exact We |]. split; [exact E |]. split; [exact R |]. split; [exact Q |].
    rewrite A.
    + intros K. apply (f_equal vx) in K. cbn in K. lra.
    + unfold close. rewrite !Rminus_diag_eq, Rabs_R0 by reflexivity. pose proof eps_pos.
      repeat split; lra.
Qed.
Print Assumptions C54_bent_girder_refuted.

(* C107: magnet movers. *)
Lemma atan2_range_id : forall a, - PI < a <= PI -> atan2 (sin a) (cos a) = a.
Proof.
  intros a [A B]. pose proof PI_RGT_0 as P. unfold atan2.
  destruct (Rltb_spec 0 (cos a)) as [C | C].
  - assert (K : - (PI / 2) < a < PI / 2).
    { split; apply Rnot_le_lt; intros L.
      - pose proof (cos_le_0 (- a)) as E. rewrite cos_neg in E.
        specialize (E ltac:(lra) ltac:(lra)). lra.
      - pose proof (cos_le_0 a ltac:(lra) ltac:(lra)). lra. }
    change (sin a / cos a) with (tan a). apply atan_tan. exact K.
  - destruct (Rltb_spec (cos a) 0) as [D | D].
    + destruct (Rleb_spec 0 (sin a)) as [S | S].
      * assert (K : PI / 2 < a).
        { apply Rnot_le_lt. intros L.
          destruct (Rle_lt_dec (- (PI / 2)) a) as [M | M].
          - pose proof (cos_ge_0 a M L). lra.
          - pose proof (sin_gt_0 (- a) ltac:(lra) ltac:(lra)) as E. rewrite sin_neg in E. lra. }
        replace (sin a / cos a) with (tan (a - PI)).
        { rewrite atan_tan by lra. ring. }
        unfold tan. rewrite <- (Ropp_involutive (a - PI)), sin_neg, cos_neg.
        replace (- (a - PI)) with (PI - a) by ring. rewrite sin_PI_x, Rtrigo_facts.cos_pi_minus.
        field. lra.
      * assert (K : a < - (PI / 2)).
        { apply Rnot_le_lt. intros L.
          destruct (Rle_lt_dec a (PI / 2)) as [M | M].
          - pose proof (cos_ge_0 a L M). lra.
          - pose proof (sin_ge_0 a ltac:(lra) ltac:(lra)). lra. }
        replace (sin a / cos a) with (tan (a + PI)).
        { rewrite atan_tan by lra. ring. }
        unfold tan. rewrite neg_sin, neg_cos. field. lra.
    + assert (C0 : cos a = 0) by lra.
      assert (K : a = PI / 2 \/ a = - (PI / 2)).
      { destruct (Rtotal_order a (PI / 2)) as [L | [L | L]]; [| auto |].
        - destruct (Rtotal_order a (- (PI / 2))) as [M | [M | M]]; [| auto |].
          + pose proof (cos_lt_0 (- a) ltac:(lra) ltac:(lra)) as E. rewrite cos_neg in E. lra.
          + pose proof (cos_gt_0 a M L). lra.
        - pose proof (cos_lt_0 a ltac:(lra) ltac:(lra)). lra. }
      destruct K as [-> | ->].
      * rewrite sin_PI2. destruct (Rltb_spec 0 1); [reflexivity | lra].
      * rewrite sin_neg, sin_PI2. destruct (Rltb_spec 0 (- (1))); [lra |].
        destruct (Rltb_spec (- (1)) 0); [reflexivity | lra].
Qed.

Lemma mrun_snoc : forall l o m, mrun (l ++ [o]) m = mstep o (mrun l m).
Proof. intros. unfold mrun. rewrite fold_left_app. reflexivity. Qed.

Lemma mrun_is : forall l loc, mrun l (new_mover loc) =
  mkMv (mkt2 (mkr2 (cos (last_roll (rev l))) (sin (last_roll (rev l))))
             (mkv2 (last_x (rev l)) (last_y (rev l)))) loc.
Proof.
  induction l as [| o l IH] using rev_ind; intros loc; [reflexivity |].
  rewrite mrun_snoc, IH, rev_app_distr. destruct o; reflexivity.
Qed.

Theorem C107_mover : forall loc ops, twf loc ->
  let m := mrun ops (new_mover loc) in
  let x := last_x (rev ops) in let y := last_y (rev ops) in let a := last_roll (rev ops) in
  get_x m = x /\ get_y m = y /\
  (cos (get_roll m) = cos a /\ sin (get_roll m) = sin a) /\
  (- PI < a <= PI -> get_roll m = a) /\
  forall p, tr_pt (mover_transform m) p =
    let q := tr_pt loc p in
    mkv ((vx q - x) * cos a + (vy q - y) * sin a)
        ((vy q - y) * cos a - (vx q - x) * sin a) (vz q).
Proof.
  intros loc ops W m x y a. unfold m. rewrite mrun_is. fold x y a.
  split; [reflexivity |]. split; [reflexivity |]. split.
  { unfold get_roll, r2_angle. cbn [mt r2 sina cosa]. apply atan2_unit. apply cs1. }
  split; [apply atan2_range_id |].
  intros p. unfold mover_transform. cbn [mt mlocal].
  rewrite tr_mul_pt; [| apply (wf_rotation AZ) | exact W].
  rewrite lift_action by apply cs1. reflexivity.
Qed.
Print Assumptions C107_mover.

Example C107_case : let ops := [SetX 1; SetRoll 1; Zero; SetY 3; SetRoll (1/2); SetX 2; SetX 4] in
  last_x (rev ops) = 4 /\ last_y (rev ops) = 3 /\ last_roll (rev ops) = 1/2 /\ - PI < 1/2 <= PI.
Proof. cbv zeta. cbn. pose proof PI2_1. repeat split; lra. Qed.
