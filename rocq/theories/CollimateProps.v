(* C40, C41, C84, C85: collimation of a bunch *)
From Coq Require Import ZArith Psatz Permutation.
From Verif Require Import RBase Cov Bunch BunchSpec CollimateSpec Collimate.
Local Open Scope R_scope.

Lemma survivors_ext f g l : forall n, (forall m p, f m p = g m p) -> survivors f n l = survivors g n l.
Proof. induction l as [|p l IH]; intros n H; cbn; auto. rewrite H. destruct (g n p); now rewrite (IH (S n)). Qed.
Lemma survivors_plain i l : forall n, survivors (plain i) n l = filter (fun p => i (pv p)) l.
Proof. induction l as [|[v k] l IH]; intros n; cbn; auto. unfold plain at 1. cbn. destruct (i v); rewrite IH; reflexivity. Qed.
Lemma casualties_plain i l : forall n, map snd (casualties (plain i) n l) = filter (fun p => negb (i (pv p))) l.
Proof. induction l as [|[v k] l IH]; intros n; cbn; auto. unfold plain at 1. cbn. destruct (i v); cbn; rewrite IH; reflexivity. Qed.
Lemma split_count f l : forall n, (length (survivors f n l) + length (casualties f n l) = length l)%nat.
Proof. induction l as [|p l IH]; intros n; cbn; auto. specialize (IH (S n)). destruct (f n p); cbn; lia. Qed.
Lemma labels_length A f l : forall n (ix : list A), length ix = length l -> length (labels f n l ix) = length (survivors f n l).
Proof. induction l as [|p l IH]; intros n ix H; destruct ix; try discriminate; cbn; auto. destruct (f n p); cbn; rewrite IH; auto. Qed.
Lemma labels_ids f l : forall n, labels f n l (map pid l) = map pid (survivors f n l).
Proof. induction l as [|p l IH]; intros n; cbn; auto. destruct (f n p); cbn; rewrite IH; reflexivity. Qed.
Lemma labels_map A B (h : A -> B) f l : forall n ix, labels f n l (map h ix) = map h (labels f n l ix).
Proof. induction l as [|p l IH]; intros n [|i ix]; cbn; auto. destruct (f n p); cbn; rewrite IH; reflexivity. Qed.
Lemma labels_sub A f l : forall n (ix : list A), sublist (labels f n l ix) ix.
Proof.
  assert (R : forall l : list A, sublist l l) by (induction l0; constructor; auto).
  induction l as [|p l IH]; intros n [|i ix]; cbn; try apply R. destruct (f n p); [apply sub_keep|apply sub_skip]; apply IH.
Qed.
Lemma sublist_trans A (a b c : list A) : sublist a b -> sublist b c -> sublist a c.
Proof. intros H K. revert a H. induction K; intros x H; inversion H; subst; try constructor; auto. Qed.

Section Check.
Variables (ap : R -> R -> R -> bool) (coll : bool) (bin : R) (scatter : nat -> vec6 -> bool * vec6) (advance : R -> R -> vec6 -> vec6).
Notation outside := (outside ap).
Notation placed := (placed coll bin).
Notation sift := (sift ap coll bin scatter).
Notation first_out := (first_out ap coll bin).
(* what should happen to a particle: inside it stays as it is; outside it is lost,
   unless it is in a collimator and the scattering lets it through *)
Definition fate (s : R) (n : nat) (p : particle) : option vec6 :=
  if outside s (placed p) then if coll then let '(a, v) := scatter n (placed p) in if a then None else Some v else None else Some (pv p).
Lemma forth_back v : forth bin (back bin v) = v.
Proof. destruct v. unfold forth, back. cbn. f_equal; ring. Qed.
Definition index_ok (ix : option (list nat)) (l : list particle) : Prop := match ix with None => True | Some i => length i = length l end.
Lemma sift_ok s first : forall l n ix, index_ok ix l -> (forall k p, nth_error l k = Some p -> (n + k < first)%nat -> outside s (placed p) = false) -> exists g,
  sift s first n l ix = Ok (mkSift (survivors (fate s) n l) (option_map (labels (fate s) n l) ix) g (match ix with None => [] | Some i => map snd (filter (fun q => match fate s (fst (fst q)) (snd (fst q)) with None => true | _ => false end) (combine (combine (seq n (length l)) l) i)) end) (map fst (casualties (fate s) n l))) /\
  length g = length (casualties (fate s) n l).
Proof.
  induction l as [|p l IH]; intros n ix I B; cbn [sift].
  - destruct ix as [[|i ix]|]; try discriminate; exists []; auto.
  - assert (N : exists nx, next_index ix = Ok nx /\ match ix, nx with None, None => True | Some (i :: r), Some (j, r') => j = i /\ r' = r | _, _ => False end).
    { destruct ix as [[|i ix]|]; [discriminate| |]; eexists; split; try reflexivity; auto. cbn. auto. }
    destruct N as (nx & -> & N). cbn [bind]. destruct (IH (S n) (match nx with None => None | Some (_, r) => Some r end)) as (g & E & Lg).
    { destruct ix as [[|i ix]|], nx as [[j r]|]; try contradiction; cbn in *; auto. destruct N as [-> ->]. lia. }
    { intros k q K L. apply (B (S k)); auto. lia. }
    rewrite E. cbn [bind kept kept_ix gone gone_ix gone_pos].
    assert (F : fate s n p = if outside s (placed p) then if coll then let '(a, v) := scatter n (placed p) in if a then None else Some v else None else Some (pv p)) by reflexivity.
    assert (C : (Nat.leb first n && outside s (placed p))%bool = outside s (placed p)).
    { destruct (Nat.leb_spec first n); auto. cbn. symmetry. apply (B 0%nat); auto. lia. }
    rewrite C. destruct (outside s (placed p)) eqn:O.
    + assert (D : exists a v, (if coll then scatter n (placed p) else (true, placed p)) = (a, v) /\ fate s n p = if a then None else Some v).
      { rewrite F. generalize (placed p). intros w. destruct coll; [destruct (scatter n w) as [a v]; exists a, v; auto|exists true, w; auto]. }
      destruct D as (a & v & -> & FA). destruct a.
      * exists (mkP (if coll then with_ct (vct v + (s - bin)) v else v) (pid p) :: g). split; [|cbn; rewrite FA; cbn; now rewrite Lg].
        cbn; rewrite FA; destruct ix as [[|i ix]|], nx as [[j r]|]; try contradiction; cbn; try (destruct N as [-> ->]); cbn; rewrite ?FA; reflexivity.
      * exists g. split; [|cbn; rewrite FA; exact Lg].
        cbn; rewrite FA; destruct ix as [[|i ix]|], nx as [[j r]|]; try contradiction; cbn; try (destruct N as [-> ->]); cbn; rewrite ?FA; reflexivity.
    + assert (P : (if coll then forth bin (placed p) else placed p) = pv p) by (unfold Collimate.placed; destruct coll; [apply forth_back|reflexivity]). rewrite P.
      exists g. split; [|cbn; rewrite F; exact Lg]. cbn; rewrite F; destruct ix as [[|i ix]|], nx as [[j r]|]; try contradiction; cbn; try (destruct N as [-> ->]); cbn; rewrite ?F; reflexivity.
Qed.
Lemma first_none s : forall l n, first_out s n l = None -> forall p, In p l -> outside s (placed p) = false.
Proof. induction l as [|q l IH]; intros n E p I; cbn in *; [contradiction|]. destruct (outside s (placed q)) eqn:O; [discriminate|]. destruct I as [<-|I]; eauto. Qed.
Lemma first_some s : forall l n f, first_out s n l = Some f -> (n <= f)%nat /\ (forall k p, nth_error l k = Some p -> (n + k < f)%nat -> outside s (placed p) = false) /\ exists p, nth_error l (f - n) = Some p /\ outside s (placed p) = true.
Proof.
  induction l as [|q l IH]; intros n f E; cbn in *; [discriminate|]. destruct (outside s (placed q)) eqn:O.
  - injection E as <-. split; auto. split; [intros; lia|]. exists q. rewrite Nat.sub_diag. auto.
  - destruct (IH _ _ E) as (L & B & p & P & Q). split; [lia|]. split.
    + intros [|k] r K M; cbn in K; [congruence|]. apply (B k); auto. lia.
    + exists p. replace (f - n)%nat with (S (f - S n)) by lia. auto.
Qed.
Lemma all_inside s l : (forall p, In p l -> outside s (placed p) = false) -> forall n, survivors (fate s) n l = l /\ casualties (fate s) n l = [] /\ forall A (ix : list A), labels (fate s) n l ix = ix.
Proof.
  induction l as [|[v k] l IH]; intros H n; cbn.
  - repeat split; auto.
  - assert (F : fate s n (mkP v k) = Some v) by (unfold fate; rewrite (H _ (or_introl eq_refl)); reflexivity). rewrite F. destruct (IH (fun p I => H p (or_intror I)) (S n)) as (E1 & E2 & E3). rewrite E1, E2. repeat split; auto. intros A [|i ix]; auto. now rewrite E3.
Qed.
Lemma relose_length : forall n len z lb l d, relose ap bin advance n len z lb = Ok (l, d) -> length l = length lb.
Proof.
  assert (F : forall z (lb : list particle), (length (filter (fun p => outside z (pv p)) lb) + length (filter (fun p => negb (outside z (pv p))) lb) = length lb)%nat).
  { induction lb as [|p lb IH]; cbn; auto. destruct (outside z (pv p)); cbn; lia. }
  induction n as [|n IH]; intros len z lb l d; cbn [relose].
  - destruct (_ && _)%bool; [discriminate|]. intros E. apply (f_equal (fun r => match r with Ok q => fst q | _ => [] end)) in E. cbn in E. subst. now rewrite map_length.
  - destruct (Rleb 0 (len - z) && negb (Nat.eqb (length lb) 0))%bool.
    2:{ intros E. apply (f_equal (fun r => match r with Ok q => fst q | _ => [] end)) in E. cbn in E. subst. now rewrite map_length. }
    match goal with |- context [bind ?t _] => destruct t as [[l' d']|e|] eqn:T end; try discriminate. cbn [bind fst snd]. intros E.
    apply (f_equal (fun r => match r with Ok q => fst q | _ => [] end)) in E. cbn in E. subst l. rewrite app_length, map_length, <- (F z lb). f_equal. revert T.
    destruct (Rltb 0 (len - z)).
    + destruct (Reqb _ 0); intros T; [apply (f_equal (fun r => match r with Ok q => fst q | _ => [] end)) in T; cbn in T; subst; now rewrite !map_length|apply IH in T; now rewrite T, map_length].
    + destruct (Reqb _ 0); intros T; [apply (f_equal (fun r => match r with Ok q => fst q | _ => [] end)) in T; cbn in T; subst; now rewrite !map_length|now apply IH in T].
Qed.
Lemma pick_ok l ps : (forall n, In n ps -> (n < length l)%nat) -> exists r, pick l ps = Ok r /\ length r = length ps.
Proof.
  induction ps as [|n ps IH]; intros H; cbn; [exists []; auto|]. unfold vget. destruct (nth_error l n) as [p|] eqn:E.
  - destruct IH as (r & -> & L); [intros; apply H; now right|]. cbn. exists (p :: r). cbn. auto.
  - apply nth_error_None in E. specialize (H n (or_introl eq_refl)). lia.
Qed.
Lemma pick_length l ps r : pick l ps = Ok r -> length r = length ps.
Proof.
  revert r. induction ps as [|n ps IH]; intros r; cbn; [intros E; injection E as <-; auto|]. destruct (vget l n); try discriminate. cbn. destruct (pick l ps) eqn:P; try discriminate. cbn. intros E. injection E as <-. cbn. now rewrite (IH _ eq_refl).
Qed.
Lemma casualties_pos f l : forall n k, In k (map fst (casualties f n l)) -> (n <= k < n + length l)%nat.
Proof. induction l as [|p l IH]; intros n k; cbn; [tauto|]. destruct (f n p); cbn; [intros H; apply IH in H; lia|intros [<-|H]; [lia|apply IH in H; lia]]. Qed.
Lemma survive_none s l : (exists p, In p l /\ outside s (placed p) = true) -> coll = false -> forall n, casualties (fate s) n l <> [].
Proof.
  intros (p & I & O) C. induction l as [|q l IH]; intros n; [contradiction|]. cbn. destruct I as [->|I].
  - unfold fate at 1. rewrite O, C. discriminate.
  - destruct (fate s n q); [now apply IH|discriminate].
Qed.

(* the outcome of one check *)
Definition after (s : R) (st : cstate) : list particle := survivors (fate s) 0 (bunch st).
Theorem C40_check turns thr s len st st' d : index_ok (index st) (bunch st) -> check ap coll bin scatter advance turns thr s len st = Ok (st', d) ->
  bunch st' = survivors (fate s) 0 (bunch st) /\ index st' = option_map (labels (fate s) 0 (bunch st)) (index st) /\
  nlost st' = (nlost st + length (casualties (fate s) 0 (bunch st)))%nat /\ nstart st' = nstart st.
Proof.
  intros I E. unfold check in E. destruct (first_out s 0 (bunch st)) as [f|] eqn:F.
  2:{ pose proof (first_none _ _ _ F) as H. destruct (all_inside s (bunch st) H 0) as (E1 & E2 & E3). injection E as <- <-. rewrite E1, E2, Nat.add_0_r. repeat split. destruct (index st); cbn; auto. now rewrite E3. }
  destruct (first_some _ _ _ _ F) as (_ & B & _). destruct (sift_ok s f (bunch st) 0 (index st) I B) as (g & ES & Lg). rewrite ES in E. cbn [bind kept kept_ix gone gone_ix gone_pos] in E.
  match type of E with bind ?t _ = _ => destruct t as [[t1 t2]|e|] eqn:T end; try discriminate. cbn [bind fst snd] in E. destruct (too_many _ _ _); [discriminate|]. injection E as <- <-. cbn. repeat split. f_equal.
  destruct (_ && _ && _)%bool; [|injection T as <- <-; exact Lg]. destruct (pick (input st) _) as [lb|e|] eqn:P; try discriminate. cbn [bind] in T. apply relose_length in T. apply pick_length in P. rewrite T, P. apply map_length.
Qed.
(* nothing outside: nothing happens *)
Theorem C40_no_loss turns thr s len st : (forall p, In p (bunch st) -> outside s (placed p) = false) -> check ap coll bin scatter advance turns thr s len st = Ok (st, []).
Proof.
  intros H. unfold check. destruct (first_out s 0 (bunch st)) as [f|] eqn:F; auto. destruct (first_some _ _ _ _ F) as (_ & _ & p & P & O). apply nth_error_In in P. rewrite (H p P) in O. discriminate.
Qed.
(* the loop that looks for the place of loss ends *)
Lemma relose_ends : forall n len z lb, 0 < bin -> len - z <= INR n * bin -> z <> len -> exists r, relose ap bin advance n len z lb = Ok r.
Proof.
  induction n as [|n IH]; intros len z lb B L Z; cbn [relose].
  - cbn in L. destruct (Rleb_spec 0 (len - z)); [exfalso; apply Z; lra|]. cbn. eauto.
  - destruct (Rleb_spec 0 (len - z)); cbn [andb]; [|eauto]. destruct (negb _); [|eauto]. rewrite S_INR in L. destruct (Rltb_spec 0 (len - z)); [|exfalso; apply Z; lra].
    destruct (Reqb_spec (len - (z + (if Rltb (len - z - bin) 0 then len - z else bin))) 0); cbn [bind]; [eauto|].
    destruct (Rltb_spec (len - z - bin) 0) as [K|K]; [exfalso; lra|].
    match goal with |- context [relose ap bin advance n len ?w ?m] => destruct (IH len w m B) as ([r1 r2] & E); [lra|lra|]; rewrite E end. cbn. eauto.
Qed.
(* first check in a component of a bunch that was recorded at its entrance *)
Theorem C149_first_check turns thr s len st : index_ok (index st) (bunch st) -> coll = true \/ length (input st) = length (bunch st) -> 0 < bin -> len <= INR turns * bin ->
  exists r, check ap coll bin scatter advance turns thr s len st = r /\ r <> UB /\ 
  (forall m k, r = Throw (Excessive m k) <-> first_out s 0 (bunch st) <> None /\ m = (nlost st + length (casualties (fate s) 0 (bunch st)))%nat /\ k = nstart st /\ too_many thr m k = true).
Proof.
  intros I C B L. eexists. split; [reflexivity|]. unfold check. destruct (first_out s 0 (bunch st)) as [f|] eqn:F; [|split; [discriminate|intros; split; [discriminate|intros [[] _]; auto]]].
  destruct (first_some _ _ _ _ F) as (_ & Bf & _). destruct (sift_ok s f (bunch st) 0 (index st) I Bf) as (g & -> & Lg). cbn [bind kept kept_ix gone gone_ix gone_pos].
  match goal with |- context [bind ?t _] => assert (T : exists t1 t2, t = Ok (t1, t2) /\ length t1 = length (casualties (fate s) 0 (bunch st))) end.
  { destruct (negb (Nat.eqb _ 0) && negb coll && negb (Reqb len 0))%bool eqn:G; [|eauto]. apply andb_true_iff in G. destruct G as [G G3]. apply andb_true_iff in G. destruct G as [_ G2]. destruct C as [C|C]; [rewrite C in G2; discriminate|].
    destruct (pick_ok (input st) (map fst (casualties (fate s) 0 (bunch st)))) as (lb & -> & Ll). { intros n Hn. apply casualties_pos in Hn. lia. }
    cbn [bind]. destruct (Reqb_spec len 0); [discriminate|]. destruct (relose_ends turns len 0 lb B) as ([t1 t2] & E); [lra|lra|]. exists t1, t2. split; auto. apply relose_length in E. rewrite E, Ll. apply map_length. }
  destruct T as (t1 & t2 & -> & LT). cbn [bind fst snd]. rewrite LT. destruct (too_many thr _ (nstart st)) eqn:TM.
  - split; [discriminate|]. intros m k. split; [intros E; injection E as <- <-; repeat split; auto; discriminate|intros (_ & -> & -> & _); reflexivity].
  - split; [discriminate|]. intros m k. split; [discriminate|]. intros (_ & -> & -> & T). rewrite T in TM. discriminate.
Qed.
(* a second check with losses in the same component reads coordinates that were
   thrown away *)
Theorem C41_second_check_refuted turns thr s len s2 f st st' d : coll = false -> len <> 0 -> index_ok (index st) (bunch st) ->
  (exists p, In p (bunch st) /\ outside s (pv p) = true) -> check ap coll bin scatter advance turns thr s len st = Ok (st', d) ->
  (exists p, In p (bunch st') /\ outside s2 (f p) = true) ->
  check ap coll bin scatter advance turns thr s2 len (transport f st') = UB.
Proof.
  intros C L I (p & Ip & Op) E (q & Iq & Oq). assert (IN : input st' = []).
  { unfold check in E. destruct (first_out s 0 (bunch st)) as [n|] eqn:F; [|pose proof (first_none _ _ _ F p Ip) as H; unfold Collimate.placed in H; rewrite C in H; congruence].
    destruct (sift _ _ _ _ _) as [r|e|]; try discriminate. cbn [bind] in E. match type of E with bind ?t _ = _ => destruct t as [[t1 t2]|e|] end; try discriminate. cbn [bind fst snd] in E. destruct (too_many _ _ _); [discriminate|]. injection E as <- <-. reflexivity. }
  assert (IX : index_ok (index st') (bunch st')). { destruct (C40_check _ _ _ _ _ _ _ I E) as (-> & -> & _). destruct (index st) as [ix|]; cbn in *; auto. now apply labels_length. }
  set (t := transport f st'). assert (It : index_ok (index t) (bunch t)). { unfold t, transport. cbn. destruct (index st'); cbn in *; auto. now rewrite map_length. }
  assert (Q : In (mkP (f q) (pid q)) (bunch t)) by (apply (in_map (fun p => mkP (f p) (pid p))); exact Iq).
  unfold check. destruct (first_out s2 0 (bunch t)) as [n|] eqn:F; [|pose proof (first_none _ _ _ F _ Q) as H; unfold Collimate.placed in H; rewrite C in H; cbn in H; congruence].
  destruct (first_some _ _ _ _ F) as (_ & Bf & _). destruct (sift_ok s2 n (bunch t) 0 (index t) It Bf) as (g & -> & Lg). cbn [bind kept kept_ix gone gone_ix gone_pos].
  assert (N : casualties (fate s2) 0 (bunch t) <> []). { apply survive_none; auto. exists (mkP (f q) (pid q)). split; auto. unfold Collimate.placed. now rewrite C. }
  rewrite C. destruct (Reqb_spec len 0); [contradiction|]. destruct (casualties (fate s2) 0 (bunch t)) as [|[k r] cs]; [contradiction|]. cbn. rewrite IN. unfold vget. now destruct k.
Qed.
End Check.
Print Assumptions C40_check.
Print Assumptions C40_no_loss.
Print Assumptions C149_first_check.
Print Assumptions C41_second_check_refuted.
(* an aperture that is not a collimator keeps exactly what is inside, unchanged and
   in order *)
Theorem C40_plain ap bin scatter advance turns thr s len st st' d : index_ok (index st) (bunch st) -> check ap false bin scatter advance turns thr s len st = Ok (st', d) ->
  bunch st' = filter (fun p => ap (vx (pv p)) (vy (pv p)) s) (bunch st) /\
  nlost st' = (nlost st + length (filter (fun p => negb (ap (vx (pv p)) (vy (pv p)) s)) (bunch st)))%nat /\ nstart st' = nstart st.
Proof.
  intros I E. destruct (C40_check _ _ _ _ _ _ _ _ _ _ _ _ I E) as (E1 & _ & E3 & E4).
  assert (F : forall n p, fate ap false bin scatter s n p = plain (fun v => ap (vx v) (vy v) s) n p).
  { intros n p. unfold fate, plain, placed, outside. destruct (ap _ _ s); reflexivity. }
  rewrite E1, E3. rewrite (survivors_ext _ _ _ 0%nat F), survivors_plain. repeat split; auto. f_equal.
  rewrite <- (casualties_plain (fun v => ap (vx v) (vy v) s) (bunch st) 0), map_length. f_equal. generalize 0%nat. clear - F. induction (bunch st) as [|p l IH]; intros n; cbn; auto. rewrite F. destruct (plain _ n p); rewrite IH; reflexivity.
Qed.
Print Assumptions C40_plain.
(* in a collimator a particle inside the jaws keeps its coordinates, one outside is
   lost or continues as the scattering left it *)
Theorem C40_scattered ap bin scatter s n p : let v := V6 (vx (pv p) - bin * vxp (pv p)) (vxp (pv p)) (vy (pv p) - bin * vyp (pv p)) (vyp (pv p)) (vct (pv p)) (vdp (pv p)) in
  fate ap true bin scatter s n p = if ap (vx v) (vy v) s then Some (pv p) else if fst (scatter n v) then None else Some (snd (scatter n v)).
Proof. intros v. unfold fate, placed, outside, back. fold v. destruct (ap (vx v) (vy v) s); cbn; auto. destruct (scatter n v) as [[] w]; reflexivity. Qed.
Print Assumptions C40_scattered.
(* histories *)
Inductive hop :=
| HCheck (ap : R -> R -> R -> bool) (coll : bool) (bin : R) (scatter : nat -> vec6 -> bool * vec6) (advance : R -> R -> vec6 -> vec6) (turns : nat) (thr s len : R)
| HMove (f : particle -> vec6)
| HEnter (coll : bool).
Definition hstep (o : hop) (st : cstate) : res lerr cstate :=
  match o with
  | HCheck ap coll bin scatter advance turns thr s len => do r <- check ap coll bin scatter advance turns thr s len st; Ok (fst r)
  | HMove f => Ok (transport f st)
  | HEnter coll => Ok (enter_component coll st)
  end.
Fixpoint hrun (l : list hop) (st : cstate) : res lerr cstate := match l with [] => Ok st | o :: l' => do st' <- hstep o st; hrun l' st' end.
Definition tracked (l : list particle) (st : cstate) : Prop :=
  (index st = Some (map (fun p => Z.to_nat (pid p)) (bunch st)) \/ index st = None) /\ sublist (map pid (bunch st)) (map pid l) /\ (nlost st + length (bunch st) = length l)%nat /\ nstart st = length l.
Lemma hstep_tracked l o st st' : tracked l st -> hstep o st = Ok st' -> tracked l st' /\ (index st = None <-> index st' = None).
Proof.
  intros (I & S & N & T) E. destruct o as [ap coll bin scatter advance turns thr s len|f|coll]; cbn [hstep] in E.
  - destruct (check _ _ _ _ _ _ _ _ _ st) as [[st1 d]|e|] eqn:C; try discriminate. cbn in E. injection E as <-.
    assert (K : index_ok (index st) (bunch st)) by (destruct I as [-> | ->]; cbn; auto; apply map_length).
    destruct (C40_check _ _ _ _ _ _ _ _ _ _ _ _ K C) as (E1 & E2 & E3 & E4). unfold tracked. rewrite E1, E2, E3, E4. set (f := fate ap coll bin scatter s). split; [split; [|split; [|split; auto]]|].
    + destruct I as [-> | ->]; [left|now right]. cbn. f_equal. rewrite <- (map_map pid Z.to_nat), labels_map, labels_ids, map_map. reflexivity.
    + eapply sublist_trans; [|exact S]. rewrite <- labels_ids. apply labels_sub.
    + pose proof (split_count f (bunch st) 0). lia.
    + destruct (index st); cbn; split; congruence.
  - injection E as <-. unfold tracked, transport. cbn. rewrite !map_map, map_length. cbn. repeat split; auto.
  - injection E as <-. unfold tracked, enter_component. cbn. repeat split; auto.
Qed.
Theorem C40_history : forall ops l st0 st, map pid l = map Z.of_nat (seq 0 (length l)) -> hrun ops (initialise true l st0) = Ok st ->
  index st = Some (map (fun p => Z.to_nat (pid p)) (bunch st)) /\ sublist (map pid (bunch st)) (map pid l) /\ (nlost st + length (bunch st) = length l)%nat /\ nstart st = length l.
Proof.
  assert (R : forall A (l : list A), sublist l l) by (induction l; constructor; auto).
  intros ops l st0 st L E.
  assert (G : forall ops st1 st2, tracked l st1 -> index st1 <> None -> hrun ops st1 = Ok st2 -> tracked l st2 /\ index st2 <> None).
  { clear. induction ops as [|o ops IH]; intros st1 st2 T N E; cbn in E; [injection E as <-; auto|]. destruct (hstep o st1) as [st'|e|] eqn:H; try discriminate. cbn in E. destruct (hstep_tracked _ _ _ _ T H) as [T' N']. eapply IH; eauto. tauto. }
  destruct (G ops (initialise true l st0) st) as ((I & S & N & T) & X); auto; cbn; try discriminate.
  - unfold tracked, initialise. cbn. split; [left|auto]. f_equal. rewrite <- (map_map pid Z.to_nat), L, map_map. rewrite <- (map_id (seq 0 (length l))) at 1. apply map_ext. intros a. symmetry. apply Nat2Z.id.
  - destruct I as [I|I]; [auto|congruence].
Qed.
Print Assumptions C40_history.
Definition demo : list particle := [mkP (V6 1 0 0 0 0 0) 0%Z; mkP (V6 5 0 0 0 0 0) 1%Z; mkP (V6 2 0 0 0 0 0) 2%Z].
Definition slit (x y s : R) : bool := Rltb (Rabs x) 3.
Lemma slit_val x y s (b : bool) : (if b then -3 < x < 3 else x <= -3 \/ 3 <= x) -> slit x y s = b.
Proof. intros H. unfold slit, Rabs. destruct (Rcase_abs x); destruct b; match goal with |- Rltb ?a ?c = _ => destruct (Rltb_spec a c) end; auto; lra. Qed.
Example C40_ex : exists st, hrun [HEnter false; HCheck slit false 1 (fun _ v => (true, v)) (fun _ _ v => v) 2 1 0 1] (initialise true demo (mkC [] None [] 0 0)) = Ok st /\ map pid (bunch st) = [0; 2]%Z /\ index st = Some [0%nat; 2%nat] /\ nlost st = 1%nat.
Proof.
  cbn [hrun hstep bind]. unfold check, initialise, enter_component. cbn [bunch index input nlost nstart demo first_out].
  assert (O1 : outside slit 0 (placed false 1 (mkP (V6 1 0 0 0 0 0) 0%Z)) = false) by (unfold outside; cbn; rewrite (slit_val 1 0 0 true) by lra; reflexivity).
  assert (O2 : outside slit 0 (placed false 1 (mkP (V6 5 0 0 0 0 0) 1%Z)) = true) by (unfold outside; cbn; rewrite (slit_val 5 0 0 false) by lra; reflexivity).
  assert (O3 : outside slit 0 (placed false 1 (mkP (V6 2 0 0 0 0 0) 2%Z)) = false) by (unfold outside; cbn; rewrite (slit_val 2 0 0 true) by lra; reflexivity).
  unfold demo. cbn [length seq first_out]. rewrite O1, O2.
  assert (S : sift slit false 1 (fun _ v => (true, v)) 0 1 0 demo (Some [0%nat; 1%nat; 2%nat]) = Ok (mkSift [mkP (V6 1 0 0 0 0 0) 0%Z; mkP (V6 2 0 0 0 0 0) 2%Z] (Some [0%nat; 2%nat]) [mkP (V6 5 0 0 0 0 0) 1%Z] [1%nat] [1%nat])).
  { unfold demo. cbn [sift next_index bind]. rewrite O1, O2, O3. reflexivity. }
  unfold demo in S. rewrite S. cbn [bind gone_pos length Nat.eqb negb andb]. destruct (Reqb_spec 1 0); [lra|]. cbn [negb pick vget nth_error bind relose].
  destruct (Rleb_spec 0 (1 - 0)); [|lra]. cbn [length Nat.eqb negb andb filter pv]. unfold placed in O2. cbn [pv] in O2. rewrite O2. cbn [negb filter map].
  destruct (Rltb_spec 0 (1 - 0)); [|lra]. destruct (Rltb_spec (1 - 0 - 1) 0); [lra|]. destruct (Reqb_spec (1 - (0 + 1)) 0); [|lra]. cbn [bind fst snd map app length Nat.add].
  assert (M : too_many 1 1 3 = false) by (unfold too_many; cbn; destruct (Rleb_spec 1 (1 / (1 + 1 + 1))); [lra|reflexivity]). rewrite M. cbn. eexists. repeat split; reflexivity.
Qed.

(* ---- lost particles that no output sees ---- *)
(* a particle that passes the aperture at every searched position is counted, but
   not reported: the end of the component is not searched *)
Fixpoint along (advance : R -> R -> vec6 -> vec6) (bin : R) (k : nat) (v : vec6) : vec6 := match k with O => v | S k => advance (INR k * bin) bin (along advance bin k v) end.
Theorem C41_leftover_refuted ap bin advance : forall m lb, 0 < bin -> (0 < m)%nat ->
  (forall k p, (k < m)%nat -> In p lb -> ap (vx (along advance bin k (pv p))) (vy (along advance bin k (pv p))) (INR k * bin) = true) ->
  exists l, relose ap bin advance m (INR m * bin) 0 lb = Ok (l, []) /\ length l = length lb.
Proof.
  intros m lb B M H.
  assert (G : forall n k (lb' : list particle), (k + n = m)%nat -> lb' = map (fun p => mkP (along advance bin k (pv p)) (pid p)) lb -> (0 < n)%nat ->
    exists l, relose ap bin advance n (INR m * bin) (INR k * bin) lb' = Ok (l, [])).
  { induction n as [|n IH]; intros k lb' K -> P; [lia|]. cbn [relose]. destruct (Rleb 0 _ && _)%bool; [|eauto].
    assert (Q : INR m = INR k + INR n + 1) by (rewrite <- K, plus_INR, S_INR; ring).
    assert (I : forall q, In q (map (fun p => mkP (along advance bin k (pv p)) (pid p)) lb) -> outside ap (INR k * bin) (pv q) = false).
    { intros q I. apply in_map_iff in I. destruct I as (p & <- & I). unfold outside. cbn. rewrite (H k p); auto. lia. }
    assert (F : forall l, (forall q, In q l -> outside ap (INR k * bin) (pv q) = false) -> filter (fun p => outside ap (INR k * bin) (pv p)) l = [] /\ filter (fun p => negb (outside ap (INR k * bin) (pv p))) l = l).
    { induction l as [|q l IHl]; intros J; cbn; auto. rewrite (J q (or_introl eq_refl)). destruct (IHl (fun r R => J r (or_intror R))) as [-> E]. cbn. now rewrite E. }
    destruct (F _ I) as [-> ->]. pose proof (pos_INR n). destruct (Rltb_spec 0 (INR m * bin - INR k * bin)); [|nra]. destruct (Rltb_spec (INR m * bin - INR k * bin - bin) 0); [nra|].
    destruct (Reqb_spec (INR m * bin - (INR k * bin + bin)) 0) as [Z|Z]; [cbn; eauto|]. replace (INR k * bin + bin) with (INR (S k) * bin) by (rewrite S_INR; ring). rewrite !map_map. cbn [pv pid].
    destruct (IH (S k) (map (fun p => mkP (along advance bin (S k) (pv p)) (pid p)) lb)) as (l & E); auto; [lia|destruct n; [exfalso; apply Z; cbn in Q; rewrite Q; ring|lia]|]. cbn [along] in E. rewrite E. cbn. eauto. }
  destruct (G m 0%nat lb) as (l & E); auto. { cbn. symmetry. rewrite <- map_id. apply map_ext. intros []; reflexivity. }
  cbn [INR] in E. rewrite Rmult_0_l in E. exists l. split; auto. now apply relose_length in E.
Qed.
Print Assumptions C41_leftover_refuted.
Example C41_leftover_ex : exists l, relose slit 1 (fun _ _ v => V6 (vx v + 2) 0 0 0 0 0) 2 (INR 2 * 1) 0 [mkP (V6 0 0 0 0 0 0) 0%Z] = Ok (l, []) /\ length l = 1%nat.
Proof.
  apply C41_leftover_refuted; [lra|lia|]. intros [|[|k]] p K [<-|[]]; cbn; try lia; apply slit_val; lra.
Qed.

(* ---- C84: the places of the checks ---- *)
Fixpoint walk (bin len : R) (c : sched) (ds : list R) : list R :=
  match ds with
  | [] => []
  | d :: ds' => if active c then let '(c', b) := do_process bin len d c in (if b then [pos c'] else []) ++ walk bin len c' ds' else []
  end.
(* no step is longer than the process allows *)
Fixpoint permitted (bin len : R) (c : sched) (ds : list R) : Prop :=
  match ds with [] => True | d :: ds' => 0 <= d /\ (active c = true -> d <= max_step bin c /\ permitted bin len (fst (do_process bin len d c)) ds') end.
Definition total (ds : list R) : R := fold_right Rplus 0 ds.
Definition requested (entr cent exit : bool) (len : R) : list R := (if entr then [0] else []) ++ (if cent then [len / 2] else []) ++ (if exit then [len] else []).
Definition near (p g : R) : Prop := Rabs (p - g) <= eps.
Definition pending (len : R) (c : sched) : list R := if active c then goal c :: requested (at_entr c) (at_cent c) (at_exit c) len else [].
Lemma fequal_near p g : fequal p g = true <-> near p g.
Proof. unfold near, fequal, fequal_tol. destruct (Rleb_spec (Rabs (p - g)) eps); split; intros; auto; try discriminate; lra. Qed.
Lemma next_pending bin len c : is_coll c = false -> pos (set_next bin len c) = pos c /\ is_coll (set_next bin len c) = false /\ (active c = true -> pending len (set_next bin len c) = requested (at_entr c) (at_cent c) (at_exit c) len) /\ 
  at_entr (set_next bin len c) = false.
Proof. intros H. destruct c as [p g [] [] [] i a]; cbn in *; subst; repeat split; intros; subst; reflexivity. Qed.
(* what is left to do lies ahead, in order *)
Definition ahead (len : R) (c : sched) : Prop := match pending len c with [] => True | g :: r => pos c <= g /\ Forall (fun x => g < x) r /\ at_entr c = false end.
Lemma walk_pending bin len : 0 < len -> forall ds c, is_coll c = false -> ahead len c -> (pending len c <> [] -> pos c < len) -> Forall (fun g => g <= len) (pending len c) -> permitted bin len c ds -> pos c + total ds = len ->
  Forall2 near (walk bin len c ds) (pending len c).
Proof.
  intros L. induction ds as [|d ds IH]; intros c C A Z G P T; cbn [walk].
  - cbn in T. destruct (pending len c) eqn:E; [constructor|]. specialize (Z ltac:(discriminate)). lra.
  - cbn in P. destruct P as [D P]. destruct (active c) eqn:AC; [|unfold pending; rewrite AC; constructor]. destruct (P eq_refl) as [M P']. unfold max_step in M. rewrite C in M.
    unfold do_process in *. cbn [pos goal at_entr at_cent at_exit is_coll active] in *. rewrite C, AC in *. set (c1 := mkS (pos c + d) (goal c) (at_entr c) (at_cent c) (at_exit c) false true) in *.
    unfold ahead in A. assert (PE : pending len c = goal c :: requested (at_entr c) (at_cent c) (at_exit c) len) by (unfold pending; now rewrite AC). rewrite PE in *. destruct A as (A1 & A2 & A3). rewrite A3 in *. apply Forall_cons_iff in G; destruct G as [G1 G2].
    cbn [total fold_right] in T. fold (total ds) in T.
    destruct (fequal (pos c + d) (goal c)) eqn:FE; cbn [fst] in P'.
    + destruct (next_pending bin len c1 eq_refl) as (N1 & N2 & N3 & N4). specialize (N3 eq_refl). cbn in N1. cbn [app]. constructor; [rewrite N1; now apply fequal_near|].
      assert (N5 : pending len (set_next bin len c1) = requested false (at_cent c) (at_exit c) len) by (rewrite N3; unfold c1; cbn [at_entr at_cent at_exit]; now rewrite A3). rewrite <- N5. apply IH; auto.
      * unfold ahead. rewrite N5. cbn [requested app] in *. destruct (at_cent c), (at_exit c); cbn in *; auto; rewrite N1; (split; [|split; [|exact N4]]);
          repeat match goal with H : Forall _ (_ :: _) |- _ => apply Forall_cons_iff in H; destruct H end; repeat constructor; lra.
      * rewrite N5, N1. intros NE. destruct (Rlt_le_dec (pos c + d) len); auto. exfalso.
        destruct (at_cent c) eqn:X1, (at_exit c) eqn:X2; cbn in *; try congruence; repeat match goal with H : Forall _ (_ :: _) |- _ => apply Forall_cons_iff in H; destruct H end; lra.
      * rewrite N5. exact G2.
      * rewrite N1. lra.
    + cbn [app]. assert (Q : pending len c1 = goal c :: requested false (at_cent c) (at_exit c) len) by (unfold pending, c1; cbn [active goal at_entr at_cent at_exit]; now rewrite A3). rewrite <- Q. apply IH; auto; rewrite ?Q; auto; cbn [pos c1].
      * unfold ahead. rewrite Q. cbn. repeat split; auto. lra.
      * intros _. destruct (Rlt_le_dec (pos c + d) len); auto. exfalso. assert (fequal (pos c + d) (goal c) = true); [|congruence]. apply fequal_near. unfold near. pose proof eps_pos. replace (pos c + d - goal c) with 0 by lra. rewrite Rabs_R0. lra.
      * lra.
Qed.
Theorem C84_checks entr cent exit bin len ds : 0 < len -> permitted bin len (start_component false entr cent exit bin len) ds -> total ds = len ->
  Forall2 near (walk bin len (start_component false entr cent exit bin len) ds) (requested entr cent exit len).
Proof.
  intros L P T. set (c := start_component false entr cent exit bin len) in *.
  assert (E : pending len c = requested entr cent exit len) by (unfold c; destruct entr, cent, exit; reflexivity).
  assert (P0 : pos c = 0) by (unfold c; destruct entr, cent, exit; reflexivity).
  rewrite <- E. apply walk_pending; auto.
  - unfold c. destruct entr, cent, exit; reflexivity.
  - unfold ahead. rewrite E, P0. assert (at_entr c = false) by (unfold c; destruct entr, cent, exit; reflexivity). unfold requested. destruct entr, cent, exit; cbn; auto; repeat split; auto; repeat constructor; lra.
  - rewrite P0. auto.
  - rewrite E. unfold requested. destruct entr, cent, exit; cbn; repeat constructor; lra.
  - rewrite P0. lra.
Qed.
Print Assumptions C84_checks.
(* alone, the process makes each requested check at exactly its place *)
Fixpoint alone (bin len : R) (n : nat) (c : sched) : list R := match n with O => [] | S n => if active c then max_step bin c :: alone bin len n (fst (do_process bin len (max_step bin c) c)) else [] end.
Theorem C84_alone entr cent exit bin len : walk bin len (start_component false entr cent exit bin len) (alone bin len 4 (start_component false entr cent exit bin len)) = requested entr cent exit len.
Proof.
  assert (F : forall a b, a = b -> fequal a b = true) by (intros a b ->; apply fequal_near; unfold near; rewrite Rminus_diag_eq, Rabs_R0 by reflexivity; pose proof eps_pos; lra).
  assert (A : forall n c, is_coll c = false -> (length (pending len c) <= n)%nat -> at_entr c = false -> walk bin len c (alone bin len n c) = pending len c).
  { induction n as [|n IH]; intros c C N Z; cbn [walk alone]; [destruct (pending len c); cbn in *; auto; lia|]. destruct (active c) eqn:AC; [|cbn; unfold pending; now rewrite AC]. cbn [walk]. rewrite AC.
    assert (D : do_process bin len (max_step bin c) c = (set_next bin len (mkS (goal c) (goal c) (at_entr c) (at_cent c) (at_exit c) false true), true)).
    { unfold do_process, max_step. rewrite C, AC. cbn [pos goal]. replace (pos c + (goal c - pos c)) with (goal c) by ring. now rewrite F. }
    rewrite D. cbn [fst app]. set (c1 := mkS (goal c) (goal c) (at_entr c) (at_cent c) (at_exit c) false true). destruct (next_pending bin len c1 eq_refl) as (N1 & N2 & N3 & N4). specialize (N3 eq_refl). rewrite IH; auto.
    - rewrite N3, N1. unfold c1. cbn [pos at_entr at_cent at_exit]. unfold pending. rewrite AC. reflexivity.
    - rewrite N3. unfold c1. cbn [pos at_entr at_cent at_exit]. unfold pending in N. rewrite AC in N. cbn in N. lia. }
  rewrite A; destruct entr, cent, exit; try reflexivity; cbn; lia.
Qed.
Print Assumptions C84_alone.
Example C84_ex : let c := start_component false true false true 1 2 in permitted 1 2 c [0; 1; 1] /\ total [0; 1; 1] = 2.
Proof.
  cbn [total fold_right start_component set_next at_entr at_cent at_exit is_coll pos goal]. split; [|ring]. pose proof eps_pos. pose proof eps_small.
  assert (F : forall a, fequal a a = true) by (intros a; apply fequal_near; unfold near; rewrite Rminus_diag_eq, Rabs_R0 by reflexivity; lra).
  assert (F0 : fequal (0 + 0) 0 = true) by (replace (0 + 0) with 0 by ring; apply F).
  assert (F1 : fequal (0 + 0 + 1) 2 = false). { destruct (fequal (0 + 0 + 1) 2) eqn:FE; auto. apply fequal_near in FE. unfold near in FE. rewrite Rabs_left in FE; lra. }
  unfold permitted, max_step. cbn [active is_coll goal pos do_process at_entr at_cent at_exit]. split; [lra|]. intros _. split; [lra|].
  unfold do_process. cbn [pos goal]. rewrite F0. cbn [fst set_next at_entr at_cent at_exit is_coll pos goal active]. split; [lra|]. intros _. split; [lra|].
  rewrite F1. cbn [fst set_next at_entr at_cent at_exit is_coll pos goal active]. split; [lra|]. intros _. split; [lra|auto].
Qed.
(* ---- collimators: a check after every step of the bin size, the last shorter ---- *)
Definition mark (bin len : R) (k : nat) : R := Rmin (INR k * bin) len.
Theorem C169_collimator_bins entr cent exit bin len n : 0 < bin -> 0 < len ->
  walk bin len (start_component true entr cent exit bin len) (map (fun k => mark bin len (S k) - mark bin len k) (seq 0 n)) = map (fun k => mark bin len (S k)) (seq 0 n).
Proof.
  intros B L.
  assert (F : forall a, fequal a a = true) by (intros a; apply fequal_near; unfold near; rewrite Rminus_diag_eq, Rabs_R0 by reflexivity; pose proof eps_pos; lra).
  assert (N : forall k, (if Rltb len (mark bin len k + bin) then len else mark bin len k + bin) = mark bin len (S k)).
  { intros k. unfold mark. rewrite S_INR. unfold Rmin. destruct (Rle_dec (INR k * bin) len), (Rle_dec ((INR k + 1) * bin) len); match goal with |- context [Rltb ?a ?b] => destruct (Rltb_spec a b) end; lra. }
  assert (G : forall n k e c x, walk bin len (mkS (mark bin len k) (mark bin len (S k)) e c x true true) (map (fun k => mark bin len (S k) - mark bin len k) (seq k n)) = map (fun k => mark bin len (S k)) (seq k n)).
  { clear n entr cent exit. induction n as [|n IH]; intros k e c x; [reflexivity|]. cbn [seq map walk active]. unfold do_process. cbn [pos goal at_entr at_cent at_exit is_coll active].
    replace (mark bin len k + (mark bin len (S k) - mark bin len k)) with (mark bin len (S k)) by ring. rewrite F.
    match goal with |- context [set_next bin len ?c0] => assert (E : exists e' c' x', set_next bin len c0 = mkS (mark bin len (S k)) (mark bin len (S (S k))) e' c' x' true true) end.
    { destruct e, c, x; unfold set_next; cbn [pos goal at_entr at_cent at_exit is_coll active]; rewrite (N (S k)); do 3 eexists; reflexivity. }
    destruct E as (e' & c' & x' & ->). cbn [pos app]. now rewrite IH. }
  assert (M0 : mark bin len 0 = 0) by (unfold mark; cbn; rewrite Rmult_0_l; apply Rmin_left; lra).
  pose proof (N 0%nat) as N0. rewrite M0 in N0.
  unfold start_component, set_next. cbn [pos goal at_entr at_cent at_exit is_coll active]. rewrite N0. rewrite <- M0 at 1. apply G.
Qed.
Print Assumptions C169_collimator_bins.
(* a check happens at the goal only, and the goal can be stepped over: with steps
   a, b both shorter than the bin, none of the rest of the collimator is checked *)
Theorem C86_short_steps_refuted entr cent exit bin len a b ds : 0 < bin <= len -> 0 <= a < bin - eps -> 0 <= b <= bin -> bin + eps < a + b -> Forall (fun d => 0 <= d) ds ->
  a <= max_step bin (start_component true entr cent exit bin len) /\ b <= max_step bin (start_component true entr cent exit bin len) /\ walk bin len (start_component true entr cent exit bin len) (a :: b :: ds) = [].
Proof.
  intros B A B2 S D. pose proof eps_pos. assert (M : max_step bin (start_component true entr cent exit bin len) = bin) by reflexivity. rewrite M. split; [lra|]. split; [lra|].
  unfold start_component, set_next. cbn [pos goal at_entr at_cent at_exit is_coll active].
  destruct (Rltb_spec len (0 + bin)); [lra|]. replace (0 + bin) with bin by ring. cbn [walk active]. unfold do_process at 1. cbn [pos goal at_entr at_cent at_exit is_coll active].
  assert (FA : fequal (0 + a) bin = false). { destruct (fequal (0 + a) bin) eqn:FE; auto. apply fequal_near in FE. unfold near in FE. rewrite Rabs_left in FE; lra. }
  rewrite FA. cbn [app walk active].
  assert (G : forall ds p, bin + eps < p -> Forall (fun d => 0 <= d) ds -> walk bin len (mkS p bin false false false true true) ds = []).
  { clear - B. pose proof eps_pos. induction ds as [|d ds IH]; intros p P Q; auto. apply Forall_cons_iff in Q. destruct Q as [Q1 Q2]. cbn [walk active]. unfold do_process. cbn [pos goal at_entr at_cent at_exit is_coll active].
    assert (FD : fequal (p + d) bin = false). { destruct (fequal (p + d) bin) eqn:FE; auto. apply fequal_near in FE. unfold near in FE. rewrite Rabs_right in FE; lra. }
    rewrite FD. cbn [app]. apply IH; auto. lra. }
  unfold do_process. cbn [pos goal at_entr at_cent at_exit is_coll active].
  assert (FB : fequal (0 + a + b) bin = false). { destruct (fequal (0 + a + b) bin) eqn:FE; auto. apply fequal_near in FE. unfold near in FE. rewrite Rabs_right in FE; lra. }
  rewrite FB. cbn [app]. apply G; auto. lra.
Qed.
Print Assumptions C86_short_steps_refuted.
Example C86_short_ex : walk 1 3 (start_component true true true true 1 3) [3/5; 3/5; 3/5; 3/5; 3/5] = [].
Proof. pose proof eps_small. apply C86_short_steps_refuted; [lra|lra|lra|lra|repeat constructor; lra]. Qed.

(* ---- C85: the turn counter ---- *)
Definition place_eq_dec : forall a b : str * R, {a = b} + {a <> b}.
Proof. decide equality; [apply Req_EM_T|apply (list_eq_dec Ascii.ascii_dec)]. Defined.
Theorem C85_turns c l : fold_left count_turn (c :: l) (None, 0%nat) = (Some c, count_occ place_eq_dec (c :: l) c).
Proof.
  cbn [fold_left count_turn fst]. assert (G : forall l n, fold_left count_turn l (Some c, n) = (Some c, (n + count_occ place_eq_dec l c)%nat)).
  { clear l. induction l as [|d l IH]; intros n; cbn [fold_left count_occ]; [now rewrite Nat.add_0_r|]. unfold count_turn at 2. cbn [fst snd]. destruct (place_eq_dec d c) as [->|N].
    - rewrite str_eqb_refl. destruct (Reqb_spec (snd c) (snd c)); [|contradiction]. cbn [andb]. rewrite IH. f_equal. lia.
    - destruct (str_eqb (fst d) (fst c)) eqn:E; [|cbn [andb]; apply IH]. apply str_eqb_eq in E. destruct (Reqb_spec (snd d) (snd c)); [|apply IH]. exfalso. apply N. destruct d, c; cbn in *; congruence. }
  rewrite G. cbn [count_occ]. destruct (place_eq_dec c c); [reflexivity|contradiction].
Qed.
Print Assumptions C85_turns.
Example C85_ex (a b : str * R) : a <> b -> snd (fold_left count_turn [a; b; b; a; b; b; a] (None, 0%nat)) = 3%nat.
Proof. intros N. rewrite C85_turns. cbn. destruct (place_eq_dec a a), (place_eq_dec b a); congruence. Qed.
