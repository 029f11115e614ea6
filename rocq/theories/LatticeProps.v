From Coq Require Import Sorted.
From Verif Require Import RBase StringPattern Lattice LatticeSpec LatticeProofs.
Local Open Scope R_scope.

Definition ex_comp (n : string) (len : R) : cframe :=
  let c := mkC (of_string "Drift") (of_string n) len 0 in mkF 0 (qualified c) (Some c) 0 0.
Definition ex_patch : cframe := mkF 9 (of_string "P") None 0 0.
Definition ex_lat : list cframe := [ex_comp "A" 1; ex_comp "B" 2; ex_comp "A" 3].

(** ** C15 *)
Theorem C133_index_range :
  forall l n1 n2, (n1 <= n2)%nat ->
  ((n2 < length l)%nat -> exists b, get_beamline l n1 n2 = Ok b /\ bfirst_i b = n1 /\ blast_i b = n2
     /\ is_reversed b = false /\ frames_of l b = Ok (firstn (n2 - n1 + 1) (skipn n1 l))) /\
  ((length l <= n2)%nat -> get_beamline l n1 n2 = Throw BadRange).
Proof.
  intros l n1 n2 H. unfold get_beamline. split; intros H2.
  - destruct (Nat.leb_spec (length l) n2); [lia|]. destruct (Nat.ltb_spec (length l) n1); [lia|].
    eexists. split; [reflexivity|]. split; [reflexivity|]. split; [reflexivity|].
    split; [apply Nat.ltb_ge; exact H|]. unfold frames_of. cbn [bfirst blast].
    rewrite (iterate_ok l (S (length l)) n1 (S n2)) by lia. do 2 f_equal. lia.
  - destruct (Nat.leb_spec (length l) n2); [reflexivity|lia].
Qed.
Print Assumptions C133_index_range.

Theorem C133_whole_beamline :
  forall l, (l <> [] -> exists b, whole l = Ok b /\ frames_of l b = Ok l /\
    bfirst_i b = O /\ S (blast_i b) = length l) /\ whole [] = UB.
Proof.
  intros l. split; [|reflexivity]. intros H. unfold whole. destruct l as [|f l]; [congruence|]. cbn [length].
  eexists. split; [reflexivity|]. unfold frames_of. cbn [bfirst blast length]. rewrite iterate_ok by (cbn [length]; lia).
  cbn [skipn]. rewrite Nat.sub_0_r. split; [|split; reflexivity]. f_equal. apply (firstn_all (f :: l)).
Qed.
Print Assumptions C133_whole_beamline.

(** a pair in the wrong order is accepted; walking the result leaves the lattice *)
Theorem C15_reversed_pair_refuted :
  forall l n1 n2, (n2 < n1)%nat -> (n1 < length l)%nat ->
  exists b, get_beamline l n1 n2 = Ok b /\
    (frames_of l b = UB \/ (n1 = S n2 /\ frames_of l b = Ok [])).
Proof.
  intros l n1 n2 H1 H2. unfold get_beamline. destruct (Nat.leb_spec (length l) n2); [lia|].
  destruct (Nat.ltb_spec (length l) n1); [lia|]. eexists. split; [reflexivity|]. unfold frames_of. cbn [bfirst blast].
  destruct (Nat.eq_dec n1 (S n2)) as [->|E].
  - right. split; [reflexivity|]. cbn [iterate]. rewrite Nat.eqb_refl. reflexivity.
  - left. apply iterate_past. lia.
Qed.
Print Assumptions C15_reversed_pair_refuted.
(** the same holds of GetReversedBeamline *)
Theorem C15_reversed_beamline_refuted :
  forall l, (2 < length l)%nat -> exists b, reversed l = Ok b /\ is_reversed b = true /\ frames_of l b = UB.
Proof.
  intros l H. unfold reversed. destruct (length l) as [|n] eqn:E; [lia|]. eexists. split; [reflexivity|].
  split; [apply Nat.ltb_lt; simpl; lia|]. unfold frames_of. cbn [bfirst blast]. apply iterate_past. lia.
Qed.
Print Assumptions C15_reversed_beamline_refuted.
Example C15_ex : exists b, get_beamline ex_lat 1 2 = Ok b /\ frames_of ex_lat b = Ok [ex_comp "B" 2; ex_comp "A" 3].
Proof. eexists. split; reflexivity. Qed.
Example C15_ex_reversed : (0 < 2)%nat /\ (2 < length ex_lat)%nat /\ exists b, get_beamline ex_lat 2 0 = Ok b /\ frames_of ex_lat b = UB.
Proof. split; [lia|]. split; [simpl; lia|]. eexists. split; reflexivity. Qed.

(** ** C16 *)
(** documented: from the n1-th match of pat1 to the n2-th match of pat2 *)
Definition documented_selection (l : list cframe) (pat1 pat2 : str) (n1 n2 : nat) (b : beamline) : Prop :=
  exists i1 i2, b = mkB i1 i2 i1 i2 /\ nth_match (by_name pat1) n1 l i1 /\ nth_match (by_name pat2) n2 l i2 /\ (i1 <= i2)%nat.

Theorem C16_overlap_refuted :
  exists l pat1 pat2 n1 n2 b b', get_beamline_pat l pat1 pat2 n1 n2 = Ok b
    /\ documented_selection l pat1 pat2 n1 n2 b' /\ b <> b'.
Proof.
  exists ex_lat, (of_string "*A"), (of_string "Drift*"), 1%nat, 1%nat, (mkB 0 1 0 1), (mkB 0 0 0 0).
  split; [vm_compute; reflexivity|]. split; [|discriminate].
  exists O, O. split; [reflexivity|]. split; [|split]; [| |lia]; split; vm_compute; reflexivity.
Qed.
Print Assumptions C16_overlap_refuted.
(** a single frame cannot be selected with one pattern *)
Theorem C16_single_frame_refuted :
  exists l pat, documented_selection l pat pat 1 1 (mkB 1 1 1 1) /\ get_beamline_pat l pat pat 1 1 = Throw BadRange.
Proof.
  exists ex_lat, (of_string "*B"). split; [|vm_compute; reflexivity].
  exists 1%nat, 1%nat. split; [reflexivity|]. split; [|split]; [| |lia]; split; vm_compute; reflexivity.
Qed.
Print Assumptions C16_single_frame_refuted.
Theorem C16_order_refuted :
  exists l pat1 pat2 b, get_beamline_pat l pat1 pat2 2 1 = Ok b /\ is_reversed b = true
    /\ ~ (exists b', documented_selection l pat1 pat2 2 1 b').
Proof.
  exists ex_lat, (of_string "*A"), (of_string "*B"), (mkB 2 1 2 1). split; [vm_compute; reflexivity|]. split; [reflexivity|].
  intros (b' & i1 & i2 & _ & [H1 H1'] & [H2 H2'] & Hle).
  destruct i1 as [|[|[|i1]]]; try (vm_compute in H1'; discriminate); try (vm_compute in H1; discriminate).
  destruct i2 as [|[|[|i2]]]; try lia; [vm_compute in H2; discriminate|]. unfold holds in H2.
  destruct i2; discriminate.
Qed.
Print Assumptions C16_order_refuted.

(** what is selected: the frame completing the first count is skipped for the second *)
Theorem C134_selection_exact :
  forall l pat1 pat2 n1 n2, (1 <= n1)%nat -> (1 <= n2)%nat ->
  (forall b, get_beamline_pat l pat1 pat2 n1 n2 = Ok b <->
     exists i1 i2, b = mkB i1 i2 i1 i2 /\ nth_match (by_name pat1) n1 l i1 /\ nth_match (by_name_except pat2 i1) n2 l i2) /\
  ((forall b, get_beamline_pat l pat1 pat2 n1 n2 <> Ok b) -> get_beamline_pat l pat1 pat2 n1 n2 = Throw BadRange).
Proof.
  intros l pat1 pat2 n1 n2 H1 H2. split.
  - intros b. apply beamline_pat_spec; assumption.
  - intros H. destruct (beamline_pat_error l pat1 pat2 n1 n2 H1 H2) as [E|[b E]]; [exact E|]. destruct (H b E).
Qed.
Print Assumptions C134_selection_exact.

(** so the documented selection is returned whenever the frame where it starts
    does not match the second pattern *)
Theorem C134_documented :
  forall l pat1 pat2 n1 n2 b, (1 <= n1)%nat -> (1 <= n2)%nat ->
  documented_selection l pat1 pat2 n1 n2 b ->
  (forall f, nth_error l (bfirst b) = Some f -> pmatch pat2 (frame_id f) = false) ->
  get_beamline_pat l pat1 pat2 n1 n2 = Ok b.
Proof.
  intros l pat1 pat2 n1 n2 b H1 H2 (i1 & i2 & -> & M1 & M2 & _) Hn. apply beamline_pat_spec; [assumption|assumption|].
  exists i1, i2. split; [reflexivity|]. split; [exact M1|]. apply except_same; [exact Hn|exact M2].
Qed.
Print Assumptions C134_documented.
Example C16_ex : documented_selection ex_lat (of_string "*A") (of_string "*B") 1 1 (mkB 0 1 0 1)
  /\ (forall f, nth_error ex_lat 0 = Some f -> pmatch (of_string "*B") (frame_id f) = false).
Proof.
  split.
  - exists O, 1%nat. split; [reflexivity|]. split; [|split]; [| |lia]; split; vm_compute; reflexivity.
  - intros f E. injection E as <-. vm_compute. reflexivity.
Qed.

(** ** C17 *)
Theorem C135_lattice_is_call_order :
  forall cs, nested 0 cs = Some O -> exists root subs lat els k, construct cs = Ok (FSeq root subs, lat, els, k)
    /\ Forall2 same_frame lat (flat_map appended cs) /\ lat = leaves (FSeq root subs).
Proof.
  intros cs H. unfold construct. destruct (calls_reached cs new_model 0 [] O new_reached H) as (k & -> & [H1 H2 H3 H4]).
  cbn [bind]. unfold get_model. destruct (stack k) as [|[i subs] [|y s]] eqn:Es; simpl in H2; try discriminate.
  rewrite H1. cbn. eexists _, _, _, _, _. split; [reflexivity|]. split; [exact H3|].
  rewrite H4. unfold open_leaves. simpl. rewrite app_nil_r. reflexivity.
Qed.
Print Assumptions C135_lattice_is_call_order.

Lemma visited_known : forall t, visited t = known_in t.
Proof.
  fix IH 1. intros [f|i subs]; cbn [visited known_in]; [reflexivity|].
  apply (f_equal (cons (ESeq i))). induction subs as [|t subs IHs]; [reflexivity|]. cbn [flat_map]. rewrite (IH t), IHs. reflexivity.
Qed.
Lemma call_registers c k k' : do_call c k = Ok k' -> repo k' = repo k ++ registered c.
Proof.
  assert (A : forall f k k', append_component_frame f k = Ok k' -> repo k' = repo k ++ known f).
  { clear. intros f k k'. unfold append_component_frame. destruct (negb (live k)); [discriminate|].
    destruct (append_top _ (stack k)); cbn [bind]; [|discriminate|discriminate]. injection 1 as <-. reflexivity. }
  destruct c as [i| |f i d|f|i d|t]; cbn [do_call registered appended].
  - unfold new_frame. destruct (negb (live k)); [discriminate|]. injection 1 as <-. reflexivity.
  - unfold end_frame. destruct (stack k) as [|[i subs] s]; [discriminate|].
    destruct (append_top _ s); cbn [bind]; [|discriminate|discriminate]. injection 1 as <-. cbn. now rewrite app_nil_r.
  - unfold append_component. destruct (fequal d 0).
    + cbn [bind]. intros H. apply A in H. rewrite H. cbn [flat_map]. now rewrite app_nil_r.
    + unfold append_drift. destruct (append_component_frame (drift_frame i d) k) eqn:E; cbn [bind]; [|discriminate|discriminate].
      intros H. apply A in H. apply A in E. rewrite H, E. cbn [flat_map]. now rewrite app_nil_r, app_assoc.
  - intros H. apply A in H. rewrite H. cbn [flat_map]. now rewrite app_nil_r.
  - unfold append_drift. intros H. apply A in H. rewrite H. cbn [flat_map]. now rewrite app_nil_r.
  - unfold append_frame. destruct (negb (live k)); [discriminate|].
    destruct (append_top _ (stack k)); cbn [bind]; [|discriminate|discriminate]. injection 1 as <-. cbn. now rewrite visited_known.
Qed.
Lemma calls_register : forall cs k k', do_calls cs k = Ok k' -> repo k' = repo k ++ flat_map registered cs.
Proof.
  induction cs as [|c cs IH]; intros k k' H; cbn [do_calls flat_map] in *.
  { injection H as <-. now rewrite app_nil_r. }
  destruct (do_call c k) as [k1| |] eqn:E; cbn [bind] in H; try discriminate.
  apply call_registers in E. apply IH in H. rewrite H, E. now rewrite app_assoc.
Qed.

Lemma known_leaves : forall t,
  (forall n, In (EFrame n) (known_in t) <-> exists f, In f (leaves t) /\ fid f = n) /\
  (forall c, In (EComp c) (known_in t) <-> exists f, In f (leaves t) /\ fcomp f = Some c).
Proof.
  fix IH 1. intros [f|i subs]; cbn [known_in leaves].
  - unfold known. split.
    + intros n. split.
      * intros [H|H]; [injection H as <-; exists f; cbn; auto|]. destruct (fcomp f); cbn in H; intuition discriminate.
      * intros (g & [<-|[]] & <-). now left.
    + intros c. split.
      * intros [H|H]; [discriminate|]. exists f. split; [now left|]. destruct (fcomp f); cbn in H; [|contradiction].
        destruct H as [H|[]]. congruence.
      * intros (g & [<-|[]] & ->). right. now left.
  - assert (G : (forall n, In (EFrame n) (flat_map known_in subs) <-> exists f, In f (flat_map leaves subs) /\ fid f = n) /\
                (forall c, In (EComp c) (flat_map known_in subs) <-> exists f, In f (flat_map leaves subs) /\ fcomp f = Some c)).
    { induction subs as [|t subs [I1 I2]]; cbn [flat_map].
      - split; [intros n|intros c]; (split; [intros []|intros (f & [] & _)]).
      - destruct (IH t) as [J1 J2]. split; [intros n|intros c]; rewrite in_app_iff.
        + rewrite I1, J1. setoid_rewrite in_app_iff. firstorder.
        + rewrite I2, J2. setoid_rewrite in_app_iff. firstorder. }
    destruct G as [G1 G2]. split; [intros n|intros c]; cbn [In].
    + rewrite <- G1. intuition discriminate.
    + rewrite <- G2. intuition discriminate.
Qed.

(** the finished model knows exactly the frames and components it contains *)
Theorem C135_repository :
  forall cs t lat els k, construct cs = Ok (t, lat, els, k) -> nested 0 cs = Some O ->
    els = flat_map registered cs /\
    (forall n, In (EFrame n) els <-> exists f, In f lat /\ fid f = n) /\
    (forall c, In (EComp c) els <-> exists f, In f lat /\ fcomp f = Some c) /\
    (forall n, In (ESeq n) els <-> exists c, In c cs /\ (c = NewFrame n \/ exists t, c = AppendFrame t /\ In (ESeq n) (known_in t))).
Proof.
  intros cs t lat els k H HN.
  destruct (C135_lattice_is_call_order cs HN) as (root & subs & lat' & els' & k' & E & F & _).
  rewrite E in H. injection H as <- <- <- <-.
  assert (HE : els' = flat_map registered cs).
  { unfold construct in E. destruct (do_calls cs new_model) as [k0| |] eqn:E0; cbn [bind] in E; try discriminate.
    apply calls_register in E0. cbn in E0. unfold get_model in E. destruct (stack k0) as [|[i s] s']; [discriminate|].
    destruct (negb _); [discriminate|]. injection E as _ _ _ <- _. exact E0. }
  assert (FA : forall (Q : cframe -> Prop), (forall a b, same_frame a b -> Q a <-> Q b) ->
     (exists f, In f lat' /\ Q f) <-> (exists f, In f (flat_map appended cs) /\ Q f)).
  { intros Q HQ. clear -F HQ. induction F as [|a b l m H F IH]; [firstorder|].
    assert (HQ' := HQ a b H). split; intros (f & [<-|HI] & Hf).
    - exists b. split; [now left|tauto].
    - destruct (proj1 IH) as (g & G1 & G2); [eauto|]. exists g. split; [now right|exact G2].
    - exists a. split; [now left|tauto].
    - destruct (proj2 IH) as (g & G1 & G2); [eauto|]. exists g. split; [now right|exact G2]. }
  assert (KN : forall fs, (forall n, In (EFrame n) (flat_map known fs) <-> exists f, In f fs /\ fid f = n) /\
     (forall c, In (EComp c) (flat_map known fs) <-> exists f, In f fs /\ fcomp f = Some c)).
  { intros fs. destruct (known_leaves (FSeq 0 (map FComp fs))) as [K1 K2]. cbn [known_in leaves] in K1, K2.
    assert (A1 : flat_map known_in (map FComp fs) = flat_map known fs) by (clear; induction fs; cbn in *; congruence).
    assert (A2 : flat_map leaves (map FComp fs) = fs) by (clear; induction fs; cbn in *; congruence).
    rewrite A1, A2 in K1, K2. split; [intros n|intros c].
    - rewrite <- K1. cbn. intuition discriminate.
    - rewrite <- K2. cbn. intuition discriminate. }
  assert (REG : forall c, (forall n, In (EFrame n) (registered c) <-> exists f, In f (appended c) /\ fid f = n) /\
     (forall d, In (EComp d) (registered c) <-> exists f, In f (appended c) /\ fcomp f = Some d)).
  { intros c. destruct c as [i| |f i d|f|i d|t]; try (apply KN); cbn [registered appended].
    - split; [intros n|intros d]; (split; [intros [H|[]]; discriminate|intros (f & [] & _)]).
    - split; [intros n|intros d]; (split; [intros []|intros (f & [] & _)]).
    - apply known_leaves. }
  split; [exact HE|]. rewrite HE. split; [|split].
  - intros n. rewrite (FA (fun f => fid f = n)).
    2: { intros a b (S1 & _). rewrite S1. tauto. }
    rewrite in_flat_map. setoid_rewrite in_flat_map. split.
    + intros (c & C1 & C2). apply REG in C2. destruct C2 as (f & F1 & F2). eauto.
    + intros (f & (c & C1 & C2) & F2). exists c. split; [exact C1|]. apply REG. eauto.
  - intros d. rewrite (FA (fun f => fcomp f = Some d)).
    2: { intros a b (S1 & S2 & S3 & _). rewrite S3. tauto. }
    rewrite in_flat_map. setoid_rewrite in_flat_map. split.
    + intros (c & C1 & C2). apply REG in C2. destruct C2 as (f & F1 & F2). eauto.
    + intros (f & (c & C1 & C2) & F2). exists c. split; [exact C1|]. apply REG. eauto.
  - intros n. rewrite in_flat_map.
    assert (NS : forall fs, ~ In (ESeq n) (flat_map known fs)).
    { intros fs HI. apply in_flat_map in HI. destruct HI as (f & _ & HI). unfold known in HI.
      destruct HI as [HI|HI]; [discriminate|]. destruct (fcomp f); [|contradiction]. destruct HI as [HI|[]]. discriminate. }
    split.
    + intros (c & C1 & C2). exists c. split; [exact C1|].
      destruct c as [i| |f i d|f|i d|t]; try (exfalso; apply (NS _ C2)); cbn [registered] in C2.
      * left. destruct C2 as [C2|[]]. congruence.
      * contradiction.
      * right. eauto.
    + intros (c & C1 & [-> | (t & -> & C2)]); (eexists; split; [exact C1|]); cbn [registered]; [now left|exact C2].
Qed.
Print Assumptions C135_repository.
Example C17_repository_ex :
  exists t lat els k, construct [NewFrame 4; AppendComponentFrame (ex_comp "A" 1); EndFrame] = Ok (t, lat, els, k)
    /\ nested 0 [NewFrame 4; AppendComponentFrame (ex_comp "A" 1); EndFrame] = Some O /\ length els = 3%nat.
Proof. eexists _, _, _, _. split; [reflexivity|]. split; reflexivity. Qed.

Theorem C135_beamline_index :
  forall cs, nested 0 cs = Some O -> Forall (fun c => whole_frame c = false) cs ->
  exists t lat els k, construct cs = Ok (t, lat, els, k) /\ forall i f, nth_error lat i = Some f -> fidx f = i.
Proof.
  intros cs H Hw. unfold construct. destruct (calls_reached cs new_model 0 [] O new_reached H) as (k & E & [H1 H2 H3 H4]).
  pose proof (calls_indexed cs new_model 0 [] O new_reached H Hw eq_refl k E) as Hi. rewrite E.
  cbn [bind]. unfold get_model. destruct (stack k) as [|[i subs] [|y s]] eqn:Es; simpl in H2; try discriminate.
  rewrite H1. cbn. eexists _, _, _, _. split; [reflexivity|]. intros j f Ej.
  apply (map_nth_error fidx) in Ej. rewrite Hi in Ej.
  assert (Hl : (j < length (flat k))%nat).
  { rewrite <- (seq_length (length (flat k)) 0). apply nth_error_Some. congruence. }
  rewrite (nth_error_nth' _ O) in Ej by (rewrite seq_length; exact Hl). rewrite seq_nth in Ej by exact Hl. simpl in Ej. congruence.
Qed.
Print Assumptions C135_beamline_index.

(** a frame built beforehand and appended whole: its components keep index 0 *)
Theorem C17_appended_frame_index_refuted :
  exists cs t lat els k, nested 0 cs = Some O /\ construct cs = Ok (t, lat, els, k)
    /\ exists i f, nth_error lat i = Some f /\ fidx f <> i.
Proof.
  exists [AppendFrame (FSeq 1 [FComp (ex_comp "A" 1); FComp (ex_comp "B" 1)])].
  eexists _, _, _, _. split; [reflexivity|]. split; [reflexivity|]. exists 1%nat. eexists. split; [reflexivity|]. discriminate.
Qed.
Print Assumptions C17_appended_frame_index_refuted.

(** unbalanced calls: a missing EndFrame fails the assertion of GetModel, a
    superfluous one is undefined behaviour *)
Theorem C17_unbalanced_refuted :
  (forall cs d, nested 0 cs = Some (S d) -> construct cs = Throw AssertFailed) /\
  (forall cs, nested 0 cs = None -> construct cs = UB) /\
  (exists cs, nested 0 cs = None).
Proof.
  split; [|split].
  - intros cs d H. unfold construct. destruct (calls_reached cs new_model 0 [] _ new_reached H) as (k & -> & [H1 H2 H3 H4]).
    cbn [bind]. unfold get_model. destruct (stack k) as [|[i subs] [|y s]] eqn:Es; simpl in H2; try discriminate.
    rewrite andb_false_r. reflexivity.
  - intros cs H. unfold construct. rewrite (nested_none_ub cs new_model 0 [] new_reached H). reflexivity.
  - exists [EndFrame]. reflexivity.
Qed.
Print Assumptions C17_unbalanced_refuted.

Theorem C135_index_query :
  forall l b pat, (bfirst b <= blast b)%nat -> (blast b < length l)%nat ->
  exists r, get_indexes l b pat = Ok r /\ StronglySorted lt r /\
    forall i, In i r <-> (bfirst b <= i <= blast b)%nat /\ exists f c, nth_error l i = Some f
      /\ fcomp f = Some c /\ pmatch pat (qualified c) = true.
Proof.
  intros l b pat H1 H2. unfold get_indexes, frames_of. rewrite iterate_ok by lia. cbn [bind].
  eexists. split; [reflexivity|]. destruct (index_matches_spec pat (firstn (S (blast b) - bfirst b) (skipn (bfirst b) l)) (bfirst b)) as [Hs Hi].
  split; [exact Hs|]. intros i. rewrite Hi.
  assert (Hnth : forall k, (k < S (blast b) - bfirst b)%nat -> nth_error (firstn (S (blast b) - bfirst b) (skipn (bfirst b) l)) k = nth_error l (bfirst b + k)).
  { intros k Hk. assert (G : forall n (m : list cframe) j, (j < n)%nat -> nth_error (firstn n m) j = nth_error m j).
    { clear. induction n as [|n IH]; intros [|a m] [|j] Hj; simpl; auto; try lia. apply IH. lia. }
    rewrite G by exact Hk. clear. revert l. induction (bfirst b) as [|n IH]; intros [|a l]; simpl; auto.
    destruct k; reflexivity. }
  split.
  - intros (k & f & c & -> & Ek & Ec & Em).
    assert (Hk : (k < S (blast b) - bfirst b)%nat).
    { assert (Hl : (k < length (firstn (S (blast b) - bfirst b) (skipn (bfirst b) l)))%nat) by (apply nth_error_Some; congruence).
      rewrite firstn_length in Hl. lia. }
    split; [lia|]. rewrite Hnth in Ek by exact Hk. eauto.
  - intros (Hr & f & c & Ei & Ec & Em). exists (i - bfirst b)%nat, f, c. rewrite Hnth by lia.
    replace (bfirst b + (i - bfirst b))%nat with i by lia. auto.
Qed.
Print Assumptions C135_index_query.

Example C17_ex : let cs := [AppendDrift 1 1; NewFrame 2; AppendComponentFrame (ex_comp "A" 1); NewFrame 3; EndFrame;
    AppendComponent (ex_comp "B" 1) 4 0; EndFrame; AppendFrame (FSeq 5 [FComp (ex_comp "C" 2)])] in
  nested 0 cs = Some O /\ nested 0 (firstn 7 cs) = Some O /\ Forall (fun c => whole_frame c = false) (firstn 7 cs).
Proof. simpl. split; [reflexivity|]. split; [reflexivity|]. repeat constructor. Qed.
Example C17_ex_query : get_indexes ex_lat (mkB 0 2 0 2) (of_string "*A") = Ok [0; 2]%nat.
Proof. vm_compute. reflexivity. Qed.

(** ** C19 *)
(** zero-length elements only; the lattice consists of components *)
Theorem C137_install_exact :
  forall v el at_ ids, clen el = 0 -> Forall (fun f => fcomp f <> None) (items v) ->
  (forall pre f post c, items v = pre ++ f :: post -> fcomp f = Some c -> is_drift c = true ->
     total_len pre <= at_ < total_len pre + clen c ->
     (forall p q, pre = p ++ q -> p <> [] -> total_len p <= at_) ->
     (length (items v) + 1 <= cap v)%nat ->
     exists f1 fe f2 d1 e d2 c', install v el at_ ids =
        Ok (mkV (pre ++ f1 :: fe :: f2 :: post) c', [EFrame (fid f1); EFrame (fid f2); EFrame (fid fe)])
       /\ fcomp f1 = Some d1 /\ fcomp fe = Some e /\ fcomp f2 = Some d2
       /\ is_drift d1 = true /\ is_drift d2 = true
       /\ cname d1 = cname c ++ of_string "_part1" /\ cname d2 = cname c ++ of_string "_part2"
       /\ ctype e = ctype el /\ cname e = cname el /\ clen e = 0
       /\ clen d1 = at_ - total_len pre /\ clen d1 + clen d2 = clen c
       /\ cpos d1 = total_len pre /\ cpos e = at_ /\ cpos d2 = at_
       /\ flocal f1 = total_len pre /\ flocal fe = at_ /\ flocal f2 = at_
       /\ 0 <= clen d1 /\ 0 < clen d2
       /\ total_len (pre ++ f1 :: fe :: f2 :: post) = total_len (items v)
       /\ ids = (fid f1, fid f2, fid fe)) /\
  (* positions that are not inside a drift *)
  (forall pre f post c, items v = pre ++ f :: post -> fcomp f = Some c -> is_drift c = false ->
     total_len pre <= at_ < total_len pre + clen c ->
     (forall p q, pre = p ++ q -> p <> [] -> total_len p <= at_) -> install v el at_ ids = Throw NotADrift) /\
  ((forall p q, items v = p ++ q -> p <> [] -> total_len p <= at_) -> install v el at_ ids = Throw OutOfRangeAt).
Proof.
  intros v el at_ ids Hel Hc.
  assert (Hfind : forall pre f post c, items v = pre ++ f :: post -> fcomp f = Some c -> total_len pre <= at_ < total_len pre + clen c ->
     (forall p q, pre = p ++ q -> p <> [] -> total_len p <= at_) ->
     find_at (items v) at_ 0 0 = Ok (length pre, c, total_len pre + clen c)).
  { intros pre f post c El Ec Hat Hp. pose proof (find_at_spec (items v) at_ 0 0 Hc) as Hs.
    destruct (find_at (items v) at_ 0 0) as [[[j c'] s']|e|].
    - destruct Hs as (pre' & g & post' & El' & -> & Eg & Es & Hlt & Hp').
      assert (Epre : pre = pre').
      { rewrite El in El'. apply app_eq_app in El'. destruct El' as (m & [[E1 E2]|[E1 E2]]).
        - destruct m as [|a m]; [rewrite app_nil_r in E1; congruence|]. exfalso. simpl in E2. injection E2 as <- E2.
          assert (Hx : total_len (pre' ++ [g]) <= at_).
          { apply (Hp _ m); [rewrite E1, <- app_assoc; reflexivity|destruct pre'; discriminate]. }
          rewrite total_len_app in Hx. simpl in Hx. unfold frame_len in Hx. rewrite Eg in Hx. lra.
        - destruct m as [|a m]; [rewrite app_nil_r in E1; congruence|]. exfalso. simpl in E2. injection E2 as <- E2.
          assert (Hx : 0 + total_len (pre ++ [f]) <= at_).
          { apply (Hp' _ m); [rewrite E1, <- app_assoc; reflexivity|destruct pre; discriminate]. }
          rewrite total_len_app in Hx. simpl in Hx. unfold frame_len in Hx. rewrite Ec in Hx. lra. }
      subst pre'. rewrite El in El'. apply app_inv_head in El'. injection El' as <- <-. rewrite Ec in Eg. injection Eg as <-.
      do 2 f_equal. lra.
    - destruct Hs as [_ Hs]. exfalso.
      assert (Hx : 0 + total_len (pre ++ [f]) <= at_).
      { apply (Hs _ post); [rewrite El, <- app_assoc; reflexivity|destruct pre; discriminate]. }
      rewrite total_len_app in Hx. simpl in Hx. unfold frame_len in Hx. rewrite Ec in Hx. lra.
    - destruct Hs. }
  assert (Hz : negb (Reqb (clen el) 0) = false).
  { destruct (Reqb_spec (clen el) 0); [reflexivity|contradiction]. }
  split; [|split].
  - intros pre f post c El Ec Hd Hat Hp Hcap. unfold install. rewrite Hz, (Hfind pre f post c El Ec Hat Hp). cbn [bind].
    rewrite Hd. cbn [negb]. destruct ids as [[k1 k2] k3]. cbv zeta.
    unfold verase. rewrite El, firstn_exact. replace (skipn (S (length pre)) (pre ++ f :: post)) with post.
    2:{ replace (pre ++ f :: post) with ((pre ++ [f]) ++ post) by (rewrite <- app_assoc; reflexivity).
        replace (S (length pre)) with (length (pre ++ [f])) by (rewrite app_length; simpl; lia). symmetry. apply skipn_exact. }
    rewrite El, app_length in Hcap. simpl in Hcap.
    unfold vinsert at 1. cbn [items cap]. rewrite app_length. destruct (Nat.ltb_spec (length pre + length post) (cap v)); [|lia].
    unfold insert_at at 1. rewrite firstn_exact, skipn_exact.
    unfold vinsert at 1. cbn [items cap]. rewrite app_length. cbn [length].
    destruct (Nat.ltb_spec (length pre + S (length post)) (cap v)); [|lia].
    unfold insert_at at 1. rewrite firstn_exact, skipn_exact. cbn [negb].
    match goal with |- context [vinsert ?i ?a ?b] => destruct (vinsert i a b) as [v3 ok] eqn:E3 end.
    assert (Ev : exists c', v3 = mkV (pre ++ mkF k1 (qualified (mkC (ctype c) (cname c ++ of_string "_part1") (at_ - (total_len pre + clen c) + clen c) (at_ - (at_ - (total_len pre + clen c) + clen c))))
       (Some (mkC (ctype c) (cname c ++ of_string "_part1") (at_ - (total_len pre + clen c) + clen c) (at_ - (at_ - (total_len pre + clen c) + clen c)))) (at_ - (at_ - (total_len pre + clen c) + clen c)) 0
       :: mkF k3 (qualified (mkC (ctype el) (cname el) (clen el) at_)) (Some (mkC (ctype el) (cname el) (clen el) at_)) at_ 0
       :: mkF k2 (qualified (mkC (ctype c) (cname c ++ of_string "_part2") (total_len pre + clen c - at_) at_)) (Some (mkC (ctype c) (cname c ++ of_string "_part2") (total_len pre + clen c - at_) at_)) at_ 0 :: post) c').
    { unfold vinsert in E3. cbn [items cap] in E3. unfold insert_at in E3. rewrite firstn_exact, skipn_exact in E3.
      destruct (Nat.ltb _ _); injection E3 as <- _; eexists; reflexivity. }
    destruct Ev as [c' ->]. clear E3. eexists _, _, _, _, _, _, c'.
    split; [apply f_equal, f_equal2; [apply f_equal2; reflexivity|reflexivity]|]. cbn [fcomp fid flocal cpos clen cname ctype].
    split; [reflexivity|]. split; [reflexivity|]. split; [reflexivity|]. cbn [fcomp fid flocal cpos clen cname ctype].
    split; [exact Hd|]. split; [exact Hd|]. do 4 (split; [reflexivity|]).
    split; [exact Hel|]. split; [lra|]. split; [lra|]. split; [lra|]. split; [reflexivity|]. split; [reflexivity|].
    split; [lra|]. split; [reflexivity|]. split; [reflexivity|]. split; [lra|]. split; [lra|].
    split; [|reflexivity]. rewrite !total_len_app. simpl. unfold frame_len. simpl. rewrite Ec. fold frame_len. lra.
  - intros pre f post c El Ec Hd Hat Hp. unfold install. rewrite Hz, (Hfind pre f post c El Ec Hat Hp). cbn [bind]. rewrite Hd. reflexivity.
  - intros Hp. unfold install. rewrite Hz. pose proof (find_at_spec (items v) at_ 0 0 Hc) as Hs.
    destruct (find_at (items v) at_ 0 0) as [[[j c'] s']|e|].
    + destruct Hs as (pre & g & post & El & -> & Eg & Es & Hlt & Hp'). exfalso.
      assert (Hx : total_len (pre ++ [g]) <= at_).
      { apply (Hp _ post); [rewrite El, <- app_assoc; reflexivity|destruct pre; discriminate]. }
      rewrite total_len_app in Hx. simpl in Hx. unfold frame_len in Hx. rewrite Eg in Hx. lra.
    + destruct Hs as [-> _]. reflexivity.
    + destruct Hs.
Qed.
Print Assumptions C137_install_exact.

(** an element with a length is refused *)
Theorem C137_length_refused : forall v el at_ ids, clen el <> 0 -> install v el at_ ids = Throw NotZeroLength.
Proof. intros v el at_ ids H. unfold install. destruct (Reqb_spec (clen el) 0); [contradiction|reflexivity]. Qed.
Print Assumptions C137_length_refused.

(** when the lattice's storage is full the iterator kept across the insertions dangles *)
Theorem C19_iterator_refuted :
  exists v el at_ ids, clen el = 0 /\ Forall (fun f => fcomp f <> None) (items v)
   /\ (exists c, fcomp (ex_comp "A" 1) = Some c /\ is_drift c = true /\ items v = [ex_comp "A" 1]) /\ 0 < at_ < 1
   /\ (length (items v) <= cap v)%nat /\ install v el at_ ids = UB.
Proof.
  exists (mkV [ex_comp "A" 1] 1), (mkC (of_string "Marker") (of_string "M") 0 0), (/2), (1,2,3)%nat.
  split; [reflexivity|]. split; [constructor; [discriminate|constructor]|]. split; [eexists; repeat split|].
  split; [lra|]. split; [simpl; apply le_n|]. unfold install. cbn [clen]. destruct (Reqb_spec 0 0); [|congruence]. cbn [negb items find_at fcomp ex_comp clen].
  destruct (Rltb_spec (/2) (0 + 1)); [|lra]. cbn. reflexivity.
Qed.
Print Assumptions C19_iterator_refuted.

(** a negative position is accepted when the lattice starts with a drift, and
    makes a drift of negative length *)
Theorem C19_negative_position_refuted :
  exists v el at_ ids v' els f d, at_ < 0 /\ install v el at_ ids = Ok (v', els)
    /\ In f (items v') /\ fcomp f = Some d /\ clen d < 0.
Proof.
  exists (mkV [ex_comp "A" 1] 9), (mkC (of_string "Marker") (of_string "M") 0 0), (-1), (1,2,3)%nat.
  unfold install. cbn [clen]. destruct (Reqb_spec 0 0); [|congruence]. cbn [negb items find_at fcomp ex_comp clen].
  destruct (Rltb_spec (-1) (0 + 1)); [|lra]. cbn. eexists _, _, _, _.
  split; [lra|]. split; [reflexivity|]. split; [left; reflexivity|]. split; [reflexivity|]. simpl. lra.
Qed.
Print Assumptions C19_negative_position_refuted.

Example C19_ex : exists v c, items v = [ex_comp "A" 1; ex_comp "B" 2] ++ ex_comp "A" 3 :: []
  /\ fcomp (ex_comp "A" 3) = Some c /\ is_drift c = true
  /\ total_len [ex_comp "A" 1; ex_comp "B" 2] <= 4 < total_len [ex_comp "A" 1; ex_comp "B" 2] + clen c
  /\ (forall p q, [ex_comp "A" 1; ex_comp "B" 2] = p ++ q -> p <> [] -> total_len p <= 4)
  /\ (length (items v) + 1 <= cap v)%nat.
Proof.
  exists (mkV ex_lat 8), (mkC (of_string "Drift") (of_string "A") 3 0). simpl. repeat split; try (unfold frame_len; simpl; lra); try lia.
  intros p q E Hp. destruct p as [|a [|b [|c p]]]; simpl in E; try congruence; injection E; intros; subst; simpl; unfold frame_len; simpl; lra.
Qed.

(** ** C61: extraction by name *)
Theorem C154_extract_components :
  forall l pat, Forall (fun f => fcomp f <> None) l -> pat <> of_string "*" ->
  extract_components l pat = Ok (filter (fun f => pmatch pat (frame_id f)) l).
Proof.
  intros l pat H Hp. unfold extract_components. destruct (str_eqb_spec pat (of_string "*")); [contradiction|]. apply extract_loop_ok, H.
Qed.
Print Assumptions C154_extract_components.
Theorem C154_extract_all : forall l, extract_components l (of_string "*") = Ok l.
Proof. intros l. reflexivity. Qed.
Print Assumptions C154_extract_all.
(** one frame without component makes every other pattern fail *)
Theorem C61_patch_frame_refuted :
  forall l pat, Exists (fun f => fcomp f = None) l -> pat <> of_string "*" -> extract_components l pat = Throw BadComponent.
Proof.
  intros l pat H Hp. unfold extract_components. destruct (str_eqb_spec pat (of_string "*")); [contradiction|]. apply extract_loop_bad, H.
Qed.
Print Assumptions C61_patch_frame_refuted.
Example C61_ex : Forall (fun f => fcomp f <> None) ex_lat /\ of_string "*B" <> of_string "*"
  /\ extract_components ex_lat (of_string "*B") = Ok [ex_comp "B" 2]
  /\ Exists (fun f => fcomp f = None) (ex_patch :: ex_lat).
Proof.
  split; [repeat constructor; discriminate|]. split; [discriminate|]. split; [vm_compute; reflexivity|].
  constructor. reflexivity.
Qed.

(** ** C62: bookkeeping after an installation *)
Theorem C62_installed_refuted :
  exists v el at_ ids v' els, install v el at_ ids = Ok (v', els)
    /\ (exists i f, nth_error (items v') i = Some f /\ fidx f <> i)
    /\ ~ (exists c, In (EComp c) els).
Proof.
  exists (mkV [ex_comp "A" 1] 9), (mkC (of_string "Marker") (of_string "M") 0 0), (/2), (1,2,3)%nat.
  unfold install. cbn [clen]. destruct (Reqb_spec 0 0); [|congruence]. cbn [negb items find_at fcomp ex_comp clen].
  destruct (Rltb_spec (/2) (0 + 1)); [|lra]. cbn. eexists _, _. split; [reflexivity|]. split.
  - exists 1%nat. eexists. split; [reflexivity|]. simpl. lia.
  - intros (c & [E|[E|[E|[]]]]); discriminate.
Qed.
Print Assumptions C62_installed_refuted.
