(* C42, C87, C88, C89: loss maps *)
From Coq Require Import ZArith Psatz Permutation Sorted.
From Verif Require Import RBase StringPattern Bunch LossMap LossMapSpec.
Local Open Scope R_scope.

Lemma matches_kind m d e : matches m d e = true <-> kind m d e.
Proof.
  destruct m; cbn.
  - apply str_eqb_eq.
  - destruct (Reqb_spec (lposition d) (lposition e)); split; congruence.
  - rewrite andb_true_iff, str_eqb_eq. destruct (Reqb_spec (linterval d) (linterval e)); intuition congruence.
Qed.
Lemma kind_retell m n k d e : kind m (retell n d) (retell k e) <-> kind m d e.
Proof. destruct m; reflexivity. Qed.
Lemma kind_sym m d e : kind m d e -> kind m e d.
Proof. destruct m; cbn; intuition congruence. Qed.
Lemma kind_trans m d e f : kind m d e -> kind m e f -> kind m d f.
Proof. destruct m; cbn; intuition congruence. Qed.
(* entries when [n] records of the kind of [o] have been seen already *)
Fixpoint runs (m : omode) (o : lrec) (l : list lrec) : list lrec :=
  match l with [] => [o] | d :: l' => if matches m d o then runs m (with_lost (S (lost o)) o) l' else o :: runs m (with_lost 1 d) l' end.
Lemma runs_entries m : forall l o n, exists run rest out, l = run ++ rest /\ Forall (kind m o) run /\ (match rest with [] => True | e :: _ => ~ kind m o e end) /\ entries m rest out /\
  runs m (retell n o) l = retell (n + length run) o :: out.
Proof.
  induction l as [|d l IH]; intros o n; cbn [runs].
  - exists [], [], []. repeat split; auto; [constructor|]. cbn. now rewrite Nat.add_0_r.
  - destruct (matches m d (retell n o)) eqn:M.
    + apply matches_kind in M. destruct (IH o (S n)) as (run & rest & out & -> & F & G & E & R). exists (d :: run), rest, out. repeat split; auto.
      * constructor; auto. apply kind_sym. destruct m; exact M.
      * replace (with_lost (S (lost (retell n o))) (retell n o)) with (retell (S n) o) by reflexivity. rewrite R. cbn [length]. do 2 f_equal. lia.
    + destruct (IH d 1%nat) as (run & rest & out & -> & F & G & E & R). exists [], (d :: run ++ rest), (retell (S (length run)) d :: out). repeat split; auto.
      * intros K. assert (matches m d (retell n o) = true); [|congruence]. apply matches_kind. apply kind_sym in K. destruct m; exact K.
      * now constructor.
      * cbn [length]. rewrite Nat.add_0_r. f_equal. exact R.
Qed.
Lemma nth_error_last (A : Type) (l : list A) a : nth_error (l ++ [a]) (length l) = Some a.
Proof. rewrite nth_error_app2, Nat.sub_diag by lia. reflexivity. Qed.
Lemma put_last outs o o' : put (outs ++ [o]) (length outs) o' = Ok (outs ++ [o']).
Proof. unfold put. assert (E : upd (outs ++ [o]) (length outs) o' = Some (outs ++ [o'])) by (induction outs as [|x outs IH]; cbn; [reflexivity|now rewrite IH]). now rewrite E. Qed.
Lemma retell_lost d : retell (lost d) d = d. Proof. destruct d; reflexivity. Qed.
Lemma merge_runs m : forall l outs o, Forall (fun d => lost d = 1%nat) l -> exists i, merge_all m (outs ++ [o], length outs) l = Ok (outs ++ runs m o l, i).
Proof.
  induction l as [|d l IH]; intros outs o H; cbn [merge_all runs]; [eauto|]. inversion H as [|? ? H1 H2]; subst.
  assert (W : with_lost 1 d = d) by (rewrite <- H1; destruct d; reflexivity).
  assert (S1 : merge_one m (outs ++ [o], length outs) d = Ok (if matches m d o then (outs ++ [with_lost (S (lost o)) o], length outs) else ((outs ++ [o]) ++ [d], S (length outs)))).
  { assert (P : put ((outs ++ [o]) ++ [d]) (S (length outs)) (with_lost 1 d) = Ok ((outs ++ [o]) ++ [d])) by (rewrite W; replace (S (length outs)) with (length (outs ++ [o])) by (rewrite app_length; cbn; lia); apply put_last).
    assert (Q : nth_error ((outs ++ [o]) ++ [d]) (S (length outs)) = Some d) by (replace (S (length outs)) with (length (outs ++ [o])) by (rewrite app_length; cbn; lia); apply nth_error_last).
    unfold merge_one. assert (V : @vget unit _ (outs ++ [o]) (length outs) = Ok o) by (unfold vget; now rewrite nth_error_last).
    assert (N : exists x y, outs ++ [o] = x :: y) by (destruct outs; cbn; eauto). destruct N as (x & y & N).
    destruct m.
    - rewrite N. rewrite <- N, V. cbn [bind]. destruct (matches _ d o); [rewrite put_last; reflexivity|reflexivity].
    - rewrite N. rewrite <- N, V. cbn [bind]. destruct (matches _ d o); [rewrite put_last; reflexivity|reflexivity].
    - rewrite V. cbn [bind]. rewrite N. rewrite <- N, Q, P. destruct (matches _ d o); [rewrite put_last; reflexivity|reflexivity]. }
  rewrite S1. cbn [bind]. destruct (matches m d o); [apply IH; auto|]. replace (S (length outs)) with (length (outs ++ [o])) by (rewrite app_length; cbn; lia). rewrite W. destruct (IH (outs ++ [o]) d H2) as (i & ->). exists i. now rewrite <- app_assoc.
Qed.
(* ten centimetre bins: one entry per run of records of the same element and bin *)
Theorem C89_runs l : Forall (fun d => lost d = 1%nat) l -> exists out, finalise TenCm [] l = Ok out /\ entries TenCm l out.
Proof.
  intros H. unfold finalise. destruct l as [|d l]; [exists []; split; [reflexivity|constructor]|]. inversion H as [|? ? H1 H2]; subst. cbn [merge_all merge_one].
  change (put [d] 0 (with_lost 1 d)) with (@Ok unit _ [with_lost 1 d]). cbn [bind]. destruct (merge_runs TenCm l [] (with_lost 1 d) H2) as (i & E). cbn [app length] in E. rewrite E. cbn [bind fst].
  destruct (runs_entries TenCm l d 1) as (run & rest & out & -> & F & G & En & R). exists (retell (S (length run)) d :: out). split; [f_equal; exact R|]. now constructor.
Qed.
Print Assumptions C89_runs.
(* the other modes count the first record twice *)
Theorem C42_first_twice_refuted m d l : m <> TenCm -> Forall (fun d => lost d = 1%nat) (d :: l) -> exists o out, finalise m [] (d :: l) = Ok (retell (S (lost o)) o :: out) /\ entries m (d :: l) (o :: out).
Proof.
  intros M H. inversion H as [|? ? H1 H2]; subst. unfold finalise. cbn [merge_all].
  assert (S1 : merge_one m ([], 0%nat) d = Ok ([with_lost 2 d], 0%nat)).
  { unfold merge_one. assert (K : matches m d d = true) by (apply matches_kind; destruct m; cbn; auto). destruct m; [| |congruence]; cbn [vget nth_error bind]; rewrite K, H1; reflexivity. }
  rewrite S1. cbn [bind]. destruct (merge_runs m l [] (with_lost 2 d) H2) as (i & E). cbn [app length] in E. rewrite E. cbn [bind fst].
  destruct (runs_entries m l d 2) as (run & rest & out & -> & F & G & En & R). exists (retell (S (length run)) d), out. split; [|now constructor].
  change (with_lost 2 d) with (retell 2 d). rewrite R. reflexivity.
Qed.
Print Assumptions C42_first_twice_refuted.
(* what entries say about numbers *)
Lemma entries_count m l out : entries m l out -> count out = length l.
Proof. induction 1 as [|d run rest out F G E IH]; cbn; auto. rewrite app_length, <- IH. reflexivity. Qed.
Theorem C89_totals l : Forall (fun d => lost d = 1%nat) l -> exists out, finalise TenCm [] l = Ok out /\ count out = length l.
Proof. intros H. destruct (C89_runs l H) as (out & E & En). exists out. split; auto. eapply entries_count; eauto. Qed.
Print Assumptions C89_totals.
Theorem C42_totals_refuted m l : m <> TenCm -> l <> [] -> Forall (fun d => lost d = 1%nat) l -> exists out, finalise m [] l = Ok out /\ count out = S (length l).
Proof. intros M N H. destruct l as [|d l]; [congruence|]. destruct (C42_first_twice_refuted m d l M H) as (o & out & E & En). exists (retell (S (lost o)) o :: out). split; auto. rewrite <- (entries_count _ _ _ En). reflexivity. Qed.
Print Assumptions C42_totals_refuted.
(* a second call spoils the entries *)
Definition rec1 (n : str) : lrec := LR n 0 0 0 1 1 TCold 0 (V6 0 0 0 0 0 0).
Theorem C42_twice_refuted : exists a b out out2, finalise TenCm [] [a; b; b] = Ok out /\ finalise TenCm out [a; b; b] = Ok out2 /\ count out2 <> count out /\ count out2 <> (2 * count out)%nat.
Proof.
  exists (rec1 ["a"%char]), (rec1 ["b"%char]), [rec1 ["a"%char]; with_lost 2 (rec1 ["b"%char])], [with_lost 2 (rec1 ["a"%char]); with_lost 2 (rec1 ["b"%char]); rec1 ["b"%char]].
  assert (Q : forall x, Reqb x x = true) by (intros x; destruct (Reqb_spec x x); congruence).
  split; [|split; [|split; discriminate]]; unfold finalise, rec1; cbn; rewrite ?(Q 0); cbn; rewrite ?(Q 0); cbn; rewrite ?(Q 0); reflexivity.
Qed.
Print Assumptions C42_twice_refuted.

(* ---- Dispose ---- *)
Theorem C87_bin n pos i : find_interval n 0 pos = Some i -> i <= pos < i + 1 / 10 /\ exists k, i = INR k / 10.
Proof.
  assert (G : forall n k, find_interval n (INR k / 10) pos = Some i -> i <= pos < i + 1 / 10 /\ exists k, i = INR k / 10).
  { clear n. induction n as [|n IH]; intros k; cbn [find_interval]; [discriminate|]. destruct (Rleb_spec (INR k / 10) pos); cbn [andb].
    - destruct (Rltb_spec pos (INR k / 10 + 1 / 10)); [intros E; injection E as <-; split; [lra|eauto]|]. replace (INR k / 10 + 1 / 10) with (INR (S k) / 10) by (rewrite S_INR; field). apply IH.
    - replace (INR k / 10 + 1 / 10) with (INR (S k) / 10) by (rewrite S_INR; field). apply IH. }
  intros E. apply (G n 0%nat). replace (INR 0 / 10) with 0 by (cbn; field). exact E.
Qed.
Print Assumptions C87_bin.
Theorem C87_ends n pos : 0 <= pos < INR n / 10 -> exists i, find_interval n 0 pos = Some i.
Proof.
  assert (G : forall n k, INR k / 10 <= pos < INR (k + n) / 10 -> exists i, find_interval n (INR k / 10) pos = Some i).
  { clear n. induction n as [|n IH]; intros k H; cbn [find_interval]; [rewrite Nat.add_0_r in H; lra|]. destruct (Rleb_spec (INR k / 10) pos); [|lra]. cbn [andb]. destruct (Rltb_spec pos (INR k / 10 + 1 / 10)); [eauto|].
    replace (INR k / 10 + 1 / 10) with (INR (S k) / 10) by (rewrite S_INR; field). apply IH. replace (S k + n)%nat with (k + S n)%nat by lia. rewrite S_INR. lra. }
  intros H. replace 0 with (INR 0 / 10) by (cbn; field). apply G. cbn [INR Nat.add]. lra.
Qed.
Print Assumptions C87_ends.
(* a loss before the entrance never finds its bin *)
Theorem C87_negative_refuted n pos : pos < 0 -> find_interval n 0 pos = None.
Proof.
  intros P. assert (G : forall n i, 0 <= i -> find_interval n i pos = None). { clear n. induction n as [|n IH]; intros i I; cbn; auto. destruct (Rleb_spec i pos); [lra|]. cbn. apply IH. lra. }
  apply G. lra.
Qed.
Print Assumptions C87_negative_refuted.
Theorem C87_temperature warm c : temperature warm c =
  if ccoll c then TCollimator else if existsb (fun w => Rleb (fst w) (cz c) && Rleb (cz c) (snd w)) warm then TWarm else TCold.
Proof.
  unfold temperature. destruct (ccoll c); cbn [negb andb].
  - generalize TCollimator. induction warm as [|w l IH]; intros t; cbn; auto.
  - assert (G : forall l t, t = TCold \/ t = TWarm -> fold_left (fun t w => if Rleb (fst w) (cz c) && Rleb (cz c) (snd w) then TWarm else t) l t = if existsb (fun w => Rleb (fst w) (cz c) && Rleb (cz c) (snd w)) l then TWarm else t).
    { induction l as [|w l IH]; intros t T; cbn; auto. destruct (Rleb (fst w) (cz c) && Rleb (cz c) (snd w))%bool; cbn; rewrite IH; auto. destruct (existsb _ l); auto. }
    apply G. auto.
Qed.
Print Assumptions C87_temperature.
Theorem C87_record n warm c pos p dead dead' : dispose n warm c pos p dead = Some dead' <-> exists i, find_interval n 0 pos = Some i /\ dead' = dead ++ [LR (cqname c) (cz c) i (pos + cz c) (clen c) 1 (temperature warm c) 0 p].
Proof. unfold dispose. destruct (find_interval n 0 pos) as [i|]; split; [intros E; injection E as <-; eauto|intros (j & E & ->); injection E as <-; reflexivity|discriminate|intros (j & E & _); discriminate]. Qed.
Print Assumptions C87_record.

(* ---- one entry per element and bin ---- *)
(* records that Dispose makes for losses in a beamline whose components follow one
   another and have different names *)
Definition made (cs : list comp) (d : lrec) : Prop := exists c pos, In c cs /\ 0 <= pos <= clen c /\ lname d = cqname c /\ ls d = cz c /\ lposition d = pos + cz c /\ linterval d <= pos < linterval d + 1 / 10 /\ exists k, linterval d = INR k / 10.
Definition beamline (cs : list comp) : Prop := forall a b, In a cs -> In b cs -> a = b \/ cqname a <> cqname b /\ (cz a < cz b /\ cz a + clen a <= cz b \/ cz b < cz a /\ cz b + clen b <= cz a).
Lemma tenth_unique j k x : INR j / 10 <= x < INR j / 10 + 1 / 10 -> INR k / 10 <= x < INR k / 10 + 1 / 10 -> j = k.
Proof.
  intros H K. destruct (Nat.lt_trichotomy j k) as [L|[E|L]]; auto; exfalso; apply le_INR in L; rewrite S_INR in L; lra.
Qed.
Lemma between cs a b c : beamline cs -> made cs a -> made cs b -> made cs c -> ls a + lposition a <= ls b + lposition b <= ls c + lposition c -> kind TenCm a c -> kind TenCm a b.
Proof.
  intros B (ca & pa & Ia & Pa & Na & Sa & La & Ha & ka & Ka) (cb & pb & Ib & Pb & Nb & Sb & Lb & Hb & kb & Kb) (cc & pc & Ic & Pc & Nc & Sc & Lc & Hc & kc & Kc) O (K1 & K2). cbn.
  assert (EC : cc = ca) by (destruct (B ca cc Ia Ic) as [E|(E & _)]; [auto|congruence]). subst cc.
  rewrite Sa, Sb, Sc, La, Lb, Lc in O. destruct (B ca cb Ia Ib) as [E|(_ & [H|H])]; [subst cb|exfalso; lra|exfalso; lra].
  split; [congruence|]. assert (E : pa <= pb <= pc) by lra. rewrite Ka, Kb. f_equal. f_equal. apply (tenth_unique ka kb pb); rewrite <- ?Ka, <- ?Kb; auto. rewrite K2 in Ha |- *. lra.
Qed.
Theorem C89_merged cs l : beamline cs -> Forall (made cs) l -> Forall (fun d => lost d = 1%nat) l -> in_order l ->
  exists out, finalise TenCm [] l = Ok out /\ ForallOrdPairs (fun a b => ~ kind TenCm a b) out /\
  forall o, In o out -> lost o = length (filter (fun d => matches TenCm d o) l).
Proof.
  intros B M H So. destruct (C89_runs l H) as (out & E & En). exists out. split; auto. clear E H. unfold in_order in So.
  induction En as [|d run rest out F G En IH]; [split; [constructor|intros o []]|].
  assert (Mr : Forall (made cs) rest) by (inversion M as [|? ? M1 M2]; subst; apply Forall_app in M2; tauto).
  assert (Sr : StronglySorted (fun a b => ls a + lposition a <= ls b + lposition b) rest).
  { inversion So as [|? ? S1 S2]; subst. clear - S1. induction run as [|r run IHr]; cbn in *; auto. inversion S1; subst. auto. }
  destruct (IH Mr Sr) as (P & Q). 
  (* no later record is of the first kind *)
  assert (N : forall e, In e rest -> ~ kind TenCm d e).
  { destruct rest as [|e rest]; [intros e []|]. intros f [<-|I] K; [auto|]. apply G. inversion M as [|? ? M1 M2]; subst. apply Forall_app in M2. destruct M2 as [_ M2]. inversion M2 as [|? ? M3 M4]; subst. rewrite Forall_forall in M4.
    apply (between cs d e f); auto. inversion So as [|? ? S1 S2]; subst. rewrite Forall_forall in S2. split; [apply S2, in_or_app; right; now left|]. inversion Sr as [|? ? S3 S4]; subst. rewrite Forall_forall in S4. auto. }
  assert (O : forall o, In o out -> exists e, In e rest /\ kind TenCm e o).
  { clear - En. induction En as [|d run rest out F G En IH]; [intros o []|]. intros o [<-|I]; [exists d; split; [now left|split; reflexivity]|]. destruct (IH o I) as (e & I' & K). exists e. split; auto. right. apply in_or_app. auto. }
  split.
  - constructor; auto. apply Forall_forall. intros o I K. destruct (O o I) as (e & I' & K'). apply (N e I'). eapply kind_trans; [exact K|]. now apply kind_sym.
  - assert (FL : forall o l, (forall e, In e l -> matches TenCm e o = true) -> filter (fun d => matches TenCm d o) l = l) by (intros o l0; induction l0 as [|e l0 IHl]; intros A; cbn [filter]; auto; rewrite (A e (or_introl eq_refl)), IHl; auto; intros; apply A; now right).
    assert (FN : forall o l, (forall e, In e l -> matches TenCm e o = false) -> filter (fun d => matches TenCm d o) l = []) by (intros o l0; induction l0 as [|e l0 IHl]; intros A; cbn [filter]; auto; rewrite (A e (or_introl eq_refl)), IHl; auto; intros; apply A; now right).
    assert (MN : forall d o, ~ kind TenCm d o -> matches TenCm d o = false) by (intros a o K; destruct (matches TenCm a o) eqn:Z; auto; apply matches_kind in Z; tauto).
    intros o [<-|I].
    + cbn [filter app]. assert (D : matches TenCm d (retell (S (length run)) d) = true) by (apply matches_kind; split; reflexivity). rewrite D. cbn [length lost retell]. f_equal. rewrite filter_app, (FL _ run), (FN _ rest), app_nil_r; auto.
      * intros e I. apply MN. intros K. apply (N e I). apply kind_sym. destruct K; split; auto.
      * intros e I. apply matches_kind. apply kind_sym. rewrite Forall_forall in F. destruct (F e I); split; auto.
    + rewrite (Q o I). destruct (O o I) as (e & I' & K). assert (X : forall f, kind TenCm d f -> ~ kind TenCm f o) by (intros f Kf Kfo; apply (N e I'); eapply kind_trans; [exact Kf|]; eapply kind_trans; [exact Kfo|]; now apply kind_sym).
      cbn [filter app]. rewrite (MN d o) by (apply X; split; reflexivity). rewrite filter_app, (FN _ run); auto. intros f If. apply MN, X. rewrite Forall_forall in F. auto.
Qed.
Print Assumptions C89_merged.
(* sorting by the library's comparison is this order *)
Theorem C89_sorting a b : before a b = true <-> ls a + lposition a < ls b + lposition b.
Proof. unfold before. destruct (Rltb_spec (ls a + lposition a + linterval a) (ls b + lposition b + linterval a)); split; intros; try discriminate; auto; lra. Qed.
Print Assumptions C89_sorting.
Definition demo_line : list comp := [mkComp ["a"%char] ["a"%char] 0 1 false; mkComp ["b"%char] ["b"%char] 1 1 true].
Definition drec (n : string) (s i p : R) (t : temp) : lrec := LR (of_string n) s i p 1 1 t 0 (V6 0 0 0 0 0 0).
Example C89_ex : let l := [drec "a" 0 0 (1/20) TCold; drec "a" 0 0 (3/40) TCold; drec "b" 1 (1/10) (23/20) TCollimator] in beamline demo_line /\ Forall (made demo_line) l /\ Forall (fun d => lost d = 1%nat) l /\ in_order l.
Proof.
  cbn zeta. split; [|split; [|split]].
  - intros a b [<-|[<-|[]]] [<-|[<-|[]]]; auto; right; cbn; (split; [discriminate|lra]).
  - repeat constructor; [exists (mkComp ["a"%char] ["a"%char] 0 1 false), (1/20)|exists (mkComp ["a"%char] ["a"%char] 0 1 false), (3/40)|exists (mkComp ["b"%char] ["b"%char] 1 1 true), (3/20)]; cbn;
      (split; [tauto|]; split; [lra|]; split; [reflexivity|]; split; [lra|]; split; [lra|]; split; [lra|]).
    + exists 0%nat. cbn. field.
    + exists 0%nat. cbn. field.
    + exists 1%nat. reflexivity.
  - repeat constructor.
  - repeat constructor; cbn; lra.
Qed.

(* ---- the detailed output ---- *)
Theorem C88_detailed ids c pos p turn dead : (forall q, In q ids -> exists b, Match q (cname c) = Ok b) ->
  exists dead', dispose_detailed ids c pos p turn dead = Ok dead' /\
  ((exists q, In q ids /\ Match q (cname c) = Ok true) -> dead' = dead ++ [LR (cname c) (cz c) 0 pos (clen c) 1 TUndefined turn p]) /\
  ((forall q, In q ids -> Match q (cname c) = Ok false) -> dead' = dead).
Proof.
  intros H. assert (G : exists b, any_match ids (cname c) = Ok b /\ (b = true <-> exists q, In q ids /\ Match q (cname c) = Ok true)).
  { induction ids as [|q ids IH]; cbn; [exists false; split; auto; split; [discriminate|intros (q & [] & _)]|]. destruct (H q (or_introl eq_refl)) as (b & E). rewrite E. cbn. destruct b; [exists true; split; auto; split; eauto; intros _; exists q; auto|].
    destruct IH as (b & -> & I); [intros; apply H; now right|]. exists b. split; auto. rewrite I. split; [intros (r & R & M); exists r; auto|intros (r & [<-|R] & M); [congruence|eauto]]. }
  destruct G as (b & E & I). unfold dispose_detailed. rewrite E. cbn. eexists. split; [reflexivity|]. split.
  - intros X. apply I in X. now rewrite X.
  - intros X. destruct b; auto. destruct (proj1 I eq_refl) as (q & Iq & M). rewrite (X q Iq) in M. discriminate.
Qed.
Print Assumptions C88_detailed.
Example C88_ex : exists q, Match q (of_string "TCP.A") = Ok true /\ Match q (of_string "MQ") = Ok false.
Proof. exists (mk_pattern "*"%char (of_string "TCP*")). split; reflexivity. Qed.
