From Verif Require Import Base StringPattern StringPatternSpec.

Ltac pinj H :=
  match type of H with
  | (_, _, _) = (_, _, _) =>
      let H1 := fresh in let H2 := fresh in let H3 := fresh in
      apply pair_equal_spec in H; destruct H as [H H3];
      apply pair_equal_spec in H; destruct H as [H1 H2]; subst
  end.

Tactic Notation "psplit" hyp(H) "as" ident(H1) ident(H2) ident(H3) :=
  apply pair_equal_spec in H; destruct H as [H H3];
  apply pair_equal_spec in H; destruct H as [H1 H2].

(** * fragments of a delimited string *)

Lemma char_eqb_spec a b : reflect (a = b) (char_eqb a b).
Proof. apply Ascii.eqb_spec. Qed.

Definition starts_ok (d : ascii) (s : str) : Prop := match s with [] => True | c :: _ => c <> d end.

Lemma skip_wc_ok d s : starts_ok d (skip_wc d s).
Proof. induction s as [|c s IH]; simpl; auto. destruct (char_eqb_spec c d); auto. Qed.

Lemma skip_wc_id d s : starts_ok d s -> skip_wc d s = s.
Proof. destruct s as [|c s]; simpl; auto. intros H. destruct (char_eqb_spec c d); congruence. Qed.

Lemma skip_wc_len d s : length (skip_wc d s) <= length s.
Proof. induction s as [|c s IH]; simpl; auto. destruct (char_eqb_spec c d); simpl; lia. Qed.

Lemma take_frag_spec d s f r : take_frag d s = (f, r) ->
  s = f ++ r /\ ~ In d f /\ (r = [] \/ exists r', r = d :: r').
Proof.
  revert f r. induction s as [|c s IH]; simpl; intros f r H.
  - injection H as <- <-. simpl. auto.
  - destruct (char_eqb_spec c d) as [->|Hne].
    + injection H as <- <-. simpl. split; [reflexivity|]. split; [tauto|]. right; eauto.
    + destruct (take_frag d s) as [f0 r0] eqn:E. injection H as <- <-.
      destruct (IH _ _ eq_refl) as (-> & Hin & Hr). simpl.
      split; [reflexivity|]. split; [|assumption]. intros [H|H]; auto.
Qed.

Lemma last_is_app d s c : last_is d (s ++ [c]) = char_eqb c d.
Proof. induction s as [|x s IH]; simpl; auto. destruct s; simpl in *; auto. Qed.

Lemma last_is_notin d s : ~ In d s -> last_is d s = false.
Proof.
  induction s as [|c s IH]; simpl; auto. intros H.
  destruct s as [|c2 s].
  - destruct (char_eqb_spec c d); auto. subst. tauto.
  - apply IH. tauto.
Qed.

Lemma last_is_app2 d s t : t <> [] -> last_is d (s ++ t) = last_is d t.
Proof.
  intros Ht. induction s as [|c s IH]; simpl; auto.
  destruct (s ++ t) eqn:E; auto. apply app_eq_nil in E. tauto.
Qed.

Lemma last_is_skip_nil d s : s <> [] -> skip_wc d s = [] -> last_is d s = true.
Proof.
  induction s as [|c s IH]; simpl; intros Hne H; [congruence|].
  destruct (char_eqb_spec c d) as [->|]; [|discriminate].
  destruct s as [|c2 s].
  - destruct (char_eqb_spec d d); congruence.
  - apply IH; [discriminate|assumption].
Qed.

Lemma last_is_skip d s : skip_wc d s <> [] -> last_is d s = last_is d (skip_wc d s).
Proof.
  induction s as [|c s IH]; intros H; auto.
  cbn [skip_wc] in *. destruct (char_eqb_spec c d) as [->|]; auto.
  destruct s as [|c2 s]; [simpl in H; congruence|]. rewrite <- IH by assumption. reflexivity.
Qed.

(** * language of a fragment list *)

Fixpoint FL (float : bool) (frags : list str) (lastwc : bool) (t : str) : Prop :=
  match frags with
  | [] => t = [] \/ lastwc = true
  | f :: fs =>
      if float then exists a b, t = a ++ f ++ b /\ FL true fs lastwc b
      else exists b, t = f ++ b /\ FL true fs lastwc b
  end.

Lemma glob_nil_inv wc t : glob wc [] t <-> t = [].
Proof. split; [inversion 1; auto | intros ->; constructor]. Qed.

Lemma glob_lit_app wc f r t : ~ In wc f ->
  glob wc (f ++ r) t <-> exists b, t = f ++ b /\ glob wc r b.
Proof.
  revert t. induction f as [|c f IH]; simpl; intros t Hin.
  - split; [eauto|]. intros (b & -> & H). exact H.
  - split.
    + intros H. inversion H; subst; [|tauto].
      apply IH in H4; [|tauto]. destruct H4 as (b & -> & Hb). eauto.
    + intros (b & -> & Hb). constructor; [tauto|]. apply IH; [tauto|]. eauto.
Qed.

Lemma glob_star_skip wc p t :
  glob wc (wc :: p) t <-> exists a b, t = a ++ b /\ glob wc (skip_wc wc p) b.
Proof.
  revert t. induction p as [|c p IH]; intros t; simpl.
  - split.
    + intros H. inversion H; subst; [congruence|]. eauto.
    + intros (a & b & -> & H). constructor. exact H.
  - destruct (char_eqb_spec c wc) as [->|Hne].
    + split.
      * intros H. inversion H; subst; [congruence|].
        apply IH in H1. destruct H1 as (a & b & -> & Hb).
        exists (s1 ++ a), b. rewrite app_assoc. auto.
      * intros (a & b & -> & Hb).
        change (a ++ b) with ([] ++ (a ++ b)). constructor. apply IH. eauto.
    + split.
      * intros H. inversion H; subst; [congruence|]. eauto.
      * intros (a & b & -> & H). constructor. exact H.
Qed.

Lemma frag_loop_nil n d : frag_loop n d [] = [].
Proof. destruct n; reflexivity. Qed.

Lemma FL_float fs lw t : fs <> [] ->
  FL true fs lw t <-> exists a b, t = a ++ b /\ FL false fs lw b.
Proof.
  destruct fs as [|f fs]; [congruence|]. intros _. simpl. split.
  - intros (a & b & -> & H). exists a, (f ++ b). split; auto. eauto.
  - intros (a & b & -> & b' & -> & H). exists a, b'. auto.
Qed.

Lemma frag_loop_nonnil n d s : length s <= n -> s <> [] -> frag_loop n d s <> [].
Proof.
  destruct n; destruct s as [|c s]; simpl; intros; try lia; try congruence.
  destruct (char_eqb c d); try discriminate.
  destruct (take_frag d s); discriminate.
Qed.

Lemma frag_loop_step n d s f r : s <> [] -> take_frag d s = (f, r) ->
  frag_loop (S n) d s = f :: frag_loop n d (skip_wc d r).
Proof. intros Hne H. cbn [frag_loop]. rewrite H. destruct s; congruence. Qed.

Lemma frag_loop_step_cons n d c s f r : take_frag d (c :: s) = (f, r) ->
  frag_loop (S n) d (c :: s) = f :: frag_loop n d (skip_wc d r).
Proof. intros H. apply frag_loop_step; [discriminate|assumption]. Qed.

Lemma glob_frags n wc s : length s <= n -> s <> [] -> starts_ok wc s ->
  forall t, glob wc s t <-> FL false (frag_loop n wc s) (last_is wc s) t.
Proof.
  revert s. induction n as [|n IH]; intros s Hlen Hne Hok t.
  { destruct s; simpl in Hlen; [congruence|lia]. }
  destruct (take_frag wc s) as [f r] eqn:E.
  rewrite (frag_loop_step _ _ _ _ _ Hne E).
  apply take_frag_spec in E. destruct E as (-> & Hnin & Hr).
  assert (Hf : f <> []).
  { intros ->. simpl in *. destruct Hr as [->|[r' ->]]; simpl in *; congruence. }
  rewrite glob_lit_app by assumption. cbn [FL].
  destruct Hr as [->|[r' ->]].
  - simpl. rewrite frag_loop_nil. rewrite app_nil_r, last_is_notin by assumption.
    split; intros (b & -> & Hb); exists b; (split; [reflexivity|]).
    + apply glob_nil_inv in Hb. simpl. auto.
    + simpl in Hb. destruct Hb as [->|?]; [constructor|discriminate].
  - rewrite last_is_app2 by discriminate.
    assert (Hskip : skip_wc wc (wc :: r') = skip_wc wc r').
    { simpl. destruct (char_eqb_spec wc wc); congruence. }
    assert (Hlr : length (skip_wc wc r') <= n).
    { pose proof (skip_wc_len wc r'). rewrite app_length in Hlen. simpl in Hlen.
      destruct f; [congruence|]. simpl in Hlen. lia. }
    rewrite Hskip.
    destruct (list_eq_dec ascii_dec (skip_wc wc r') []) as [E0|Hn0].
    + rewrite E0, frag_loop_nil.
      rewrite (last_is_skip_nil wc (wc :: r')) by (congruence || discriminate). cbn [FL].
      split; intros (b & -> & Hb); exists b; (split; [reflexivity|]); auto.
      apply glob_star_skip. rewrite E0. exists b, []. rewrite app_nil_r. split; [reflexivity|constructor].
    + rewrite (last_is_skip wc (wc :: r')) by (rewrite Hskip; assumption). rewrite Hskip.
      split; intros (b & -> & Hb); exists b; (split; [reflexivity|]).
      * apply glob_star_skip in Hb. destruct Hb as (a & b' & -> & Hb).
        apply FL_float; [apply frag_loop_nonnil; auto|].
        exists a, b'. split; auto. apply IH; auto. apply skip_wc_ok.
      * apply glob_star_skip. apply FL_float in Hb; [|apply frag_loop_nonnil; auto].
        destruct Hb as (a & b' & -> & Hb). exists a, b'. split; auto.
        apply IH in Hb; auto. apply skip_wc_ok.
Qed.


Theorem glob_delimit wc s fi la frags : delimit s wc = ((fi, la), frags) ->
  forall t, glob wc s t <-> FL fi frags la t.
Proof.
  intros H t. unfold delimit in H. destruct s as [|c s0].
  { injection H as <- <- <-. simpl. rewrite glob_nil_inv. intuition discriminate. }
  destruct (char_eqb_spec c wc) as [->|Hne].
  - assert (Hskip : skip_wc wc (wc :: s0) = skip_wc wc s0).
    { simpl. destruct (char_eqb_spec wc wc); congruence. }
    rewrite Hskip in H.
    destruct (skip_wc wc s0) as [|c1 s1] eqn:E.
    + injection H as <- <- <-. rewrite glob_star_skip. rewrite E. simpl. split; auto.
      intros _. exists t, []. rewrite app_nil_r. split; [reflexivity|constructor].
    + assert (fi = true) by congruence. assert (la = last_is wc (wc :: s0)) by congruence.
      assert (frags = frag_loop (length (wc :: s0)) wc (c1 :: s1)) by congruence. subst fi la frags.
      rewrite glob_star_skip, E.
      pose proof (skip_wc_len wc s0) as Hl. rewrite E in Hl.
      pose proof (skip_wc_ok wc s0) as Hok. rewrite E in Hok.
      change (length (wc :: s0)) with (S (length s0)).
      assert (Hla : last_is wc (wc :: s0) = last_is wc (c1 :: s1)).
      { rewrite (last_is_skip wc (wc :: s0)); rewrite Hskip; [reflexivity|discriminate]. }
      rewrite Hla.
      rewrite FL_float by (apply frag_loop_nonnil; [simpl in *; lia|discriminate]).
      split; intros (a & b & -> & Hb); exists a, b; (split; [reflexivity|]);
        apply (glob_frags (S (length s0))) in Hb || apply (glob_frags (S (length s0)));
        auto; simpl in *; try lia; discriminate.
  - assert (fi = false) by congruence. assert (la = last_is wc (c :: s0)) by congruence.
    assert (frags = frag_loop (length (c :: s0)) wc (c :: s0)) by congruence. subst fi la frags.
    apply glob_frags; simpl; auto; discriminate.
Qed.

(** * fragments are non-empty and free of the delimiter *)
Lemma frag_loop_props n d s : starts_ok d s ->
  Forall (fun f => f <> [] /\ ~ In d f) (frag_loop n d s).
Proof.
  revert s. induction n as [|n IH]; intros s Hok; simpl; [constructor|].
  destruct s as [|c s]; [constructor|]. 
  destruct (take_frag d (c :: s)) as [f r] eqn:E.
  constructor; [|apply IH, skip_wc_ok].
  apply take_frag_spec in E. destruct E as (Heq & Hin & Hr). split; auto.
  intros ->. simpl in *. destruct Hr as [->|[r' ->]]; [discriminate|]. congruence.
Qed.

Lemma delimit_frags s d fi la frags : delimit s d = ((fi, la), frags) ->
  Forall (fun f => f <> [] /\ ~ In d f) frags.
Proof.
  unfold delimit. destruct s as [|c s0]; [intros H; pinj H; constructor|].
  destruct (char_eqb_spec c d) as [->|Hne]; intros H.
  - destruct (skip_wc d (d :: s0)) as [|c1 s1] eqn:E; pinj H; [constructor|].
    apply frag_loop_props. rewrite <- E. apply skip_wc_ok.
  - pinj H. apply frag_loop_props. simpl. auto.
Qed.

Lemma delimit_last s d fi la frags : delimit s d = ((fi, la), frags) ->
  la = true <-> exists s', s = s' ++ [d].
Proof.
  assert (Hlast : forall s, last_is d s = true <-> exists s', s = s' ++ [d]).
  { clear. intros s. split.
    - destruct s as [|c s] using rev_ind; [discriminate|].
      rewrite last_is_app. destruct (char_eqb_spec c d); [subst; eauto|discriminate].
    - intros [s' ->]. rewrite last_is_app. destruct (char_eqb_spec d d); congruence. }
  unfold delimit. destruct s as [|c s0].
  { intros H; pinj H. split; [discriminate|]. intros [s' H]. destruct s'; discriminate. }
  destruct (char_eqb_spec c d) as [->|Hne]; intros H.
  - destruct (skip_wc d (d :: s0)) as [|c1 s1] eqn:E; pinj H; [|apply Hlast].
    split; auto. intros _. apply Hlast. apply last_is_skip_nil; [discriminate|assumption].
  - pinj H. apply Hlast.
Qed.

Lemma delimit_first s d fi la frags : delimit s d = ((fi, la), frags) ->
  fi = true <-> exists s', s = d :: s'.
Proof.
  unfold delimit. destruct s as [|c s0].
  { intros H; pinj H. split; [discriminate|]. intros [s' H]. discriminate. }
  destruct (char_eqb_spec c d) as [->|Hne]; intros H.
  - destruct (skip_wc d (d :: s0)) as [|c1 s1] eqn:E; pinj H; split; eauto.
  - pinj H. split; [discriminate|]. intros [s' H]. congruence.
Qed.

(** * matching fragments *)
Lemma strip_prefix_some f s r : strip_prefix f s = Some r <-> s = f ++ r.
Proof.
  revert s. induction f as [|c f IH]; intros s; simpl.
  - split; congruence.
  - destruct s as [|d s]; [split; discriminate|].
    destruct (char_eqb_spec c d) as [->|Hne].
    + rewrite IH. split; congruence.
    + split; [discriminate|congruence].
Qed.

Lemma find_after_some f s r : find_after f s = Some r -> exists a, s = a ++ f ++ r.
Proof.
  induction s as [|c s IH]; simpl; intros H; destruct (strip_prefix f _) as [r0|] eqn:E.
  - injection H as <-. apply strip_prefix_some in E. exists []. exact E.
  - discriminate.
  - injection H as <-. apply strip_prefix_some in E. exists []. exact E.
  - destruct (IH H) as [a ->]. exists (c :: a). reflexivity.
Qed.

(** leftmost: what is left after the search contains what is left after any occurrence *)
Lemma find_after_leftmost f a b : exists x, find_after f (a ++ f ++ b) = Some (x ++ b).
Proof.
  induction a as [|c a IH]; simpl.
  - assert (E : strip_prefix f (f ++ b) = Some b) by (apply strip_prefix_some; reflexivity).
    exists []. destruct (f ++ b) eqn:Ef; simpl; rewrite E; reflexivity.
  - destruct (strip_prefix f (c :: a ++ f ++ b)) as [r|] eqn:E; [|exact IH].
    apply strip_prefix_some in E.
    assert (Hlen : length b <= length r).
    { assert (length (c :: a ++ f ++ b) = length (f ++ r)) by congruence.
      simpl in H. rewrite !app_length in H. lia. }
    assert (Heq : (c :: a ++ f) ++ b = f ++ r).
    { simpl. rewrite <- app_assoc. exact E. }
    destruct (app_eq_app _ _ _ _ Heq) as [l [[H1 H2]|[H1 H2]]].
    + exists l. rewrite H2. reflexivity.
    + subst b. rewrite app_length in Hlen. destruct l; [exists []; reflexivity|simpl in *; lia].
Qed.

Lemma match_frags_sound fl frags la s r :
  match_frags fl frags s = Some r -> r = [] \/ la = true -> FL fl frags la s.
Proof.
  revert fl s. induction frags as [|f fs IH]; intros fl s H Hend; simpl in *.
  - injection H as ->. exact Hend.
  - destruct s as [|c s]; [discriminate|].
    destruct fl.
    + destruct (find_after f (c :: s)) as [r0|] eqn:E; [|discriminate].
      apply find_after_some in E. destruct E as [a ->]. exists a, r0. split; auto.
    + destruct (strip_prefix f (c :: s)) as [r0|] eqn:E; [|discriminate].
      apply strip_prefix_some in E. exists r0. split; auto.
Qed.

Lemma FL_prepend fs x b : FL true fs true b -> FL true fs true (x ++ b).
Proof.
  destruct fs as [|f fs]; simpl; auto. intros (a & b' & -> & H).
  exists (x ++ a), b'. rewrite app_assoc. auto.
Qed.

Lemma match_frags_complete_wc frags fl s :
  Forall (fun f => f <> []) frags -> FL fl frags true s ->
  exists r, match_frags fl frags s = Some r.
Proof.
  revert fl s. induction frags as [|f fs IH]; intros fl s HF H; simpl in *; [eauto|].
  inversion HF as [|? ? Hf HF']; subst.
  assert (Hs : s <> []).
  { destruct fl.
    - destruct H as (a & b & -> & _). destruct a; [|discriminate]. destruct f; [congruence|discriminate].
    - destruct H as (b & -> & _). destruct f; [congruence|discriminate]. }
  destruct s as [|c s]; [congruence|].
  destruct fl.
  - destruct H as (a & b & Heq & H). rewrite Heq.
    destruct (find_after_leftmost f a b) as [x ->]. apply IH; auto. apply FL_prepend; assumption.
  - destruct H as (b & Heq & H).
    replace (strip_prefix f (c :: s)) with (Some b) by (symmetry; apply strip_prefix_some; assumption).
    apply IH; auto.
Qed.

(** no wild-card at the end: succeeds if the last fragment does not occur
    earlier in the subject *)
Lemma FL_split fs g s : FL true (fs ++ [g]) false s ->
  exists t, s = t ++ g /\ FL true fs true t.
Proof.
  revert s. induction fs as [|f fs IH]; intros s H; simpl in *.
  - destruct H as (a & b & -> & [->|?]); [|discriminate]. exists a. rewrite app_nil_r. auto.
  - destruct H as (a & b & -> & H). apply IH in H. destruct H as (t & -> & H).
    exists (a ++ f ++ t). rewrite <- !app_assoc. split; auto. eauto.
Qed.

Lemma match_frags_app fl fs g s r : match_frags fl (fs ++ [g]) s = Some r <->
  exists r0, match_frags fl fs s = Some r0 /\
    match_frags (match fs with [] => fl | _ => true end) [g] r0 = Some r.
Proof.
  revert fl s. induction fs as [|f fs IH]; intros fl s.
  - simpl app. split.
    + intros H. exists s. split; [reflexivity|exact H].
    + intros (r0 & H0 & H). change (Some s = Some r0) in H0. injection H0 as <-. exact H.
  - change ((f :: fs) ++ [g]) with (f :: fs ++ [g]). cbn [match_frags].
    destruct s as [|c s]; [split; [discriminate|intros (?&?&?); discriminate]|].
    assert (Hfix : (match fs with [] => true | _ => true end) = true) by (destruct fs; auto).
    destruct fl.
    + destruct (find_after f (c :: s)) as [r1|]; [|split; [discriminate|intros (?&?&?); discriminate]].
      rewrite IH, Hfix. reflexivity.
    + destruct (strip_prefix f (c :: s)) as [r1|]; [|split; [discriminate|intros (?&?&?); discriminate]].
      rewrite IH, Hfix. reflexivity.
Qed.

(** what is left after greedy matching of [fs] still contains every suffix at
    which the rest could have matched *)
Lemma match_frags_greedy fs fl t u :
  Forall (fun f => f <> []) fs -> FL fl fs true t ->
  exists x, match_frags fl fs (t ++ u) = Some (x ++ u).
Proof.
  revert fl t. induction fs as [|f fs IH]; intros fl t HF H; [simpl; eauto|].
  inversion HF as [|? ? Hf HF']; subst.
  assert (Hs : t <> []).
  { destruct fl; simpl in H.
    - destruct H as (a & b & -> & _). destruct a; [|discriminate]. destruct f; [congruence|discriminate].
    - destruct H as (b & -> & _). destruct f; [congruence|discriminate]. }
  destruct t as [|c t]; [congruence|].
  simpl in H. change ((c :: t) ++ u) with (c :: t ++ u). cbn [match_frags].
  destruct fl.
  - destruct H as (a & b & Heq & H).
    replace (c :: t ++ u) with (a ++ f ++ (b ++ u))
      by (change (c :: t ++ u) with ((c :: t) ++ u); rewrite Heq, <- !app_assoc; reflexivity).
    destruct (find_after_leftmost f a (b ++ u)) as [x ->]. rewrite app_assoc.
    apply IH; auto. apply FL_prepend; assumption.
  - destruct H as (b & Heq & H).
    replace (strip_prefix f (c :: t ++ u)) with (Some (b ++ u))
      by (symmetry; apply strip_prefix_some; change (c :: t ++ u) with ((c :: t) ++ u);
          rewrite Heq, <- app_assoc; reflexivity).
    apply IH; auto.
Qed.

Lemma match_frags_suffix fl fs s r : match_frags fl fs s = Some r -> exists l, s = l ++ r.
Proof.
  revert fl s. induction fs as [|f fs IH]; intros fl s H; simpl in H.
  - injection H as ->. exists []. reflexivity.
  - destruct s as [|c s]; [discriminate|].
    destruct fl.
    + destruct (find_after f (c :: s)) as [r0|] eqn:E; [|discriminate].
      apply find_after_some in E. destruct E as [a ->]. apply IH in H. destruct H as [l ->].
      exists (a ++ f ++ l). rewrite <- !app_assoc. reflexivity.
    + destruct (strip_prefix f (c :: s)) as [r0|] eqn:E; [|discriminate].
      apply strip_prefix_some in E. rewrite E. apply IH in H. destruct H as [l ->].
      exists (f ++ l). rewrite <- app_assoc. reflexivity.
Qed.

Lemma match_frags_complete_last (fs : list str) (g : str) fl (s : str) :
  Forall (fun f : str => f <> []) (fs ++ [g]) -> (fs <> [] \/ fl = true) ->
  FL fl (fs ++ [g]) false s ->
  (forall l r, s = l ++ g ++ r -> r = []) ->
  match_frags fl (fs ++ [g]) s = Some [].
Proof.
  intros HF Hfl H Huniq.
  apply Forall_app in HF. destruct HF as [HF Hg]. inversion Hg as [|? ? Hgne _]; subst.
  assert (Hsplit : exists t, s = t ++ g /\ FL fl fs true t).
  { destruct fl.
    - apply FL_split; assumption.
    - destruct fs as [|f fs]; [destruct Hfl; congruence|].
      simpl in H. destruct H as (b & -> & H). apply FL_split in H.
      destruct H as (t & -> & H). exists (f ++ t). rewrite <- app_assoc. split; auto. simpl. eauto. }
  destruct Hsplit as (t & -> & Ht).
  destruct (match_frags_greedy fs fl t g HF Ht) as [x Hx].
  apply match_frags_app. exists (x ++ g). split; auto.
  assert (Hfl' : (match fs with [] => fl | _ => true end) = true).
  { destruct fs; auto. destruct Hfl; congruence. }
  match goal with |- match_frags ?b _ _ = _ => replace b with true by (symmetry; exact Hfl') end.
  cbn [match_frags].
  destruct (x ++ g) as [|c y] eqn:Exg.
  { apply app_eq_nil in Exg. tauto. }
  destruct (find_after_leftmost g x []) as [z Hz]. rewrite !app_nil_r, Exg in Hz. rewrite Hz.
  apply find_after_some in Hz. destruct Hz as [a Ha].
  apply match_frags_suffix in Hx. destruct Hx as [l Hl].
  rewrite Ha in Hl.
  f_equal. apply (Huniq (l ++ a)). rewrite Hl, <- !app_assoc. reflexivity.
Qed.

(** * simple patterns *)
Lemma literal_frag s wc fi la frags : delimit s wc = ((fi, la), frags) ->
  is_literal (fi, la) frags = true -> frags = [s].
Proof.
  intros H Hl. unfold is_literal in Hl. cbn [fst snd] in Hl.
  destruct fi; [discriminate|]. destruct la; [discriminate|]. simpl in Hl.
  apply Nat.eqb_eq in Hl. destruct frags as [|f [|]]; try discriminate.
  unfold delimit in H. destruct s as [|c s0]; [discriminate|].
  destruct (char_eqb_spec c wc) as [->|Hne].
  { destruct (skip_wc wc (wc :: s0)); discriminate. }
  apply pair_equal_spec in H. destruct H as [H Hf].
  apply pair_equal_spec in H. destruct H as [_ Hla].
  destruct (take_frag wc (c :: s0)) as [f1 r1] eqn:E.
  change (length (c :: s0)) with (S (length s0)) in Hf.
  rewrite (frag_loop_step_cons _ _ _ _ _ _ E) in Hf.
  assert (f1 = f) by congruence. subst f1.
  assert (Hnil : frag_loop (length s0) wc (skip_wc wc r1) = []) by congruence. clear Hf.
  apply take_frag_spec in E. destruct E as (Heq & _ & Hr). rewrite Heq in *.
  destruct Hr as [->|[r' ->]]; [rewrite app_nil_r; reflexivity|].
  exfalso. rewrite last_is_app2 in Hla by discriminate.
  destruct (list_eq_dec ascii_dec (skip_wc wc (wc :: r')) []) as [E0|Hn0].
  - rewrite last_is_skip_nil in Hla by (discriminate || assumption). discriminate.
  - revert Hnil. apply frag_loop_nonnil; [|assumption].
    pose proof (skip_wc_len wc (wc :: r')).
    assert (Hlen : length (c :: s0) = length (f ++ wc :: r')) by congruence.
    rewrite app_length in Hlen. simpl in Hlen, H.
    destruct f as [|y f]; [simpl in Heq; congruence|]. simpl in *. lia.
Qed.

Lemma match_simple_total s wc fi la frags t : delimit s wc = ((fi, la), frags) ->
  exists b, match_simple (fi, la) frags (is_literal (fi, la) frags) t = Ok b.
Proof.
  intros H. unfold match_simple.
  destruct (is_literal (fi, la) frags) eqn:El.
  - apply (literal_frag _ _ _ _ _ H) in El. subst frags. eauto.
  - destruct frags; eauto. destruct (match_frags _ _ _); eauto.
Qed.

Lemma match_simple_sound s wc fi la frags t : delimit s wc = ((fi, la), frags) ->
  match_simple (fi, la) frags (is_literal (fi, la) frags) t = Ok true -> glob wc s t.
Proof.
  intros H Hm. apply (glob_delimit _ _ _ _ _ H). unfold match_simple in Hm.
  destruct (is_literal (fi, la) frags) eqn:El.
  - pose proof El as El'. unfold is_literal in El'. simpl in El'.
    destruct fi; [discriminate|]. destruct la; [discriminate|].
    apply (literal_frag _ _ _ _ _ H) in El. subst frags.
    injection Hm as Hm. apply str_eqb_eq in Hm. subst t. simpl. exists []. rewrite app_nil_r. auto.
  - destruct frags as [|f fs].
    + injection Hm as Hm. simpl in Hm. simpl.
      destruct t as [|c t]; [auto|]. simpl in Hm.
      destruct fi; [|discriminate]. right.
      (* first char is wc and there are no fragments: last is set *)
      unfold delimit in H. destruct s as [|c0 s0]; [discriminate|].
      destruct (char_eqb_spec c0 wc) as [->|Hne]; [|discriminate].
      destruct (skip_wc wc (wc :: s0)) as [|c1 s1] eqn:E; [injection H as <-; reflexivity|].
      psplit H as H0 H1 H2. exfalso.
      pose proof (skip_wc_len wc (wc :: s0)) as Hl. rewrite E in Hl.
      revert H2. apply frag_loop_nonnil; [exact Hl|discriminate].
    + simpl fst in Hm. simpl snd in Hm.
      destruct (match_frags fi (f :: fs) t) as [r|] eqn:E; [|discriminate].
      injection Hm as Hm. apply (match_frags_sound _ _ _ _ _ E).
      destruct r; [auto|]. simpl in Hm. auto.
Qed.

(** the exact condition under which the greedy search is complete *)
Definition no_early_last (wc : ascii) (p s : str) : Prop :=
  forall p0 g, p = p0 ++ wc :: g -> ~ In wc g -> g <> [] ->
    forall l r, s = l ++ g ++ r -> r = [].

Lemma no_wc_delimit s wc fi la frags : delimit s wc = ((fi, la), frags) ->
  la = false -> fi = false -> (length frags <= 1)%nat -> ~ In wc s.
Proof.
  intros H -> -> Hlen. destruct frags as [|f [|]]; simpl in Hlen; try lia.
  - assert (s = []).
    { unfold delimit in H. destruct s as [|c s]; auto.
      destruct (char_eqb_spec c wc) as [->|Hne].
      - destruct (skip_wc wc (wc :: s)); discriminate.
      - exfalso. psplit H as H0 H1 H2. revert H2.
        apply (frag_loop_nonnil (length (c :: s)) wc (c :: s)); [lia|discriminate]. }
    subst. simpl. tauto.
  - assert (Hf : [f] = [s]) by (apply (literal_frag _ _ _ _ _ H); reflexivity).
    injection Hf as ->. apply delimit_frags in H. inversion H as [|? ? [_ ?] _]. assumption.
Qed.

(** if the pattern does not end with a wild-card its last fragment is the part
    after the last wild-card *)
Lemma last_frag_suffix n wc s fs g : length s <= n -> starts_ok wc s ->
  frag_loop n wc s = fs ++ [g] -> last_is wc s = false ->
  exists p0, s = p0 ++ g /\ (fs <> [] -> exists p1, p0 = p1 ++ [wc]).
Proof.
  revert s fs. induction n as [|n IH]; intros s fs Hlen Hok H Hlast.
  { simpl in H. destruct fs; discriminate. }
  destruct s as [|c s0]; [simpl in H; destruct fs; discriminate|].
  destruct (take_frag wc (c :: s0)) as [f r] eqn:E.
  rewrite (frag_loop_step_cons _ _ _ _ _ _ E) in H.
  apply take_frag_spec in E. destruct E as (Heq & Hnin & Hr). rewrite Heq in *.
  assert (Hf : f <> []).
  { intros ->. simpl in *. destruct Hr as [->|[r' ->]]; simpl in *; congruence. }
  destruct Hr as [->|[r' ->]].
  - simpl in H. rewrite frag_loop_nil in H.
    destruct fs as [|f0 fs]; [|destruct fs; discriminate].
    injection H as <-. exists []. split; [rewrite app_nil_r; reflexivity|congruence].
  - rewrite last_is_app2 in Hlast by discriminate.
    assert (Hskip : skip_wc wc (wc :: r') = skip_wc wc r').
    { simpl. destruct (char_eqb_spec wc wc); congruence. }
    rewrite Hskip in H.
    assert (Hn0 : skip_wc wc r' <> []).
    { intros E0. rewrite (last_is_skip_nil wc (wc :: r')) in Hlast; [discriminate|discriminate|congruence]. }
    assert (Hlr : length (skip_wc wc r') <= n).
    { pose proof (skip_wc_len wc r'). rewrite app_length in Hlen. simpl in Hlen.
      destruct f; [congruence|]. simpl in Hlen. lia. }
    assert (Hpre : exists k, wc :: r' = k ++ [wc] ++ skip_wc wc r').
    { clear. induction r' as [|c r' IH]; simpl.
      - exists []. reflexivity.
      - destruct (char_eqb_spec c wc) as [->|].
        + destruct IH as [k Hk]. exists (wc :: k). simpl. rewrite Hk. reflexivity.
        + exists []. reflexivity. }
    destruct Hpre as [k Hk].
    destruct fs as [|f0 fs].
    { injection H as -> H. pose proof (frag_loop_nonnil n wc _ Hlr Hn0). congruence. }
    injection H as -> H.
    rewrite (last_is_skip wc (wc :: r')) in Hlast by (rewrite Hskip; assumption).
    rewrite Hskip in Hlast.
    destruct (IH _ _ Hlr (skip_wc_ok _ _) H Hlast) as (p0 & Hp0 & Hp1).
    exists (f0 ++ k ++ [wc] ++ p0). split.
    + rewrite Hk, Hp0. rewrite <- !app_assoc. reflexivity.
    + intros _. destruct fs as [|f1 fs].
      * (* single remaining fragment: it starts the rest *)
        destruct p0 as [|x p0] using rev_ind.
        { exists (f0 ++ k). rewrite app_nil_r, <- app_assoc. reflexivity. }
        exfalso. (* the only fragment of a string without trailing wc is the whole string *)
        clear IHp0.
        assert (Hone : skip_wc wc r' = g).
        { destruct (take_frag wc (skip_wc wc r')) as [f2 r2] eqn:E2.
          destruct n as [|n']; [destruct (skip_wc wc r'); simpl in Hlr; [congruence|lia]|].
          rewrite (frag_loop_step _ _ _ _ _ Hn0 E2) in H. injection H as -> H.
          apply take_frag_spec in E2. destruct E2 as (Heq2 & _ & [->|[r3 ->]]).
          - rewrite app_nil_r in Heq2. exact Heq2.
          - exfalso. simpl in H. destruct (char_eqb_spec wc wc); [|congruence].
            destruct (skip_wc wc r3) eqn:E3.
            + rewrite Heq2, last_is_app2 in Hlast by discriminate.
              rewrite (last_is_skip_nil wc (wc :: r3)) in Hlast; [discriminate|discriminate|].
              simpl. destruct (char_eqb_spec wc wc); congruence.
            + revert H. rewrite <- E3. apply frag_loop_nonnil; [|rewrite E3; discriminate].
              pose proof (skip_wc_len wc r3). rewrite Heq2, app_length in Hlr. simpl in Hlr. lia. }
        rewrite Hone in Hp0. assert (length g = length ((p0 ++ [x]) ++ g)) by congruence.
        rewrite !app_length in H0. simpl in H0. lia.
      * destruct Hp1 as [p1 ->]; [discriminate|].
        exists (f0 ++ k ++ [wc] ++ p1). rewrite <- !app_assoc. reflexivity.
Qed.

Lemma delimit_last_frag s wc fi fs g : delimit s wc = ((fi, false), fs ++ [g]) ->
  (fs <> [] \/ fi = true) -> exists p1, s = p1 ++ wc :: g.
Proof.
  intros H Hc. unfold delimit in H. destruct s as [|c s0]; [destruct fs; discriminate|].
  destruct (char_eqb_spec c wc) as [->|Hne].
  - assert (Hskip : skip_wc wc (wc :: s0) = skip_wc wc s0).
    { simpl. destruct (char_eqb_spec wc wc); congruence. }
    rewrite Hskip in H.
    destruct (skip_wc wc s0) as [|c1 s1] eqn:E; [discriminate|].
    psplit H as Hfi Hla Hfr. subst fi.
    assert (Hpre : exists k, wc :: s0 = k ++ [wc] ++ (c1 :: s1)).
    { rewrite <- E. clear. induction s0 as [|c r' IH]; simpl.
      - exists []. reflexivity.
      - destruct (char_eqb_spec c wc) as [->|].
        + destruct IH as [k Hk]. exists (wc :: k). simpl. rewrite Hk. reflexivity.
        + exists []. reflexivity. }
    destruct Hpre as [k Hk].
    assert (Hla1 : last_is wc (c1 :: s1) = false).
    { rewrite <- Hla. change (last_is wc (c1 :: s1) = last_is wc (wc :: s0)).
      symmetry. rewrite (last_is_skip wc (wc :: s0)); rewrite Hskip; [reflexivity|discriminate]. }
    pose proof (skip_wc_len wc s0) as Hl. rewrite E in Hl.
    pose proof (skip_wc_ok wc s0) as Hok. rewrite E in Hok.
    destruct (last_frag_suffix (length (wc :: s0)) wc (c1 :: s1) fs g) as (p0 & Hp0 & Hp1); auto.
    { simpl in *. lia. }
    rewrite Hk, Hp0. destruct fs as [|f0 fs].
    + (* single fragment: p0 = [] *)
      destruct p0 as [|x p0] using rev_ind.
      * exists k. reflexivity.
      * exfalso.
        assert (Hd : delimit (c1 :: s1) wc = ((false, false), [g])).
        { unfold delimit. destruct (char_eqb_spec c1 wc) as [->|_]; [simpl in Hok; congruence|].
          rewrite Hla1. f_equal.
          (* fuel irrelevance for this instance *)
          clear - Hfr Hl. 
          assert (Hfuel : forall n m s, length s <= n -> length s <= m -> frag_loop n wc s = frag_loop m wc s).
          { induction n as [|n IH]; intros m s H1 H2.
            - destruct s; [|simpl in H1; lia]. rewrite !frag_loop_nil. reflexivity.
            - destruct s as [|c s]; [rewrite frag_loop_nil; destruct m; reflexivity|].
              destruct m as [|m]; [simpl in H2; lia|].
              destruct (take_frag wc (c :: s)) as [f r] eqn:E.
              rewrite !(frag_loop_step_cons _ _ _ _ _ _ E). f_equal.
              assert (Hr : length (skip_wc wc r) <= length s).
              { destruct f as [|x f].
                - apply take_frag_spec in E. destruct E as (Heq & _ & Hr). simpl in Heq. subst r.
                  destruct Hr as [?|[r' Hr]]; [discriminate|]. injection Hr as -> ->.
                  simpl. destruct (char_eqb_spec wc wc); [|congruence]. apply skip_wc_len.
                - apply take_frag_spec in E. destruct E as (Heq & _ & _). injection Heq as _ ->.
                  pose proof (skip_wc_len wc r). rewrite app_length. lia. }
              simpl in H1, H2. apply IH; lia. }
          rewrite (Hfuel _ (length (wc :: s0)) (c1 :: s1)); [exact Hfr|simpl; lia|simpl in *; lia]. }
        assert (Hf : [g] = [c1 :: s1]) by (apply (literal_frag _ _ _ _ _ Hd); reflexivity).
        injection Hf as Hf. assert (Hlen : length (c1 :: s1) = length ((p0 ++ [x]) ++ g)) by congruence.
        rewrite Hf, !app_length in Hlen. simpl in Hlen. lia.
    + destruct Hp1 as [p1 ->]; [discriminate|]. exists (k ++ [wc] ++ p1).
      rewrite <- !app_assoc. reflexivity.
  - psplit H as Hfi Hla Hfr. subst fi. destruct Hc as [Hc|?]; [|discriminate].
    destruct (last_frag_suffix (length (c :: s0)) wc (c :: s0) fs g) as (p0 & Hp0 & Hp1); auto.
    destruct (Hp1 Hc) as [p1 ->]. exists p1. rewrite Hp0, <- app_assoc. reflexivity.
Qed.

Lemma match_simple_complete s wc fi la frags t : delimit s wc = ((fi, la), frags) ->
  (la = false -> no_early_last wc s t) ->
  glob wc s t -> match_simple (fi, la) frags (is_literal (fi, la) frags) t = Ok true.
Proof.
  intros H Hne Hg. pose proof Hg as HFL. apply (glob_delimit _ _ _ _ _ H) in HFL.
  assert (HF : Forall (fun f : str => f <> []) frags).
  { apply delimit_frags in H. eapply Forall_impl; [|exact H]. simpl. tauto. }
  unfold match_simple.
  destruct (is_literal (fi, la) frags) eqn:El.
  - pose proof (literal_frag _ _ _ _ _ H El) as ->.
    unfold is_literal in El. simpl in El.
    destruct fi; [discriminate|]. destruct la; [discriminate|].
    simpl in HFL. destruct HFL as (b & -> & [->|?]); [|discriminate].
    rewrite app_nil_r, str_eqb_refl. reflexivity.
  - destruct frags as [|f fs]; simpl fst; simpl snd.
    + simpl in HFL. destruct HFL as [-> | ->].
      * simpl. rewrite orb_true_r. reflexivity.
      * (* only wild-cards *)
        apply (proj1 (delimit_last _ _ _ _ _ H)) in HFL || idtac.
        assert (fi = true).
        { unfold delimit in H. destruct s as [|c0 s0]; [discriminate|].
          destruct (char_eqb_spec c0 wc) as [->|Hn].
          - destruct (skip_wc wc (wc :: s0)); injection H as <-; reflexivity.
          - exfalso. psplit H as H1 H2 H3. revert H3.
            apply (frag_loop_nonnil (length (c0 :: s0)) wc (c0 :: s0)); [lia|discriminate]. }
        subst fi. reflexivity.
    + destruct la.
      * destruct (match_frags_complete_wc _ _ _ HF HFL) as [r ->]. rewrite orb_true_r. reflexivity.
      * specialize (Hne eq_refl).
        destruct (exists_last (l := f :: fs)) as (fs' & g & Efs); [discriminate|].
        rewrite Efs in *.
        assert (Hc : fs' <> [] \/ fi = true).
        { destruct fs'; [|left; discriminate]. destruct fi; [auto|].
          exfalso. unfold is_literal in El. simpl in El. discriminate. }
        destruct (delimit_last_frag _ _ _ _ _ H Hc) as [p1 Hp1].
        assert (Hg1 : ~ In wc g /\ g <> []).
        { apply delimit_frags in H. apply Forall_app in H. destruct H as [_ H].
          inversion H as [|? ? [? ?] _]; auto. }
        rewrite (match_frags_complete_last fs' g fi t); auto.
        intros l r Hlr. eapply (Hne p1 g); eauto; tauto.
Qed.

(** * alternatives *)

Lemma last_snoc_bar (l : str) (f : str) l' d : f <> [] -> l ++ f = l' ++ [d] -> In d f /\ exists f', f = f' ++ [d].
Proof.
  intros Hf H. destruct f as [|c f] using rev_ind; [congruence|].
  rewrite app_assoc in H. apply app_inj_tail in H. destruct H as [_ ->].
  split; [apply in_or_app; right; left; reflexivity|eauto].
Qed.

Lemma alternative_app f r q : f <> [] -> ~ In bar f -> (r = [] \/ exists r', r = bar :: r') ->
  alternative (f ++ r) q <-> q = f \/ alternative r q.
Proof.
  unfold alternative. intros Hf Hin Hr. split.
  - intros (l & r1 & Heq & Hq & Hqin & Hl & Hr1).
    destruct (app_eq_app _ _ _ _ (eq_sym Heq)) as [x [[H1 H2]|[H1 H2]]].
    + (* l = f ++ x *)
      right. exists x, r1. split; [exact H2|]. split; auto. split; auto. split; auto.
      destruct x as [|c x]; [auto|]. right.
      destruct Hl as [->|[l' ->]].
      { symmetry in H1. apply app_eq_nil in H1. destruct H1; discriminate. }
      symmetry in H1. apply last_snoc_bar in H1; [|discriminate]. destruct H1 as [_ [f' ->]]. eauto.
    + (* f = l ++ x *)
      left.
      assert (Hl0 : l = []).
      { destruct Hl as [?|[l' ->]]; auto. exfalso. apply Hin. rewrite H1.
        apply in_or_app. left. apply in_or_app. right. left. reflexivity. }
      subst l. simpl in *. subst x.
      destruct (app_eq_app _ _ _ _ H2) as [y [[H3 H4]|[H3 H4]]].
      * destruct y as [|c y]; [rewrite app_nil_r in H3; exact H3|].
        exfalso. destruct Hr as [->|[r' ->]]; [discriminate|].
        injection H4 as <- _. apply Hqin. rewrite H3. apply in_or_app. right. left. reflexivity.
      * destruct y as [|c y]; [rewrite app_nil_r in H3; congruence|].
        exfalso. destruct Hr1 as [->|[r' ->]]; [discriminate|].
        injection H4 as <- _. apply Hin. rewrite H3. apply in_or_app. right. left. reflexivity.
  - intros [->|(l & r1 & -> & Hq & Hqin & Hl & Hr1)].
    + exists [], r. repeat split; auto.
    + exists (f ++ l), r1. rewrite <- app_assoc. repeat split; auto.
      destruct Hl as [->|[l' ->]].
      * (* r starts with q, which is bar free and non-empty, but r starts with a bar *)
        exfalso. simpl in Hr. destruct q as [|c q]; [congruence|].
        destruct Hr as [?|[r' Hr]]; [discriminate|]. injection Hr as -> _. apply Hqin. left. reflexivity.
      * right. exists (f ++ l'). rewrite app_assoc. reflexivity.
Qed.

Lemma alternative_nil q : ~ alternative [] q.
Proof.
  intros (l & r & H & Hq & _). symmetry in H. apply app_eq_nil in H. destruct H as [_ H].
  apply app_eq_nil in H. tauto.
Qed.

Lemma alternative_bar s q : alternative (bar :: s) q <-> alternative s q.
Proof.
  split.
  - intros (l & r & H & Hq & Hin & Hl & Hr). destruct l as [|c l].
    + exfalso. simpl in H. destruct q as [|c q]; [congruence|]. injection H as <- _. apply Hin. left; reflexivity.
    + injection H as <- H. exists l, r. repeat split; auto.
      destruct Hl as [?|[l' Hl']]; [discriminate|].
      destruct l' as [|x l']; [injection Hl' as ->; auto|]. injection Hl' as _ ->. eauto.
  - intros (l & r & -> & Hq & Hin & Hl & Hr). exists (bar :: l), r. repeat split; auto.
    right. destruct Hl as [->|[l' ->]]; [exists []; reflexivity|exists (bar :: l'); reflexivity].
Qed.

Lemma alternative_skip s q : alternative (skip_wc bar s) q <-> alternative s q.
Proof.
  induction s as [|c s IH]; simpl; [tauto|].
  destruct (char_eqb_spec c bar) as [->|]; [|tauto]. rewrite alternative_bar. exact IH.
Qed.

Lemma frag_loop_alternatives n s q : length s <= n -> starts_ok bar s ->
  In q (frag_loop n bar s) <-> alternative s q.
Proof.
  revert s. induction n as [|n IH]; intros s Hlen Hok.
  { destruct s; [|simpl in Hlen; lia]. simpl. split; [tauto|apply alternative_nil]. }
  destruct s as [|c s0].
  { simpl. split; [tauto|apply alternative_nil]. }
  destruct (take_frag bar (c :: s0)) as [f r] eqn:E.
  rewrite (frag_loop_step_cons _ _ _ _ _ _ E).
  apply take_frag_spec in E. destruct E as (Heq & Hnin & Hr). rewrite Heq in *.
  assert (Hf : f <> []).
  { intros ->. simpl in *. destruct Hr as [->|[r' ->]]; simpl in *; congruence. }
  rewrite alternative_app by assumption. simpl In. rewrite IH.
  - rewrite alternative_skip. intuition congruence.
  - pose proof (skip_wc_len bar r). rewrite app_length in Hlen. destruct f; [congruence|]. simpl in Hlen. lia.
  - apply skip_wc_ok.
Qed.

Lemma delimit_alternatives s wcs alts q : delimit s bar = (wcs, alts) ->
  In q alts <-> alternative s q.
Proof.
  unfold delimit. destruct s as [|c s0].
  { injection 1 as <- <-. simpl. split; [tauto|apply alternative_nil]. }
  destruct (char_eqb_spec c bar) as [->|Hne]; intros H.
  - rewrite <- alternative_skip.
    destruct (skip_wc bar (bar :: s0)) as [|c1 s1] eqn:E.
    + apply pair_equal_spec in H; destruct H as [? ?]; subst. simpl. split; [tauto|apply alternative_nil].
    + apply pair_equal_spec in H; destruct H as [? ?]; subst. apply frag_loop_alternatives.
      * rewrite <- E. apply skip_wc_len.
      * rewrite <- E. apply skip_wc_ok.
  - apply pair_equal_spec in H; destruct H as [? ?]; subst. apply frag_loop_alternatives; simpl; auto.
Qed.

Definition has_other (s : str) : Prop := exists c, In c s /\ c <> bar.

Lemma has_other_skip s : has_other (skip_wc bar s) <-> has_other s.
Proof.
  induction s as [|c s IH]; simpl; [tauto|].
  destruct (char_eqb_spec c bar) as [->|]; [|tauto].
  rewrite IH. unfold has_other. split; intros (x & Hx & Hn); exists x; simpl in *; intuition congruence.
Qed.

Lemma has_other_ok s : starts_ok bar s -> has_other s <-> s <> [].
Proof.
  destruct s as [|c s]; simpl; intros H.
  - unfold has_other. simpl. split; [intros (?&[]&_)|congruence].
  - split; [discriminate|]. intros _. exists c. simpl. auto.
Qed.

Lemma alternation_app f r : f <> [] -> ~ In bar f -> (r = [] \/ exists r', r = bar :: r') ->
  alternation (f ++ r) <-> has_other r.
Proof.
  unfold alternation. intros Hf Hin Hr. split.
  - intros (l & r1 & Heq & Hl & (c & Hc & Hn)).
    exists c. split; [|exact Hn].
    destruct (app_eq_app _ _ _ _ Heq) as [x [[H1 H2]|[H1 H2]]].
    + destruct x as [|y x]; simpl in H2.
      * subst r. right. exact Hc.
      * injection H2 as <- H2. exfalso. apply Hin. rewrite H1. apply in_or_app. right. left. reflexivity.
    + rewrite H2. apply in_or_app. right. right. exact Hc.
  - intros (c & Hc & Hn). destruct Hr as [->|[r' ->]]; [destruct Hc|].
    exists f, r'. split; [reflexivity|]. split.
    + destruct f as [|y f]; [congruence|]. exists y. split; [left; reflexivity|].
      intros ->. apply Hin. left. reflexivity.
    + exists c. split; auto. destruct Hc as [<-|Hc]; [congruence|exact Hc].
Qed.

Lemma alternation_bar s : alternation (bar :: s) <-> alternation s.
Proof.
  unfold alternation. split.
  - intros (l & r & Heq & (c & Hc & Hn) & Hr). destruct l as [|x l]; [destruct Hc|].
    injection Heq as <- ->. exists l, r. split; auto. split; auto. exists c.
    destruct Hc as [<-|Hc]; [unfold bar in Hn; congruence|auto].
  - intros (l & r & -> & (c & Hc & Hn) & Hr). exists (bar :: l), r. split; auto. split; auto.
    exists c. split; auto. right. exact Hc.
Qed.

Lemma alternation_skip s : alternation (skip_wc bar s) <-> alternation s.
Proof.
  induction s as [|c s IH]; simpl; [tauto|].
  destruct (char_eqb_spec c bar) as [->|]; [|tauto]. rewrite alternation_bar. exact IH.
Qed.

Lemma frag_loop_alternation n s : length s <= n -> starts_ok bar s ->
  1 < length (frag_loop n bar s) <-> alternation s.
Proof.
  assert (Hnil : ~ alternation []).
  { intros (l & r & H & _). destruct l; discriminate. }
  intros Hlen Hok. destruct n as [|n].
  { destruct s; [|simpl in Hlen; lia]. simpl. split; [lia|tauto]. }
  destruct s as [|c s0].
  { simpl. split; [lia|tauto]. }
  destruct (take_frag bar (c :: s0)) as [f r] eqn:E.
  rewrite (frag_loop_step_cons _ _ _ _ _ _ E).
  apply take_frag_spec in E. destruct E as (Heq & Hnin & Hr). rewrite Heq in *.
  assert (Hf : f <> []).
  { intros ->. simpl in *. destruct Hr as [->|[r' ->]]; simpl in *; congruence. }
  rewrite alternation_app by assumption.
  rewrite <- has_other_skip, has_other_ok by apply skip_wc_ok.
  assert (Hl : length (skip_wc bar r) <= n).
  { pose proof (skip_wc_len bar r). rewrite app_length in Hlen. destruct f; [congruence|]. simpl in Hlen. lia. }
  cbn [length]. split.
  - intros H E. rewrite E, frag_loop_nil in H. simpl in H. lia.
  - intros H. pose proof (frag_loop_nonnil n bar _ Hl H) as H1.
    destruct (frag_loop n bar (skip_wc bar r)); [congruence|simpl; lia].
Qed.

Lemma delimit_alternation s wcs alts : delimit s bar = (wcs, alts) ->
  1 < length alts <-> alternation s.
Proof.
  assert (Hnil : ~ alternation []).
  { intros (l & r & H & _). destruct l; discriminate. }
  unfold delimit. destruct s as [|c s0].
  { injection 1 as <- <-. simpl. split; [lia|tauto]. }
  destruct (char_eqb_spec c bar) as [->|Hne]; intros H.
  - rewrite <- alternation_skip.
    destruct (skip_wc bar (bar :: s0)) as [|c1 s1] eqn:E.
    + apply pair_equal_spec in H; destruct H as [? ?]; subst. simpl. split; [lia|tauto].
    + apply pair_equal_spec in H; destruct H as [? ?]; subst. apply frag_loop_alternation.
      * rewrite <- E. apply skip_wc_len.
      * rewrite <- E. apply skip_wc_ok.
  - apply pair_equal_spec in H; destruct H as [? ?]; subst. apply frag_loop_alternation; simpl; auto.
Qed.

(** an alternative is not itself an alternation *)
Lemma alternative_not_alternation p q : alternative p q -> ~ alternation q.
Proof.
  intros (l & r & _ & _ & Hin & _) (l1 & r1 & -> & _). apply Hin. apply in_or_app. right. left. reflexivity.
Qed.

(** the recursion of the constructor has depth one: more fuel changes nothing *)
Lemma mk_fuel_simple n wc q : ~ alternation q -> mk_fuel (S n) wc q = mk_simple wc q.
Proof.
  intros H. cbn [mk_fuel]. destruct (delimit q bar) as [w alts] eqn:E.
  destruct (Nat.ltb_spec 1 (length alts)) as [Hl|]; [|reflexivity].
  apply (delimit_alternation _ _ _ E) in Hl. tauto.
Qed.

Lemma mk_fuel_ok n wc p : mk_fuel (S (S n)) wc p = mk_pattern wc p.
Proof.
  unfold mk_pattern. cbn [mk_fuel]. destruct (delimit p bar) as [w alts] eqn:E.
  destruct (Nat.ltb 1 (length alts)); [|reflexivity]. f_equal.
  apply map_ext_in. intros q Hq. apply (delimit_alternatives _ _ _ _ E) in Hq.
  pose proof (alternative_not_alternation _ _ Hq) as Hn.
  change (mk_fuel (S n) wc q = mk_fuel 1 wc q).
  rewrite !mk_fuel_simple by assumption. reflexivity.
Qed.

(** * the whole matcher *)
Definition any_match (f : str -> res unit bool) : list str -> res unit bool :=
  fix go (l : list str) : res unit bool :=
    match l with
    | [] => Ok false
    | q :: l' => do b <- f q; if b then Ok true else go l'
    end.

Lemma Match_simple wc q t :
  Match (mk_simple wc q) t =
  let '(w, frags) := delimit q wc in match_simple w frags (is_literal w frags) t.
Proof. unfold mk_simple. destruct (delimit q wc). reflexivity. Qed.

Lemma Match_cases wc p t :
  (alternation p /\
   exists alts, (forall q, In q alts <-> alternative p q) /\
     Match (mk_pattern wc p) t = any_match (fun q => Match (mk_simple wc q) t) alts)
  \/ (~ alternation p /\ Match (mk_pattern wc p) t = Match (mk_simple wc p) t).
Proof.
  unfold mk_pattern. cbn [mk_fuel]. destruct (delimit p bar) as [w alts] eqn:E.
  destruct (Nat.ltb_spec 1 (length alts)) as [Hl|Hl].
  - left. split; [apply (delimit_alternation _ _ _ E); exact Hl|].
    exists alts. split; [intros q; apply (delimit_alternatives _ _ _ _ E)|].
    assert (Hall : forall q, In q alts -> ~ alternation q).
    { intros q Hq. apply (delimit_alternatives _ _ _ _ E) in Hq.
      eapply alternative_not_alternation; eauto. }
    cbn [Match]. clear - Hall. induction alts as [|q alts IH]; [reflexivity|].
    cbn [map any_match]. change (match delimit q bar with
      | (_, a0) => if Nat.ltb 1 (length a0) then POr (map (fun s => PSimple (false,false) [] false) a0) else mk_simple wc q end)
      with (mk_fuel 1 wc q).
    rewrite mk_fuel_simple by (apply Hall; left; reflexivity).
    destruct (Match (mk_simple wc q) t) as [[|]| |]; cbn [bind]; auto.
    apply IH. intros q' Hq'. apply Hall. right. exact Hq'.
  - right. split; [|reflexivity]. intros H. apply (delimit_alternation _ _ _ E) in H. lia.
Qed.

Lemma any_match_true f l : any_match f l = Ok true -> exists q, In q l /\ f q = Ok true.
Proof.
  induction l as [|q l IH]; simpl; [discriminate|].
  destruct (f q) as [[|]| |] eqn:E; simpl; intros H; try discriminate; eauto.
  destruct (IH H) as (q' & Hin & Hq'). eauto.
Qed.

Lemma any_match_hit f l q : (forall q, exists b, f q = Ok b) -> In q l -> f q = Ok true -> any_match f l = Ok true.
Proof.
  intros Htot. induction l as [|x l IH]; simpl; [tauto|]. intros [->|Hin] Hq.
  - rewrite Hq. reflexivity.
  - destruct (Htot x) as [[|] ->]; simpl; auto.
Qed.

Lemma any_match_total f l : (forall q, exists b, f q = Ok b) -> exists b, any_match f l = Ok b.
Proof.
  intros Htot. induction l as [|x l IH]; simpl; [eauto|]. destruct (Htot x) as [[|] ->]; simpl; eauto.
Qed.

Lemma Match_simple_total wc q t : exists b, Match (mk_simple wc q) t = Ok b.
Proof.
  rewrite Match_simple. destruct (delimit q wc) as [[fi la] frags] eqn:E.
  eapply match_simple_total; eauto.
Qed.

Lemma Match_total wc p t : exists b, Match (mk_pattern wc p) t = Ok b.
Proof.
  destruct (Match_cases wc p t) as [(_ & alts & _ & ->)|(_ & ->)].
  - apply any_match_total. intros q. apply Match_simple_total.
  - apply Match_simple_total.
Qed.

Lemma Match_sound wc p t : Match (mk_pattern wc p) t = Ok true -> in_language wc p t.
Proof.
  destruct (Match_cases wc p t) as [(Ha & alts & Halts & ->)|(Ha & ->)]; intros H.
  - left. split; auto. apply any_match_true in H. destruct H as (q & Hin & Hq).
    exists q. split; [apply Halts; exact Hin|].
    rewrite Match_simple in Hq. destruct (delimit q wc) as [[fi la] frags] eqn:E.
    eapply match_simple_sound; eauto.
  - right. split; auto. rewrite Match_simple in H. destruct (delimit p wc) as [[fi la] frags] eqn:E.
    eapply match_simple_sound; eauto.
Qed.

(** completeness away from re-occurring last fragments *)
Definition unambiguous (wc : ascii) (p s : str) : Prop :=
  (exists p0, p = p0 ++ [wc]) \/ no_early_last wc p s.

Lemma Match_simple_complete wc q t : unambiguous wc q t -> glob wc q t ->
  Match (mk_simple wc q) t = Ok true.
Proof.
  intros Hu Hg. rewrite Match_simple. destruct (delimit q wc) as [[fi la] frags] eqn:E.
  eapply match_simple_complete; eauto. intros ->. destruct Hu as [Hu|]; auto.
  apply (delimit_last _ _ _ _ _ E) in Hu. discriminate.
Qed.

Lemma Match_complete wc p t :
  (alternation p -> exists q, alternative p q /\ unambiguous wc q t /\ glob wc q t) ->
  (~ alternation p -> unambiguous wc p t /\ glob wc p t) ->
  Match (mk_pattern wc p) t = Ok true.
Proof.
  intros H1 H2. destruct (Match_cases wc p t) as [(Ha & alts & Halts & ->)|(Ha & ->)].
  - destruct (H1 Ha) as (q & Hq & Hu & Hg). eapply any_match_hit.
    + intros q'. apply Match_simple_total.
    + apply Halts. exact Hq.
    + apply Match_simple_complete; assumption.
  - destruct (H2 Ha). apply Match_simple_complete; assumption.
Qed.

(** * printing *)
Lemma glob_join wc fs f (la : bool) t : Forall (fun f => ~ In wc f) (f :: fs) ->
  glob wc (join wc (f :: fs) ++ (if la then [wc] else [])) t <-> FL false (f :: fs) la t.
Proof.
  assert (Hend : forall t, glob wc (if la then [wc] else []) t <-> t = [] \/ la = true).
  { clear. intros t. destruct la.
    - split; auto. intros _. rewrite <- (app_nil_r t). repeat constructor.
    - rewrite glob_nil_inv. intuition discriminate. }
  revert f t. induction fs as [|g fs IH]; intros f t HF; inversion HF as [|? ? Hf HF']; subst.
  - cbn [join FL]. rewrite glob_lit_app by assumption. split; intros (b & -> & Hb); exists b;
      (split; [reflexivity|]); apply Hend; exact Hb.
  - change (join wc (f :: g :: fs)) with (f ++ wc :: join wc (g :: fs)).
    rewrite <- app_assoc, glob_lit_app by assumption.
    split.
    + intros (b & -> & Hb). simpl app in Hb. inversion Hb; subst; [congruence|].
      apply IH in H0; [|assumption]. exists (s1 ++ s2). split; [reflexivity|].
      apply FL_float; [discriminate|]. eauto.
    + intros (b & -> & Hb). exists b. split; [reflexivity|].
      apply (FL_float (g :: fs)) in Hb; [|discriminate]. destruct Hb as (x & y & -> & Hb).
      simpl app. constructor. apply IH; assumption.
Qed.

Lemma delimit_nofrags s wc fi la : delimit s wc = ((fi, la), []) -> fi = la.
Proof.
  intros H. unfold delimit in H. destruct s as [|c s0]; [congruence|].
  destruct (char_eqb_spec c wc) as [->|Hne].
  - destruct (skip_wc wc (wc :: s0)) eqn:E; [congruence|].
    psplit H as H1 H2 H3. exfalso. revert H3. apply frag_loop_nonnil; [|discriminate].
    rewrite <- E. apply skip_wc_len.
  - psplit H as H1 H2 H3. exfalso. revert H3. apply frag_loop_nonnil; [lia|discriminate].
Qed.

Lemma print_equiv wc p t : ~ alternation p ->
  glob wc (print_pattern wc p) t <-> glob wc p t.
Proof.
  intros Ha. unfold print_pattern. destruct (delimit p bar) as [w alts] eqn:E.
  destruct (Nat.ltb_spec 1 (length alts)) as [Hl|Hl].
  { apply (delimit_alternation _ _ _ E) in Hl. tauto. }
  clear Hl. destruct (delimit p wc) as [[fi la] frags] eqn:E1.
  rewrite (glob_delimit _ _ _ _ _ E1). unfold print_simple. cbn [fst snd].
  assert (HF : Forall (fun f => ~ In wc f) frags).
  { apply delimit_frags in E1. eapply Forall_impl; [|exact E1]. simpl. tauto. }
  destruct frags as [|f fs].
  - pose proof (delimit_nofrags _ _ _ _ E1) as <-. simpl join. destruct fi; simpl.
    + split; auto. intros _. change t with ([] ++ t). constructor.
      rewrite <- (app_nil_r t). repeat constructor.
    + rewrite glob_nil_inv. intuition discriminate.
  - destruct fi.
    + rewrite FL_float by discriminate. simpl app. split.
      * intros H. inversion H; subst; [congruence|]. apply glob_join in H1; eauto.
      * intros (a & b & -> & H). constructor. apply glob_join; assumption.
    + simpl app. apply glob_join. assumption.
Qed.
