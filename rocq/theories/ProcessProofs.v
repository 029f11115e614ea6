From Coq Require Import Permutation Sorted.
From Verif Require Import RBase Process ProcessSpec.

(** * table *)
Lemma insert_split p t : exists pre post, t = pre ++ post /\ insert_at p t = pre ++ p :: post
  /\ Forall (fun q => (prio q <= prio p)%Z) pre
  /\ (post = [] \/ exists q post', post = q :: post' /\ (prio p < prio q)%Z).
Proof.
  induction t as [|q t IH]; simpl.
  - exists [], []. simpl. auto.
  - destruct (Z.leb_spec (prio q) (prio p)).
    + destruct IH as (pre & post & -> & -> & H1 & H2). exists (q :: pre), post. simpl. repeat split; auto.
    + exists [], (q :: t). simpl. repeat split; auto. right. eauto.
Qed.

Lemma remove_ok p t : In p (map pid t) -> exists b, remove_process p t = Ok (remove_first p t, b)
  /\ (b = true <-> exists pre q post x, t = pre ++ q :: post ++ [x] /\ pid q = p /\ ~ In p (map pid pre)).
Proof.
  induction t as [|q t IH]; simpl; intros H; [destruct H|].
  destruct (Nat.eqb_spec (pid q) p) as [E|E].
  - eexists. split; [reflexivity|]. split.
    + destruct t as [|a t]; [discriminate|]. intros _.
      destruct (exists_last (l := a :: t)) as (post & x & Ep); [discriminate|].
      exists [], q, post, x. simpl. rewrite <- Ep. auto.
    + intros (pre & q' & post & x & Et & _ & Hn). destruct pre as [|a pre]; simpl in Et.
      * injection Et as <- ->. destruct post; reflexivity.
      * injection Et as <- _. simpl in Hn. tauto.
  - destruct H as [H|H]; [congruence|]. destruct (IH H) as (b & -> & Hb). simpl. exists b. split; [reflexivity|].
    rewrite Hb. split; intros (pre & q' & post & x & Et & Hq & Hn).
    + exists (q :: pre), q', post, x. simpl. rewrite Et. repeat split; auto. intros [?|?]; congruence || tauto.
    + destruct pre as [|a pre]; simpl in Et; injection Et as <- Et; [congruence|].
      exists pre, q', post, x. simpl in Hn. repeat split; auto.
Qed.

Lemma remove_first_perm p t l : NoDup (map pid l) -> Permutation t l -> Permutation (remove_first p t) (remove_first p l).
Proof.
  intros Hnd Hp. revert Hnd. induction Hp as [|x t l Hp IH|x y l|t m l H1 IH1 H2 IH2]; intros Hnd.
  - reflexivity.
  - simpl in *. inversion Hnd; subst. destruct (Nat.eqb (pid x) p); [exact Hp|]. constructor. auto.
  - simpl in *. inversion Hnd as [|? ? Hn1 _]; subst. simpl in Hn1.
    destruct (Nat.eqb_spec (pid y) p), (Nat.eqb_spec (pid x) p); try reflexivity; [exfalso; apply Hn1; left; congruence|apply perm_swap].
  - assert (Hnm : NoDup (map pid m)).
    { eapply Permutation_NoDup; [|exact Hnd]. apply Permutation_map. symmetry. exact H2. }
    etransitivity; [apply IH1; exact Hnm|apply IH2; exact Hnd].
Qed.

Lemma remove_first_filter f p t : NoDup (map pid t) -> filter f (remove_first p t) = remove_first p (filter f t).
Proof.
  induction t as [|q t IH]; simpl; intros Hnd; [reflexivity|]. inversion Hnd as [|? ? Hni Hnd']; subst.
  destruct (Nat.eqb_spec (pid q) p) as [E|E].
  - destruct (f q); simpl; [rewrite (proj2 (Nat.eqb_eq _ _) E); reflexivity|].
    assert (Hn : forall u, ~ In p (map pid u) -> remove_first p u = u).
    { clear. induction u as [|a u IH]; simpl; intros Hn; [reflexivity|].
      destruct (Nat.eqb_spec (pid a) p); [tauto|]. rewrite IH by tauto. reflexivity. }
    rewrite Hn; [reflexivity|]. intros Hin. apply Hni. rewrite E. clear - Hin.
    apply in_map_iff in Hin. destruct Hin as (x & <- & Hx). apply filter_In in Hx. apply in_map. tauto.
  - simpl. destruct (f q); simpl; rewrite IH by assumption; [|reflexivity].
    destruct (Nat.eqb_spec (pid q) p); [congruence|reflexivity].
Qed.

Lemma sorted_remove p t : StronglySorted le_prio t -> StronglySorted le_prio (remove_first p t).
Proof.
  induction 1 as [|q t Hs IH Hq]; simpl; [constructor|]. destruct (Nat.eqb (pid q) p); [assumption|].
  constructor; [exact IH|]. rewrite Forall_forall in *. intros x Hx. apply Hq.
  clear - Hx. induction t as [|a t IH]; simpl in *; [destruct Hx|]. destruct (Nat.eqb (pid a) p); [auto|].
  destruct Hx; auto.
Qed.

Lemma sorted_app_mid (p : entry) pre post : StronglySorted le_prio (pre ++ post) ->
  Forall (fun q => (prio q <= prio p)%Z) pre -> Forall (fun q => (prio p <= prio q)%Z) post ->
  StronglySorted le_prio (pre ++ p :: post).
Proof.
  intros H H1 H2. induction pre as [|a pre IH]; simpl in *.
  - constructor; assumption.
  - inversion H as [|? ? Hs Ha]; subst. inversion H1 as [|? ? Hap H1']; subst. constructor; [auto|].
    rewrite Forall_app in *. destruct Ha. split; [assumption|]. constructor; [assumption|assumption].
Qed.

Lemma filter_app_mid (f : entry -> bool) p pre post :
  filter f (pre ++ p :: post) = filter f pre ++ (if f p then [p] else []) ++ filter f post.
Proof. rewrite filter_app. simpl. destruct (f p); reflexivity. Qed.

Lemma add_ordered p t log : ordered t log -> ~ In (pid p) (map pid log) -> ordered (add_process p t) (log ++ [p]).
Proof.
  intros (Hnd & Hp & Hk & Hneg & Hs) Hni. unfold add_process.
  assert (Hnd' : NoDup (map pid (log ++ [p]))).
  { rewrite map_app. simpl. apply NoDup_Add with (a := pid p) (l := map pid log).
    - rewrite <- (app_nil_r (map pid log)) at 1. apply Add_app.
    - split; assumption. }
  destruct (Z.ltb_spec (prio p) 0) as [Hlt|Hge].
  - split; [exact Hnd'|]. split; [apply Permutation_app_tail, Hp|].
    split; [|split].
    + intros k H0. rewrite !filter_app, Hk by exact H0. reflexivity.
    + rewrite !filter_app, Hneg. reflexivity.
    + rewrite filter_app. simpl. unfold nonneg at 2. destruct (Z.leb_spec 0 (prio p)); [lia|]. rewrite app_nil_r. exact Hs.
  - destruct (insert_split p t) as (pre & post & -> & -> & Hpre & Hpost).
    assert (Hpost' : Forall (fun q => (prio p < prio q)%Z) (filter nonneg post)).
    { destruct Hpost as [->|(q & post' & -> & Hq)]; [constructor|].
      rewrite filter_app in Hs. simpl in Hs |- *. unfold nonneg at 2 in Hs. unfold nonneg at 1.
      destruct (Z.leb_spec 0 (prio q)); [|lia]. constructor; [exact Hq|].
      assert (Hs2 : StronglySorted le_prio (q :: filter nonneg post')).
      { clear - Hs. induction (filter nonneg pre) as [|a l IH]; [exact Hs|]. simpl in Hs. inversion Hs; subst. auto. }
      inversion Hs2 as [|? ? _ Hall]; subst. eapply Forall_impl; [|exact Hall]. intros a Ha. unfold le_prio in Ha. lia. }
    split; [exact Hnd'|]. split; [|split; [|split]].
    + rewrite <- Permutation_middle, Hp. apply Permutation_cons_append.
    + intros k H0. rewrite filter_app_mid. rewrite filter_app. simpl. rewrite <- Hk by exact H0. rewrite filter_app.
      destruct (has_prio k p) eqn:Ek; simpl; rewrite ?app_nil_r; [|reflexivity].
      assert (Hnil : filter (has_prio k) post = []).
      { unfold has_prio in Ek. apply Z.eqb_eq in Ek. clear - Hpost' Ek H0.
        induction post as [|q post IH]; [reflexivity|]. simpl in *. unfold nonneg in Hpost' at 1.
        destruct (Z.leb_spec 0 (prio q)) as [Hq|Hq].
        - inversion Hpost'; subst. unfold has_prio at 1. destruct (Z.eqb_spec (prio q) (prio p)); [lia|]. auto.
        - unfold has_prio at 1. destruct (Z.eqb_spec (prio q) k); [lia|]. auto. }
      rewrite Hnil, !app_nil_r. reflexivity.
    + rewrite filter_app_mid, filter_app. simpl. rewrite <- Hneg, filter_app.
      assert (En : negative p = false) by (unfold negative; apply Z.ltb_ge; lia). rewrite En. simpl. rewrite app_nil_r. reflexivity.
    + rewrite filter_app_mid. unfold nonneg at 2. destruct (Z.leb_spec 0 (prio p)); [|lia]. simpl.
      apply sorted_app_mid.
      * rewrite <- filter_app. exact Hs.
      * clear - Hpre. induction Hpre as [|a l H _ IH]; simpl; [constructor|]. destruct (nonneg a); auto.
      * eapply Forall_impl; [|exact Hpost']. simpl. intros; lia.
Qed.

Lemma nodup_remove_first p l : NoDup (map pid l) -> NoDup (map pid (remove_first p l)).
Proof.
  induction l as [|q l IH]; simpl; intros Hnd; [constructor|]. inversion Hnd as [|? ? Hni Hnd']; subst.
  destruct (Nat.eqb (pid q) p); [assumption|]. simpl. constructor; [|auto].
  intros Hin. apply Hni. clear - Hin. induction l as [|a l IH]; simpl in *; [destruct Hin|].
  destruct (Nat.eqb (pid a) p); [auto|]. destruct Hin; auto.
Qed.

Lemma run_ordered ops : forall t log, ordered t log -> valid ops log ->
  exists t', table_run ops t = Ok t' /\ ordered t' (history ops log).
Proof.
  induction ops as [|o ops IH]; intros t log H Hv; [exists t; auto|].
  destruct o as [p|p|]; simpl in *.
  - destruct Hv as [Hv1 Hv2]. apply IH; [|exact Hv2]. apply add_ordered; assumption.
  - destruct Hv as [Hv1 Hv2]. pose proof H as (Hnd & Hp & Hk & Hneg & Hs).
    assert (Hin : In p (map pid t)).
    { eapply Permutation_in; [apply Permutation_map; symmetry; exact Hp|exact Hv1]. }
    assert (Hndt : NoDup (map pid t)).
    { eapply Permutation_NoDup; [|exact Hnd]. apply Permutation_map. symmetry. exact Hp. }
    destruct (remove_ok p t Hin) as (b & -> & _). simpl. apply IH; [|exact Hv2].
    split; [apply nodup_remove_first, Hnd|]. split; [apply remove_first_perm; assumption|].
    split; [|split].
    + intros k H0. rewrite !remove_first_filter, Hk by assumption. reflexivity.
    + rewrite !remove_first_filter, Hneg by assumption. reflexivity.
    + rewrite remove_first_filter by assumption. apply sorted_remove, Hs.
  - apply IH; [|exact Hv]. split; [constructor|]. split; [reflexivity|]. repeat split; auto. simpl. constructor.
Qed.

(** * tracking *)
Local Open Scope R_scope.
Section Tr.
Context {W : Type}.
Notation proc := (proc W).
Notation tstep := (tstep W).

Lemma calc_le (ps : list proc) : forall smax w, calc_step ps smax w <= smax.
Proof.
  unfold calc_step. induction ps as [|p ps IH]; intros smax w; simpl; [lra|].
  destruct (active p w); [|apply IH]. eapply Rle_trans; [apply IH|apply Rmin_l].
Qed.
Lemma calc_le_active (ps : list proc) p : forall smax w, In p ps -> active p w = true -> calc_step ps smax w <= max_step p w.
Proof.
  unfold calc_step. induction ps as [|q ps IH]; intros smax w Hin Ha; [destruct Hin|]. simpl. destruct Hin as [->|Hin].
  - rewrite Ha. eapply Rle_trans; [apply calc_le|apply Rmin_r].
  - apply IH; assumption.
Qed.
Lemma calc_attained (ps : list proc) : forall smax w,
  calc_step ps smax w = smax \/ exists p, In p ps /\ active p w = true /\ calc_step ps smax w = max_step p w.
Proof.
  unfold calc_step. induction ps as [|q ps IH]; intros smax w; simpl; [auto|].
  destruct (active q w) eqn:Ea.
  - destruct (IH (Rmin smax (max_step q w)) w) as [E|(p & H1 & H2 & E)].
    + rewrite E. unfold Rmin. destruct (Rle_dec smax (max_step q w)); [auto|]. right. exists q. auto.
    + right. exists p. auto.
  - destruct (IH smax w) as [E|(p & H1 & H2 & E)]; [auto|]. right. exists p. auto.
Qed.


Lemma effect_app (ps : list proc) ds l1 l2 w : effect ps ds (l1 ++ l2) w = effect ps ds l2 (effect ps ds l1 w).
Proof. unfold effect. apply fold_left_app. Qed.

Lemma filter_lt_above i l : Forall (fun k => (i <= k)%nat) l -> filter (fun j => Nat.ltb j i) l = [].
Proof.
  induction 1 as [|k l H _ IH]; simpl; [reflexivity|]. destruct (Nat.ltb_spec k i); [lia|exact IH].
Qed.

(** [all] is the whole table, of which [ps] is the part from [i] on *)
Lemma do_all_run (all ps : list proc) ds : forall i w w' l,
  (forall k, nth_error all (i + k) = nth_error ps k) ->
  do_all ps i ds w = (w', l) ->
  StronglySorted lt l /\ Forall (fun k => (i <= k < i + length ps)%nat) l
  /\ w' = effect all ds l w
  /\ (forall k p, nth_error ps k = Some p ->
        (In (i + k)%nat l <-> active p (effect all ds (filter (fun j => Nat.ltb j (i + k)) l) w) = true)).
Proof.
  induction ps as [|p ps IH]; intros i w w' l Hall E; simpl in E.
  - injection E as <- <-. split; [constructor|]. split; [constructor|]. split; [reflexivity|]. intros [|k] p H; discriminate.
  - pose proof (Hall O) as H0. rewrite Nat.add_0_r in H0. simpl in H0.
    assert (Hall' : forall k, nth_error all (S i + k) = nth_error ps k).
    { intros k. pose proof (Hall (S k)) as Hk. replace (i + S k)%nat with (S i + k)%nat in Hk by lia. exact Hk. }
    destruct (active p w) eqn:Ea.
    + destruct (do_all ps (S i) ds (do_process p ds w)) as [w2 l2] eqn:E2. injection E as <- <-.
      destruct (IH _ _ _ _ Hall' E2) as (H1 & H2 & H3 & H4). split; [|split; [|split]].
      * constructor; [exact H1|]. eapply Forall_impl; [|exact H2]. simpl. intros; lia.
      * constructor; [simpl; lia|]. eapply Forall_impl; [|exact H2]. simpl. intros; lia.
      * unfold effect. simpl. rewrite H0. exact H3.
      * intros [|k] q Hk.
        -- simpl in Hk. injection Hk as <-. split; [|intros _; left; lia]. intros _. rewrite Nat.add_0_r.
           rewrite filter_lt_above; [exact Ea|]. constructor; [lia|]. eapply Forall_impl; [|exact H2]. simpl. intros; lia.
        -- simpl in Hk. specialize (H4 k q Hk). replace (i + S k)%nat with (S i + k)%nat by lia.
           cbn [filter In]. destruct (Nat.ltb_spec i (S i + k)); [|lia]. unfold effect at 1. cbn [fold_left]. rewrite H0.
           fold (effect all ds (filter (fun j => Nat.ltb j (S i + k)) l2) (do_process p ds w)). rewrite <- H4.
           split; [intros [?|?]; [lia|assumption]|auto].
    + destruct (IH _ _ _ _ Hall' E) as (H1 & H2 & H3 & H4). split; [exact H1|]. split; [|split; [exact H3|]].
      * eapply Forall_impl; [|exact H2]. simpl. intros; lia.
      * intros [|k] q Hk.
        -- simpl in Hk. injection Hk as <-. rewrite Nat.add_0_r. rewrite filter_lt_above;
             [|eapply Forall_impl; [|exact H2]; simpl; intros; lia]. unfold effect. simpl. rewrite Ea. split; [|discriminate].
           intros Hin. rewrite Forall_forall in H2. apply H2 in Hin. lia.
        -- replace (i + S k)%nat with (S i + k)%nat by lia. apply H4. exact Hk.
Qed.

Lemma chained_total (ps : list proc) rs : forall s w e w', chained ps s w rs e w' -> e = s + total_step rs.
Proof.
  induction rs as [|r rs IH]; intros s w e w'; simpl; [intros [? _]; lra|]. intros (_ & _ & H). apply IH in H. unfold total_step in *. lra.
Qed.

Lemma loop_spec ps sc : forall fuel s w w' rs, loop fuel ps sc s w = Some (w', rs) ->
  Forall (step_ok ps sc) rs /\ rs <> [] /\
  exists e, chained ps s w rs e w' /\ Rabs (sc - e) <= eps /\ e <= sc
  /\ Forall (fun r : tstep => st_s r = s \/ eps < Rabs (sc - st_s r)) rs.
Proof.
  induction fuel as [|fuel IH]; intros s w w' rs E; [discriminate|]. cbn [loop] in E.
  destruct (do_all ps 0 (calc_step ps (sc - s) w) w) as [w1 l] eqn:Ed.
  set (r := mkStep w s (calc_step ps (sc - s) w) l) in *.
  destruct (do_all_run ps ps _ 0%nat _ _ _ (fun k => eq_refl) Ed) as (H1 & H2 & H3 & H4).
  assert (Hr : step_ok ps sc r).
  { unfold r. constructor; simpl.
    - apply calc_le.
    - intros; apply calc_le_active; assumption.
    - apply calc_attained.
    - exact H1.
    - intros k. split.
      + intros Hin. rewrite Forall_forall in H2. pose proof (H2 k Hin) as Hk. simpl in Hk.
        destruct (nth_error ps k) as [p|] eqn:Ep; [|apply nth_error_None in Ep; lia].
        exists p. split; [reflexivity|]. apply (H4 k p Ep). exact Hin.
      + intros (p & Ep & Ha). apply (H4 k p Ep). exact Ha. }
  destruct (fequal_spec sc (s + calc_step ps (sc - s) w)) as [Hf|Hf].
  - injection E as <- <-. split; [auto|]. split; [discriminate|]. eexists.
    split; [split; [reflexivity|]; split; [reflexivity|]; split; [reflexivity|symmetry; exact H3]|].
    split; [exact Hf|]. split; [pose proof (calc_le ps (sc - s) w); simpl; lra|]. constructor; [left; reflexivity|constructor].
  - destruct (loop fuel ps sc (s + calc_step ps (sc - s) w) w1) as [[w2 rs2]|] eqn:El; [|discriminate].
    injection E as <- <-. destruct (IH _ _ _ _ El) as (G1 & G2 & e & He & Hee & Hle & Hp).
    split; [auto|]. split; [discriminate|]. exists e. split.
    { split; [reflexivity|]. split; [reflexivity|]. simpl st_ds. simpl st_run. rewrite <- H3. exact He. }
    split; [exact Hee|]. split; [exact Hle|]. constructor; [left; reflexivity|].
    rewrite Forall_forall in *. intros q Hq. right. destruct (Hp q Hq) as [->|]; [|assumption]. lra.
Qed.

Lemma loop_terminates (ps : list proc) sc delta : 0 < delta ->
  (forall p w, In p ps -> active p w = true -> delta <= max_step p w) ->
  forall n s w, s <= sc -> sc - s <= INR n * delta -> exists w' rs, loop (S n) ps sc s w = Some (w', rs).
Proof.
  intros Hd Hmin. induction n as [|n IH]; intros s w Hs Hn.
  - cbn [loop]. destruct (do_all ps 0 (calc_step ps (sc - s) w) w) as [w1 l].
    simpl INR in Hn. assert (E : sc - s = 0) by lra.
    assert (Hc : calc_step ps (sc - s) w = 0).
    { destruct (calc_attained ps (sc - s) w) as [Ec|(p & H1 & H2 & Ec)]; [lra|].
      pose proof (Hmin p w H1 H2). pose proof (calc_le ps (sc - s) w). lra. }
    rewrite Hc. replace (s + 0) with sc by lra. rewrite fequal_refl. eauto.
  - cbn [loop]. destruct (do_all ps 0 (calc_step ps (sc - s) w) w) as [w1 l].
    destruct (fequal sc (s + calc_step ps (sc - s) w)); [eauto|].
    pose proof (calc_le ps (sc - s) w) as Hle.
    assert (Hc : sc - (s + calc_step ps (sc - s) w) <= INR n * delta).
    { destruct (calc_attained ps (sc - s) w) as [->|(p & H1 & H2 & ->)].
      - replace (sc - (s + (sc - s))) with 0 by lra. apply Rmult_le_pos; [apply pos_INR|lra].
      - pose proof (Hmin p w H1 H2). rewrite S_INR in Hn. lra. }
    destruct (IH (s + calc_step ps (sc - s) w) w1 ltac:(lra) Hc) as (w' & rs & El).
    cbn [loop] in El. rewrite El. eauto.
Qed.

Lemma loop_fuel (ps : list proc) sc : forall n m s w x, loop n ps sc s w = Some x -> (n <= m)%nat -> loop m ps sc s w = Some x.
Proof.
  induction n as [|n IH]; intros m s w x E Hm; [discriminate|]. destruct m as [|m]; [lia|].
  cbn [loop] in *. destruct (do_all ps 0 (calc_step ps (sc - s) w) w) as [w1 l].
  destruct (fequal sc (s + calc_step ps (sc - s) w)); [exact E|].
  destruct (loop n ps sc (s + calc_step ps (sc - s) w) w1) as [x'|] eqn:El; [|discriminate].
  rewrite (IH m _ _ _ El ltac:(lia)). exact E.
Qed.

(** * Track *)
Lemma enter_ok (ps : list proc) w : enter ps w = entered ps w.
Proof. unfold enter, entered. symmetry. rewrite <- fold_left_rev_right. reflexivity. Qed.

Lemma track_ok (ps : list proc) sc delta total w : allows delta ps -> 0 <= sc ->
  exists n w' rs, (forall fuel, (n <= fuel)%nat -> track fuel ps sc total w = Some (w', rs, total + sc)).
Proof.
  intros [Hd Ha] Hsc. destruct (archimed_cor1 (delta / (sc + 1))) as (N & HN & HN0).
  { apply Rmult_lt_0_compat; [exact Hd|]. apply Rinv_0_lt_compat. lra. }
  assert (Hn : sc - 0 <= INR N * delta).
  { assert (0 < INR N) by (apply lt_0_INR; lia). assert (H1 : 1 < INR N * (delta / (sc + 1))).
    { apply Rmult_lt_reg_l with (/ INR N); [apply Rinv_0_lt_compat; assumption|].
      rewrite <- Rmult_assoc, Rinv_l, Rmult_1_l, Rmult_1_r by lra. exact HN. }
    assert (H2 : (sc + 1) * 1 < (sc + 1) * (INR N * (delta / (sc + 1)))) by (apply Rmult_lt_compat_l; lra).
    replace ((sc + 1) * (INR N * (delta / (sc + 1)))) with (INR N * delta) in H2 by (field; lra). lra. }
  destruct (loop_terminates ps sc delta Hd Ha N 0 (enter ps w) Hsc Hn) as (w' & rs & E).
  exists (S N), w', rs. intros fuel Hf. unfold track. rewrite (loop_fuel _ _ _ _ _ _ _ E Hf). reflexivity.
Qed.

Lemma track_steps (ps : list proc) sc delta total w fuel w' rs t' : allows delta ps -> 0 <= sc ->
  track fuel ps sc total w = Some (w', rs, t') ->
  t' = total + sc
  /\ Forall (step_ok ps sc) rs
  /\ (exists e, chained ps 0 (entered ps w) rs e w' /\ sc - eps <= e <= sc)
  /\ sc - eps <= total_step rs <= sc
  /\ (0 < sc -> Forall (fun r => 0 < st_ds r) rs)
  /\ (sc = 0 -> exists r, rs = [r] /\ st_ds r = 0).
Proof.
  intros [Hd Ha] Hsc E. unfold track in E. destruct (loop fuel ps sc 0 (enter ps w)) as [[w2 rs2]|] eqn:El; [|discriminate].
  injection E as <- <- <-. destruct (loop_spec _ _ _ _ _ _ _ El) as (H1 & H2 & e & He & Hee & Hle & Hp).
  pose proof eps_pos as Hep.
  assert (Hb : sc - eps <= e <= sc).
  { split; [|exact Hle]. revert Hee. unfold Rabs. destruct (Rcase_abs (sc - e)); lra. }
  assert (Htot : e = total_step rs2) by (rewrite (chained_total _ _ _ _ _ _ He) at 1; lra).
  split; [reflexivity|]. split; [exact H1|]. split; [rewrite <- enter_ok; eauto|]. split; [lra|].
  assert (Hnn : forall s v rs e', chained ps s v rs e' w2 -> s <= sc -> Forall (step_ok ps sc) rs -> Forall (fun r : tstep => st_s r <= sc) rs).
  { intros s v q. revert s v. induction q as [|r q IH]; intros s v e' Hc Hs Hf; [constructor|].
    simpl in Hc. destruct Hc as (G1 & G2 & G3). inversion Hf as [|? ? Hr Hf']; subst. constructor; [lra|].
    eapply IH; [exact G3| |exact Hf']. pose proof (so_fits _ _ _ Hr). lra. }
  pose proof (Hnn 0 _ _ _ He Hsc H1) as Hs.
  split.
  - intros Hpos. rewrite Forall_forall in *. intros r Hr. destruct (so_largest _ _ _ (H1 r Hr)) as [Er|(p & P1 & P2 & Er)].
    + rewrite Er. pose proof (Hs r Hr). destruct (Hp r Hr) as [->|Hx]; [lra|]. revert Hx. unfold Rabs. destruct (Rcase_abs (sc - st_s r)); lra.
    + rewrite Er. pose proof (Ha p (st_w r) P1 P2). lra.
  - intros ->. destruct rs2 as [|r rs2]; [congruence|].
    simpl in He. destruct He as (G1 & G2 & G3). inversion H1 as [|? ? Hr Hf]; subst.
    assert (Hds : st_ds r = 0).
    { pose proof (so_fits _ _ _ Hr). destruct (so_largest _ _ _ Hr) as [Er|(p & P1 & P2 & Er)]; [lra|].
      pose proof (Ha p (st_w r) P1 P2). lra. }
    exists r. split; [|exact Hds]. f_equal. destruct rs2 as [|r2 rs2]; [reflexivity|]. exfalso.
    destruct fuel as [|fuel]; [discriminate|]. cbn [loop] in El.
    destruct (do_all ps 0 (calc_step ps (0 - 0) (enter ps w)) (enter ps w)) as [w1 l].
    destruct (fequal_spec 0 (0 + calc_step ps (0 - 0) (enter ps w))) as [Hf1|Hf1]; [injection El; discriminate|].
    destruct (loop fuel ps 0 (0 + calc_step ps (0 - 0) (enter ps w)) w1) as [[w3 rs3]|]; [|discriminate].
    injection El as <- <- _. simpl in Hds. apply Hf1. rewrite Hds. rewrite Rplus_0_r, Rminus_0_r, Rabs_R0. lra.
Qed.

Lemma track_all_total fuel : forall (cs : list (list proc * R)) total w w' t', track_all fuel cs total w = Some (w', t') ->
  t' = total + fold_right (fun c a => snd c + a) 0 cs.
Proof.
  induction cs as [|[ps sc] cs IH]; intros total w w' t' E; simpl in *; [injection E as <- <-; lra|].
  unfold track in E. destruct (loop fuel ps sc 0 (enter ps w)) as [[w2 rs]|]; [|discriminate].
  apply IH in E. lra.
Qed.
End Tr.
