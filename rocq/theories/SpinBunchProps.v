(* Spin tracking in the step manager, and particles with their spins: C273-C278. *)
From Verif Require Import Rot RotSpec RotProofs Spin SpinSpec SpinProofs SpinProps SpinEdgeProps.
From Verif Require Process.
From Coq Require Import ZArith Permutation Sorted.
Local Open Scope R_scope.

(* The process in the table of the step manager, among others that do not touch it;
   [big] stands for an infinite step, [g] is what a step does to the rest of the world. *)
Definition as_proc {Y} (big : R) (g : R -> sproc -> Y -> Y) (m : magnet) (f : option (R -> R -> vec3)) (len : R) : Process.proc (sproc * Y) :=
  Process.mkP (fun w => act (fst w))
    (fun w => match allowed (fst w) with Some d => d | None => big end)
    (fun w => (enter_component m f len true (fst w), snd w))
    (fun ds w => (moved ds (fst w), g ds (fst w) (snd w))).
Definition beside {Y} (q : Process.proc Y) : Process.proc (sproc * Y) :=
  Process.mkP (fun w => Process.active q (snd w)) (fun w => Process.max_step q (snd w))
    (fun w => (fst w, Process.set_component q (snd w))) (fun ds w => (fst w, Process.do_process q ds (snd w))).

Section Track.
Context {Y : Type}.
Variables (big : R) (g : R -> sproc -> Y -> Y) (m : magnet) (f : option (R -> R -> vec3)) (len : R) (q1 q2 : list (Process.proc Y)).
Let sp := as_proc big g m f len.
Let table := map beside q1 ++ sp :: map beside q2.

Lemma enter_beside q (w : sproc * Y) : fst (Process.enter (map beside q) w) = fst w.
Proof. revert w. induction q as [|p q IH]; intros w; [reflexivity|]. cbn [map]. unfold Process.enter in *. cbn [fold_left]. rewrite IH. reflexivity. Qed.
Lemma do_beside q i ds (w : sproc * Y) : fst (fst (Process.do_all (map beside q) i ds w)) = fst w.
Proof.
  revert i w. induction q as [|p q IH]; intros i w; [reflexivity|]. cbn [map Process.do_all]. destruct (Process.active (beside p) w); [|apply IH].
  specialize (IH (S i) (Process.do_process (beside p) ds w)). destruct (Process.do_all (map beside q) (S i) ds (Process.do_process (beside p) ds w)) as [w' l]. cbn [fst] in *. rewrite IH. reflexivity.
Qed.
Lemma do_app q r i ds (w : sproc * Y) : fst (Process.do_all (q ++ r) i ds w) = fst (Process.do_all r (i + length q) ds (fst (Process.do_all q i ds w))).
Proof.
  revert i w. induction q as [|p q IH]; intros i w; cbn [app Process.do_all length].
  - rewrite Nat.add_0_r. reflexivity.
  - destruct (Process.active p w).
    + specialize (IH (S i) (Process.do_process p ds w)). destruct (Process.do_all (q ++ r) (S i) ds (Process.do_process p ds w)) as [w' l] eqn:A. destruct (Process.do_all q (S i) ds (Process.do_process p ds w)) as [w2 l2] eqn:B. cbn [fst] in *. rewrite IH. f_equal. f_equal. lia.
    + rewrite IH. f_equal. f_equal. lia.
Qed.
Lemma calc_below ps smax (w : sproc * Y) : Process.calc_step ps smax w <= smax.
Proof.
  revert smax. induction ps as [|p ps IH]; intros smax; [apply Rle_refl|]. cbn [Process.calc_step fold_left]. fold (@Process.calc_step (sproc * Y)). unfold Process.calc_step in *.
  eapply Rle_trans; [apply IH|]. destruct (Process.active p w); [apply Rmin_l | apply Rle_refl].
Qed.
Lemma calc_spin smax (w : sproc * Y) d : act (fst w) = true -> allowed (fst w) = Some d -> Process.calc_step table smax w <= d.
Proof.
  intros A D. unfold table, Process.calc_step. rewrite fold_left_app. cbn [fold_left]. eapply Rle_trans; [apply calc_below|]. cbn [sp as_proc Process.active Process.max_step]. rewrite A, D. apply Rmin_r.
Qed.
Lemma step_spin ds (w : sproc * Y) : act (fst w) = true -> fst (fst (Process.do_all table 0 ds w)) = moved ds (fst w).
Proof.
  intros A. unfold table. rewrite do_app. set (w1 := fst (Process.do_all (map beside q1) 0 ds w)). assert (W1 : fst w1 = fst w) by apply do_beside.
  cbn [Process.do_all]. cbn [sp as_proc Process.active]. rewrite W1, A.
  match goal with |- context [Process.do_all (map beside q2) ?i ?d ?u] => pose proof (do_beside q2 i d u) as H; destruct (Process.do_all (map beside q2) i d u) as [w2 l] end. cbn [fst] in *. rewrite H. cbn [sp as_proc Process.do_process fst]. now rewrite W1.
Qed.
Lemma enter_table (w : sproc * Y) : fst (Process.enter table w) = enter_component m f len true (fst w).
Proof.
  unfold table, Process.enter. rewrite fold_left_app. cbn [fold_left]. pose proof (enter_beside q2) as E2. unfold Process.enter in E2. rewrite E2. cbn [sp as_proc Process.set_component fst].
  pose proof (enter_beside q1) as E1. unfold Process.enter in E1. rewrite E1. reflexivity.
Qed.
Lemma stuck fuel d (w : sproc * Y) s : act (fst w) = true -> nk1 (fst w) = 0%Z -> dL (fst w) = Some d -> intS (fst w) = s -> d < len - eps -> Process.loop fuel table len s w = None.
Proof.
  revert w s. induction fuel as [|fuel IH]; intros w s A N D I H; [reflexivity|]. cbn [Process.loop].
  pose proof (calc_spin (len - s) w (IZR (0 + 1) * d - s) A) as C. unfold allowed in C. rewrite D, N, I in C. specialize (C eq_refl). set (ds := Process.calc_step table (len - s) w) in *.
  pose proof (step_spin ds w A) as S. destruct (Process.do_all table 0 ds w) as [w1 l]. cbn [fst] in S.
  assert (B : s + ds <= d) by (cbn in C; lra).
  assert (F : RBase.fequal len (s + ds) = false) by (destruct (fequal_spec len (s + ds)) as [X|X]; [|reflexivity]; rewrite Rabs_pos_eq in X by (pose proof eps_pos; lra); lra). rewrite F.
  rewrite (IH w1 (s + ds)); [reflexivity | now rewrite S | now rewrite S | now rewrite S | rewrite S; cbn; now rewrite I | exact H].
Qed.
End Track.

(* C273: with SetNumComponentSteps(n), n steps are taken through a component.  Not so:
   for n > 1 tracking never leaves the component. *)
Theorem C273_refuted Y big (g : R -> sproc -> Y -> Y) m f len q1 q2 fuel n total st y : (1 < n)%Z -> eps < len * (1 - / IZR n) ->
  Process.track fuel (map beside q1 ++ as_proc big g m (Some f) len :: map beside q2) len total (set_steps n st, y) = None.
Proof.
  intros N E. unfold Process.track. rewrite (stuck big g m (Some f) len q1 q2 fuel (len / IZR n)); [reflexivity| | | | |]; try (rewrite enter_table; reflexivity).
  - rewrite enter_table. cbn [fst enter_component dL ns set_steps]. destruct (Z.eqb_spec n 0); [lia|reflexivity].
  - unfold Rdiv. lra.
Qed.
Print Assumptions C273_refuted.
Example C273_ex : (1 < 2)%Z /\ eps < 1 * (1 - / 2).
Proof. split; [lia|]. pose proof eps_small. lra. Qed.

(* C274: with n = 1, the default, the process never shortens a step: all that is left of
   the component is allowed, wherever it stands; n = 0 sets no limit. *)
Theorem C274_one m f len st ds : ns st = 1%Z -> allowed (fold_left (fun x d => moved d x) ds (enter_component m f len true st)) = Some (len - fold_left Rplus ds 0).
Proof.
  intros N. assert (G : forall ds x, allowed (fold_left (fun x d => moved d x) ds x) = match allowed x with Some a => Some (a + intS x - fold_left Rplus ds (intS x)) | None => None end).
  { clear. induction ds as [|d ds IH]; intros x; cbn [fold_left].
    - destruct (allowed x); [f_equal; ring | reflexivity].
    - rewrite IH. unfold allowed. cbn [moved dL nk1 intS]. destruct (dL x); [f_equal; ring | reflexivity]. }
  rewrite G. unfold allowed. cbn [enter_component dL nk1 intS]. rewrite N. cbn. f_equal. field.
Qed.
Print Assumptions C274_one.
Theorem C274_zero m f len st : ns st = 0%Z -> forall ds, allowed (fold_left (fun x d => moved d x) ds (enter_component m f len true st)) = None.
Proof.
  intros N ds. assert (G : dL (fold_left (fun x d => moved d x) ds (enter_component m f len true st)) = None); [|unfold allowed; now rewrite G].
  assert (H : dL (enter_component m f len true st) = None) by (cbn; now rewrite N). revert H. generalize (enter_component m f len true st). induction ds as [|d ds IH]; intros x H; [exact H|]. cbn [fold_left]. apply IH. exact H.
Qed.
Print Assumptions C274_zero.
(* it is at work exactly where there is a field and the bunch has spins, and it counts the
   path from the beginning of the component *)
Theorem C274_enter m f len spin st : let st' := enter_component m f len spin st in
  (act st' = true <-> f <> None /\ spin = true) /\ intS st' = 0 /\ clength st' = len /\ mag st' = m /\ fld st' = f /\ ns st' = ns st /\ pspin st' = pspin st.
Proof. cbn. split; [|repeat split]. destruct f, spin; split; intros H; try discriminate; try tauto; try (split; congruence). Qed.
Print Assumptions C274_enter.
Theorem C274_alone Y big (g : R -> sproc -> Y -> Y) m f len total st y fuel : ns st = 1%Z -> 
  exists r, Process.track (S fuel) [as_proc big g m (Some f) len] len total (st, y) = Some ((moved len (enter_component m (Some f) len true st), g len (enter_component m (Some f) len true st) y), [r], total + len) /\ Process.st_ds r = len.
Proof.
  intros N. set (st0 := enter_component m (Some f) len true st). set (sp := as_proc big g m (Some f) len).
  assert (MS : Process.max_step sp (st0, y) = len) by (cbn [sp as_proc Process.max_step fst]; unfold allowed; cbn [st0 enter_component dL nk1 intS]; rewrite N; cbn [Z.eqb]; cbn; field).
  assert (CS : Process.calc_step [sp] (len - 0) (st0, y) = len) by (unfold Process.calc_step; cbn [fold_left]; change (Process.active sp (st0, y)) with true; cbn match; rewrite MS; apply Rmin_right; lra).
  assert (EN : Process.enter [sp] (st, y) = (st0, y)) by reflexivity.
  unfold Process.track. rewrite EN. cbn [Process.loop]. rewrite CS. cbn [Process.do_all]. change (Process.active sp (st0, y)) with true. cbn match. cbn [sp as_proc Process.do_process fst snd].
  rewrite Rplus_0_l, fequal_refl. eexists. split; reflexivity.
Qed.
Print Assumptions C274_alone.
Example C274_ex : ns (new_sproc 1) = 1%Z /\ ns (set_steps 0 (new_sproc 1)) = 0%Z.
Proof. split; reflexivity. Qed.

(* C275: every particle keeps its own spin under everything but sorting and the exchange of
   the particles. *)
Definition pairs (b : sbunch) : list (part * vec3) := combine (sparts b) (spins b).
Definition matched (b : sbunch) : Prop := length (spins b) = length (sparts b).
Definition pairwise (o : sop) (st : sproc) (P0 : R) (l l' : list (part * vec3)) : Prop :=
  match o with
  | OAdd p => l' = l ++ [(p, mkv 0 0 1)]
  | OAddSpin p s => l' = l ++ [(p, s)]
  | OErase n => (n < length l)%nat /\ l' = remove_at n l
  | OTransform t => l' = map (fun q => (if tr_is_identity t then fst q else ps_apply t (fst q), rotate (rr t) (snd q))) l
  | OStep ds => Forall2 (fun q q' => fst q' = fst q /\ forall f, fld st = Some f -> P0 <> 0 -> 1 + psdp (fst q) <> 0 -> stepped st f P0 ds (fst q) (snd q) (snd q')) l l'
  | OSort | OReplace _ => True
  | _ => l' = l
  end.
Definition keeps_pairs (o : sop) : Prop := match o with OSort | OReplace _ => False | OTransform t => exists e, rr t = rrun e | _ => True end.
Lemma remove_nth_eq {A} n (l : list A) : remove_nth n l = if Nat.ltb n (length l) then Some (remove_at n l) else None.
Proof.
  revert n. induction l as [|x l IH]; intros n; cbn [remove_nth length]; [reflexivity|]. destruct n as [|n]; [reflexivity|]. rewrite IH. change (Nat.ltb (S n) (S (length l))) with (Nat.ltb n (length l)). destruct (Nat.ltb n (length l)); reflexivity.
Qed.
Lemma combine_remove {A B} n (l : list A) (m : list B) : combine (remove_at n l) (remove_at n m) = remove_at n (combine l m) \/ length l <> length m.
Proof.
  revert n m. induction l as [|x l IH]; intros n [|y m]; try (right; discriminate).
  - left. unfold remove_at. destruct n; reflexivity.
  - destruct n as [|n]; [left; reflexivity|]. destruct (IH n m) as [E|E]; [left | right; cbn; congruence]. unfold remove_at in *. cbn [firstn skipn app combine]. cbn [skipn] in E. f_equal. exact E.
Qed.
Lemma remove_at_length {A} n (l : list A) : (n < length l)%nat -> S (length (remove_at n l)) = length l.
Proof. intros H. unfold remove_at. rewrite app_length, firstn_length, skipn_length. lia. Qed.
Lemma combine_app {A B} (l : list A) (m : list B) x y : length l = length m -> combine (l ++ [x]) (m ++ [y]) = combine l m ++ [(x, y)].
Proof. revert m. induction l as [|a l IH]; intros [|b m] H; try discriminate; cbn; [reflexivity|]. f_equal. apply IH. now injection H. Qed.
Lemma combine_maps {A B C D} (u : A -> C) (v : B -> D) l m : combine (map u l) (map v m) = map (fun q => (u (fst q), v (snd q))) (combine l m).
Proof. revert m. induction l as [|a l IH]; intros [|b m]; cbn; [reflexivity..|]. f_equal. apply IH. Qed.
Theorem C275_pairs o st b st' b' : keeps_pairs o -> matched b -> sop_step o (st, b) = Ok (st', b') -> matched b' /\ pairwise o st (sP0 b) (pairs b) (pairs b').
Proof.
  unfold matched, pairs. intros K M E. destruct o as [p|p s|n| |l|t|n|p|mg fl len|ds]; cbn [sop_step pairwise keeps_pairs] in *; try contradiction.
  - injection E as <- <-. cbn [sb_add sb_add_spin sparts spins]. split; [rewrite !app_length, M; reflexivity|]. apply combine_app. now symmetry.
  - injection E as <- <-. cbn [sb_add_spin sparts spins]. split; [rewrite !app_length, M; reflexivity|]. apply combine_app. now symmetry.
  - unfold sb_erase in E. rewrite !remove_nth_eq, M in E. destruct (Nat.ltb_spec n (length (sparts b))) as [L|L]; [|discriminate]. cbn [bind] in E. injection E as <- <-. cbn [sparts spins].
    split; [apply Nat.succ_inj; rewrite !remove_at_length; lia|]. split; [rewrite combine_length; lia|]. destruct (combine_remove n (sparts b) (spins b)) as [Q|Q]; [exact Q | lia].
  - injection E as <- <-. cbn [sb_transform sparts spins]. destruct K as [e He]. 
    assert (SP : (if ris_identity (rr t) then spins b else map (rotate (rr t)) (spins b)) = map (rotate (rr t)) (spins b)).
    { destruct (ris_identity (rr t)) eqn:I; [|reflexivity]. rewrite <- (map_id (spins b)) at 1. apply map_ext. intros s. symmetry. apply is_identity_moves_nothing; [rewrite He; apply wf_run | exact I]. }
    rewrite SP. assert (PP : (if tr_is_identity t then sparts b else ps_apply_all t (sparts b)) = map (fun p => if tr_is_identity t then p else ps_apply t p) (sparts b)) by (destruct (tr_is_identity t); [now rewrite map_id | reflexivity]).
    rewrite PP. split; [now rewrite !map_length | exact (combine_maps (fun p : part => if tr_is_identity t then p else ps_apply t p) (rotate (rr t)) (sparts b) (spins b))].
  - injection E as <- <-. auto.
  - injection E as <- <-. auto.
  - injection E as <- <-. auto.
  - unfold spin_step in E. destruct (fld st) as [f|] eqn:F.
    + destruct (spin_all _ _ _) as [rs|e|] eqn:Q; try discriminate. cbn [bind] in E. injection E as <- <-. cbn [sparts spins]. 
      destruct (spin_all_nth _ _ _ _ Q) as (LR & _). split; [lia|]. clear LR. revert Q M. generalize (spins b). revert rs. induction (sparts b) as [|p l IH]; intros rs ss Q M; [constructor|].
      destruct ss as [|s ss]; [discriminate|]. cbn [spin_all] in Q. destruct (spin_all _ l ss) as [r|e|] eqn:Q2; try discriminate. cbn [bind] in Q. destruct (one_spin st f (sP0 b) ds p s) as [s'|] eqn:O; [|discriminate]. injection Q as <-.
      cbn [combine]. constructor; [|apply (IH _ _ Q2); now injection M]. cbn [fst snd]. split; [reflexivity|]. intros f0 F0 N D. injection F0 as <-. now apply one_spin_stepped.
    + destruct (sparts b) eqn:PB; [|discriminate]. injection E as <- <-. rewrite PB. split; [exact M|]. cbn. constructor.
Qed.
Print Assumptions C275_pairs.
Theorem C275_run ops : Forall keeps_pairs ops -> forall st b st' b', matched b -> sop_run ops (st, b) = Ok (st', b') -> matched b'.
Proof.
  induction 1 as [|o ops K _ IH]; intros st b st' b' M E; cbn [sop_run] in E; [now injection E as <- <-|].
  destruct (sop_step o (st, b)) as [[st1 b1]|e|] eqn:Q; try discriminate. cbn [bind] in E. destruct (C275_pairs _ _ _ _ _ K M Q) as [M1 _]. exact (IH _ _ _ _ M1 E).
Qed.
Print Assumptions C275_run.
(* erasing what is not there is undefined *)
Theorem C275_erase_end n b : (length (sparts b) <= n)%nat -> sb_erase n b = UB.
Proof. intros H. unfold sb_erase. rewrite !remove_nth_eq. destruct (Nat.ltb_spec n (length (sparts b))); [lia|reflexivity]. Qed.
Print Assumptions C275_erase_end.
Example C275_ex : exists st' b', sop_run [OAdd (at_place 1 0 0); OAddSpin (at_place 2 0 0) (mkv 1 0 0); OErase 0] (new_sproc 1, mkSB 5 [] []) = Ok (st', b') /\ pairs b' = [(at_place 2 0 0, mkv 1 0 0)].
Proof. eexists _, _. split; reflexivity. Qed.

(* C276: sorting by ct takes the spins along.  Not so. *)
Lemma insert_perm p l : Permutation (insert_ct p l) (p :: l).
Proof. induction l as [|q l IH]; cbn; [reflexivity|]. destruct (Rltb (psct q) (psct p)); [|reflexivity]. rewrite IH. apply perm_swap. Qed.
Lemma sort_perm l : Permutation (sort_ct l) l.
Proof. induction l as [|p l IH]; cbn; [reflexivity|]. rewrite insert_perm. now apply perm_skip. Qed.
Lemma insert_sorted p l : StronglySorted (fun a c : part => psct a <= psct c) l -> StronglySorted (fun a c : part => psct a <= psct c) (insert_ct p l).
Proof.
  induction 1 as [|q l S IH F]; cbn; [repeat constructor|]. destruct (Rltb_spec (psct q) (psct p)) as [H|H].
  - constructor; [exact IH|]. rewrite insert_perm. constructor; [lra | exact F].
  - constructor; [constructor; assumption|]. constructor; [lra|]. eapply Forall_impl; [|exact F]. cbv beta. intros. lra.
Qed.
Theorem C276_sorted b : Permutation (sparts (sb_sort b)) (sparts b) /\ StronglySorted (fun a c : part => psct a <= psct c) (sparts (sb_sort b)) /\ spins (sb_sort b) = spins b /\ sP0 (sb_sort b) = sP0 b.
Proof. cbn. split; [apply sort_perm|]. split; [|split; reflexivity]. induction (sparts b) as [|p l IH]; cbn; [constructor | now apply insert_sorted]. Qed.
Print Assumptions C276_sorted.
Theorem C276_refuted P p1 p2 s1 s2 : psct p2 < psct p1 -> s1 <> s2 -> let b := mkSB P [p1; p2] [s1; s2] in
  pairs (sb_sort b) = [(p2, s1); (p1, s2)] /\ ~ In (p1, s1) (pairs (sb_sort b)) /\ ~ In (p2, s2) (pairs (sb_sort b)).
Proof.
  intros H N. cbv zeta. unfold pairs. cbn [sb_sort sparts spins sort_ct insert_ct]. rewrite Rltb_true by exact H. cbn. split; [reflexivity|].
  assert (PN : p1 <> p2) by (intros ->; lra). split; intros [E|[E|[]]]; injection E; intros; congruence.
Qed.
Print Assumptions C276_refuted.
Example C276_ex : psct (at_place 1 0 0) < psct (mkps 0 0 0 0 1 0 0%nat) /\ mkv 0 0 1 <> mkv 1 0 0.
Proof. split; [cbn; lra|]. intros E. injection E. lra. Qed.

(* C277: particles that are lost take their spins with them.  Not so when the collimation
   exchanges the particles: the spins close up, new particles get old spins, and with more
   particles than spins the process reads beyond the end. *)
Theorem C277_refuted b l p s : matched b -> (length l < length (sparts b))%nat ->
  nth_error (pairs (sb_add_spin p s (sb_replace l b))) (length l) = match nth_error (spins b) (length l) with Some u => Some (p, u) | None => None end.
Proof.
  unfold matched, pairs. cbn [sb_add_spin sb_replace sparts spins]. intros M L. assert (Q : (length l < length (spins b))%nat) by lia. clear M L. revert Q. generalize (spins b). induction l as [|q l IH]; intros ss Q.
  - destruct ss as [|u ss]; [cbn in Q; lia|]. reflexivity.
  - destruct ss as [|u ss]; [cbn in Q; lia|]. cbn [app combine length nth_error]. apply IH. cbn in Q. lia.
Qed.
Print Assumptions C277_refuted.
Theorem C277_closes_up b p l i q u s : sparts b = p :: l -> nth_error (pairs b) i = Some (u, s) -> nth_error l i = Some q -> nth_error (pairs (sb_replace l b)) i = Some (q, s).
Proof.
  unfold pairs. cbn [sb_replace sparts spins]. intros ->. generalize (spins b). revert p i. induction l as [|x l IH]; intros p i ss A B; [destruct i; discriminate|].
  destruct ss as [|s0 ss]; [destruct i; discriminate|]. destruct i as [|i]; cbn [combine nth_error] in *; [congruence|]. exact (IH x i ss A B).
Qed.
Print Assumptions C277_closes_up.
Theorem C277_undefined b l st f ds : (length (spins b) < length l)%nat -> fld st = Some f -> spin_step ds (st, sb_replace l b) = UB.
Proof.
  intros L F. unfold spin_step. rewrite F. cbn [sb_replace sP0 sparts spins]. assert (G : forall g ss, (length ss < length l)%nat -> spin_all g l ss = UB).
  { clear. induction l as [|p l IH]; intros g ss H; [cbn in H; lia|]. destruct ss as [|s ss]; [reflexivity|]. cbn [spin_all]. rewrite IH by (cbn in H; lia). reflexivity. }
  rewrite G by exact L. reflexivity.
Qed.
Print Assumptions C277_undefined.
Example C277_ex : let b := mkSB 5 [at_place 1 0 0; at_place 2 0 0] [mkv 0 0 1; mkv 1 0 0] in matched b /\ pairs (sb_replace [at_place 2 0 0] b) = [(at_place 2 0 0, mkv 0 0 1)].
Proof. cbv zeta. split; reflexivity. Qed.

(* C278: the average spin is the mean; its length is at most that of the longest. *)
Fixpoint sum_of (c : vec3 -> R) (l : list vec3) : R := match l with [] => 0 | s :: l' => c s + sum_of c l' end.
Lemma fold_sum l a : fold_left vadd l a = mkv (vx a + sum_of vx l) (vy a + sum_of vy l) (vz a + sum_of vz l).
Proof.
  revert a. induction l as [|s l IH]; intros a; cbn [fold_left sum_of]; [apply v3_eq; cbn; ring|]. rewrite IH. unfold vadd. cbn [vx vy vz]. apply v3_eq; cbn [vx vy vz]; ring.
Qed.
Theorem C278_mean b : (average_spin b = None <-> spins b = []) /\ forall a, average_spin b = Some a ->
  INR (length (spins b)) * vx a = sum_of vx (spins b) /\ INR (length (spins b)) * vy a = sum_of vy (spins b) /\ INR (length (spins b)) * vz a = sum_of vz (spins b).
Proof.
  unfold average_spin. rewrite fold_sum. cbn [vx vy vz]. rewrite !Rplus_0_l. destruct (spins b) as [|s l]; [split; [tauto|discriminate]|]. split; [split; discriminate|].
  intros a. assert (N : INR (length (s :: l)) <> 0) by (apply not_0_INR; discriminate). revert N. generalize (INR (length (s :: l))), (sum_of vx (s :: l)), (sum_of vy (s :: l)), (sum_of vz (s :: l)).
  intros n x y z N E. injection E as <-. cbn [vx vy vz]. split; [|split]; field; exact N.
Qed.
Print Assumptions C278_mean.
Lemma dot_bound a s n : 0 <= n -> len2 a <= n * n -> len2 s <= 1 -> vx a * vx s + vy a * vy s + vz a * vz s <= n.
Proof.
  intros N A S. apply Rsqr_incr_0_var; [|exact N]. unfold Rsqr. apply Rle_trans with (len2 a * len2 s).
  - unfold len2. pose proof (Rle_0_sqr (vx a * vy s - vy a * vx s)) as H1. pose proof (Rle_0_sqr (vy a * vz s - vz a * vy s)) as H2. pose proof (Rle_0_sqr (vz a * vx s - vx a * vz s)) as H3. unfold Rsqr in *. nra.
  - assert (0 <= len2 a) by (unfold len2; pose proof (Rle_0_sqr (vx a)); pose proof (Rle_0_sqr (vy a)); pose proof (Rle_0_sqr (vz a)); unfold Rsqr in *; lra). nra.
Qed.
Theorem C278_bound b a : Forall (fun s => len2 s <= 1) (spins b) -> average_spin b = Some a -> len2 a <= 1.
Proof.
  intros F E. destruct (proj2 (C278_mean b) a E) as (X & Y & Z). 
  assert (G : len2 (mkv (sum_of vx (spins b)) (sum_of vy (spins b)) (sum_of vz (spins b))) <= INR (length (spins b)) * INR (length (spins b))).
  { clear E X Y Z. induction F as [|s l S _ IH]; [unfold len2; cbn; lra|]. cbn [sum_of]. cbn [length]. rewrite S_INR. set (n := INR (length l)) in *. assert (N : 0 <= n) by apply pos_INR.
    pose proof (dot_bound _ s n N IH S) as D. unfold len2 in *. cbn [vx vy vz] in *. nra. }
  assert (P : 0 < INR (length (spins b))) by (apply lt_0_INR; destruct (spins b) eqn:Q; [unfold average_spin in E; rewrite Q in E; discriminate | cbn; lia]).
  rewrite <- X, <- Y, <- Z in G. set (n := INR (length (spins b))) in *. apply (Rmult_le_reg_l (n * n)); [nra|]. unfold len2 in *. cbn [vx vy vz] in G. nra.
Qed.
Print Assumptions C278_bound.
Example C278_ex : average_spin (mkSB 5 [] [mkv 0 0 1; mkv 1 0 0]) = Some (mkv (1 / 2) 0 (1 / 2)).
Proof. unfold average_spin. cbn. f_equal. apply v3_eq; cbn; field. Qed.
