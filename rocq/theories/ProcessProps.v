From Coq Require Import Permutation Sorted.
From Verif Require Import RBase Process ProcessSpec ProcessProofs.

(** ** C13 *)
Theorem C13_priority_order :
  forall ops, valid ops [] -> exists t, table_run ops [] = Ok t /\ ordered t (history ops []).
Proof.
  intros ops H. apply run_ordered; [|exact H]. split; [constructor|]. split; [constructor|]. repeat split. simpl. constructor.
Qed.
Print Assumptions C13_priority_order.

Theorem C13_where_added :
  forall p t,
  ((prio p < 0)%Z -> add_process p t = t ++ [p]) /\
  ((0 <= prio p)%Z -> exists pre post, t = pre ++ post /\ add_process p t = pre ++ p :: post
     /\ Forall (fun q => (prio q <= prio p)%Z) pre
     /\ (post = [] \/ exists q post', post = q :: post' /\ (prio p < prio q)%Z)).
Proof.
  intros p t. unfold add_process. destruct (Z.ltb_spec (prio p) 0); split; intros; try lia; [reflexivity|apply insert_split].
Qed.
Print Assumptions C13_where_added.

(** removal takes away the one entry and keeps the order of the others *)
Theorem C13_removal :
  forall p t, In p (map pid t) -> exists b pre q post, remove_process p t = Ok (pre ++ post, b)
    /\ t = pre ++ q :: post /\ pid q = p /\ ~ In p (map pid pre).
Proof.
  intros p t. induction t as [|q t IH]; simpl; intros H; [destruct H|].
  destruct (Nat.eqb_spec (pid q) p) as [E|E].
  - eexists _, [], q, t. simpl. repeat split; auto.
  - destruct H as [H|H]; [congruence|]. destruct (IH H) as (b & pre & q' & post & -> & -> & Hq & Hn). simpl.
    exists b, (q :: pre), q', post. simpl. repeat split; auto. intros [?|?]; auto.
Qed.
Print Assumptions C13_removal.

Example C13_ex :
  let ops := [Add (mkE 1 5); Add (mkE 2 (-1)); Add (mkE 3 0); Add (mkE 4 5); Remove 1; Add (mkE 5 3)] in
  valid ops [] /\ table_run ops [] = Ok [mkE 3 0; mkE 2 (-1); mkE 5 3; mkE 4 5].
Proof. split; [simpl; intuition (try discriminate; try lia)|reflexivity]. Qed.

(** ** C60: the answer of RemoveProcess.  The header promises true exactly for
    a process that was present. *)
Theorem C60_remove_answer_refuted :
  (exists p t, In p (map pid t) /\ exists t', remove_process p t = Ok (t', false)) /\
  (forall p t, ~ In p (map pid t) -> remove_process p t = UB).
Proof.
  split.
  - exists 1%nat, [mkE 1 0]. simpl. split; [auto|]. exists []. reflexivity.
  - intros p t. induction t as [|q t IH]; simpl; [reflexivity|]. intros H.
    destruct (Nat.eqb_spec (pid q) p); [tauto|]. rewrite IH by tauto. reflexivity.
Qed.
Print Assumptions C60_remove_answer_refuted.

(** true is returned exactly when the process was present and not in last place *)
Theorem C60_remove_answer_partial :
  forall p t, In p (map pid t) -> exists t' b, remove_process p t = Ok (t', b)
   /\ (b = true <-> exists pre q post x, t = pre ++ q :: post ++ [x] /\ pid q = p /\ ~ In p (map pid pre)).
Proof. intros p t H. destruct (remove_ok p t H) as (b & H1 & H2). eauto. Qed.
Print Assumptions C60_remove_answer_partial.
Example C60_ex : In 1%nat (map pid [mkE 1 0; mkE 2 0]) /\ remove_process 1 [mkE 1 0; mkE 2 0] = Ok ([mkE 2 0], true).
Proof. simpl. auto. Qed.

(** ** C14 *)
Local Open Scope R_scope.
Theorem C14_tracking_terminates :
  forall W (ps : list (proc W)) sc delta total w, allows delta ps -> 0 <= sc ->
  exists n w' rs, forall fuel, (n <= fuel)%nat -> track fuel ps sc total w = Some (w', rs, total + sc).
Proof. exact @track_ok. Qed.
Print Assumptions C14_tracking_terminates.

Theorem C14_steps_cover_component :
  forall W (ps : list (proc W)) sc delta total w fuel w' rs t', allows delta ps -> 0 <= sc ->
  track fuel ps sc total w = Some (w', rs, t') ->
  t' = total + sc
  /\ Forall (step_ok ps sc) rs
  /\ (exists e, chained ps 0 (entered ps w) rs e w' /\ sc - eps <= e <= sc)
  /\ sc - eps <= total_step rs <= sc
  /\ (0 < sc -> Forall (fun r => 0 < st_ds r) rs)
  /\ (sc = 0 -> exists r, rs = [r] /\ st_ds r = 0).
Proof. exact @track_steps. Qed.
Print Assumptions C14_steps_cover_component.

(** a process that is always active sees every step, one never active none *)
Theorem C14_active_process_sees_all :
  forall W (ps : list (proc W)) sc delta total w fuel w' rs t' k p, allows delta ps -> 0 <= sc ->
  track fuel ps sc total w = Some (w', rs, t') -> nth_error ps k = Some p ->
  ((forall v, active p v = true) -> Forall (fun r => In k (st_run r)) rs) /\
  ((forall v, active p v = false) -> Forall (fun r => ~ In k (st_run r)) rs).
Proof.
  intros W ps sc delta total w fuel w' rs t' k p Ha Hsc E Ek.
  destruct (track_steps _ _ _ _ _ _ _ _ _ Ha Hsc E) as (_ & H & _). rewrite Forall_forall in H.
  split; intros Hact; rewrite Forall_forall; intros r Hr; pose proof (so_exact _ _ _ (H r Hr) k) as Hx.
  - apply Hx. exists p. auto.
  - rewrite Hx. intros (p' & E' & H'). rewrite Ek in E'. injection E' as <-. rewrite Hact in H'. discriminate.
Qed.
Print Assumptions C14_active_process_sees_all.

Theorem C14_integrated_length :
  forall W fuel (cs : list (list (proc W) * R)) w w' t', track_all fuel cs 0 w = Some (w', t') ->
  t' = fold_right (fun c a => snd c + a) 0 cs.
Proof. intros W fuel cs w w' t' E. apply track_all_total in E. lra. Qed.
Print Assumptions C14_integrated_length.

(** without a positive lower bound the loop need not stop: a process that is
    active and allows no step *)
Theorem C14_zero_step_never_ends :
  forall W (ps : list (proc W)) p sc w fuel, 1 <= sc ->
  In p ps -> (forall v, active p v = true /\ max_step p v = 0) ->
  (forall q v, In q ps -> 0 <= max_step q v) -> loop fuel ps sc 0 w = None.
Proof.
  intros W ps p sc w fuel Hsc Hp H0 Hnn. revert w. induction fuel as [|fuel IH]; intros w; [reflexivity|]. cbn [loop].
  assert (Hc : forall v, calc_step ps (sc - 0) v = 0).
  { intros v. pose proof (calc_le_active ps p (sc - 0) v Hp (proj1 (H0 v))) as Hle. rewrite (proj2 (H0 v)) in Hle.
    destruct (calc_attained ps (sc - 0) v) as [E|(q & Q1 & Q2 & E)]; [lra|]. pose proof (Hnn q v Q1). lra. }
  rewrite Hc. destruct (do_all ps 0 0 w) as [w1 l].
  destruct (fequal_spec sc (0 + 0)) as [Hf|Hf].
  - exfalso. rewrite Rplus_0_r, Rminus_0_r in Hf. rewrite Rabs_pos_eq in Hf by lra. pose proof eps_small. lra.
  - rewrite Rplus_0_r, IH. reflexivity.
Qed.
Print Assumptions C14_zero_step_never_ends.

(** two processes: one with steps of at most 1/2, one with none; length 1 *)
Definition ex_half : proc nat := mkP (fun _ => true) (fun _ => /2) (fun w => w) (fun _ w => S w).
Definition ex_free : proc nat := mkP (fun w => Nat.ltb w 2) (fun _ => 5) (fun w => w) (fun _ w => w).
Example C14_ex :
  allows (/2) [ex_half; ex_free] /\
  exists rs, track 2 [ex_half; ex_free] 1 0 0%nat = Some (2%nat, rs, 1)
    /\ map st_run rs = [[0; 1]; [0]]%nat /\ map st_ds rs = [/2; /2].
Proof.
  split.
  - split; [lra|]. intros p w [<-|[<-|[]]] _; simpl; lra.
  - pose proof eps_small as He. assert (C1 : calc_step [ex_half; ex_free] (1 - 0) 0%nat = /2).
    { unfold calc_step. simpl. rewrite (Rmin_right (1 - 0) (/2)), (Rmin_left (/2) 5) by lra. reflexivity. }
    assert (C2 : calc_step [ex_half; ex_free] (1 - /2) 1%nat = /2).
    { unfold calc_step. simpl. rewrite (Rmin_left (1 - /2) (/2)), (Rmin_left (1 - /2) 5) by lra. lra. }
    unfold track, enter. cbn [fold_left set_component ex_half ex_free loop]. fold ex_half ex_free. rewrite C1.
    cbn [do_all active do_process ex_half ex_free Nat.ltb Nat.leb]. fold ex_half ex_free.
    destruct (fequal_spec 1 (0 + /2)) as [Hf|_].
    { exfalso. rewrite Rabs_pos_eq in Hf by lra. lra. }
    replace (0 + /2) with (/2) by lra. rewrite C2.
    destruct (fequal_spec 1 (/2 + /2)) as [_|Hf].
    + eexists. split; [rewrite Rplus_0_l; reflexivity|]. split; reflexivity.
    + exfalso. apply Hf. replace (1 - (/2 + /2)) with 0 by lra. rewrite Rabs_R0. pose proof eps_pos. lra.
Qed.
