(* C45, C93, C95: linear feedback *)
From Coq Require Import ZArith Psatz.
From Verif Require Import RBase Channels ChannelsProps Feedback.
Local Open Scope R_scope.

Local Arguments independent {M} _.
Local Arguments untouched {M} A _ _.
Local Arguments C44_write_read {M} _ _ _ _ _.

Section Props.
Context {M : Type}.
Implicit Types (f : fb M) (m : M).
Definition readings (cs : list (chan M)) m : list R := map (fun c => rd c m) cs.
Definition zip (g : R -> R -> R) (a b : list R) : list R := map (fun p => g (fst p) (snd p)) (combine a b).
(* the setting one pulse asks for: actuators minus gain times the pseudo-inverse of the error *)
Definition correction f m : list R := zip (fun a d => a - gain f * d) (readings (acts f) m) (minv f (zip Rminus (readings (sigs f) m) (setp f))).
(* a usable system: independent actuators, matching sizes *)
Definition usable f : Prop := independent (acts f) /\ length (setp f) = length (sigs f) /\ (forall d, length d = length (sigs f) -> length (minv f d) = length (acts f)).
Definition queued f : Prop := match queue f with None => True | Some q => Forall (fun v => length v = length (acts f)) q end.
Lemma zip_length g a : forall b, length a = length b -> length (zip g a b) = length a.
Proof. intros b H. unfold zip. rewrite map_length, combine_length. lia. Qed.
Lemma zip_neg k a : forall b, zip Rplus a (map (fun x => - k * x) b) = zip (fun a d => a - k * d) a b.
Proof. unfold zip. induction a as [|x a IH]; intros [|y b]; cbn; auto. f_equal; [ring|apply IH]. Qed.
Lemma readings_length cs m : length (readings cs m) = length cs.
Proof. apply map_length. Qed.
Lemma correction_length f m : usable f -> length (correction f m) = length (acts f).
Proof. intros (_ & L & N). unfold correction. rewrite zip_length; [apply readings_length|]. rewrite readings_length, N; auto. rewrite zip_length; rewrite readings_length; auto. Qed.
Definition written f m : list R := match queue f with Some (v :: _) => v | _ => correction f m end.
Definition queue_after f m : option (list (list R)) := match queue f with None => None | Some [] => Some [] | Some (_ :: q) => Some (q ++ [correction f m]) end.
Lemma apply_ok f m : usable f -> queued f -> exists f' m', apply_fb f m = Ok (f', m') /\ readings (acts f) m' = written f m /\ f' = mkFB (sigs f) (acts f) (gain f) (setp f) (queue_after f m) (cached f) (minv f)
  /\ (forall (A : Type) (q : M -> A), untouched A q (acts f) -> q m' = q m).
Proof.
  intros U Q. pose proof U as (I & L & N). pose proof (correction_length f m U) as LC. unfold apply_fb, read_all. rewrite !Nat.eqb_refl. cbn [bind]. unfold vop at 1. fold (readings (sigs f) m). rewrite readings_length, <- L, Nat.eqb_refl. cbn [bind].
  fold (zip Rminus (readings (sigs f) m) (setp f)). fold (readings (acts f) m). set (d := minv f (zip Rminus (readings (sigs f) m) (setp f))).
  assert (Ld : length d = length (acts f)). { unfold d. apply N. rewrite zip_length; rewrite readings_length; auto. }
  unfold vop. rewrite map_length, readings_length, Ld, Nat.eqb_refl. cbn [bind]. fold (zip Rplus (readings (acts f) m) (map (fun x => - gain f * x) d)). rewrite zip_neg. change (zip (fun a d0 : R => a - gain f * d0) (readings (acts f) m) d) with (correction f m).
  assert (W : forall v, length v = length (acts f) -> exists m', write_all (acts f) v m = Ok m' /\ readings (acts f) m' = v /\ forall (A : Type) (q : M -> A), untouched A q (acts f) -> q m' = q m).
  { intros v Lv. destruct (C44_write_read (acts f) v m I Lv) as (m' & E & R & F). exists m'. split; auto. unfold read_all in R. rewrite Nat.eqb_refl in R. fold (readings (acts f) m') in R. split; [congruence|auto]. }
  unfold written, queue_after. unfold queued in Q. destruct (queue f) as [[|v q]|] eqn:Eq; cbn [app].
  - destruct (W _ LC) as (m' & -> & R & F). cbn [bind]. eauto 6.
  - apply Forall_cons_iff in Q. destruct Q as [Lv _]. destruct (W _ Lv) as (m' & -> & R & F). cbn [bind]. eauto 6.
  - destruct (W _ LC) as (m' & -> & R & F). cbn [bind]. exists f, m'. repeat split; auto. destruct f; cbn in *. congruence.
Qed.
(* between pulses the machine moves and the user may change gain and setpoints *)
Inductive event := Move (w : M -> M) | Gain (g : R) | Setpoints (s : list R) | Pulse.
Fixpoint history f m (es : list event) : option (list (list R * list R)) :=
  match es with
  | [] => Some []
  | Move w :: es' => history f (w m) es'
  | Gain g :: es' => history (set_gain g f) m es'
  | Setpoints s :: es' => match set_setpoints s f with Ok f' => history f' m es' | _ => None end
  | Pulse :: es' =>
      match apply_fb f m with
      | Ok (f', m') => match history f' m' es' with Some h => Some ((correction f m, readings (acts f) m') :: h) | None => None end
      | _ => None
      end
  end.
Definition sized (n : nat) (e : event) : Prop := match e with Setpoints s => length s = n | _ => True end.
Lemma history_queue es : forall f m, usable f -> queued f -> Forall (sized (length (sigs f))) es ->
  exists h, history f m es = Some h /\ length h = length (filter (fun e => match e with Pulse => true | _ => false end) es) /\
  map snd h = firstn (length h) (match queue f with Some q => q | None => [] end ++ map fst h) /\ Forall (fun x => length (fst x) = length (acts f)) h.
Proof.
  induction es as [|e es IH]; intros f m U Q S; [exists []; cbn; auto|]. apply Forall_cons_iff in S. destruct S as [Se S]. destruct e as [w|g|s|]; cbn [history filter].
  - apply IH; auto.
  - apply (IH (set_gain g f)); auto.
  - pose proof U as (I & L & N). unfold set_setpoints. cbn in Se. rewrite Se, L, Nat.eqb_refl. apply (IH (mkFB (sigs f) (acts f) (gain f) s (queue f) (cached f) (minv f))); auto. split; [|split]; auto.
  - destruct (apply_ok f m U Q) as (f' & m' & -> & R & Ef & _). pose proof (correction_length f m U) as LC.
    assert (U' : usable f') by (rewrite Ef; exact U).
    assert (Q' : queued f'). { rewrite Ef. unfold queued, queue_after in *. cbn [queue acts]. destruct (queue f) as [[|v q]|]; auto. apply Forall_cons_iff in Q. destruct Q as [Q1 Q2]. apply Forall_app. split; auto. }
    assert (S' : Forall (sized (length (sigs f'))) es) by (rewrite Ef; exact S).
    destruct (IH f' m' U' Q' S') as (h & -> & Lh & E & Fh). eexists. split; [reflexivity|]. cbn [length map fst snd]. split; [congruence|]. assert (Ea : acts f' = acts f) by (rewrite Ef; reflexivity). rewrite Ea in Fh. split; [|constructor; auto].
    rewrite E, R. replace (queue f') with (queue_after f m) by (rewrite Ef; reflexivity). unfold written, queue_after. destruct (queue f) as [[|v q]|]; cbn [app firstn]; auto. f_equal. rewrite <- app_assoc. reflexivity.
Qed.
(* with a delay of n pulses every correction is applied n - 1 pulses after it was computed *)
Theorem C45_delay n f m es : (1 <= n)%Z -> usable f -> Forall (sized (length (sigs f))) es -> exists f' h, set_delay n f = Ok f' /\ history f' m es = Some h /\
  length h = length (filter (fun e => match e with Pulse => true | _ => false end) es) /\
  forall k, (k < length h)%nat -> nth k (map snd h) [] = if Nat.ltb k (Z.to_nat (n - 1)) then repeat 0 (length (acts f)) else nth (k - Z.to_nat (n - 1)) (map fst h) [].
Proof.
  intros H U S. assert (A : exists f', set_delay n f = Ok f' /\ usable f' /\ queued f' /\ sigs f' = sigs f /\ acts f' = acts f /\ match queue f' with Some q => q | None => [] end = repeat (repeat 0 (length (acts f))) (Z.to_nat (n - 1))).
  { unfold set_delay. destruct (Z.leb_spec n 0); [lia|]. destruct (Z.eqb_spec n 1) as [->|].
    - eexists. split; [reflexivity|]. repeat split; auto; apply U.
    - eexists. split; [reflexivity|]. split; [exact U|]. split; [|auto]. unfold queued. cbn [queue acts]. apply Forall_forall. intros v I. apply repeat_spec in I. subst v. apply repeat_length. }
  destruct A as (f' & E & U' & Q' & Es & Ea & Eq). rewrite <- Es in S. destruct (history_queue es f' m U' Q' S) as (h & Eh & Lh & E2 & _). exists f', h. repeat split; auto. intros k K. rewrite E2, Eq.
  assert (X : forall (l : list (list R)) j i d, (i < j)%nat -> nth i (firstn j l) d = nth i l d).
  { clear. intros l j. revert l. induction j as [|j IH]; intros l i d H; [lia|]. destruct l as [|x l]; [now rewrite firstn_nil|]. destruct i; cbn [firstn nth]; [auto|]. apply IH. lia. }
  rewrite X by exact K. destruct (Nat.ltb_spec k (Z.to_nat (n - 1))).
  - rewrite app_nth1 by (now rewrite repeat_length). match goal with B : (k < Z.to_nat _)%nat |- _ => clear - B; revert k B end. induction (Z.to_nat (n - 1)) as [|j IH]; intros k H; [lia|]. destruct k; cbn; auto. apply IH. lia.
  - rewrite app_nth2 by (rewrite repeat_length; lia). rewrite repeat_length. reflexivity.
Qed.
(* one pulse touches nothing but the actuators, and a bad delay is a failed assertion *)
Theorem C45_frame f m (A : Type) (q : M -> A) : usable f -> queued f -> untouched A q (acts f) -> exists f' m', apply_fb f m = Ok (f', m') /\ q m' = q m.
Proof. intros U Q H. destruct (apply_ok f m U Q) as (f' & m' & E & _ & _ & F). eauto. Qed.
Theorem C45_bad_delay n f : set_delay n f = UB <-> (n <= 0)%Z.
Proof. unfold set_delay. destruct (Z.leb_spec n 0); [tauto|]. destruct (Z.eqb_spec n 1); split; try discriminate; lia. Qed.
(* C93: closed loop on a linear machine *)
Definition errors f m : list R := zip Rminus (readings (sigs f) m) (setp f).
Fixpoint pulses (k : nat) f m : res unit M := match k with O => Ok m | S k => match apply_fb f m with Ok (f', m') => pulses k f' m' | Throw e => Throw e | UB => UB end end.
Definition responds f (A : list R -> list R) (s0 : list R) : Prop :=
  (forall m, readings (sigs f) m = zip Rplus s0 (A (readings (acts f) m))) /\
  (forall a d g, length a = length (acts f) -> length d = length (acts f) -> A (zip (fun x y => x - g * y) a d) = zip (fun x y => x - g * y) (A a) (A d)) /\
  (forall a, length a = length (acts f) -> length (A a) = length (sigs f)) /\ length s0 = length (sigs f) /\
  (forall d, length d = length (sigs f) -> A (minv f d) = d).
Lemma zip_lin g : forall s0 (a e : list R) (t : list R), length s0 = length a -> length a = length e -> length t = length e -> e = zip Rminus (zip Rplus s0 a) t -> zip Rminus (zip Rplus s0 (zip (fun x y => x - g * y) a e)) t = map (fun x => (1 - g) * x) e.
Proof.
  unfold zip. induction s0 as [|s s0 IH]; intros [|a l] [|e le] [|t lt] H1 H2 H3 E; cbn in *; try discriminate; auto. injection E as E1 E2. f_equal; [rewrite E1; ring|]. apply IH; auto.
Qed.
Theorem C93_convergence f A s0 : usable f -> queue f = None -> responds f A s0 -> forall k m, exists m', pulses k f m = Ok m' /\ errors f m' = map (fun x => (1 - gain f) ^ k * x) (errors f m).
Proof.
  intros U Q (R1 & R2 & R3 & R4 & R5). induction k as [|k IH]; intros m; cbn [pulses].
  - exists m. split; auto. cbn. rewrite <- map_id at 1. apply map_ext. intros. ring.
  - assert (Qd : queued f) by (unfold queued; now rewrite Q). destruct (apply_ok f m U Qd) as (f' & m1 & -> & R & Ef & _).
    assert (f' = f) as -> by (rewrite Ef; unfold queue_after; rewrite Q; destruct f; cbn in *; congruence).
    destruct (IH m1) as (m2 & E2 & F2). exists m2. split; auto. rewrite F2.
    pose proof U as (I & L & N). assert (Le : length (errors f m) = length (sigs f)) by (unfold errors; rewrite zip_length; rewrite readings_length; auto).
    assert (Em : errors f m1 = map (fun x => (1 - gain f) * x) (errors f m)).
    { unfold errors at 1. rewrite R1, R. unfold written. rewrite Q. unfold correction. fold (errors f m). rewrite R2; [|apply readings_length|apply N; exact Le]. rewrite R5 by exact Le.
      apply zip_lin.
      - rewrite R3, R4; auto. apply readings_length.
      - rewrite R3; [congruence|apply readings_length].
      - congruence.
      - unfold errors. f_equal. apply R1. }
    rewrite Em, map_map. apply map_ext. intros x. cbn [pow]. ring.
Qed.
(* with gain one the first pulse puts the signals on their setpoints *)
Theorem C93_dead_beat f A s0 m : usable f -> queue f = None -> responds f A s0 -> gain f = 1 -> exists m', pulses 1 f m = Ok m' /\ readings (sigs f) m' = setp f.
Proof.
  intros U Q H G. destruct (C93_convergence f A s0 U Q H 1 m) as (m' & E & F). exists m'. split; auto. rewrite G in F. unfold errors in F. pose proof U as (_ & L & _). pose proof (readings_length (sigs f) m') as L1. pose proof (readings_length (sigs f) m) as L2. revert F L1 L2 L. generalize (readings (sigs f) m') (readings (sigs f) m) (setp f) (length (sigs f)). clear.
  intros a b s n F A B C. revert b s n F A B C. unfold zip. induction a as [|x a IH]; intros [|y b] [|t s] n F A B C; cbn in *; try congruence. injection F as F1 F2. f_equal; [lra|]. destruct n; [discriminate|]. apply (IH b s n); auto.
Qed.
(* taking the present signals as setpoints makes the next pulse do nothing *)
Theorem C93_hold f m : usable f -> queue f = None -> (forall n, minv f (repeat 0 n) = repeat 0 (length (acts f))) -> exists f' f2 m', signals_to_setpoints f m = Ok f' /\ setp f' = readings (sigs f) m /\ apply_fb f' m = Ok (f2, m') /\ readings (acts f) m' = readings (acts f) m.
Proof.
  intros U Q Z. unfold signals_to_setpoints, read_all. pose proof U as (I & L & N). rewrite L, Nat.eqb_refl. cbn [bind]. fold (readings (sigs f) m). set (f' := mkFB _ _ _ _ _ _ _).
  assert (U' : usable f') by (repeat split; try apply I; auto; cbn; apply readings_length). assert (Q' : queued f') by (unfold queued; cbn; now rewrite Q).
  destruct (apply_ok f' m U' Q') as (f2 & m' & E & R & _ & _). exists f', f2, m'. repeat split; auto. cbn [acts f'] in R. rewrite R. unfold written. cbn [queue f']. rewrite Q. unfold correction. cbn [sigs acts gain setp minv f'].
  assert (X : forall l, zip Rminus l l = repeat 0 (length l)). { clear. unfold zip. induction l; cbn; auto. f_equal; auto. ring. }
  rewrite X, Z. assert (Y : forall g l, zip (fun a d => a - g * d) l (repeat 0 (length l)) = l). { clear. unfold zip. intros g. induction l; cbn; auto. f_equal; auto. ring. }
  rewrite <- (readings_length (acts f) m). apply Y.
Qed.
(* C95: storing and restoring, whatever happens between *)
Theorem C95_store_restore f m m1 : independent (acts f) -> exists f' m2, store f m = Ok f' /\ restore f' m1 = Ok m2 /\ readings (acts f) m2 = readings (acts f) m /\
  (sigs f', acts f', gain f', setp f', queue f') = (sigs f, acts f, gain f, setp f, queue f) /\ (forall (A : Type) (q : M -> A), untouched A q (acts f) -> q m2 = q m1).
Proof.
  intros I. unfold store, read_all. rewrite Nat.eqb_refl. cbn [bind]. fold (readings (acts f) m). unfold restore. cbn [cached acts]. destruct (C44_write_read (acts f) (readings (acts f) m) m1 I) as (m2 & E & R & F); [apply readings_length|].
  eexists; exists m2. split; [reflexivity|]. cbn [cached acts sigs gain setp queue]. split; auto. unfold read_all in R. rewrite Nat.eqb_refl in R. fold (readings (acts f) m2) in R. split; [congruence|]. auto.
Qed.
(* what pulses and settings do to the stored values: nothing *)
Theorem C95_kept f m f' m' : apply_fb f m = Ok (f', m') -> cached f' = cached f /\ forall g n f2 s f3, set_delay n f = Ok f2 -> set_setpoints s f = Ok f3 -> cached (set_gain g f) = cached f /\ cached f2 = cached f /\ cached f3 = cached f.
Proof.
  intros E. split.
  - unfold apply_fb in E. destruct (read_all _ (sigs f) m) as [s1| |]; cbn [bind] in E; try discriminate. destruct (vop _ s1 _) as [d1| |]; cbn [bind] in E; try discriminate. destruct (read_all _ (acts f) m) as [a1| |]; cbn [bind] in E; try discriminate. destruct (vop _ a1 _) as [new| |]; cbn [bind] in E; try discriminate.
    destruct (queue f) as [q|].
    + destruct (q ++ [new]); try discriminate. destruct (write_all _ _ _); cbn [bind] in E; try discriminate. injection E as <- _. reflexivity.
    + destruct (write_all _ _ _); cbn [bind] in E; try discriminate. injection E as <- _. reflexivity.
  - intros g n f2 s f3 A B. unfold set_delay in A. unfold set_setpoints in B. destruct (Nat.eqb _ _); [|discriminate]. injection B as <-. destruct (Z.leb n 0); [discriminate|]. destruct (Z.eqb n 1); injection A as <-; auto.
Qed.
Theorem C95_unstored_refuted s a mi m : restore (make_fb s a mi : fb M) m = UB.
Proof. reflexivity. Qed.
End Props.
Print Assumptions C45_delay.
Print Assumptions C45_frame.
Print Assumptions C45_bad_delay.
Print Assumptions C93_convergence.
Print Assumptions C93_dead_beat.
Print Assumptions C93_hold.
Print Assumptions C95_store_restore.
Print Assumptions C95_kept.
Print Assumptions C95_unstored_refuted.
(* a two-actuator machine whose signals are twice the actuators plus an offset *)
Definition demo : fb (nat -> R) := set_gain (1/2) (make_fb [mkCh (fun m => 1 + 2 * m 0%nat) (fun _ m => m); mkCh (fun m => 3 + 2 * m 1%nat) (fun _ m => m)] [cell 0; cell 1] (map (fun x => x / 2))).
Lemma demo_usable : usable demo.
Proof.
  split; [|split; [reflexivity|intros d; cbn; rewrite map_length; auto]]. split.
  - repeat constructor; intros v m; cbn; reflexivity.
  - repeat constructor; intros; cbn; reflexivity.
Qed.
Example C93_ex : responds demo (map (fun x => 2 * x)) [1; 3].
Proof.
  unfold responds, readings, zip. cbn. repeat split; auto.
  - intros [|a [|b [|]]] [|c [|d [|]]] g H K; cbn in *; try discriminate. f_equal; [ring|]. f_equal. ring.
  - intros a H. now rewrite map_length.
  - intros d H. rewrite map_map. rewrite <- map_id. apply map_ext. intros. field.
Qed.
Example C45_ex : usable demo /\ Forall (sized (M := nat -> R) (length (sigs demo))) [Move (fun m j => m j + 1); Pulse; Gain 1; Setpoints [5; 6]; Pulse; Pulse].
Proof. split; [apply demo_usable|]. repeat constructor. Qed.
(* a finding: with a delay the first pulses set the actuators to zero, whatever they were *)
Theorem C45_first_pulses_zero n M (f : fb M) m : (2 <= n)%Z -> usable f -> exists f' f2 m', set_delay n f = Ok f' /\ apply_fb f' m = Ok (f2, m') /\ readings (acts f) m' = repeat 0 (length (acts f)).
Proof.
  intros H U. destruct (C45_delay n f m [Pulse]) as (f' & h & E & Eh & L & N); auto; [lia|repeat constructor|]. cbn [history] in Eh. exists f'.
  assert (Ea : acts f' = acts f). { unfold set_delay in E. destruct (Z.leb n 0); [discriminate|]. destruct (Z.eqb n 1); injection E as <-; reflexivity. }
  destruct (apply_fb f' m) as [[f2 m']| |]; try discriminate. exists f2, m'. repeat split; auto. injection Eh as <-. specialize (N 0%nat ltac:(cbn; lia)). cbn [nth map snd] in N. destruct (Nat.ltb_spec 0 (Z.to_nat (n - 1))); [|lia]. now rewrite Ea in N.
Qed.
Print Assumptions C45_first_pulses_zero.
