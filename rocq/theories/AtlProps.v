From Coq Require Import Sorted Permutation.
From Verif Require Import RBase Rot RotProofs Support Atl.
Local Open Scope R_scope.

(* C55: the modes. *)
Inductive aop := AMode (md : mode) | AVib (v : R) | AStep (dt : R) (z w : nat -> R) | AReset.
Definition astep (o : aop) (a : atl) : option atl :=
  match o with
  | AMode md => Some (snd (set_mode md a))
  | AVib v => Some (snd (set_vibration v a))
  | AStep dt z w => match do_step dt z w a with Some (_, a') => Some a' | None => None end
  | AReset => Some (reset a)
  end.
Fixpoint aruns (l : list aop) (a : atl) : option atl :=
  match l with
  | [] => Some a
  | o :: l' => match astep o a with Some a' => aruns l' a' | None => None end
  end.
Definition combined (a : atl) : Prop := amode a = Increment /\ vv a <> 0.

Lemma do_step_keeps : forall dt z w a t a', do_step dt z w a = Some (t, a') ->
  amode a' = amode a /\ vv a' = vv a.
Proof.
  intros dt z w a t a'. unfold do_step. destruct (forallb _ _); [| discriminate].
  intros H. injection H as _ <-. split; reflexivity.
Qed.

Theorem C55_combined_refuted : forall A l e la v, v <> 0 ->
  let a1 := set_vibration v (new_atl A l e la) in
  let a2 := set_mode Increment (snd a1) in
  fst a1 = true /\ fst a2 = true /\ combined (snd a2).
Proof. intros. cbn. repeat split. cbn. nra. Qed.
Print Assumptions C55_combined_refuted.

(* ... and there is no way out of it. *)
Theorem C55_no_way_out_refuted : forall l a a', 0 < vv a -> amode a = Increment ->
  aruns l a = Some a' -> amode a' = Increment /\ vv a' = vv a.
Proof.
  induction l as [| o l IH]; intros a a' V M R; cbn in R.
  - injection R as <-. split; auto.
  - destruct (astep o a) as [b |] eqn:E; [| discriminate].
    assert (K : amode b = Increment /\ vv b = vv a).
    { destruct o; cbn in E.
      - unfold set_mode in E. rewrite M in E. destruct (Rltb_spec 0 (vv a)); [| lra].
        cbn in E. injection E as <-. auto.
      - unfold set_vibration in E. rewrite M in E. cbn in E. injection E as <-. auto.
      - destruct (do_step dt z w a) as [[t c] |] eqn:D; [| discriminate].
        injection E as <-. apply do_step_keeps in D. destruct D; split; congruence.
      - injection E as <-. cbn. auto. }
    destruct K as [K1 K2]. rewrite <- K2 in V.
    destruct (IH b a' V K1 R). split; congruence.
Qed.
Print Assumptions C55_no_way_out_refuted.

(* A refused call changes nothing, an accepted one does what was asked;
   vibration is refused exactly in incremental mode. *)
Theorem C150_calls : forall a md v,
  (fst (set_mode md a) = false -> snd (set_mode md a) = a) /\
  (fst (set_mode md a) = true -> amode (snd (set_mode md a)) = md /\ vv (snd (set_mode md a)) = vv a) /\
  (fst (set_mode md a) = false <-> amode a = Increment /\ 0 < vv a) /\
  (fst (set_vibration v a) = false -> snd (set_vibration v a) = a) /\
  (fst (set_vibration v a) = true ->
     amode (snd (set_vibration v a)) = amode a /\ vv (snd (set_vibration v a)) = v * v) /\
  (fst (set_vibration v a) = false <-> amode a = Increment).
Proof.
  intros a md v. unfold set_mode, set_vibration.
  destruct (amode a); [destruct (Rltb_spec 0 (vv a)) |]; cbn;
    repeat split; intros; try discriminate; try tauto; try lra; try congruence;
    try (destruct H; discriminate).
Qed.
Print Assumptions C150_calls.

(* Histories that ask for incremental mode only while there is no vibration. *)
Fixpoint careful (l : list aop) (a : atl) : Prop :=
  match l with
  | [] => True
  | o :: l' =>
      (o = AMode Increment -> vv a = 0) /\
      match astep o a with Some a' => careful l' a' | None => True end
  end.
Theorem C150_careful : forall l a a', ~ combined a -> careful l a ->
  aruns l a = Some a' -> ~ combined a'.
Proof.
  induction l as [| o l IH]; intros a a' N C R; cbn in R.
  - injection R as <-. exact N.
  - destruct C as [C1 C2]. destruct (astep o a) as [b |] eqn:E; [| discriminate].
    apply (IH b a'); [| exact C2 | exact R].
    destruct o; cbn in E.
    + unfold set_mode in E. intros [K1 K2]. apply N. split.
      * destruct (amode a) eqn:M; [reflexivity |]. cbn in E. injection E as <-. cbn in K1, K2.
        subst md. specialize (C1 eq_refl). contradiction.
      * destruct (amode a) eqn:M.
        -- destruct (Rltb_spec 0 (vv a)); [lra |].
           cbn in E. injection E as <-. exact K2.
        -- cbn in E. injection E as <-. exact K2.
    + unfold set_vibration in E. destruct (amode a) eqn:M; cbn in E; injection E as <-.
      * exact N.
      * intros [K1 K2]. cbn in K1. discriminate.
    + destruct (do_step dt z w a) as [[t c] |] eqn:D; [| discriminate].
      injection E as <-. apply do_step_keeps in D. destruct D as [D1 D2].
      intros [K1 K2]. apply N. split; congruence.
    + injection E as <-. exact N.
Qed.
Print Assumptions C150_careful.

Example C55_case : forall A l e la, let a := new_atl A l e la in
  ~ combined a /\ careful [AVib 1; AMode Absolute; AVib 0; AMode Increment; AVib 2] a.
Proof.
  intros A l e la a. split; [intros [K _]; discriminate |].
  cbn. repeat split; try discriminate. intros _. ring.
Qed.

(* Sums. *)
Lemma rsum_ext : forall n f g, (forall k, (k < n)%nat -> f k = g k) -> rsum n f = rsum n g.
Proof.
  induction n as [| n IH]; intros f g H; [reflexivity |]. cbn. rewrite (IH f g), (H n); auto.
Qed.
Lemma rsum_scal : forall n c f, rsum n (fun k => c * f k) = c * rsum n f.
Proof. induction n as [| n IH]; intros; cbn; [ring | rewrite IH; ring]. Qed.
Lemma rsum_plus : forall n f g, rsum n (fun k => f k + g k) = rsum n f + rsum n g.
Proof. induction n as [| n IH]; intros; cbn; [ring | rewrite IH; ring]. Qed.
Lemma rsum_zero : forall n, rsum n (fun _ => 0) = 0.
Proof. induction n as [| n IH]; cbn; [ring | rewrite IH; ring]. Qed.

Lemma amplitude_is : forall v z, amplitude v z = sqrt v * z.
Proof.
  intros v z. unfold amplitude. destruct (Reqb_spec v 0) as [-> |]; [rewrite sqrt_0; ring | reflexivity].
Qed.

Lemma apply_all_length : forall f l n, length (apply_all f n l) = length l.
Proof. induction l as [| s l IH]; intros n; cbn; [reflexivity | rewrite IH; reflexivity]. Qed.
Lemma apply_all_nth : forall f l n k, (k < length l)%nat ->
  sup_at (apply_all f n l) k = f (n + k)%nat (sup_at l k).
Proof.
  unfold sup_at. induction l as [| s l IH]; intros n k H; cbn in H; [lia |].
  destruct k as [| k]; cbn [apply_all nth].
  - f_equal. lia.
  - rewrite IH by lia. f_equal. lia.
Qed.

(* n steps *)
Fixpoint steps (n : nat) (dt : nat -> R) (zs ws : nat -> nat -> R) (a : atl) : option atl :=
  match n with
  | O => Some a
  | Datatypes.S k =>
      match steps k dt zs ws a with
      | Some b => match do_step (dt k) (zs k) (ws k) b with Some (_, c) => Some c | None => None end
      | None => None
      end
  end.

(* e, la: an eigensystem of the matrix of the supports, as its squares *)
Definition eigen (l : list support) (x z : R) (e : nat -> nat -> R) (la : nat -> R) : Prop :=
  (forall k, (k < length l)%nat -> 0 <= la k) /\
  forall n m, (n < length l)%nat -> (m < length l)%nat ->
    rsum (length l) (fun k => e n k * la k * e m k) = atl_matrix l x z n m.

Lemma dist_self : forall a, dist a a = 0.
Proof. intros a. unfold dist. replace (_ + _) with 0 by ring. apply sqrt_0. Qed.
Lemma dist_sym : forall a b, dist a b = dist b a.
Proof. intros a b. unfold dist. f_equal. ring. Qed.

Lemma matrix_is : forall l x z n m, atl_matrix l x z n m =
  (dist_pt (sup_at l n) x z + dist_pt (sup_at l m) x z - dist (sup_at l n) (sup_at l m)) / 2.
Proof.
  intros l x z n m. unfold atl_matrix. destruct (Nat.le_gt_cases n m).
  - rewrite Nat.min_l, Nat.max_r by lia. field.
  - rewrite Nat.min_r, Nat.max_l by lia. rewrite dist_sym. field.
Qed.

Lemma forallb_seq_le : forall N f, (forall n, (n < N)%nat -> 0 <= f n) ->
  forallb (fun n => Rleb 0 (f n)) (seq 0 N) = true.
Proof.
  intros N f H. apply forallb_forall. intros n I. apply in_seq in I.
  destruct (Rleb_spec 0 (f n)); [reflexivity |]. specialize (H n ltac:(lia)). lra.
Qed.

(* The variances of one step, in terms of the coefficients. *)
Lemma var_diff : forall l x z e la v n m, eigen l x z e la -> 0 <= v ->
  (n < length l)%nat -> (m < length l)%nat ->
  let c := fun k i => e i k * sqrt (v * la k) in
  rsum (length l) (fun k => (c k n - c k m) * (c k n - c k m)) = v * dist (sup_at l n) (sup_at l m) /\
  rsum (length l) (fun k => c k n * c k n) = v * dist_pt (sup_at l n) x z.
Proof.
  intros l x z e la v n m [P E] V Hn Hm c.
  assert (SQ : forall k, (k < length l)%nat -> sqrt (v * la k) * sqrt (v * la k) = v * la k).
  { intros k Hk. apply sqrt_sqrt. apply Rmult_le_pos; [exact V | apply P; exact Hk]. }
  split.
  - rewrite (rsum_ext _ _ (fun k => v * (e n k * la k * e n k) +
       (v * (e m k * la k * e m k) + (-2 * v) * (e n k * la k * e m k)))).
    2: { intros k Hk. unfold c. specialize (SQ k Hk). set (q := sqrt (v * la k)) in *.
         replace ((e n k * q - e m k * q) * (e n k * q - e m k * q))
           with ((e n k - e m k) * (e n k - e m k) * (q * q)) by ring. rewrite SQ. ring. }
    rewrite !rsum_plus, !rsum_scal, !E by assumption. rewrite !matrix_is, !dist_self. field.
  - rewrite (rsum_ext _ _ (fun k => v * (e n k * la k * e n k))).
    2: { intros k Hk. unfold c. specialize (SQ k Hk). set (q := sqrt (v * la k)) in *.
         replace (e n k * q * (e n k * q)) with (e n k * e n k * (q * q)) by ring. rewrite SQ. ring. }
    rewrite !rsum_scal, !E by assumption. rewrite !matrix_is, !dist_self. field.
Qed.

(* C108: the ATL law. *)
Definition start (A : R) (l : list support) e la : atl :=
  reset (snd (set_mode Increment (new_atl A l e la))).

Lemma sup_at_reset : forall l n, (n < length l)%nat ->
  sup_at (map reset_support l) n = reset_support (sup_at l n).
Proof.
  intros l n H. unfold sup_at. rewrite (nth_indep _ new_support (reset_support new_support))
    by (rewrite map_length; exact H). apply map_nth.
Qed.

Theorem C108_increment : forall A l x z e la dt n,
  0 <= A -> (forall j, (j < n)%nat -> 0 <= dt j) -> eigen l x z e la ->
  exists c : nat -> nat -> nat -> R,
    (forall zs ws, exists a, steps n dt zs ws (start A l e la) = Some a /\
       tm a = rsum n dt /\ length (sups a) = length l /\
       forall i, (i < length l)%nat ->
         off (sup_at (sups a) i) =
           mkv 0 (rsum n (fun j => rsum (length l) (fun k => c j k i * zs j k))) 0 /\
         modified (sup_at (sups a) i) = true) /\
    (forall i m, (i < length l)%nat -> (m < length l)%nat ->
       rsum n (fun j => rsum (length l) (fun k => (c j k i - c j k m) * (c j k i - c j k m))) =
         A * rsum n dt * dist (sup_at l i) (sup_at l m)) /\
    (forall i, (i < length l)%nat ->
       rsum n (fun j => rsum (length l) (fun k => c j k i * c j k i)) =
         A * rsum n dt * dist_pt (sup_at l i) x z).
Proof.
  intros A l x z e la dt n PA PD E.
  exists (fun j k i => e i k * sqrt (A * dt j * la k)).
  split; [| split].
  - intros zs ws.
    enough (K : exists a, steps n dt zs ws (start A l e la) = Some a /\
       tm a = rsum n dt /\ aA a = A /\ amode a = Increment /\ evecs a = e /\ evals a = la /\
       length (sups a) = length l /\
       forall i, (i < length l)%nat ->
         off (sup_at (sups a) i) =
           mkv 0 (rsum n (fun j => rsum (length l) (fun k => e i k * sqrt (A * dt j * la k) * zs j k))) 0 /\
         modified (sup_at (sups a) i) = true).
    { destruct K as (a & K1 & K2 & _ & _ & _ & _ & K3 & K4). exists a. auto. }
    induction n as [| n IH].
    + exists (start A l e la). unfold start. cbn [set_mode new_atl amode snd reset tm aA sups evecs evals].
      repeat split; try reflexivity.
      * cbn. apply map_length.
      * cbn [sups]. rewrite sup_at_reset by assumption. reflexivity.
      * cbn [sups]. rewrite sup_at_reset by assumption. reflexivity.
    + destruct IH as (a & S & T & HA & M & HE & HL & LN & O); [intros; apply PD; lia |].
      cbn [steps]. rewrite S. unfold do_step. rewrite M, HA, HE, HL, LN.
      rewrite forallb_seq_le.
      2: { intros k Hk. apply Rmult_le_pos; [apply Rmult_le_pos; [exact PA | apply PD; lia] |].
           apply (proj1 E). exact Hk. }
      eexists. split; [reflexivity |]. cbn [tm aA amode evecs evals sups].
      rewrite T. repeat split.
      * rewrite apply_all_length. exact LN.
      * rewrite apply_all_nth by (rewrite LN; assumption). cbn [apply_atl off increment_offset Nat.add].
        rewrite (proj1 (O i H)). cbn [rsum].
        apply vec3_eq; cbn [vx vy vz vadd]; try ring. f_equal. apply rsum_ext. intros k Hk.
        rewrite amplitude_is. ring.
      * rewrite apply_all_nth by (rewrite LN; assumption). reflexivity.
  - intros i m Hi Hm. rewrite (rsum_ext n _ (fun j => A * dist (sup_at l i) (sup_at l m) * dt j)).
    + rewrite rsum_scal. ring.
    + intros j Hj. destruct (var_diff l x z e la (A * dt j) i m E) as [V _]; auto.
      { apply Rmult_le_pos; auto. }
      rewrite V. ring.
  - intros i Hi. rewrite (rsum_ext n _ (fun j => A * dist_pt (sup_at l i) x z * dt j)).
    + rewrite rsum_scal. ring.
    + intros j Hj. destruct (var_diff l x z e la (A * dt j) i i E) as [_ V]; auto.
      { apply Rmult_le_pos; auto. }
      rewrite V. ring.
Qed.
Print Assumptions C108_increment.

(* Supports at distances 0 and 4 from the reference point: matrix diag(0,4). *)
Example C108_case :
  let l := [mkS (mkv 0 0 0) false 0 0 0; mkS (mkv 0 0 0) false 0 4 4] in
  eigen l 0 0 (fun i j => if Nat.eqb i j then 1 else 0) (fun k => if Nat.eqb k 0 then 0 else 4)
  /\ dist (sup_at l 0) (sup_at l 1) = 4.
Proof.
  assert (Q : sqrt ((0 - 0) * (0 - 0) + (0 - 4) * (0 - 4)) = 4)
    by (replace (_ + _) with (4 * 4) by ring; apply sqrt_square; lra).
  assert (Q' : sqrt ((0 - 0) * (0 - 0) + (4 - 0) * (4 - 0)) = 4)
    by (replace (_ + _) with (4 * 4) by ring; apply sqrt_square; lra).
  assert (Q0 : sqrt ((0 - 0) * (0 - 0) + (0 - 0) * (0 - 0)) = 0)
    by (replace (_ + _) with 0 by ring; apply sqrt_0).
  cbv zeta. split; [| exact Q]. split.
  - intros k _. destruct (Nat.eqb k 0); lra.
  - intros n m Hn Hm. cbn in Hn, Hm. rewrite matrix_is.
    destruct n as [| [| n]]; [| | lia]; destruct m as [| [| m]]; try lia;
      rewrite ?dist_self; unfold dist, dist_pt; cbn; rewrite ?Q, ?Q', ?Q0; field.
Qed.

(* Absolute mode: the displacements of a step have the variance of the time
   before the step, and do not depend on the displacements so far. *)
Theorem C129_absolute_partial : forall A l x z e la a dt,
  0 <= A -> 0 <= tm a -> eigen l x z e la -> aA a = A -> amode a = Absolute -> vv a = 0 ->
  sups a = l -> evecs a = e -> evals a = la ->
  exists c : nat -> nat -> R,
    (forall zs ws, exists a', do_step dt zs ws a = Some (tm a + dt, a') /\
       tm a' = tm a + dt /\ amode a' = Absolute /\
       forall i, (i < length l)%nat ->
         off (sup_at (sups a') i) = mkv 0 (rsum (length l) (fun k => c k i * zs k)) 0) /\
    (forall i m, (i < length l)%nat -> (m < length l)%nat ->
       rsum (length l) (fun k => (c k i - c k m) * (c k i - c k m)) =
         A * tm a * dist (sup_at l i) (sup_at l m)).
Proof.
  intros A l x z e la a dt PA PT E HA HM HV HS HE HL.
  exists (fun k i => e i k * sqrt (A * tm a * la k)). split.
  - intros zs ws. unfold do_step. rewrite HA, HM, HV, HS, HE, HL.
    rewrite forallb_seq_le.
    2: { intros k Hk. apply Rmult_le_pos; [apply Rmult_le_pos; assumption |]. apply (proj1 E). exact Hk. }
    eexists. split; [reflexivity |]. split; [reflexivity |]. split; [reflexivity |]. cbn [sups].
    intros i Hi. rewrite apply_all_nth by assumption. cbn [apply_atl off set_offset Nat.add].
    destruct (Reqb_spec 0 0) as [_ | N]; [| contradiction (N eq_refl)].
    f_equal. rewrite Rplus_0_r. apply rsum_ext. intros k Hk. rewrite amplitude_is. ring.
  - intros i m Hi Hm. destruct (var_diff l x z e la (A * tm a) i m E) as [V _]; auto.
    apply Rmult_le_pos; assumption.
Qed.
Print Assumptions C129_absolute_partial.

(* So after the first step, at time dt, nothing has moved. *)
Theorem C129_absolute_refuted : forall A l e la dt zs ws,
  exists a, do_step dt zs ws (new_atl A l e la) = Some (dt, a) /\ tm a = dt /\
    forall i, (i < length l)%nat -> off (sup_at (sups a) i) = mkv 0 0 0.
Proof.
  intros A l e la dt zs ws. unfold do_step. cbn [new_atl amode aA tm sups evecs evals vv].
  rewrite forallb_seq_le by (intros; lra). rewrite Rplus_0_l.
  eexists. split; [reflexivity |]. split; [reflexivity |]. cbn [sups].
  intros i Hi. rewrite apply_all_nth by assumption. cbn [apply_atl off set_offset].
  destruct (Reqb_spec 0 0) as [_ | N]; [| contradiction (N eq_refl)].
  f_equal. rewrite Rplus_0_r. rewrite (rsum_ext _ _ (fun _ => 0)); [apply rsum_zero |].
  intros k Hk. rewrite amplitude_is. replace (A * 0 * la k) with 0 by ring. rewrite sqrt_0. ring.
Qed.
Print Assumptions C129_absolute_refuted.

(* Vibration of absolute steps is independent noise of the given size. *)
Theorem C108_vibration : forall v a0 dt zs ws a t a',
  amode a0 = Absolute -> a = snd (set_vibration v a0) ->
  do_step dt zs ws a = Some (t, a') ->
  exists b, do_step dt zs (fun _ => 0) a = Some (t, b) /\
    forall i, (i < length (sups a))%nat ->
      off (sup_at (sups a') i) =
        vadd (off (sup_at (sups b) i)) (mkv 0 (Rabs v * ws i) 0).
Proof.
  intros v a0 dt zs ws a t a' M -> D. unfold set_vibration in *. rewrite M in *. cbn [snd] in *.
  unfold do_step in *. cbn [amode aA tm sups evecs evals vv] in *.
  destruct (forallb _ _); [| discriminate].
  injection D as <- <-. eexists. split; [reflexivity |]. cbn [sups].
  intros i Hi. rewrite !apply_all_nth by assumption. cbn [apply_atl off set_offset Nat.add].
  apply vec3_eq; cbn [vx vy vz vadd]; try ring.
  destruct (Reqb_spec (v * v) 0) as [Z | Z].
  - assert (v = 0) as -> by nra. rewrite Rabs_R0. ring.
  - change (v * v) with (Rsqr v). rewrite sqrt_Rsqr_abs. ring.
Qed.
Print Assumptions C108_vibration.

(* C109: recording an eigensystem and reading it back. *)
Lemma read_record : forall n e i j, (i < n)%nat -> (j < n)%nat ->
  read_evecs (record_evecs n e) i j = e (Nat.min i j) (Nat.max i j).
Proof.
  intros n e i j Hi Hj. unfold read_evecs, record_evecs.
  set (r := Nat.min i j). set (c := Nat.max i j).
  assert (Hr : (r < n)%nat) by (unfold r; lia). assert (Hc : (c < n)%nat) by (unfold c; lia).
  assert (Hrc : (r <= c)%nat) by (unfold r, c; lia).
  rewrite (nth_indep _ [] (map (e 0%nat) (seq 0 (n - 0)))) by (rewrite map_length, seq_length; exact Hr).
  rewrite (map_nth (fun row => map (e row) (seq row (n - row))) (seq 0 n) 0%nat r).
  rewrite seq_nth by exact Hr. cbn [Nat.add].
  rewrite (nth_indep _ 0 (e r 0%nat)) by (rewrite map_length, seq_length; lia).
  rewrite map_nth. rewrite seq_nth by lia. f_equal. lia.
Qed.

Theorem C109_symmetric_partial : forall n e,
  (forall i j, (i < n)%nat -> (j < n)%nat -> read_evecs (record_evecs n e) i j = e i j) <->
  (forall i j, (i < n)%nat -> (j < n)%nat -> e i j = e j i).
Proof.
  intros n e. split; intros H i j Hi Hj.
  - pose proof (H i j Hi Hj) as K1. pose proof (H j i Hj Hi) as K2.
    rewrite read_record in K1, K2 by assumption.
    rewrite Nat.min_comm, Nat.max_comm in K2. congruence.
  - rewrite read_record by assumption. destruct (Nat.le_gt_cases i j).
    + rewrite Nat.min_l, Nat.max_r by lia. reflexivity.
    + rewrite Nat.min_r, Nat.max_l by lia. symmetry. apply H; assumption.
Qed.
Print Assumptions C109_symmetric_partial.

(* The rotation by which a symmetric two-by-two matrix is diagonalised. *)
Theorem C109_record_refuted : exists e : nat -> nat -> R,
  (forall i j, (i < 2)%nat -> (j < 2)%nat ->
     rsum 2 (fun k => e i k * e j k) = if Nat.eqb i j then 1 else 0) /\
  read_evecs (record_evecs 2 e) 1 0 <> e 1%nat 0%nat.
Proof.
  exists (fun i j => match i, j with
     | O, O => 3/5 | O, _ => 4/5 | _, O => -(4/5) | _, _ => 3/5 end).
  split.
  - intros [| [| i]] [| [| j]] Hi Hj; try lia; cbn; field.
  - cbn. lra.
Qed.
Print Assumptions C109_record_refuted.

(* C110: the simple model. *)
Fixpoint ssteps (n : nat) (dt : nat -> R) (zs ws : nat -> nat -> R) (a : satl) : option satl :=
  match n with
  | O => Some a
  | Datatypes.S k =>
      match ssteps k dt zs ws a with
      | Some b => match sdo_step (dt k) (zs k) (ws k) b with Some (_, c) => Some c | None => None end
      | None => None
      end
  end.
Definition arc (l : list support) (n : nat) : R := s_pos (sup_at l n).
Definition arc_le (a b : support) : Prop := s_pos a <= s_pos b.
Definition gap (l : list support) (z : R) (n : nat) : R :=
  match n with O => arc l 0 - z | Datatypes.S k => arc l n - arc l k end.
Definition noise (vib w : R) : R := if Reqb vib 0 then 0 else sqrt vib * w.

Lemma rsum_S : forall n f, rsum (Datatypes.S n) f = rsum n f + f n.
Proof. reflexivity. Qed.
Lemma rsum_shift : forall n f, rsum (Datatypes.S n) f = f 0%nat + rsum n (fun k => f (Datatypes.S k)).
Proof.
  induction n as [| n IH]; intros f; [cbn; ring |].
  change (rsum (Datatypes.S (Datatypes.S n)) f) with (rsum (Datatypes.S n) f + f (Datatypes.S n)).
  rewrite IH. cbn [rsum]. ring.
Qed.

Lemma walk_ok : forall l AT vib zs ws n y z g,
  0 <= AT -> length g = length l -> StronglySorted arc_le l ->
  (forall s, In s l -> z <= s_pos s) ->
  exists l' g', walk AT vib zs ws n y z l g = Some (l', g') /\
    length l' = length l /\ length g' = length l /\
    forall i, (i < length l)%nat ->
      nth i g' 0 = nth i g 0 + (y + rsum (Datatypes.S i) (fun k => sqrt (AT * gap l z k) * zs (n + k)%nat)) /\
      sup_at l' i = set_offset (mkv 0 (nth i g' 0 + noise vib (ws (n + i)%nat)) 0) (sup_at l i).
Proof.
  induction l as [| s l IH]; intros AT vib zs ws n y z g PA LG SS Z.
  - exists [], g. cbn. repeat split; auto; cbn in *; lia.
  - destruct g as [| g0 g]; [discriminate |]. cbn in LG. injection LG as LG.
    cbn [walk].
    assert (V : 0 <= AT * (s_pos s - z)).
    { apply Rmult_le_pos; [exact PA |]. specialize (Z s (or_introl eq_refl)). lra. }
    destruct (Rltb_spec (AT * (s_pos s - z)) 0); [lra |].
    inversion SS as [| ? ? SS' F]; subst.
    destruct (IH AT vib zs ws (Datatypes.S n) (y + amplitude (AT * (s_pos s - z)) (zs n)) (s_pos s) g)
      as (l' & g' & W & L1 & L2 & K); auto.
    { intros u U. rewrite Forall_forall in F. apply F. exact U. }
    rewrite W. eexists _, _. split; [reflexivity |].
    split; [cbn; lia |]. split; [cbn; lia |].
    intros [| i] Hi.
    + cbn [nth]. unfold sup_at. cbn [nth]. rewrite Nat.add_0_r.
      split; [| reflexivity].
      cbn [rsum gap]. rewrite amplitude_is. unfold arc, sup_at. cbn [nth].
      rewrite Nat.add_0_r. ring.
    + cbn in Hi. destruct (K i ltac:(lia)) as [K1 K2].
      change (nth (Datatypes.S i) (g0 + (y + amplitude (AT * (s_pos s - z)) (zs n)) :: g') 0) with (nth i g' 0).
      change (nth (Datatypes.S i) (g0 :: g) 0) with (nth i g 0).
      split.
      * rewrite K1. rewrite (rsum_shift (Datatypes.S i)). rewrite amplitude_is.
        change (gap (s :: l) z 0) with (s_pos s - z). rewrite Nat.add_0_r.
        assert (X : rsum (Datatypes.S i) (fun k => sqrt (AT * gap l (s_pos s) k) * zs (Datatypes.S n + k)%nat)
          = rsum (Datatypes.S i) (fun k => sqrt (AT * gap (s :: l) z (Datatypes.S k)) * zs (n + Datatypes.S k)%nat)).
        { apply rsum_ext. intros k Hk. replace (Datatypes.S n + k)%nat with (n + Datatypes.S k)%nat by lia.
          destruct k; reflexivity. }
        rewrite X. ring.
      * replace (n + Datatypes.S i)%nat with (Datatypes.S n + i)%nat by lia. exact K2.
Qed.

Lemma arc_kept : forall l l', length l' = length l ->
  (forall i, (i < length l)%nat -> s_pos (sup_at l' i) = s_pos (sup_at l i)) ->
  map s_pos l' = map s_pos l.
Proof.
  induction l as [| s l IH]; intros [| s' l'] L H; try discriminate; [reflexivity |].
  cbn in L. injection L as L. cbn. f_equal.
  - exact (H 0%nat ltac:(cbn; lia)).
  - apply IH; [exact L |]. intros i Hi. exact (H (Datatypes.S i) ltac:(cbn; lia)).
Qed.

Lemma sorted_arcs : forall l l', map s_pos l' = map s_pos l ->
  StronglySorted arc_le l -> StronglySorted arc_le l'.
Proof.
  induction l as [| s l IH]; intros [| s' l'] E SS; try discriminate; [constructor |].
  cbn in E. injection E as E1 E2. inversion SS as [| ? ? SS' F]; subst. constructor; [apply IH; auto |].
  rewrite Forall_forall in *. intros u U. unfold arc_le. rewrite E1.
  apply (in_map s_pos) in U. rewrite E2 in U. apply in_map_iff in U as (v & <- & V).
  apply F in V. exact V.
Qed.

Lemma arc_map : forall l l' n, map s_pos l' = map s_pos l -> arc l' n = arc l n.
Proof.
  intros l l' n E. unfold arc, sup_at.
  rewrite <- (map_nth s_pos l'), <- (map_nth s_pos l), E. reflexivity.
Qed.
Lemma gap_map : forall l l' z n, map s_pos l' = map s_pos l -> gap l' z n = gap l z n.
Proof. intros l l' z [| n] E; cbn [gap]; rewrite !(arc_map l l') by exact E; reflexivity. Qed.

Definition good_sort (sort : list support -> list support) : Prop :=
  forall l, Permutation.Permutation (sort l) l /\ StronglySorted arc_le (sort l).

Lemma gap_nonneg : forall l, StronglySorted arc_le l -> (forall s, In s l -> 0 <= s_pos s) ->
  forall k, (k < length l)%nat -> 0 <= gap l 0 k.
Proof.
  intros l SS P [| k] Hk; cbn [gap].
  - unfold arc. specialize (P (sup_at l 0) (nth_In _ _ Hk)). lra.
  - unfold arc, sup_at. revert k Hk. induction SS as [| s l SS IH F]; intros k Hk; [cbn in Hk; lia |].
    destruct k as [| k].
    + cbn [nth]. rewrite Forall_forall in F.
      assert (Hl : (0 < length l)%nat) by (cbn in Hk; lia).
      specialize (F (nth 0 l new_support) (nth_In _ _ Hl)). unfold arc_le in F. lra.
    + cbn [nth]. apply IH; [intros; apply P; right; assumption | cbn in Hk; lia].
Qed.

Lemma gap_telescope : forall l i, rsum (Datatypes.S i) (gap l 0) = arc l i.
Proof.
  induction i as [| i IH]; [cbn; ring |].
  change (rsum (Datatypes.S (Datatypes.S i)) (gap l 0))
    with (rsum (Datatypes.S i) (gap l 0) + gap l 0 (Datatypes.S i)).
  rewrite IH. cbn [gap]. ring.
Qed.

Lemma rsum_upto : forall N i f, (i < N)%nat ->
  rsum N (fun k => if Nat.leb k i then f k else 0) = rsum (Datatypes.S i) f.
Proof.
  induction N as [| N IH]; intros i f H; [lia |].
  cbn [rsum]. destruct (Nat.eq_dec i N) as [-> | D].
  - rewrite Nat.leb_refl. f_equal. apply rsum_ext. intros k Hk.
    destruct (Nat.leb_spec k N); [reflexivity | lia].
  - rewrite IH by lia. destruct (Nat.leb_spec N i); [lia | cbn [rsum]; ring].
Qed.

Theorem C110_walk : forall sort A l vrms dt n,
  good_sort sort -> 0 <= A -> (forall j, (j < n)%nat -> 0 <= dt j) ->
  (forall s, In s l -> 0 <= s_pos s) ->
  let L := sort l in let N := length l in
  exists c : nat -> nat -> nat -> R,
    (forall zs ws, exists a, ssteps n dt zs ws (new_satl sort A l vrms) = Some a /\
       stm a = rsum n dt /\ length (ssup a) = N /\
       forall i, (i < N)%nat ->
         arc (ssup a) i = arc L i /\
         nth i (gm a) 0 = rsum n (fun j => rsum N (fun k => c j k i * zs j k)) /\
         ((0 < n)%nat -> off (sup_at (ssup a) i) =
            mkv 0 (nth i (gm a) 0 + Rabs vrms * ws (pred n) i) 0)) /\
    (forall i m, (m <= i)%nat -> (i < N)%nat ->
       rsum n (fun j => rsum N (fun k => (c j k i - c j k m) * (c j k i - c j k m))) =
         A * rsum n dt * (arc L i - arc L m)) /\
    (forall i, (i < N)%nat ->
       rsum n (fun j => rsum N (fun k => c j k i * c j k i)) = A * rsum n dt * arc L i).
Proof.
  intros sort A l vrms dt n GS PA PD PL L N.
  destruct (GS l) as [PE SS]. fold L in PE, SS.
  assert (LN : length L = N) by apply (Permutation.Permutation_length PE).
  assert (PLs : forall s, In s L -> 0 <= s_pos s).
  { intros s I. apply PL. apply (Permutation.Permutation_in _ PE I). }
  pose proof (gap_nonneg L SS PLs) as GN. rewrite LN in GN.
  exists (fun j k i => if Nat.leb k i then sqrt (A * dt j * gap L 0 k) else 0).
  split; [| split].
  - intros zs ws.
    enough (K : exists a, ssteps n dt zs ws (new_satl sort A l vrms) = Some a /\
       stm a = rsum n dt /\ length (ssup a) = N /\ sA a = A /\ svv a = vrms * vrms /\
       length (gm a) = N /\ map s_pos (ssup a) = map s_pos L /\
       forall i, (i < N)%nat ->
         nth i (gm a) 0 = rsum n (fun j => rsum N (fun k =>
            (if Nat.leb k i then sqrt (A * dt j * gap L 0 k) else 0) * zs j k)) /\
         ((0 < n)%nat -> off (sup_at (ssup a) i) =
            mkv 0 (nth i (gm a) 0 + Rabs vrms * ws (pred n) i) 0)).
    { destruct K as (a & K1 & K2 & K3 & _ & _ & _ & K4 & K5). exists a.
      split; [exact K1 |]. split; [exact K2 |]. split; [exact K3 |].
      intros i Hi. split; [apply arc_map; exact K4 | apply K5; exact Hi]. }
    induction n as [| n IH].
    + exists (new_satl sort A l vrms). cbn [ssteps new_satl stm ssup sA svv gm rsum].
      repeat split; auto.
      * apply repeat_length.
      * apply nth_repeat.
      * intros K; inversion K.
    + destruct IH as (a & S & T & LS & HA & HV & LG & MP & O); [intros; apply PD; lia |].
      cbn [ssteps]. rewrite S. unfold sdo_step. rewrite HA, HV.
      destruct (walk_ok (ssup a) (A * dt n) (vrms * vrms) (zs n) (ws n) 0 0 0 (gm a))
        as (l' & g' & W & L1 & L2 & K).
      { apply Rmult_le_pos; [exact PA | apply PD; lia]. }
      { congruence. }
      { apply (sorted_arcs L); assumption. }
      { intros s I. apply (in_map s_pos) in I. rewrite MP in I.
        apply in_map_iff in I as (u & <- & U). apply PLs. exact U. }
      rewrite W. eexists. split; [reflexivity |]. cbn [stm ssup sA svv gm].
      rewrite LS in *. repeat split; auto.
      * rewrite T. reflexivity.
      * rewrite <- MP. apply arc_kept; [congruence |]. intros i Hi. rewrite LS in Hi.
        rewrite (proj2 (K i Hi)). reflexivity.
      * rewrite (proj1 (K i H)), (proj1 (O i H)). rewrite Rplus_0_l.
        rewrite (rsum_S n). apply Rplus_eq_compat_l.
        rewrite <- (rsum_upto N i) by exact H.
        apply rsum_ext. intros k Hk. rewrite (gap_map L) by exact MP. cbn [Nat.add].
        destruct (Nat.leb k i); ring.
      * intros _. rewrite (proj2 (K i H)). cbn [off set_offset pred Nat.add]. f_equal. f_equal.
        unfold noise. destruct (Reqb_spec (vrms * vrms) 0) as [Z | Z].
        -- assert (vrms = 0) as -> by nra. rewrite Rabs_R0. ring.
        -- change (vrms * vrms) with (Rsqr vrms). rewrite sqrt_Rsqr_abs. reflexivity.
  - intros i m Hm Hi. rewrite (rsum_ext n _ (fun j => A * (arc L i - arc L m) * dt j)).
    { rewrite rsum_scal. ring. }
    intros j Hj.
    rewrite (rsum_ext N _ (fun k => (if Nat.leb k i then A * dt j * gap L 0 k else 0)
               + -1 * (if Nat.leb k m then A * dt j * gap L 0 k else 0))).
    + rewrite rsum_plus, rsum_scal, !rsum_upto by lia. rewrite !rsum_scal, !gap_telescope. ring.
    + intros k Hk.
      assert (Q : sqrt (A * dt j * gap L 0 k) * sqrt (A * dt j * gap L 0 k) = A * dt j * gap L 0 k).
      { apply sqrt_sqrt. repeat apply Rmult_le_pos; auto. }
      destruct (Nat.leb_spec k i), (Nat.leb_spec k m); try lia; set (q := sqrt _) in *; try rewrite <- Q; ring.
  - intros i Hi. rewrite (rsum_ext n _ (fun j => A * arc L i * dt j)).
    { rewrite rsum_scal. ring. }
    intros j Hj.
    rewrite (rsum_ext N _ (fun k => (if Nat.leb k i then A * dt j * gap L 0 k else 0))).
    + rewrite rsum_upto by lia. rewrite rsum_scal, gap_telescope. ring.
    + intros k Hk.
      assert (Q : sqrt (A * dt j * gap L 0 k) * sqrt (A * dt j * gap L 0 k) = A * dt j * gap L 0 k).
      { apply sqrt_sqrt. repeat apply Rmult_le_pos; auto. }
      destruct (Nat.leb_spec k i); set (q := sqrt _) in *; try rewrite <- Q; ring.
Qed.
Print Assumptions C110_walk.

(* Resetting starts afresh: the clock, the offsets and nothing else. *)
Theorem C108_reset : forall a, let b := reset a in
  tm b = 0 /\ aA b = aA a /\ vv b = vv a /\ amode b = amode a /\ evecs b = evecs a /\ evals b = evals a /\
  length (sups b) = length (sups a) /\
  forall i, (i < length (sups a))%nat ->
    sup_at (sups b) i = mkS (mkv 0 0 0) true (sx (sup_at (sups a) i)) (sz (sup_at (sups a) i)) (s_pos (sup_at (sups a) i)).
Proof.
  intros a b. repeat split; try reflexivity.
  - cbn. apply map_length.
  - intros i Hi. unfold b, reset. cbn [sups]. rewrite sup_at_reset by exact Hi. reflexivity.
Qed.
Print Assumptions C108_reset.

(* Resetting starts afresh. *)
Theorem C110_reset : forall a, let b := sreset a in
  stm b = 0 /\ gm b = repeat 0 (length (gm a)) /\ map s_pos (ssup b) = map s_pos (ssup a) /\
  forall i, (i < length (ssup a))%nat -> off (sup_at (ssup b) i) = mkv 0 0 0.
Proof.
  intros a b. split; [reflexivity |]. split.
  - cbn. induction (gm a); cbn; congruence.
  - split; [cbn; rewrite map_map; reflexivity |].
    intros i Hi. unfold b, sreset. cbn [ssup]. rewrite sup_at_reset by exact Hi. reflexivity.
Qed.
Print Assumptions C110_reset.

(* A support before the origin: the variance of the first step is negative. *)
Theorem C110_negative_refuted : forall A dt s vrms zs ws, 0 < A -> 0 < dt -> s_pos s < 0 ->
  sdo_step dt zs ws (new_satl (fun l => l) A [s] vrms) = None.
Proof.
  intros A dt s vrms zs ws HA HD HS. unfold sdo_step. cbn.
  destruct (Rltb_spec (A * dt * (s_pos s - 0)) 0) as [L | L]; [reflexivity |].
  pose proof (Rmult_lt_0_compat _ _ HA HD). nra.
Qed.
Print Assumptions C110_negative_refuted.

Example C110_case : exists sort, good_sort sort.
Proof.
  set (ins := fix ins (s : support) (l : list support) := match l with
    | [] => [s] | u :: l' => if Rleb (s_pos s) (s_pos u) then s :: l else u :: ins s l' end).
  assert (PI_ : forall s l, Permutation.Permutation (ins s l) (s :: l)).
  { induction l as [| u l IH]; cbn; [reflexivity |]. destruct (Rleb _ _); [reflexivity |].
    rewrite IH. apply Permutation.perm_swap. }
  assert (SI : forall s l, StronglySorted arc_le l -> StronglySorted arc_le (ins s l)).
  { intros s l H. induction H as [| u l H IH F]; cbn; [repeat constructor |].
    destruct (Rleb_spec (s_pos s) (s_pos u)) as [L | L].
    - constructor; [constructor; assumption |]. constructor; [exact L |].
      eapply Forall_impl; [| exact F]. intros v V. unfold arc_le in *. lra.
    - constructor; [exact IH |]. rewrite Forall_forall. intros v V.
      apply (Permutation.Permutation_in _ (PI_ s l)) in V. destruct V as [<- | V].
      + unfold arc_le. lra.
      + rewrite Forall_forall in F. apply F. exact V. }
  exists (fold_right ins []). intros l. induction l as [| s l [P Q]]; cbn; [split; constructor |].
  split; [rewrite PI_; constructor; exact P | apply SI; exact Q].
Qed.
