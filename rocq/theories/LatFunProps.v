(* C224-C228: what the columns of a table of lattice functions are *)
From Coq Require Import ZArith Lia Lra.
From Verif Require Import RBase Bunch BunchSpec Optics Orbit OrbitSpec OrbitProofs LatFun LatFunSpec LatFunProofs.
From Verif Require Mat MatFacts Gauss GaussProps SympProps Rot RotProofs.
Local Open Scope R_scope.

Lemma arrives_all s m p : arrives s m (length m) p = through s None (map lc m) p.
Proof. unfold arrives. rewrite firstn_all, through_journey, map_map. reflexivity. Qed.
Lemma turn_is t m scale Mi p M : turn_matrix t m scale Mi p = Ok M -> same_mat 6 M (match Mi with Some M => M | None => slopes scale m (length m) (tdelta t) p end).
Proof.
  unfold turn_matrix. destruct Mi as [M0|]; intros H; [inversion H; intros i j _ _; reflexivity|].
  unfold find_tm_at in H. cbn [tmobs tmrad tmsize tmnum tmdelta tmscale tm_set_scale tm_set_delta new_tm] in H. destruct (get_ring (map lc m) 0) as [l| |] eqn:G; cbn in H; try discriminate.
  unfold get_ring in G. destruct (Z.leb 0 0 && Z.ltb 0 (Z.of_nat (length (map lc m)))); [|discriminate]. cbn in G. inversion G; subst l. rewrite app_nil_r in H.
  unfold quotients in H. destruct (Reqb (tdelta t) 0); cbn in H; [discriminate|]. inversion H. intros i j Hi Hj.
  unfold slopes. rewrite !arrives_all, bump_nudge by assumption. reflexivity.
Qed.
Lemma turn_ok t m scale p : m <> [] -> tdelta t <> 0 -> exists M, turn_matrix t m scale None p = Ok M.
Proof.
  intros H D. unfold turn_matrix, find_tm_at. destruct m as [|c m]; [congruence|]. unfold get_ring. cbn [map tmobs tm_set_scale tm_set_delta new_tm Z.to_nat].
  replace (Z.leb 0 0 && Z.ltb 0 (Z.of_nat (length (lc c :: map lc m)))) with true by (symmetry; apply andb_true_intro; split; [reflexivity|apply Z.ltb_lt; cbn [length]; lia]).
  cbn [bind rad_of tmrad]. unfold quotients. cbn [tmdelta tm_set_scale tm_set_delta new_tm]. destruct (Reqb_spec (tdelta t) 0); [contradiction|]. cbn [rad_of tmrad tm_set_scale tm_set_delta new_tm bind of_orbit]. eauto.
Qed.
Lemma forced_is t M M' : forced t M = Ok M' -> M' = (if tforce t then mset 4 4 (1 - / 1000000000000) M else M).
Proof. unfold forced. destruct (tforce t); [|intros H; inversion H; reflexivity]. destruct (Rltb _ _); [discriminate|]. intros H; inversion H; reflexivity. Qed.

Lemma do_calc_inv factor eig m t scale pi Mi t' d : do_calculate factor eig m t scale pi Mi = Ok (t', d) ->
  exists p M ok re im cs, starts factor m t scale true pi p /\ tdelta t <> 0 /\ m <> [] /\ eig M = Some (ok, re, im) /\
    walk (dim ok) (tdelta t) scale (tsymp t) ok m p (fun k => bump k (tdelta t) p) Mat.mid (rotated (dim ok) re im) 0 1 (map clear_values (tcols t)) = Ok cs /\
    t' = with_cols cs t /\ d = vdp p /\ (tsymp t = false -> same_mat 6 M (turn_of t m scale Mi p)).
Proof.
  unfold do_calculate. intros H.
  match type of H with bind ?X _ = _ => destruct X as [p| |] eqn:P; cbn [bind] in H; try discriminate end.
  destruct (turn_matrix t m scale Mi p) as [M0| |] eqn:T; cbn [bind] in H; try discriminate.
  destruct (forced t M0) as [M1| |] eqn:Fo; cbn [bind] in H; try discriminate.
  match type of H with bind ?X _ = _ => destruct X as [M| |] eqn:S; cbn [bind] in H; try discriminate end.
  destruct (eig M) as [[[ok re] im]|] eqn:E; [|discriminate].
  destruct (Reqb_spec (tdelta t) 0) as [|D]; [discriminate|].
  destruct m as [|c m]; [discriminate|].
  match type of H with bind ?X _ = _ => destruct X as [cs| |] eqn:W; cbn [bind] in H; try discriminate end.
  inversion H; subst. exists p, M, ok, re, im, cs. split.
  { destruct pi as [q|]; cbn [starts]; [inversion P; reflexivity|].
    match type of P with bind (of_orbit ?X) _ = _ => destruct X as [[[q w] it]| |] eqn:F; cbn in P; try discriminate end.
    inversion P; subst. exists w, it. reflexivity. }
  split; [exact D|]. split; [discriminate|]. split; [exact E|]. split; [exact W|]. split; [reflexivity|]. split; [reflexivity|].
  intros Y. rewrite Y in S. inversion S; subst M1. apply forced_is in Fo. apply turn_is in T. subst M. unfold turn_of. destruct (tforce t).
  - intros i j Hi Hj. unfold mset. replace (10 ^ 12) with 1000000000000 by ring. destruct (Nat.eqb i 4 && Nat.eqb j 4) eqn:B; [reflexivity|]. apply T; assumption.
  - exact T.
Qed.
Lemma calc_inv factor eig m t pi Mi t' : torbit t = false -> calculate factor eig m t pi Mi = Ok t' -> exists d, do_calculate factor eig m t (tscale t) pi Mi = Ok (t', d).
Proof.
  intros O H. unfold calculate in H. rewrite O in H. destruct (do_calculate factor eig m t (tscale t) pi Mi) as [[a d]| |]; cbn in H; try discriminate.
  inversion H. exists d. reflexivity.
Qed.
Lemma starts_unique factor m t s b pi p q : starts factor m t s b pi p -> starts factor m t s b pi q -> p = q.
Proof. unfold starts. destruct pi as [r|]; [congruence|]. intros (w & i & E) (w' & i' & E'). congruence. Qed.

(* every column that comes out, with its values given by value_of *)
Lemma calc_cols factor eig m t pi Mi t' p : torbit t = false -> calculate factor eig m t pi Mi = Ok t' -> starts factor m t (tscale t) true pi p ->
  exists M ok re im Ns, tdelta t <> 0 /\ eig M = Some (ok, re, im) /\ (tsymp t = false -> same_mat 6 M (turn_of t m (tscale t) Mi p)) /\
    map idx (tcols t') = map idx (tcols t) /\
    (forall c, In c (tcols t') -> length (cval c) = S (length m) /\
       forall r, (r <= length m)%nat -> value_of (dim ok) ok (way m r) (arrives (tscale t) m r p) (Ns r) (ci c) (cj c) (ck c) = Ok (at_row c r)) /\
    (tsymp t = false -> forall r, (r <= length m)%nat ->
       Mat.meq (dim ok) (Ns r) (Mat.mmul (dim ok) (Qat (dim ok) (tdelta t) (tscale t) m 1 p (fun k => bump k (tdelta t) p) r) (rotated (dim ok) re im))) /\
    (tsymp t = true -> dim ok = 6%nat /\ forall r, (r <= length m)%nat -> exists A, SympProps.symplectic A /\ Ns r = Mat.mmul (dim ok) A (match r with O => rotated (dim ok) re im | S r => Ns r end)).
Proof.
  intros O H S. destruct (calc_inv _ _ _ _ _ _ _ O H) as (d & H1). destruct (do_calc_inv _ _ _ _ _ _ _ _ _ H1) as (q & M & ok & re & im & cs & S' & D & NE & E & W & -> & _ & T).
  rewrite (starts_unique _ _ _ _ _ _ _ _ S' S) in *. clear q S'.
  destruct (walk_spec _ _ _ _ _ _ _ _ _ _ _ _ _ _ W) as (Ns & F & G & K).
  exists M, ok, re, im, Ns. split; [exact D|]. split; [exact E|]. split; [exact T|]. cbn [tcols with_cols].
  split. { clear - F. revert F. generalize (tcols t). intros l. revert cs. induction l; intros cs F; inversion F as [|? ? ? ? [I _] F']; subst; [reflexivity|]. cbn [map]. rewrite I, (IHl _ F'). reflexivity. }
  split.
  { intros c Hc. apply In_nth_error in Hc. destruct Hc as [q Hq].
    assert (F2 : exists c0, rowspec (dim ok) ok (tscale t) 0 m p Ns (clear_values c0) c).
    { clear - F Hq. revert q cs F Hq. generalize (tcols t). induction l; intros q cs F Hq; inversion F as [|? ? ? ? I F']; subst; destruct q; cbn in Hq; try discriminate; [inversion Hq; subst; eauto|eauto]. }
    destruct F2 as (c0 & I & vs & V1 & V2 & V3). cbn [cval clear_values app] in V1. unfold idx in I. cbn [ci cj ck clear_values] in *. injection I as I1 I2 I3. unfold at_row.
    rewrite V1. split; [exact V2|]. intros r Hr. specialize (V3 r Hr). rewrite Rplus_0_l in V3. rewrite I1, I2, I3. exact V3. }
  split; [|exact K].
  intros Y r Hr. destruct (G Y r Hr) as [_ G2]. intros i j Hi Hj. rewrite G2 by assumption. apply mmul_meq_r; try assumption. intros a b Ha _. apply MatFacts.mmul_id_l. exact Ha.
Qed.

Lemma idx_inv c i j k : idx c = (i, j, k) -> ci c = i /\ cj c = j /\ ck c = k.
Proof. unfold idx. intros H. repeat split; congruence. Qed.
Lemma value_s n ok s p N v : value_of n ok s p N 0 0 0 = Ok v -> v = s.
Proof. unfold value_of. cbn. intros H. inversion H. reflexivity. Qed.
Lemma value_orbit n ok s p N i v : (1 <= i <= 6)%Z -> value_of n ok s p N i 0 0 = Ok v -> v = coord (Z.to_nat (i - 1)) p.
Proof.
  intros I. unfold value_of. cbn [Z.eqb andb]. destruct (Z.eqb_spec i 0); [lia|]. destruct (Z.ltb_spec 0 i); [|lia]. destruct (Z.leb_spec i 6); [|lia]. cbn. intros E0. inversion E0. reflexivity.
Qed.

Theorem C224_rows : forall factor eig m t pi Mi t' p, torbit t = false -> calculate factor eig m t pi Mi = Ok t' -> starts factor m t (tscale t) true pi p ->
  map idx (tcols t') = map idx (tcols t) /\
  forall c, In c (tcols t') -> length (cval c) = S (length m) /\
    forall r, (r <= length m)%nat ->
      (idx c = (0, 0, 0)%Z -> at_row c r = way m r) /\
      (forall i, (1 <= i <= 6)%Z -> idx c = (i, 0, 0)%Z -> at_row c r = coord (Z.to_nat (i - 1)) (arrives (tscale t) m r p)).
Proof.
  intros factor eig m t pi Mi t' p O H S. destruct (calc_cols _ _ _ _ _ _ _ _ O H S) as (M & ok & re & im & Ns & _ & _ & _ & I & V & _).
  split; [exact I|]. intros c Hc. destruct (V c Hc) as [L V']. split; [exact L|]. intros r Hr. specialize (V' r Hr). split.
  - intros E. destruct (idx_inv _ _ _ _ E) as (E1 & E2 & E3). rewrite E1, E2, E3 in V'. exact (value_s _ _ _ _ _ _ V').
  - intros i Hi E. destruct (idx_inv _ _ _ _ E) as (E1 & E2 & E3). rewrite E1, E2, E3 in V'. exact (value_orbit _ _ _ _ _ _ _ Hi V').
Qed.
Print Assumptions C224_rows.

(* a start is there, the slopes can be inverted, the columns make sense: then there is a table *)
Theorem C224_total : forall factor eig m t p Mi ok re im, torbit t = false -> m <> [] -> tdelta t <> 0 -> tsymp t = false -> coasting m ->
  (tforce t = true -> Rabs (match Mi with Some M => M | None => slopes (tscale t) m (length m) (tdelta t) p end 4%nat 4%nat - 1) <= / 10 ^ 8) ->
  says eig (turn_of t m (tscale t) Mi p) ok re im ->
  (forall r, (r <= length m)%nat -> has_inverse (dim ok) (slopes (tscale t) m r (tdelta t) p)) ->
  Forall (fun c => legal (dim ok) (idx c)) (tcols t) ->
  exists t', calculate factor eig m t (Some p) Mi = Ok t'.
Proof.
  intros factor eig m t p Mi ok re im O NE D Y C Fo E I L. unfold calculate. rewrite O. unfold do_calculate. cbn [bind].
  assert (T : exists M0, turn_matrix t m (tscale t) Mi p = Ok M0) by (destruct Mi as [M0|]; [exists M0; reflexivity|apply turn_ok; assumption]).
  destruct T as [M0 T]. rewrite T. cbn [bind].
  pose proof (turn_is _ _ _ _ _ _ T) as TI.
  assert (FF : forced t M0 = Ok (if tforce t then mset 4 4 (1 - / 1000000000000) M0 else M0)).
  { unfold forced. destruct (tforce t); [|reflexivity]. rewrite (TI 4%nat 4%nat) by lia. destruct (Rltb_spec (/ 100000000) (Rabs (match Mi with Some M => M | None => slopes (tscale t) m (length m) (tdelta t) p end 4%nat 4%nat - 1))) as [Q|Q]; [|reflexivity].
    specialize (Fo eq_refl). replace (10 ^ 8) with 100000000 in Fo by ring. lra. }
  rewrite FF. cbn [bind]. rewrite Y. cbn [bind].
  rewrite E.
  2: { intros i j Hi Hj. unfold turn_of. destruct (tforce t).
       - unfold mset. replace (10 ^ 12) with 1000000000000 by ring. destruct (Nat.eqb i 4 && Nat.eqb j 4); [reflexivity|]. apply TI; assumption.
       - apply TI; assumption. }
  destruct (Reqb_spec (tdelta t) 0); [contradiction|]. destruct m as [|c m]; [congruence|].
  destruct (walk_ok (dim ok) (tdelta t) (tscale t) ok (c :: m) eq_refl p (fun k => bump k (tdelta t) p) Mat.mid (rotated (dim ok) re im) 0 1 (map clear_values (tcols t))) as [cs W].
  - rewrite Forall_map. eapply Forall_impl; [|exact L]. intros a Ha. exact Ha.
  - intros r Hr. apply has_inverse_iff. destruct (I r Hr) as (B & I1 & I2). exists B.
    pose proof (coast_Q ok (tdelta t) (tscale t) (c :: m) p r C Hr) as Q. split; intros i j Hi Hj.
    + rewrite <- I1 by assumption. unfold product. apply tot_ext. intros k Hk. rewrite Q by assumption. reflexivity.
    + rewrite <- I2 by assumption. unfold product. apply tot_ext. intros k Hk. rewrite Q by assumption. reflexivity.
  - unfold rotated, dim in W. cbv zeta in W. rewrite W. cbn. eauto.
Qed.
Print Assumptions C224_total.

Lemma says_ok eig M M' ok re im ok' re' im' : says eig M ok re im -> same_mat 6 M' M -> eig M' = Some (ok', re', im') -> ok' = ok /\ re' = re /\ im' = im.
Proof. intros H E F. rewrite (H _ E) in F. inversion F. auto. Qed.
Lemma plane_nat k n : (1 <= k)%Z -> (2 * k <= Z.of_nat n)%Z ->
  exists q, k = Z.of_nat (S q) /\ (2 * q + 1 < n)%nat /\ Z.to_nat (2 * k - 2) = (2 * q)%nat /\ Z.to_nat (2 * k - 1) = (2 * q + 1)%nat.
Proof. intros H1 H2. exists (Z.to_nat (k - 1)). lia. Qed.
Lemma value_twiss n ok s p N i j k v : (1 <= i <= Z.of_nat n)%Z -> (1 <= j <= Z.of_nat n)%Z -> (1 <= k)%Z -> (2 * k <= Z.of_nat n)%Z ->
  value_of n ok s p N i j k = Ok v ->
  v = N (Z.to_nat (i - 1)) (Z.to_nat (2 * k - 2)) * N (Z.to_nat (j - 1)) (Z.to_nat (2 * k - 2)) + N (Z.to_nat (i - 1)) (Z.to_nat (2 * k - 1)) * N (Z.to_nat (j - 1)) (Z.to_nat (2 * k - 1)).
Proof.
  intros I J K1 K2 H. unfold value_of in H. destruct (Z.eqb k 3 && negb ok); [discriminate|].
  destruct (Z.eqb_spec i 0); [lia|]. destruct (Z.eqb_spec j 0); [lia|]. destruct (Z.ltb_spec 0 i); [|lia]. destruct (Z.ltb_spec 0 j); [|lia]. destruct (Z.ltb_spec 0 k); [|lia].
  destruct (Z.leb_spec i (Z.of_nat n)); [|lia]. destruct (Z.leb_spec j (Z.of_nat n)); [|lia]. destruct (Z.leb_spec (2 * k) (Z.of_nat n)); [|lia]. cbn [andb] in H. inversion H. reflexivity.
Qed.
Lemma twiss_rot a b U V U' V' : a * a + b * b = 1 ->
  sqrt 2 * (U * a + V * b) * (sqrt 2 * (U' * a + V' * b)) + sqrt 2 * (V * a - U * b) * (sqrt 2 * (V' * a - U' * b)) = 2 * (U * U' + V * V').
Proof.
  intros E. assert (T : sqrt 2 * sqrt 2 = 2) by (apply sqrt_sqrt; lra).
  transitivity (sqrt 2 * sqrt 2 * (a * a + b * b) * (U * U' + V * V')); [ring|]. rewrite T, E. ring.
Qed.
Lemma cs1 x : cos x * cos x + sin x * sin x = 1.
Proof. pose proof (sin2_cos2 x) as H. unfold Rsqr in H. lra. Qed.
Lemma act_mat_ext n A B u i : (i < n)%nat -> same_mat n A B -> act n A u i = act n B u i.
Proof. intros Hi H. apply act_ext; [intros; apply H; assumption|reflexivity]. Qed.

Theorem C225_twiss : forall factor eig m t pi Mi t' p ok re im, torbit t = false -> calculate factor eig m t pi Mi = Ok t' -> starts factor m t (tscale t) true pi p ->
  tsymp t = false -> coasting m -> says eig (turn_of t m (tscale t) Mi p) ok re im ->
  forall c i j k r, In c (tcols t') -> (r <= length m)%nat -> (i < dim ok)%nat -> (j < dim ok)%nat -> (2 * k + 1 < dim ok)%nat ->
    idx c = (Z.of_nat (S i), Z.of_nat (S j), Z.of_nat (S k)) ->
    let A := act (dim ok) (slopes (tscale t) m r (tdelta t) p) in
    at_row c r = 2 * (A (re k) i * A (re k) j + A (im k) i * A (im k) j).
Proof.
  intros factor eig m t pi Mi t' p ok re im O H S Y C E c i j k r Hc Hr Hi Hj Hk Ei A.
  destruct (calc_cols _ _ _ _ _ _ _ _ O H S) as (M & ok' & re' & im' & Ns & D & EM & TM & _ & V & G & _).
  destruct (says_ok _ _ _ _ _ _ _ _ _ E (TM Y) EM) as (-> & -> & ->).
  destruct (V c Hc) as [_ V']. specialize (V' r Hr). specialize (G Y r Hr).
  destruct (idx_inv _ _ _ _ Ei) as (E1 & E2 & E3). rewrite E1, E2, E3 in V'. apply value_twiss in V'; try lia. rewrite V'.
  replace (Z.to_nat (Z.of_nat (Datatypes.S i) - 1)) with i by lia. replace (Z.to_nat (Z.of_nat (Datatypes.S j) - 1)) with j by lia.
  replace (Z.to_nat (2 * Z.of_nat (Datatypes.S k) - 2)) with (2 * k)%nat by lia. replace (Z.to_nat (2 * Z.of_nat (Datatypes.S k) - 1)) with (2 * k + 1)%nat by lia.
  rewrite !G by lia.
  match goal with |- context [Mat.mmul _ ?Q _] => set (QQ := Q) end.
  destruct (carried_cols ok QQ re im k i ltac:(lia)) as [-> ->]. destruct (carried_cols ok QQ re im k j ltac:(lia)) as [-> ->].
  rewrite twiss_rot by apply cs1.
  assert (X : forall u a, (a < dim ok)%nat -> act (dim ok) QQ u a = A u a) by (intros u a Ha; apply act_mat_ext; [exact Ha|apply coast_Q; assumption]).
  rewrite !X by assumption. reflexivity.
Qed.
Print Assumptions C225_twiss.
