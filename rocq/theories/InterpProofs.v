From Coq Require Import Permutation Sorted.
From Verif Require Import RBase Interp InterpSpec.
Local Open Scope R_scope.

(** * sorting *)
Lemma insert_perm p l : Permutation (insert_pt p l) (p :: l).
Proof.
  induction l as [|q l IH]; simpl; [reflexivity|]. destruct (Rltb (fst p) (fst q)); [reflexivity|].
  rewrite IH. apply perm_swap.
Qed.
Lemma sort_perm l : Permutation (sort_pts l) l.
Proof. induction l; simpl; [reflexivity|]. rewrite insert_perm, IHl. reflexivity. Qed.

Definition le_x (p q : point) := fst p <= fst q.
Definition lt_x (p q : point) := fst p < fst q.

Lemma insert_sorted p l : StronglySorted le_x l -> StronglySorted le_x (insert_pt p l).
Proof.
  induction 1 as [|q l Hs IH Hq]; simpl; [repeat constructor|].
  destruct (Rltb_spec (fst p) (fst q)) as [Hlt|Hge].
  - constructor; [constructor; assumption|]. constructor; [red; lra|].
    rewrite Forall_forall in *. intros r Hr. apply Hq in Hr. red in Hr |- *. lra.
  - constructor; [exact IH|]. rewrite Forall_forall in *. intros r Hr.
    apply (Permutation_in _ (insert_perm p l)) in Hr. destruct Hr as [<-|Hr]; [red; lra|auto].
Qed.
Lemma sort_sorted l : StronglySorted le_x (sort_pts l).
Proof. induction l; simpl; [constructor|apply insert_sorted; assumption]. Qed.

Lemma sort_strict l : NoDup (map fst l) -> StronglySorted lt_x (sort_pts l).
Proof.
  intros Hnd. assert (Hn : NoDup (map fst (sort_pts l))).
  { eapply Permutation_NoDup; [|exact Hnd]. apply Permutation_map. symmetry. apply sort_perm. }
  pose proof (sort_sorted l) as Hs. induction Hs as [|p m Hs IH Hp]; [constructor|].
  simpl in Hn. inversion Hn as [|? ? Hni Hn']; subst. constructor; [auto|].
  rewrite Forall_forall in *. intros q Hq. pose proof (Hp q Hq) as Hle. red in Hle |- *.
  destruct (Rle_lt_or_eq_dec _ _ Hle) as [|E]; [assumption|]. exfalso. apply Hni. rewrite E.
  apply in_map. exact Hq.
Qed.

Lemma strict_ascending d : StronglySorted lt_x d -> ascending d.
Proof.
  induction 1 as [|p d Hs IH Hp]; intros i j a b Hij Ha Hb.
  - destruct i; discriminate.
  - destruct j as [|j]; [lia|]. destruct i as [|i]; simpl in *.
    + injection Ha as <-. rewrite Forall_forall in Hp. apply Hp. eapply nth_error_In; eauto.
    + apply (IH i j a b); auto. lia.
Qed.

Lemma sort_ascending l : NoDup (map fst l) -> ascending (sort_pts l).
Proof. intros H. apply strict_ascending, sort_strict, H. Qed.

Lemma strict_unique d d' : StronglySorted lt_x d -> StronglySorted lt_x d' -> Permutation d d' -> d = d'.
Proof.
  intros H. revert d'. induction H as [|p d Hs IH Hp]; intros d' H' Hperm.
  - apply Permutation_nil in Hperm. congruence.
  - inversion H' as [|q d2 Hs2 Hq E]; subst.
    { apply Permutation_sym, Permutation_nil in Hperm. discriminate. }
    assert (p = q).
    { assert (Hin1 : In p (q :: d2)) by (eapply Permutation_in; [exact Hperm|left; reflexivity]).
      assert (Hin2 : In q (p :: d)) by (eapply Permutation_in; [symmetry; exact Hperm|left; reflexivity]).
      destruct Hin1 as [E1|Hin1]; [auto|]. destruct Hin2 as [E2|Hin2]; [auto|].
      rewrite Forall_forall in *. apply Hp in Hin2. apply Hq in Hin1. unfold lt_x in *. lra. }
    subst q. f_equal. apply IH; [assumption|]. eapply Permutation_cons_inv; eassumption.
Qed.

Lemma sort_perm_eq l l' : NoDup (map fst l) -> Permutation l l' -> sort_pts l = sort_pts l'.
Proof.
  intros Hnd Hp. apply strict_unique.
  - apply sort_strict, Hnd.
  - apply sort_strict. eapply Permutation_NoDup; [|exact Hnd]. apply Permutation_map, Hp.
  - rewrite !sort_perm. exact Hp.
Qed.

Lemma ascending_le d i j p q : ascending d -> (i <= j)%nat -> nth_error d i = Some p -> nth_error d j = Some q -> fst p <= fst q.
Proof.
  intros Ha Hij Hp Hq. destruct (Nat.eq_dec i j) as [->|Hne]; [rewrite Hp in Hq; injection Hq as ->; lra|].
  left. apply (Ha i j); auto. lia.
Qed.

(** * first and last *)
Lemma last_nth {A} (l : list A) d p : nth_error (p :: l) (length l) = Some (last (p :: l) d).
Proof.
  revert p. induction l as [|q l IH]; intros p; [reflexivity|]. simpl length. cbn [nth_error]. rewrite IH. reflexivity.
Qed.

Lemma inside_bounds d x p0 d' : ascending d -> d = p0 :: d' ->
  (inside d x <-> fst p0 <= x <= fst (last d p0)).
Proof.
  intros Ha E. subst d. split.
  - intros [(p & Hp & H1) (q & Hq & H2)]. apply In_nth_error in Hp, Hq.
    destruct Hp as [i Hp], Hq as [j Hq]. split.
    + apply Rle_trans with (fst p); [|assumption]. apply (ascending_le _ 0 i p0 p Ha); auto; lia.
    + apply Rle_trans with (fst q); [assumption|].
      assert (j < length (p0 :: d'))%nat by (apply nth_error_Some; congruence).
      apply (ascending_le _ j (length d') q _ Ha); auto; [simpl in *; lia|apply last_nth].
  - intros [H1 H2]. split; [exists p0; simpl; auto|].
    exists (last (p0 :: d') p0). split; [|exact H2]. eapply nth_error_In. apply (last_nth d' p0 p0).
Qed.

(** * bisection *)
Lemma bisect_ok d x : ascending d -> forall fuel jl ju,
  (ju - jl <= S fuel)%nat -> (jl < ju <= length d)%nat ->
  (jl = 0%nat \/ exists p, nth_error d jl = Some p /\ fst p < x) ->
  (ju = length d \/ exists q, nth_error d ju = Some q /\ x <= fst q) ->
  exists j, bisect fuel d x jl ju = Ok j /\ (j < length d)%nat /\
    (j = 0%nat \/ exists p, nth_error d j = Some p /\ fst p < x) /\
    (S j = length d \/ exists q, nth_error d (S j) = Some q /\ x <= fst q).
Proof.
  intros Ha. induction fuel as [|fuel IH]; intros jl ju Hf Hj Hl Hu; cbn [bisect]; cbv zeta.
  - destruct (Nat.leb_spec (ju - jl) 1); [|lia]. exists jl. replace (S jl) with ju by lia. repeat split; auto; lia.
  - destruct (Nat.leb_spec (ju - jl) 1).
    + exists jl. replace (S jl) with ju by lia. repeat split; auto; lia.
    + assert (Hm : (jl < Nat.div2 (ju + jl) < ju)%nat).
      { pose proof (Nat.div2_odd (ju + jl)) as Ho. destruct (Nat.odd (ju + jl)); simpl in Ho; lia. }
      set (jm := Nat.div2 (ju + jl)) in *. destruct (nth_error d jm) as [p|] eqn:Ep.
      2: { apply nth_error_None in Ep. lia. }
      destruct (Rltb_spec (fst p) x).
      * apply IH; try lia; auto. right. eauto.
      * apply IH; try lia; auto. right. exists p. split; auto. lra.
Qed.

Lemma bisect_find d x p0 d' : ascending d -> d = p0 :: d' -> (2 <= length d)%nat ->
  fst p0 <= x <= fst (last d p0) ->
  exists j p q, bisect (length d) d x 0 (length d) = Ok j /\ nth_error d j = Some p /\
    nth_error d (S j) = Some q /\ fst p <= x <= fst q.
Proof.
  intros Ha E Hn [H1 H2].
  destruct (bisect_ok d x Ha (length d) 0 (length d)) as (j & Eb & Hj & Hl & Hu); auto; try lia.
  assert (Hs : exists q, nth_error d (S j) = Some q /\ x <= fst q).
  { destruct Hu as [Hu|Hu]; [|exact Hu]. exfalso. destruct Hl as [Hl|(p & Hp & Hx)]; [lia|].
    pose proof (last_nth d' p0 p0) as El. rewrite <- E in El.
    replace (length d') with j in El by (subst d; simpl in *; lia). rewrite Hp in El. injection El as El.
    rewrite <- El in H2. lra. }
  destruct Hs as (q & Hq & Hxq).
  destruct (nth_error d j) as [p|] eqn:Ep; [|apply nth_error_None in Ep; lia].
  exists j, p, q. split; [exact Eb|]. split; [exact Ep|]. split; [exact Hq|].
  split; [|exact Hxq]. destruct Hl as [->|(p' & Hp & Hx)].
  - subst d. simpl in Ep. injection Ep as <-. exact H1.
  - injection Hp as <-. lra.
Qed.

Lemma adjacent_neighbours d j p q x : ascending d -> nth_error d j = Some p -> nth_error d (S j) = Some q ->
  fst p <= x <= fst q -> neighbours d x p q.
Proof.
  intros Ha Hp Hq Hx. unfold neighbours. split; [eapply nth_error_In; eauto|]. split; [eapply nth_error_In; eauto|].
  split; [apply (Ha j (S j)); auto|]. split; [exact Hx|].
  intros r Hr [H1 H2]. apply In_nth_error in Hr. destruct Hr as [k Hk].
  destruct (Nat.le_gt_cases k j).
  - pose proof (ascending_le d k j r p Ha H Hk Hp). lra.
  - pose proof (ascending_le d (S j) k q r Ha ltac:(lia) Hq Hk). lra.
Qed.

Lemma neighbours_perm l l' x p q : Permutation l l' -> neighbours l x p q -> neighbours l' x p q.
Proof.
  intros Hp (H1 & H2 & H3 & H4 & H5). repeat split; try tauto; try (eapply Permutation_in; eassumption).
  intros r Hr. apply H5. eapply Permutation_in; [symmetry; exact Hp|exact Hr].
Qed.
Lemma inside_perm l l' x : Permutation l l' -> (inside l x <-> inside l' x).
Proof.
  intros Hp. assert (Hi : forall r, In r l <-> In r l').
  { intros r. split; intros; eapply Permutation_in; try eassumption. symmetry. exact Hp. }
  unfold inside. split; intros [(p & A & B) (q & C & D)]; (split; [exists p|exists q]); rewrite Hi in * || rewrite <- Hi in *; auto.
Qed.

(** ** linear interpolation *)
Lemma arb_order l order : ord (arb_make l order) = Z.min order (Z.of_nat (length l) - 1).
Proof. unfold arb_make. simpl. destruct (Z.gtb_spec order (Z.of_nat (length l) - 1)); lia. Qed.

Theorem linear_ok l order x : NoDup (map fst l) -> (2 <= length l)%nat -> (order <= 1)%Z -> inside l x ->
  exists p q, neighbours l x p q /\ fst (arb_value (arb_make l order) x) = Ok (line p q x).
Proof.
  intros Hnd Hn Ho Hin. pose proof (sort_ascending l Hnd) as Ha. pose proof (sort_perm l) as Hp.
  assert (Hlen : length (sort_pts l) = length l) by (apply Permutation_length, Hp).
  unfold arb_value. replace (pts (arb_make l order)) with (sort_pts l) by reflexivity.
  destruct (sort_pts l) as [|p0 d'] eqn:Ed; [simpl in Hlen; lia|]. rewrite <- Ed in *.
  assert (Hb : fst p0 <= x <= fst (last (sort_pts l) p0)).
  { apply (inside_bounds (sort_pts l) x p0 d' Ha Ed). apply (inside_perm l); [symmetry; exact Hp|exact Hin]. }
  rewrite (Rltb_false x (fst p0)), (Rltb_false (fst (last _ _)) x) by lra. simpl orb. cbv iota.
  rewrite arb_order. destruct (Z.gtb_spec (Z.min order (Z.of_nat (length l) - 1)) 1); [lia|].
  destruct (bisect_find (sort_pts l) x p0 d' Ha Ed) as (j & p & q & Eb & Ep & Eq & Hx); [lia|exact Hb|].
  exists p, q. split; [apply (neighbours_perm (sort_pts l)); [exact Hp|]; eapply adjacent_neighbours; eassumption|].
  cbn [fst]. rewrite Eb. cbn [bind]. rewrite Ep, Eq. f_equal. unfold line, Rdiv. ring.
Qed.

Theorem outside_throws l order x : NoDup (map fst l) -> l <> [] -> ~ inside l x ->
  fst (arb_value (arb_make l order) x) = Throw BadRange.
Proof.
  intros Hnd Hne Hin. pose proof (sort_ascending l Hnd) as Ha. pose proof (sort_perm l) as Hp.
  unfold arb_value. replace (pts (arb_make l order)) with (sort_pts l) by reflexivity.
  destruct (sort_pts l) as [|p0 d'] eqn:Ed; [apply Permutation_nil in Hp; congruence|]. rewrite <- Ed in *.
  assert (Hb : ~ (fst p0 <= x <= fst (last (sort_pts l) p0))).
  { intros Hc. apply Hin. apply (inside_perm (sort_pts l)); [exact Hp|].
    apply (inside_bounds (sort_pts l) x p0 d' Ha Ed). exact Hc. }
  destruct (Rltb_spec x (fst p0)); [reflexivity|].
  destruct (Rltb_spec (fst (last (sort_pts l) p0)) x); [reflexivity|]. exfalso. lra.
Qed.

(** consequences of being on the line between neighbours *)
Lemma line_at_left p q : fst p < fst q -> line p q (fst p) = snd p.
Proof. intros. unfold line. field. lra. Qed.
Lemma line_at_right p q : fst p < fst q -> line p q (fst q) = snd q.
Proof. intros. unfold line. field. lra. Qed.
Lemma line_between p q x : fst p < fst q -> fst p <= x <= fst q ->
  Rmin (snd p) (snd q) <= line p q x <= Rmax (snd p) (snd q).
Proof.
  intros H [H1 H2]. unfold line. set (t := (x - fst p) / (fst q - fst p)).
  assert (Ht : 0 <= t <= 1).
  { unfold t. split; [apply Rmult_le_pos; [lra|left; apply Rinv_0_lt_compat; lra]|]. apply Rmult_le_reg_r with (fst q - fst p); [lra|].
    unfold Rdiv. rewrite Rmult_assoc, Rinv_l by lra. lra. }
  replace ((x - fst p) * (snd q - snd p) / (fst q - fst p)) with (t * (snd q - snd p)) by (unfold t; field; lra).
  unfold Rmin, Rmax. destruct (Rle_dec (snd p) (snd q)); split; nra.
Qed.

Lemma nodup_fst_inj (l : list point) p q : NoDup (map fst l) -> In p l -> In q l -> fst p = fst q -> p = q.
Proof.
  induction l as [|a l IH]; simpl; intros Hnd Hp Hq E; [destruct Hp|].
  inversion Hnd as [|? ? Hni Hnd']; subst. destruct Hp as [->|Hp], Hq as [->|Hq]; auto.
  - exfalso. apply Hni. rewrite E. apply in_map, Hq.
  - exfalso. apply Hni. rewrite <- E. apply in_map, Hp.
Qed.

Lemma neighbours_node l r p q : NoDup (map fst l) -> In r l -> neighbours l (fst r) p q -> line p q (fst r) = snd r.
Proof.
  intros Hnd Hr (Hp & Hq & Hlt & Hx & Hno).
  destruct (Req_dec (fst p) (fst r)) as [E|E].
  - rewrite <- E. rewrite line_at_left by exact Hlt. f_equal. eapply nodup_fst_inj; eauto.
  - destruct (Req_dec (fst q) (fst r)) as [E'|E'].
    + rewrite <- E'. rewrite line_at_right by exact Hlt. f_equal. eapply nodup_fst_inj; eauto.
    + exfalso. apply (Hno r Hr). lra.
Qed.

(** * Neville *)
Fixpoint psum (f : nat -> R) (x : R) (n : nat) : R :=
  match n with O => 0 | S m => psum f x m + f m * x ^ m end.

Lemma psum_shift f x n : psum f x (S n) = f 0%nat + x * psum (fun j => f (S j)) x n.
Proof.
  induction n as [|n IH]; [simpl; ring|].
  change (psum f x (S (S n))) with (psum f x (S n) + f (S n) * x ^ S n). rewrite IH. simpl. ring.
Qed.
Lemma psum_ext f g x n : (forall j, (j < n)%nat -> f j = g j) -> psum f x n = psum g x n.
Proof.
  induction n as [|n IH]; intros H; simpl; [reflexivity|]. rewrite IH, (H n) by (intros; try apply H; lia). reflexivity.
Qed.
Lemma psum_plus f g x n : psum (fun j => f j + g j) x n = psum f x n + psum g x n.
Proof. induction n as [|n IH]; simpl; [ring|]. rewrite IH. ring. Qed.
Lemma psum_scal c f x n : psum (fun j => c * f j) x n = c * psum f x n.
Proof. induction n as [|n IH]; simpl; [ring|]. rewrite IH. ring. Qed.

Lemma pval_map f x n : forall s, pval (map f (seq s n)) x = psum (fun j => f (s + j)%nat) x n.
Proof.
  induction n as [|n IH]; intros s; [reflexivity|]. rewrite psum_shift. cbn [seq map pval]. rewrite IH.
  rewrite Nat.add_0_r. f_equal. f_equal. apply psum_ext. intros j _. f_equal. lia.
Qed.
Lemma pval_psum c x : pval c x = psum (fun j => nth j c 0) x (length c).
Proof.
  induction c as [|a c IH]; [reflexivity|]. cbn [length]. rewrite psum_shift. cbn [pval]. rewrite IH. reflexivity.
Qed.

Lemma combine_val xi xk p q k x : length p = k -> length q = k -> xi <> xk ->
  pval (combine xi xk p q k) x = ((x - xk) * pval p x + (xi - x) * pval q x) / (xi - xk).
Proof.
  intros Hp Hq Hne. unfold combine. rewrite pval_map. simpl plus. rewrite psum_plus.
  replace (psum (fun j => if Nat.ltb j k then (- xk * nth j p 0 + xi * nth j q 0) / (xi - xk) else 0) x (S k))
    with (/ (xi - xk) * (- xk * pval p x + xi * pval q x)).
  2: { simpl psum. replace (Nat.ltb k k) with false by (symmetry; apply Nat.ltb_irrefl).
       rewrite (psum_ext _ (fun j => / (xi - xk) * ((- xk) * nth j p 0 + xi * nth j q 0))).
       2: { intros j Hj. replace (Nat.ltb j k) with true by (symmetry; apply Nat.ltb_lt; exact Hj). unfold Rdiv. ring. }
       rewrite psum_scal, psum_plus, !psum_scal, !pval_psum, Hp, Hq. ring. }
  replace (psum (fun j => if Nat.ltb 0 j then (nth (j - 1) p 0 - nth (j - 1) q 0) / (xi - xk) else 0) x (S k))
    with (x * (/ (xi - xk) * (pval p x - pval q x))).
  2: { rewrite psum_shift. change (Nat.ltb 0 0) with false. cbv iota.
       rewrite (psum_ext _ (fun j => / (xi - xk) * (nth j p 0 + (-1) * nth j q 0))).
       2: { intros j Hj. simpl. rewrite Nat.sub_0_r. unfold Rdiv. ring. }
       rewrite psum_scal, psum_plus, !psum_scal, !pval_psum, Hp, Hq. ring. }
  field. lra.
Qed.

Lemma neville_length d k : length (neville d k) = (length d - k)%nat.
Proof. destruct k; simpl; [rewrite map_length; lia|]. unfold neville_step. rewrite map_length, seq_length. reflexivity. Qed.

Lemma px_nth d i p : nth_error d i = Some p -> px d i = fst p.
Proof. intros H. unfold px. rewrite (nth_error_nth _ _ _ H). reflexivity. Qed.

Lemma nth_map_seq {A} (f : nat -> A) n i dflt : (i < n)%nat -> nth i (map f (seq 0 n)) dflt = f i.
Proof.
  intros H. rewrite (nth_indep _ dflt (f 0%nat)) by (rewrite map_length, seq_length; exact H).
  rewrite map_nth, seq_nth by exact H. reflexivity.
Qed.

Lemma neville_through d : ascending d -> forall k i, (i + k < length d)%nat ->
  length (nth i (neville d k) []) = S k /\
  forall j p, (i <= j <= i + k)%nat -> nth_error d j = Some p -> pval (nth i (neville d k) []) (fst p) = snd p.
Proof.
  intros Ha. induction k as [|k IH]; intros i Hi.
  - simpl. destruct (nth_error d i) as [p|] eqn:E; [|apply nth_error_None in E; lia].
    rewrite (nth_error_nth _ _ [] (map_nth_error (fun p => [snd p]) _ _ E)). split; [reflexivity|].
    intros j q Hj Hq. replace j with i in Hq by lia. rewrite E in Hq. injection Hq as <-. simpl. ring.
  - assert (Hn : nth i (neville d (S k)) [] = combine (px d i) (px d (i + S k)) (nth i (neville d k) []) (nth (i + 1) (neville d k) []) (S k)).
    { cbn [neville]. unfold neville_step. rewrite nth_map_seq by lia. reflexivity. }
    rewrite Hn. split; [unfold combine; rewrite map_length, seq_length; reflexivity|].
    destruct (IH i ltac:(lia)) as [L1 V1]. destruct (IH (i + 1)%nat ltac:(lia)) as [L2 V2].
    destruct (nth_error d i) as [pi|] eqn:Ei; [|apply nth_error_None in Ei; lia].
    destruct (nth_error d (i + S k)) as [pk|] eqn:Ek; [|apply nth_error_None in Ek; lia].
    pose proof (Ha i (i + S k)%nat pi pk ltac:(lia) Ei Ek) as Hlt.
    intros j p Hj Hp. rewrite (px_nth _ _ _ Ei), (px_nth _ _ _ Ek). rewrite combine_val by (auto; lra).
    destruct (Nat.eq_dec j i) as [->|Hji].
    + rewrite Ei in Hp. injection Hp as <-. rewrite (V1 i pi) by (auto; lia). field. lra.
    + destruct (Nat.eq_dec j (i + S k)) as [->|Hjk].
      * rewrite Ek in Hp. injection Hp as <-. rewrite (V2 (i + S k)%nat pk) by (auto; lia). field. lra.
      * rewrite (V1 j p), (V2 j p) by (auto; lia). field. lra.
Qed.

Lemma evalpoly_pval x c : c <> [] -> evalpoly x c = Ok (pval c x).
Proof.
  intros Hne. unfold evalpoly.
  assert (H : forall cs s, fold_left (fun s a => s * x + a) cs s = pval (rev cs ++ [s]) x).
  { induction cs as [|a cs IH]; intros s; simpl; [ring|]. rewrite IH. rewrite <- app_assoc. simpl.
    clear. induction (rev cs) as [|b l IH]; simpl; [ring|]. rewrite IH. reflexivity. }
  destruct (rev c) as [|a cs] eqn:E.
  - apply (f_equal (@rev R)) in E. rewrite rev_involutive in E. simpl in E. congruence.
  - rewrite H. do 2 f_equal. rewrite <- (rev_involutive c), E. reflexivity.
Qed.

(** walking to the segment *)
Lemma walk_up_ok d x pl : ascending d -> nth_error d (length d - 1) = Some pl -> x <= fst pl ->
  forall fuel s, (s < length d)%nat -> (length d - s <= fuel)%nat ->
  exists u pu, walk_up fuel d x s = Ok u /\ nth_error d u = Some pu /\ x <= fst pu.
Proof.
  intros Ha Hpl Hx. induction fuel as [|fuel IH]; intros s Hs Hf; [lia|]. cbn [walk_up].
  destruct (nth_error d s) as [p|] eqn:E; [|apply nth_error_None in E; lia].
  destruct (Rltb_spec (fst p) x).
  - destruct (Nat.eq_dec s (length d - 1)) as [->|]; [rewrite Hpl in E; injection E as <-; lra|].
    apply IH; lia.
  - exists s, p. repeat split; auto. lra.
Qed.

Lemma walk_down_ok d x p0 : ascending d -> nth_error d 0 = Some p0 -> fst p0 <= x ->
  forall u pu, nth_error d u = Some pu ->
  exists l pl, walk_down d x u = Ok l /\ nth_error d l = Some pl /\ fst pl <= x /\ (l <= u)%nat /\
    forall j p, (l < j <= u)%nat -> nth_error d j = Some p -> x < fst p.
Proof.
  intros Ha H0 Hx. induction u as [|u IH]; intros pu Hu; cbn [walk_down]; rewrite Hu.
  - rewrite H0 in Hu. injection Hu as <-. rewrite Rltb_false by lra. exists 0%nat, p0. repeat split; auto. intros; lia.
  - destruct (Rltb_spec x (fst pu)).
    + destruct (nth_error d u) as [p|] eqn:E.
      2: { apply nth_error_None in E. assert (S u < length d)%nat by (apply nth_error_Some; congruence). lia. }
      destruct (IH p eq_refl) as (l & pl & A & B & C & D & F). exists l, pl. repeat split; auto.
      intros j q Hj Hq. destruct (Nat.eq_dec j (S u)) as [->|]; [rewrite Hu in Hq; injection Hq as <-; lra|].
      apply (F j q); auto. lia.
    + exists (S u), pu. repeat split; auto; try lra. intros; lia.
Qed.

(** the position found: the last point not to the right of x *)
Definition position (d : list point) (x : R) (l : nat) : Prop :=
  (exists p, nth_error d l = Some p /\ fst p <= x) /\
  forall j p, (l < j)%nat -> nth_error d j = Some p -> x < fst p.

Lemma position_unique d x l l' : position d x l -> position d x l' -> l = l'.
Proof.
  intros [(p & A & B) C] [(p' & A' & B') C'].
  destruct (Nat.lt_trichotomy l l') as [H|[H|H]]; auto.
  - pose proof (C _ _ H A'). lra.
  - pose proof (C' _ _ H A). lra.
Qed.

Lemma walk_find d x p0 d' s : ascending d -> d = p0 :: d' -> fst p0 <= x <= fst (last d p0) -> (s < length d)%nat ->
  exists l, (do u <- walk_up (length d) d x s; walk_down d x u) = Ok l /\ position d x l /\ (l < length d)%nat.
Proof.
  intros Ha E [H1 H2] Hs.
  assert (Hpl : nth_error d (length d - 1) = Some (last d p0)).
  { subst d. simpl length. rewrite Nat.sub_succ, Nat.sub_0_r. apply last_nth. }
  destruct (walk_up_ok d x _ Ha Hpl H2 (length d) s Hs ltac:(lia)) as (u & pu & -> & Hu & Hxu). simpl bind.
  assert (H0 : nth_error d 0 = Some p0) by (subst d; reflexivity).
  destruct (walk_down_ok d x p0 Ha H0 H1 u pu Hu) as (l & pl & -> & Hl & Hxl & Hlu & Hgt).
  exists l. split; [reflexivity|]. split; [|apply nth_error_Some; congruence].
  split; [eauto|]. intros j p Hj Hp.
  destruct (Nat.le_gt_cases j u).
  - apply (Hgt j p); auto.
  - apply Rle_lt_trans with (fst pu); [assumption|]. apply (Ha u j); auto.
Qed.

Definition win (o n l : nat) : nat := Nat.min (l - (o + 1) / 2 - 1) (n - o - 2).

Lemma skipn_firstn_nth {A} (d : list A) i n p : In p (window d i n) ->
  exists j, (i <= j < i + n)%nat /\ nth_error d j = Some p.
Proof.
  intros H. apply In_nth_error in H. destruct H as [k Hk]. unfold window in Hk.
  assert (Hkn : (k < n)%nat).
  { assert (Hl : (k < length (firstn n (skipn i d)))%nat) by (apply nth_error_Some; congruence).
    rewrite firstn_length in Hl. lia. }
  exists (i + k)%nat. split; [lia|].
  assert (Hg : forall m (d0 : list A) k, (k < m)%nat -> nth_error (firstn m d0) k = nth_error d0 k).
  { clear. induction m; intros d0 k Hk; [lia|]. destruct d0; [destruct k; reflexivity|].
    destruct k; simpl; [reflexivity|]. apply IHm. lia. }
  rewrite Hg in Hk by exact Hkn. rewrite <- Hk.
  clear. revert d. induction i; intros d; [reflexivity|]. destruct d; simpl; [destruct k; reflexivity|]. apply IHi.
Qed.

Lemma high_order_value d o s x p0 d' : ascending d -> d = p0 :: d' -> (2 <= o)%nat -> (o + 2 <= length d)%nat ->
  (s < length d)%nat -> fst p0 <= x <= fst (last d p0) ->
  exists l c1 c2, position d x l /\ (l < length d)%nat
    /\ through o c1 (window d (win o (length d) l) (S o))
    /\ through o c2 (window d (S (win o (length d) l)) (S o))
    /\ arb_value (mkArb d (Z.of_nat o) (neville d o) s) x
       = (Ok ((pval c1 x + pval c2 x) / 2), mkArb d (Z.of_nat o) (neville d o) l).
Proof.
  intros Ha E Ho Hn Hs Hb. destruct (walk_find d x p0 d' s Ha E Hb Hs) as (l & Ew & Hpos & Hl).
  set (i := win o (length d) l).
  exists l, (nth i (neville d o) []), (nth (S i) (neville d o) []).
  assert (Hi : (i + o + 1 < length d)%nat) by (unfold i, win; lia).
  destruct (neville_through d Ha o i ltac:(lia)) as [L1 V1].
  destruct (neville_through d Ha o (S i) ltac:(lia)) as [L2 V2].
  split; [exact Hpos|]. split; [exact Hl|]. split; [|split].
  - split; [exact L1|]. intros p Hp. apply skipn_firstn_nth in Hp. destruct Hp as (j & Hj & Hp). apply (V1 j p); [lia|exact Hp].
  - split; [exact L2|]. intros p Hp. apply skipn_firstn_nth in Hp. destruct Hp as (j & Hj & Hp). apply (V2 j p); [lia|exact Hp].
  - unfold arb_value. cbn [pts ord polys seen]. rewrite E at 1.
    rewrite (Rltb_false x (fst p0)), (Rltb_false (fst (last _ _)) x) by lra. simpl orb. cbv iota.
    destruct (Z.gtb_spec (Z.of_nat o) 1); [|lia].
    rewrite Ew.
    assert (Hiw : Z.min (Z.max 0 (Z.of_nat l - Z.quot (Z.of_nat o + 1) 2 - 1)) (Z.of_nat (length (neville d o)) - 2) = Z.of_nat i).
    { rewrite neville_length. rewrite Z.quot_div_nonneg by lia. unfold i, win.
      rewrite Nat2Z.inj_min, !Nat2Z.inj_sub_max, Nat2Z.inj_div, Nat2Z.inj_add. change (Z.of_nat 2) with 2%Z. change (Z.of_nat 1) with 1%Z. lia. }
    rewrite Hiw. unfold zget.
    replace (Z.ltb (Z.of_nat i) 0) with false by (symmetry; apply Z.ltb_ge; lia).
    replace (Z.ltb (Z.of_nat i + 1) 0) with false by (symmetry; apply Z.ltb_ge; lia).
    rewrite Nat2Z.id. replace (Z.to_nat (Z.of_nat i + 1)) with (S i) by lia.
    rewrite (nth_error_nth' (neville d o) []) by (rewrite neville_length; lia).
    rewrite (nth_error_nth' (neville d o) []) by (rewrite neville_length; lia). simpl bind.
    rewrite !evalpoly_pval; [reflexivity| |].
    + intros Hc. rewrite Hc in L2. discriminate.
    + intros Hc. rewrite Hc in L1. discriminate.
Qed.

(** the remembered position does not matter *)
Lemma value_seen d o ps s s' x : ascending d -> (s < length d)%nat -> (s' < length d)%nat ->
  fst (arb_value (mkArb d o ps s) x) = fst (arb_value (mkArb d o ps s') x)
  /\ exists s2, (s2 < length d)%nat /\ snd (arb_value (mkArb d o ps s) x) = mkArb d o ps s2.
Proof.
  intros Ha Hs Hs'. unfold arb_value. cbn [pts ord polys seen].
  destruct d as [|p0 d'] eqn:E; [simpl in Hs; lia|]. rewrite <- E in *.
  destruct (Rltb_spec x (fst p0)); simpl; [eauto|].
  destruct (Rltb_spec (fst (last d p0)) x); [eauto|].
  destruct (Z.gtb_spec o 1); [|eauto].
  destruct (walk_find d x p0 d' s Ha E ltac:(lra) Hs) as (l & -> & P1 & L1).
  destruct (walk_find d x p0 d' s' Ha E ltac:(lra) Hs') as (l' & -> & P2 & L2).
  rewrite (position_unique _ _ _ _ P1 P2). split; [reflexivity|]. eexists. split; [exact L2|reflexivity].
Qed.

Lemma values_history d o ps : ascending d -> forall xs s, (s < length d)%nat ->
  arb_values (mkArb d o ps s) xs = map (fun x => fst (arb_value (mkArb d o ps 0) x)) xs.
Proof.
  intros Ha. induction xs as [|x xs IH]; intros s Hs; [reflexivity|]. cbn [arb_values map].
  destruct (value_seen d o ps s 0 x Ha Hs ltac:(lia)) as [E (s2 & Hs2 & E2)].
  destruct (arb_value (mkArb d o ps s) x) as [v a']. simpl in E, E2. subst a'. rewrite IH by exact Hs2.
  rewrite E. reflexivity.
Qed.

(** * equally spaced *)
Lemma Int_part_unique r z : IZR z <= r < IZR z + 1 -> Int_part r = z.
Proof.
  intros [H1 H2]. unfold Int_part. pose proof (archimed r) as [A B].
  assert (z < up r)%Z by (apply lt_IZR; lra).
  assert (up r < z + 2)%Z by (apply lt_IZR; rewrite plus_IZR; simpl; lra). lia.
Qed.

Lemma trunc_spec r n : INR n <= r < INR n + 1 -> trunc r = n.
Proof. intros H. unfold trunc. rewrite (Int_part_unique r (Z.of_nat n)); [apply Nat2Z.id|]. rewrite <- INR_IZR_INZ. exact H. Qed.

Lemma nat_segment r : 0 <= r -> exists n, INR n <= r < INR n + 1.
Proof.
  intros H. exists (Z.to_nat (Int_part r)). pose proof (base_Int_part r) as [A B].
  assert (0 <= Int_part r)%Z.
  { assert (-1 < Int_part r)%Z by (apply lt_IZR; simpl; lra). lia. }
  rewrite INR_IZR_INZ, Z2Nat.id by assumption. lra.
Qed.
