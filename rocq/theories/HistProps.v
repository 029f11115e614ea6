(* C49, C50, C99: histograms, slices and distributions *)
From Coq Require Import ZArith Psatz Sorting.Sorted Sorting.Permutation.
From Verif Require Import RBase Bunch Hist.
Local Open Scope R_scope.

(* specification: membership of a half open interval *)
Definition within (a b x : R) : bool := if Rle_dec a x then if Rlt_dec x b then true else false else false.
Lemma within_spec a b x : within a b x = true <-> a <= x < b.
Proof. unfold within. destruct (Rle_dec a x), (Rlt_dec x b); split; try discriminate; try tauto; intros; lra. Qed.
Lemma within_not a b x : ~ (a <= x < b) -> within a b x = false.
Proof. intros H. destruct (within a b x) eqn:E; auto. apply within_spec in E. contradiction. Qed.
Definition total_of (l : list nat) : nat := fold_right Nat.add 0%nat l.

Lemma to_size_ok r : 0 <= r -> exists n, to_size r = Ok n /\ INR n <= r < INR n + 1.
Proof.
  intros H. unfold to_size. destruct (Rleb_spec r (-1)); [lra|]. eexists. split; [reflexivity|]. destruct (base_Int_part r) as [A B]. assert (Z : (0 <= Int_part r)%Z). { assert (-1 < IZR (Int_part r)) by lra. apply (lt_IZR (-1)) in H0. lia. }
  rewrite INR_IZR_INZ, Z2Nat.id by auto. lra.
Qed.
Lemma nat_between n i r : INR n <= r < INR n + 1 -> (INR i <= r < INR i + 1 <-> i = n).
Proof.
  intros [A B]. split; [|intros ->; auto]. intros [C D]. apply INR_eq. destruct (Nat.lt_total i n) as [L|[->|L]]; auto.
  - assert (INR (S i) <= INR n) by (apply le_INR; lia). rewrite S_INR in *. lra.
  - assert (INR (S n) <= INR i) by (apply le_INR; lia). rewrite S_INR in *. lra.
Qed.
Lemma bump_length l i : length (bump l i) = length l.
Proof. unfold bump. destruct (nth_error l i); auto. destruct (upd l i (S n)) eqn:E; auto. eapply upd_length; eauto. Qed.
Lemma bump_nth l : forall i k, (i < length l)%nat -> nth k (bump l i) 0%nat = if Nat.eqb k i then S (nth k l 0%nat) else nth k l 0%nat.
Proof.
  intros i k H. unfold bump. destruct (nth_error l i) as [c|] eqn:E; [|apply nth_error_None in E; lia]. destruct (upd_some _ l i (S c) H) as (l' & U). rewrite U. destruct (Nat.eqb_spec k i) as [->|N].
  - rewrite (nth_error_nth _ _ _ E). apply nth_error_nth. eapply upd_nth_same; eauto.
  - pose proof (upd_nth_other _ l i (S c) l' k U N) as O. destruct (nth_error l k) eqn:K.
    + rewrite (nth_error_nth _ _ _ O), (nth_error_nth _ _ _ K). reflexivity.
    + apply nth_error_None in K, O. now rewrite !nth_overflow by lia.
Qed.
Lemma bump_total l : forall i, (i < length l)%nat -> total_of (bump l i) = S (total_of l).
Proof.
  unfold bump. induction l as [|c l IH]; intros [|i] H; cbn [length] in *; try lia; cbn [nth_error upd].
  - reflexivity.
  - specialize (IH i ltac:(lia)). destruct (nth_error l i) as [d|] eqn:E; [|apply nth_error_None in E; lia]. destruct (upd_some _ l i (S d)) as (l' & U); [lia|]. rewrite U in *. cbn [total_of fold_right]. fold (total_of l') (total_of l). lia.
Qed.
Lemma bin_iff x1 dx d i n : 0 < dx -> INR n <= (d - x1) / dx < INR n + 1 -> (x1 + INR i * dx <= d < x1 + (INR i + 1) * dx <-> i = n).
Proof.
  intros H B. rewrite <- (nat_between n i _ B). assert (E : (d - x1) / dx * dx = d - x1) by (field; lra). set (q := (d - x1) / dx) in *. split; intros [P Q]; split; nra.
Qed.
Theorem C49_hist data x1 x2 dx : 0 < dx -> x1 <= x2 -> exists h lost, hist data x1 x2 dx = Ok (h, lost) /\
  (INR (length h) - 1 <= (x2 - x1) / dx < INR (length h)) /\
  (forall i, (i < length h)%nat -> nth i h 0%nat = length (filter (within (x1 + INR i * dx) (x1 + (INR i + 1) * dx)) data)) /\
  lost = length (filter (fun d => negb (within x1 (x1 + INR (length h) * dx) d)) data) /\
  (total_of h + lost = length data)%nat.
Proof.
  intros D X. unfold hist. destruct (Reqb_spec dx 0) as [Dz|Dz]; [lra|]. destruct (to_size_ok ((x2 - x1) / dx)) as (n & -> & N); [apply Rmult_le_pos; [lra|left; now apply Rinv_0_lt_compat]|]. cbn [bind]. set (nbins := (n + 1)%nat).
  assert (G : forall data h lost, length h = nbins -> exists h' lost', hist_loop data x1 dx nbins h lost = Ok (h', lost') /\ length h' = nbins /\
    (forall i, (i < nbins)%nat -> nth i h' 0%nat = (nth i h 0%nat + length (filter (within (x1 + INR i * dx) (x1 + (INR i + 1) * dx)) data))%nat) /\
    lost' = (lost + length (filter (fun d => negb (within x1 (x1 + INR nbins * dx) d)) data))%nat /\ (total_of h' + lost' = total_of h + lost + length data)%nat).
  { clear data. induction data as [|d data IH]; intros h lost L; cbn [hist_loop].
    - exists h, lost. cbn. repeat split; auto; intros; lia.
    - assert (Out : forall P, (forall i, (i < nbins)%nat -> within (x1 + INR i * dx) (x1 + (INR i + 1) * dx) d = false) -> within x1 (x1 + INR nbins * dx) d = false -> P = hist_loop data x1 dx nbins h (S lost) -> exists h' lost', P = Ok (h', lost') /\ length h' = nbins /\
        (forall i, (i < nbins)%nat -> nth i h' 0%nat = (nth i h 0%nat + length (filter (within (x1 + INR i * dx) (x1 + (INR i + 1) * dx)) (d :: data)))%nat) /\
        lost' = (lost + length (filter (fun d => negb (within x1 (x1 + INR nbins * dx) d)) (d :: data)))%nat /\ (total_of h' + lost' = total_of h + lost + length (d :: data))%nat).
      { intros P A B ->. destruct (IH h (S lost) L) as (h' & lost' & E & L' & C & Lo & T). exists h', lost'. repeat split; auto.
        - intros i I. cbn [filter]. rewrite A by auto. auto.
        - cbn [filter]. rewrite B. cbn [negb length]. lia.
        - cbn [length]. lia. }
      destruct (Rltb_spec d x1) as [Lt|Ge].
      + apply Out; auto.
        * intros i I. apply within_not. intros W. pose proof (pos_INR i). nra.
        * apply within_not. intros W. lra.
      + destruct (to_size_ok ((d - x1) / dx)) as (j & -> & J); [apply Rmult_le_pos; [lra|left; now apply Rinv_0_lt_compat]|]. cbn [bind]. assert (Q : (d - x1) / dx * dx = d - x1) by (field; lra). destruct (Nat.ltb_spec j nbins) as [Lt|Le].
        * destruct (IH (bump h j) lost) as (h' & lost' & E & L' & C & Lo & T); [now rewrite bump_length|]. exists h', lost'. repeat split; auto.
          -- intros i I. rewrite C, bump_nth by (rewrite ?L; auto). cbn [filter]. pose proof (bin_iff x1 dx d i j D J) as BI. destruct (within (x1 + INR i * dx) (x1 + (INR i + 1) * dx) d) eqn:W.
             ++ apply within_spec, BI in W. subst i. rewrite Nat.eqb_refl. cbn [length]. lia.
             ++ destruct (Nat.eqb_spec i j) as [Ei|]; auto. apply BI, within_spec in Ei. congruence.
          -- cbn [filter]. assert (W : within x1 (x1 + INR nbins * dx) d = true). { apply within_spec. split; [lra|]. assert (INR (S j) <= INR nbins) by (apply le_INR; lia). rewrite S_INR in *. nra. } rewrite W. cbn [negb]. auto.
          -- rewrite bump_total in T by lia. cbn [length]. lia.
        * apply Out; auto.
          -- intros i I. apply within_not. intros W. apply (bin_iff x1 dx d i j D J) in W. lia.
          -- apply within_not. intros W. assert (INR nbins <= INR j) by (now apply le_INR). nra. }
  destruct (G data (repeat 0%nat nbins) 0%nat (repeat_length _ _)) as (h & lost & E & L & C & Lo & T). exists h, lost. split; auto. rewrite L. split; [unfold nbins; rewrite plus_INR; cbn; lra|]. split.
  - intros i I. rewrite C by auto. assert (Z : nth i (repeat 0%nat nbins) 0%nat = 0%nat) by (clear; revert i; induction nbins; intros [|i]; cbn; auto). rewrite Z. reflexivity.
  - split; auto. rewrite T. assert (Z : total_of (repeat 0%nat nbins) = 0%nat) by (clear; induction nbins; cbn; auto). lia.
Qed.
Print Assumptions C49_hist.
(* the last bin reaches beyond the upper end: data above it are counted, not lost *)
Theorem C49_beyond : exists h, hist [3/2] 0 1 1 = Ok (h, 0%nat) /\ total_of h = 1%nat.
Proof.
  destruct (C49_hist [3/2] 0 1 1) as (h & lost & E & B & _ & L & T); [lra|lra|]. exists h. assert (INR (length h) = 2). { replace ((1 - 0) / 1) with 1 in B by field. assert (A : (2 <= length h)%nat). { apply INR_le. destruct (Nat.le_gt_cases 2 (length h)); [now apply le_INR|]. assert (INR (length h) <= INR 1) by (apply le_INR; lia). cbn in *. lra. } assert (C : (length h <= 2)%nat). { apply INR_le. cbn. lra. } replace (length h) with 2%nat by lia. cbn. lra. }
  cbn [filter] in L. assert (W : within 0 (0 + INR (length h) * 1) (3/2) = true) by (apply within_spec; lra). rewrite W in L. cbn in L. subst lost. split; auto. cbn in T. lia.
Qed.
Print Assumptions C49_beyond.
Theorem C49_bad_width data x1 x2 dx : dx = 0 \/ (x2 - x1) / dx <= -1 -> hist data x1 x2 dx = UB.
Proof. intros H. unfold hist. destruct (Reqb_spec dx 0); auto. destruct H; [contradiction|]. unfold to_size at 1. destruct (Rleb_spec ((x2 - x1) / dx) (-1)); [reflexivity|lra]. Qed.
Print Assumptions C49_bad_width.
Example C49_hist_ex : 0 < 1 /\ 0 <= 3 /\ exists h lost, hist [1/2; 5/2; -1; 7] 0 3 1 = Ok (h, lost) /\ (total_of h + lost = 4)%nat.
Proof. split; [lra|]. split; [lra|]. destruct (C49_hist [1/2; 5/2; -1; 7] 0 3 1) as (h & lost & E & _ & _ & _ & T); [lra|lra|]. eauto. Qed.

(* slices *)
Definition ct_le (p q : particle) : Prop := ct_of p <= ct_of q.
Definition sorts (sort : list particle -> list particle) : Prop := forall l, Permutation (sort l) l /\ StronglySorted ct_le (sort l).
Definition slice (pb : list nat) (n : nat) (l : list particle) : list particle := firstn (nth (S n) pb 0 - nth n pb 0)%nat (skipn (nth n pb 0%nat) l).
Definition in_range (a b : R) (p : particle) : bool := within a b (ct_of p).
Lemma below_split z : forall l, StronglySorted ct_le l -> firstn (below z l) l = filter (fun p => Rltb (ct_of p) z) l /\ skipn (below z l) l = filter (fun p => negb (Rltb (ct_of p) z)) l /\ (below z l <= length l)%nat.
Proof.
  induction l as [|p l IH]; intros S; cbn [below filter]; auto. apply StronglySorted_inv in S. destruct S as [S F]. destruct (Rltb_spec (ct_of p) z) as [L|G]; cbn [negb firstn skipn length].
  - destruct (IH S) as (A & B & C). rewrite A, B. repeat split; auto. lia.
  - assert (N : forall q, In q l -> Rltb (ct_of q) z = false). { intros q I. rewrite Forall_forall in F. specialize (F q I). unfold ct_le in F. destruct (Rltb_spec (ct_of q) z); auto. lra. }
    repeat split; try lia; clear - N.
    + induction l as [|q l IH]; cbn; auto. rewrite N by (left; auto). apply IH. intros; apply N; right; auto.
    + f_equal. induction l as [|q l IH]; cbn; auto. rewrite N by (left; auto). cbn. f_equal. apply IH. intros; apply N; right; auto.
Qed.
Lemma sorted_filter f l : StronglySorted ct_le l -> StronglySorted ct_le (filter f l).
Proof.
  induction 1 as [|p l S IH F]; cbn [filter]; [constructor|]. destruct (f p); auto. constructor; auto. rewrite Forall_forall in *. intros q I. apply filter_In in I. apply F, I.
Qed.
Lemma filter_filter {A} (f g : A -> bool) l : filter f (filter g l) = filter (fun x => f x && g x) l.
Proof. induction l as [|x l IH]; cbn; auto. destruct (g x); cbn; rewrite ?andb_true_r, ?andb_false_r; [destruct (f x); congruence|auto]. Qed.
Lemma skipn_add {A} : forall a (l : list A) b, skipn b (skipn a l) = skipn (a + b) l.
Proof. induction a as [|a IH]; intros l b; [reflexivity|]. destruct l; [now rewrite !skipn_nil|]. cbn. apply IH. Qed.
Lemma slice_loop_ok dz : 0 <= dz -> forall k z l pos ps hs r, StronglySorted ct_le l -> Forall (fun p => z <= ct_of p) l -> slice_loop k z dz l pos = (ps, hs, r) ->
  length ps = k /\ length hs = k /\ r = filter (fun p => if Rle_dec (z + INR k * dz) (ct_of p) then true else false) l /\ (nth k (pos :: ps) 0 + length r = pos + length l)%nat /\ (total_of hs + length r = length l)%nat /\
  forall n, (n < k)%nat -> (pos <= nth n (pos :: ps) 0 <= nth (S n) (pos :: ps) 0)%nat /\ (nth (S n) (pos :: ps) 0 - nth n (pos :: ps) 0 = nth n hs 0)%nat /\
    firstn (nth (S n) (pos :: ps) 0 - nth n (pos :: ps) 0)%nat (skipn (nth n (pos :: ps) 0 - pos)%nat l) = filter (in_range (z + INR n * dz) (z + (INR n + 1) * dz)) l.
Proof.
  intros D. induction k as [|k IH]; intros z l pos ps hs r S F E; cbn [slice_loop] in E.
  - assert (ps = [] /\ hs = [] /\ r = l) as (-> & -> & ->) by (repeat split; congruence). repeat split; auto; try lia.
    clear S E. induction F as [|p l P F IH]; cbn [filter]; auto. cbn [INR] in *. destruct (Rle_dec (z + 0 * dz) (ct_of p)); [f_equal; auto|lra].
  - destruct (below_split (z + dz) l S) as (A & B & C). set (c := below (z + dz) l) in *. destruct (slice_loop k (z + dz) dz (skipn c l) (pos + c)) as [[ps' hs'] r'] eqn:E'. assert (ps = (pos + c)%nat :: ps' /\ hs = c :: hs' /\ r = r') as (-> & -> & ->) by (repeat split; congruence). clear E.
    assert (S' : StronglySorted ct_le (skipn c l)) by (rewrite B; now apply sorted_filter).
    assert (F' : Forall (fun p => z + dz <= ct_of p) (skipn c l)). { rewrite B. apply Forall_forall. intros p I. apply filter_In in I. destruct I as [_ I]. destruct (Rltb_spec (ct_of p) (z + dz)); [discriminate|lra]. }
    destruct (IH _ _ _ _ _ _ S' F' E') as (L1 & L2 & Er & En & Et & Es). assert (Ls : length (skipn c l) = (length l - c)%nat) by apply skipn_length.
    cbn [length]. split; [lia|]. split; [lia|]. split.
    { rewrite Er, B, filter_filter. apply filter_ext. intros p. rewrite S_INR. destruct (Rle_dec (z + dz + INR k * dz) (ct_of p)), (Rle_dec (z + (INR k + 1) * dz) (ct_of p)); try lra; cbn [andb]; auto. destruct (Rltb_spec (ct_of p) (z + dz)); auto. pose proof (pos_INR k). nra. }
    split; [change (nth (Datatypes.S k) (pos :: (pos + c)%nat :: ps') 0%nat) with (nth k ((pos + c)%nat :: ps') 0%nat); lia|]. split; [cbn [total_of fold_right]; fold (total_of hs'); lia|].
    intros n N. destruct n as [|n].
    + cbn [nth]. split; [lia|]. split; [lia|]. rewrite Nat.sub_diag. cbn [skipn]. replace (pos + c - pos)%nat with c by lia. rewrite A. apply filter_ext_in. intros p I. rewrite Forall_forall in F. specialize (F p I). unfold in_range, within. cbn [INR]. destruct (Rle_dec (z + 0 * dz) (ct_of p)); [|lra]. destruct (Rltb_spec (ct_of p) (z + dz)), (Rlt_dec (ct_of p) (z + (0 + 1) * dz)); auto; lra.
    + change (nth (Datatypes.S n) (pos :: (pos + c)%nat :: ps') 0%nat) with (nth n ((pos + c)%nat :: ps') 0%nat). change (nth (Datatypes.S (Datatypes.S n)) (pos :: (pos + c)%nat :: ps') 0%nat) with (nth (Datatypes.S n) ((pos + c)%nat :: ps') 0%nat). change (nth (Datatypes.S n) (c :: hs') 0%nat) with (nth n hs' 0%nat). destruct (Es n) as (P1 & P2 & P3); [lia|]. split; [lia|]. split; auto.
      rewrite skipn_add in P3. replace (c + (nth n ((pos + c)%nat :: ps') 0 - (pos + c)))%nat with (nth n ((pos + c)%nat :: ps') 0 - pos)%nat in P3 by lia. rewrite P3, B, filter_filter. apply filter_ext. intros p. unfold in_range, within. rewrite S_INR. pose proof (pos_INR n). destruct (Rltb_spec (ct_of p) (z + dz)) as [Lt|Ge].
      * rewrite andb_false_r. destruct (Rle_dec (z + (INR n + 1) * dz) (ct_of p)); auto. nra.
      * rewrite andb_true_r. destruct (Rle_dec (z + dz + INR n * dz) (ct_of p)), (Rle_dec (z + (INR n + 1) * dz) (ct_of p)); try lra; auto. destruct (Rlt_dec (ct_of p) (z + dz + (INR n + 1) * dz)), (Rlt_dec (ct_of p) (z + (INR n + 1 + 1) * dz)); auto; lra.
Qed.
Lemma truncated zmin zmax l : fst (truncate_z zmin zmax l) = filter (in_range zmin zmax) l /\ snd (truncate_z zmin zmax l) = length (filter (fun p => negb (in_range zmin zmax p)) l).
Proof.
  unfold truncate_z. cbn [fst snd]. assert (H : forall p, negb (outside zmin zmax p) = in_range zmin zmax p). { intros p. unfold outside, in_range, within. destruct (Rltb_spec (ct_of p) zmin), (Rleb_spec zmax (ct_of p)), (Rle_dec zmin (ct_of p)), (Rlt_dec (ct_of p) zmax); cbn; auto; lra. }
  split; [apply filter_ext, H|]. f_equal. apply filter_ext. intros p. rewrite <- H. now rewrite negb_involutive.
Qed.
Lemma perm_filter {A} (f : A -> bool) l l' : Permutation l l' -> Permutation (filter f l) (filter f l').
Proof. induction 1; cbn; auto; [destruct (f x); auto|destruct (f x), (f y); auto; apply perm_swap|eapply perm_trans; eauto]. Qed.
(* everything about the slices, with or without a filter: what a successful call returns *)
Definition well_sliced (l : list particle) (zmin zmax : R) (nbins : nat) (r : binned) : Prop :=
  let dz := (zmax - zmin) / INR nbins in
  Permutation (kept r) (filter (in_range zmin zmax) l) /\ StronglySorted ct_le (kept r) /\
  nlost r = length (filter (fun p => negb (in_range zmin zmax p)) l) /\ (length (kept r) + nlost r = length l)%nat /\
  length (pbins r) = S nbins /\ nth 0 (pbins r) 0%nat = 0%nat /\ nth nbins (pbins r) 0%nat = length (kept r) /\ length (hd r) = nbins /\
  forall n, (n < nbins)%nat -> (nth n (pbins r) 0 <= nth (S n) (pbins r) 0)%nat /\
    slice (pbins r) n (kept r) = filter (in_range (zmin + INR n * dz) (zmin + (INR n + 1) * dz)) (kept r) /\
    nth n (hd r) None = if Nat.eqb (length (kept r)) 0 then None else Some (INR (length (slice (pbins r) n (kept r))) / INR (length (kept r)) / dz).
Lemma core sort l zmin zmax nbins : sorts sort -> zmin < zmax -> (0 < nbins)%nat -> exists k ps hs lost, truncate_z zmin zmax (sort l) = (k, lost) /\ slice_loop nbins zmin ((zmax - zmin) / INR nbins) k 0 = (ps, hs, []) /\ length hs = nbins /\
  forall hp, well_sliced l zmin zmax nbins (mkBin k (0%nat :: ps) (map (fun n => scaled (total_of hs) ((zmax - zmin) / INR nbins) (INR n)) hs) hp lost).
Proof.
  intros S Z N. destruct (S l) as [P St]. destruct (truncated zmin zmax (sort l)) as [T1 T2]. destruct (truncate_z zmin zmax (sort l)) as [k lost]. cbn [fst snd] in *. set (dz := (zmax - zmin) / INR nbins). assert (Nr : 0 < INR nbins) by now apply lt_0_INR. assert (D : 0 < dz) by (unfold dz; apply Rdiv_lt_0_compat; lra). assert (Dn : INR nbins * dz = zmax - zmin) by (unfold dz; field; lra).
  destruct (slice_loop nbins zmin dz k 0) as [[ps hs] r] eqn:E. assert (Sk : StronglySorted ct_le k) by (rewrite T1; now apply sorted_filter). assert (Fk : Forall (fun p => zmin <= ct_of p) k). { rewrite T1. apply Forall_forall. intros p I. apply filter_In in I. destruct I as [_ I]. unfold in_range in I. apply within_spec in I. lra. }
  destruct (slice_loop_ok dz (Rlt_le _ _ D) _ _ _ _ _ _ _ Sk Fk E) as (L1 & L2 & Er & En & Et & Es).
  assert (r = []) as ->. { rewrite Er, T1, filter_filter. rewrite (filter_ext _ (fun _ => false)); [clear; induction (sort l); cbn; auto|]. intros p. rewrite Dn. unfold in_range, within. destruct (Rle_dec (zmin + (zmax - zmin)) (ct_of p)); auto. destruct (Rle_dec zmin (ct_of p)); auto. destruct (Rlt_dec (ct_of p) zmax); auto. lra. }
  cbn [length] in *. exists k, ps, hs, lost. split; auto. split; auto. split; auto. intros hp. unfold well_sliced. cbn [kept pbins hd nlost]. fold dz.
  assert (Pk : Permutation k (filter (in_range zmin zmax) l)) by (rewrite T1; now apply perm_filter).
  assert (El : lost = length (filter (fun p => negb (in_range zmin zmax p)) l)) by (rewrite T2; apply Permutation_length, perm_filter, P).
  split; auto. split; auto. split; auto. split.
  { rewrite (Permutation_length Pk), El. clear. induction l as [|p l IH]; cbn; auto. destruct (in_range zmin zmax p); cbn; lia. }
  split; [cbn [length]; congruence|]. split; [reflexivity|]. split; [lia|]. split; [now rewrite map_length|].
  intros n Hn. destruct (Es n Hn) as (A & B & C). split; [lia|]. unfold slice. rewrite Nat.sub_0_r in C. split; auto.
  assert (Tk : total_of hs = length k) by lia. assert (Lc : (nth n (0%nat :: ps) 0 + nth n hs 0 <= length k)%nat).
  { clear - B A En Es Hn L1. assert (M : forall j, (n < j <= nbins)%nat -> (nth (S n) (0%nat :: ps) 0 <= nth j (0%nat :: ps) 0)%nat). { intros j. induction j as [|j IH]; intros H; [lia|]. destruct (Nat.eq_dec j n) as [->|]; auto. destruct (Es j) as (Q & _ & _); [lia|]. specialize (IH ltac:(lia)). lia. } specialize (M nbins ltac:(lia)). lia. }
  rewrite (nth_indep _ None (scaled (total_of hs) dz (INR 0))) by (rewrite map_length; lia). rewrite (map_nth (fun n => scaled (total_of hs) dz (INR n)) hs 0%nat). unfold scaled. rewrite Tk. destruct (Nat.eqb (length k) 0); auto. f_equal. f_equal. f_equal. f_equal. rewrite firstn_length, skipn_length, B. lia.
Qed.
Theorem C49_slices sort l zmin zmax nbins : sorts sort -> zmin < zmax -> (0 < nbins)%nat -> exists r, bin_list sort l zmin zmax nbins None = Ok r /\ well_sliced l zmin zmax nbins r.
Proof.
  intros S Z N. destruct (core sort l zmin zmax nbins S Z N) as (k & ps & hs & lost & E1 & E2 & L & W). unfold bin_list. rewrite E1, E2. eexists. split; [reflexivity|]. apply W.
Qed.
Print Assumptions C49_slices.
(* an empty range removes every particle *)
Theorem C49_empty_range sort l zmin zmax nbins : sorts sort -> zmax <= zmin -> exists r, bin_list sort l zmin zmax nbins None = Ok r /\ kept r = [] /\ nlost r = length l.
Proof.
  intros S Z. unfold bin_list. destruct (S l) as [P _]. destruct (truncated zmin zmax (sort l)) as [T1 T2]. destruct (truncate_z zmin zmax (sort l)) as [k lost]. cbn [fst snd] in *. assert (O : forall p, in_range zmin zmax p = false). { intros p. unfold in_range, within. destruct (Rle_dec zmin (ct_of p)), (Rlt_dec (ct_of p) zmax); auto. lra. }
  assert (k = []) as ->. { rewrite T1. rewrite (filter_ext _ (fun _ => false)) by exact O. clear. induction (sort l); cbn; auto. }
  assert (Hl : lost = length l). { rewrite T2. rewrite (filter_ext _ (fun _ => true)) by (intros p; now rewrite O). transitivity (length (sort l)); [clear; induction (sort l); cbn; auto|now apply Permutation_length]. }
  assert (G : forall dz k z pos, snd (slice_loop k z dz [] pos) = []). { clear. intros dz. induction k as [|k IH]; intros z pos; cbn; auto. specialize (IH (z + dz) (pos + 0)%nat). destruct (slice_loop k (z + dz) dz [] (pos + 0)) as [[? ?] ?]. exact IH. }
  specialize (G ((zmax - zmin) / INR nbins) nbins zmin 0%nat). destruct (slice_loop _ _ _ _ _) as [[ps hs] r]. cbn [snd] in G. subst r. eexists. split; [reflexivity|]. auto.
Qed.
Print Assumptions C49_empty_range.
(* no bins: the call aborts as soon as one particle is in range *)
Theorem C49_no_bins sort l zmin zmax : sorts sort -> (exists p, In p l /\ zmin <= ct_of p < zmax) -> bin_list sort l zmin zmax 0 None = Throw tt.
Proof.
  intros S (p & I & B). unfold bin_list. destruct (S l) as [P _]. destruct (truncated zmin zmax (sort l)) as [T1 _]. destruct (truncate_z zmin zmax (sort l)) as [k lost]. cbn [fst slice_loop] in *. destruct k; auto. exfalso. assert (J : In p (filter (in_range zmin zmax) (sort l))). { apply filter_In. split; [eapply Permutation_in; [symmetry; apply P|exact I]|]. now apply within_spec. } rewrite <- T1 in J. exact J.
Qed.
Print Assumptions C49_no_bins.
(* a sorting function exists *)
Fixpoint ins (p : particle) (l : list particle) : list particle := match l with [] => [p] | q :: l' => if Rltb (ct_of p) (ct_of q) then p :: l else q :: ins p l' end.
Definition isort (l : list particle) : list particle := fold_right ins [] l.
Lemma isort_sorts : sorts isort.
Proof.
  intros l. assert (P : forall p l, Permutation (ins p l) (p :: l)). { clear. intros p. induction l as [|q l IH]; cbn; auto. destruct (Rltb _ _); auto. eapply perm_trans; [apply perm_skip, IH|apply perm_swap]. }
  assert (Q : forall p l, StronglySorted ct_le l -> StronglySorted ct_le (ins p l)). { intros p. induction 1 as [|q m Sm IH F]; cbn; [repeat constructor|]. destruct (Rltb_spec (ct_of p) (ct_of q)) as [L|G].
    - constructor; [constructor; auto|]. constructor; [unfold ct_le; lra|]. eapply Forall_impl; [|exact F]. unfold ct_le. intros; lra.
    - constructor; auto. rewrite Forall_forall in *. intros x I. eapply Permutation_in in I; [|apply P]. destruct I as [<-|I]; [unfold ct_le; lra|auto]. }
  induction l as [|p l [IP IQ]]; cbn; [split; [auto|constructor]|]. split; [|now apply Q]. eapply perm_trans; [apply P|]. now apply perm_skip.
Qed.
Example C49_slices_ex : sorts isort /\ 0 < 1 /\ (0 < 4)%nat.
Proof. split; [apply isort_sorts|]. split; [lra|lia]. Qed.

(* C50: the slope filter *)
Lemma slope_loop_ok n w hs c : forall ms acc, (forall m, In m ms -> (n <= m + w)%nat) ->
  (forall m, In m ms -> (m < length hs)%nat /\ (m + w - n < length c)%nat) -> exists s, slope_loop ms n w hs c acc = Ok s /\ s = acc + fold_right Rplus 0 (map (fun m => INR (nth m hs 0%nat) * nth (m + w - n)%nat c 0) ms).
Proof.
  induction ms as [|m ms IH]; intros acc M H; cbn [slope_loop map fold_right]; [eexists; split; [reflexivity|ring]|]. destruct (H m (or_introl eq_refl)) as [A B].
  destruct (nth_error hs m) as [h|] eqn:E1; [|apply nth_error_None in E1; lia]. destruct (nth_error c (m + w - n)) as [x|] eqn:E2; [|apply nth_error_None in E2; lia]. destruct (IH (acc + INR h * x)) as (s & E & F); [intros; apply M; right; auto|intros; apply H; right; auto|]. exists s. split; auto. rewrite F, (nth_error_nth _ _ _ E1), (nth_error_nth _ _ _ E2). ring.
Qed.
Lemma slope_loop_ub n w hs c : forall ms acc m, In m ms -> (length hs <= m)%nat \/ (length c <= m + w - n)%nat -> slope_loop ms n w hs c acc = UB.
Proof.
  induction ms as [|x ms IH]; intros acc m I H; [destruct I|]. cbn [slope_loop]. destruct I as [->|I].
  - destruct (nth_error hs m) eqn:E1; auto. destruct (nth_error c (m + w - n)) eqn:E2; auto. assert (m < length hs)%nat by (apply nth_error_Some; congruence). assert (m + w - n < length c)%nat by (apply nth_error_Some; congruence). lia.
  - destruct (nth_error hs x); auto. destruct (nth_error c (x + w - n)); auto. eapply IH; eauto.
Qed.
Definition half (c : list R) : nat := ((length c - 1) / 2)%nat.
(* the inputs for which every access is in range *)
Definition safe (nbins : nat) (c : list R) : Prop := (half c <= 1)%nat /\ (nbins - 1 + half c < length c)%nat.
Lemma slopes_ok hs c : c <> [] -> safe (length hs) c -> forall ns, (forall n, In n ns -> (n < length hs)%nat) -> exists ss, slopes ns hs c = Ok ss /\ length ss = length ns /\
  forall k, (k < length ns)%nat -> nth k ss 0 = fold_right Rplus 0 (map (fun m => INR (nth m hs 0%nat) * nth (m + half c - nth k ns 0)%nat c 0) (seq (nth k ns 0 - half c)%nat (length hs - (nth k ns 0 - half c))%nat)).
Proof.
  intros NE [W1 W2]. induction ns as [|n ns IH]; intros H; cbn [slopes]; [exists []; cbn; repeat split; auto; intros; lia|]. unfold slope. fold (half c). assert (Hn : (n < length hs)%nat) by (apply H; left; auto). replace (Nat.max (length hs) (n + half c)) with (length hs) by lia.
  destruct (slope_loop_ok n (half c) hs c (seq (n - half c) (length hs - (n - half c))) 0) as (s & -> & Es); [intros m I; apply in_seq in I; lia|intros m I; apply in_seq in I; lia|]. cbn [bind]. destruct IH as (ss & -> & Ls & Ns); [intros; apply H; right; auto|]. cbn [bind]. eexists. split; [reflexivity|]. cbn [length]. split; [congruence|]. intros [|k] K; cbn [nth]; [rewrite Es; ring|]. apply Ns. lia.
Qed.
Lemma slopes_ub hs c n : forall ns, In n ns -> slope hs c n = UB -> slopes ns hs c = UB.
Proof.
  induction ns as [|x ns IH]; intros I E; [destruct I|]. cbn [slopes]. destruct I as [->|I]; [now rewrite E|]. rewrite IH by auto. assert (A : slope hs c x <> Throw tt). { unfold slope. generalize (seq (x - (length c - 1) / 2) (Nat.max (length hs) (x + (length c - 1) / 2) - (x - (length c - 1) / 2))) 0. clear. induction l as [|m ms IH]; intros acc; cbn; [discriminate|]. destruct (nth_error hs m); [|discriminate]. destruct (nth_error c _); [apply IH|discriminate]. }
  destruct (slope hs c x) as [s|[]|]; cbn [bind]; auto. congruence.
Qed.
Theorem C50_accesses_refuted sort l zmin zmax nbins c : sorts sort -> zmin < zmax -> (0 < nbins)%nat -> (bin_list sort l zmin zmax nbins (Some c) <> UB <-> c <> [] /\ safe nbins c).
Proof.
  intros S Z N. destruct (core sort l zmin zmax nbins S Z N) as (k & ps & hs & lost & E1 & E2 & L & _). unfold bin_list. rewrite E1, E2. destruct c as [|x c']; [split; [congruence|intros [H _]; congruence]|]. set (c := x :: c') in *. split.
  - intros H. split; [discriminate|]. unfold safe. fold (half c). destruct (Nat.le_gt_cases (half c) 1) as [W|W]; [destruct (Nat.lt_ge_cases (nbins - 1 + half c) (length c)); auto|]; exfalso; apply H.
    + rewrite (slopes_ub hs c 0); auto; [apply in_seq; lia|]. unfold slope. fold (half c). rewrite L. apply (slope_loop_ub _ _ _ _ _ _ (nbins - 1)%nat); [apply in_seq; lia|]. right. lia.
    + rewrite (slopes_ub hs c (nbins - 1)); auto; [apply in_seq; lia|]. unfold slope. fold (half c). rewrite L. apply (slope_loop_ub _ _ _ _ _ _ nbins%nat); [apply in_seq; lia|]. left. lia.
  - intros [NE Sf]. rewrite <- L in Sf. destruct (slopes_ok hs c NE Sf (seq 0 nbins)) as (ss & -> & _); [intros n I; apply in_seq in I; lia|]. cbn [bind]. discriminate.
Qed.
Print Assumptions C50_accesses_refuted.
(* the filter every wake field process installs has 29 coefficients *)
Theorem C50_default_refuted sort l zmin zmax nbins c : sorts sort -> zmin < zmax -> (0 < nbins)%nat -> length c = 29%nat -> bin_list sort l zmin zmax nbins (Some c) = UB.
Proof.
  intros S Z N L. pose proof (C50_accesses_refuted sort l zmin zmax nbins c S Z N) as H. destruct (bin_list sort l zmin zmax nbins (Some c)) eqn:E; auto; exfalso; assert (X : safe nbins c) by (apply H; discriminate); destruct X as [X _]; unfold half in X; rewrite L in X; cbn in X; lia.
Qed.
Print Assumptions C50_default_refuted.
(* where it is defined: at most three bins and a filter of up to four coefficients *)
Theorem C50_range_partial nbins c : c <> [] -> safe nbins c -> (length c <= 4)%nat /\ (nbins <= 3)%nat.
Proof.
  intros N [A B]. unfold half in *. assert (length c <= 4)%nat. { destruct (Nat.le_gt_cases (length c) 4); auto. assert (2 <= (length c - 1) / 2)%nat by (apply Nat.div_le_lower_bound; lia). lia. } split; auto.
  destruct c as [|a [|b [|d [|e [|]]]]]; cbn in *; try lia; congruence.
Qed.
Print Assumptions C50_range_partial.
Theorem C50_values_partial sort l zmin zmax nbins c : sorts sort -> zmin < zmax -> (0 < nbins)%nat -> c <> [] -> safe nbins c -> exists r, bin_list sort l zmin zmax nbins (Some c) = Ok r /\ well_sliced l zmin zmax nbins r /\ length (hdp r) = nbins /\
  forall n, (n < nbins)%nat -> nth n (hdp r) None = if Nat.eqb (length (kept r)) 0 then None else
    Some (fold_right Rplus 0 (map (fun m => INR (length (slice (pbins r) m (kept r))) * nth (m + half c - n)%nat c 0) (seq (n - half c)%nat (nbins - (n - half c))%nat)) / INR (length (kept r)) / ((zmax - zmin) / INR nbins)).
Proof.
  intros S Z N NE Sf. destruct (core sort l zmin zmax nbins S Z N) as (k & ps & hs & lost & E1 & E2 & L & W). unfold bin_list. rewrite E1, E2. destruct c as [|x c'] eqn:Ec; [congruence|]. rewrite <- Ec in *. clear Ec. rewrite <- L in Sf. destruct (slopes_ok hs c NE Sf (seq 0 nbins)) as (ss & -> & Ls & Ns); [intros n I; apply in_seq in I; lia|]. cbn [bind]. eexists. split; [reflexivity|]. split; [apply W|]. cbn [hdp kept pbins]. rewrite seq_length in *. split; [now rewrite map_length|].
  set (dz := (zmax - zmin) / INR nbins) in *. intros n Hn. rewrite (nth_indep _ None (scaled (total_of hs) dz 0)) by (rewrite map_length; lia). fold (total_of hs). rewrite (map_nth (scaled (total_of hs) dz)). rewrite Ns by auto. rewrite seq_nth by auto. cbn [Nat.add].
  assert (Nr : 0 < INR nbins) by now apply lt_0_INR. assert (D : 0 <= dz) by (unfold dz; apply Rlt_le, Rdiv_lt_0_compat; lra).
  destruct (W []) as (_ & Sk & _). cbn [kept] in Sk. destruct (truncated zmin zmax (sort l)) as [T1 _]. rewrite E1 in T1. cbn [fst] in T1. assert (Fk : Forall (fun p => zmin <= ct_of p) k). { rewrite T1. apply Forall_forall. intros p I. apply filter_In in I. destruct I as [_ I]. unfold in_range in I. apply within_spec in I. lra. }
  destruct (slice_loop_ok dz D _ _ _ _ _ _ _ Sk Fk E2) as (L1 & _ & _ & En & Et & Es). cbn [length] in *. replace (total_of hs) with (length k) by lia. unfold scaled. destruct (Nat.eqb (length k) 0); auto. f_equal. f_equal. f_equal. f_equal. rewrite L. apply map_ext_in. intros m I. apply in_seq in I. destruct (Es m) as (A & B & C); [lia|]. f_equal. f_equal. unfold slice. rewrite Nat.sub_0_r in C. rewrite firstn_length, skipn_length, B.
  assert (Lc : (nth m (0%nat :: ps) 0 + nth m hs 0 <= length k)%nat).
  { assert (Hm : (m < nbins)%nat) by lia. clear - B A En Es Hm L1. assert (M : forall j, (m < j <= nbins)%nat -> (nth (S m) (0%nat :: ps) 0 <= nth j (0%nat :: ps) 0)%nat). { intros j. induction j as [|j IH]; intros H; [lia|]. destruct (Nat.eq_dec j m) as [->|]; auto. destruct (Es j) as (Q & _ & _); [lia|]. specialize (IH ltac:(lia)). lia. } specialize (M nbins ltac:(lia)). lia. }
  lia.
Qed.
Print Assumptions C50_values_partial.
Example C50_ex : safe 2 [1; 0; -1] /\ [1; 0; -1] <> [].
Proof. unfold safe, half. cbn. split; [lia|discriminate]. Qed.

(* C99: the distribution of one coordinate *)
Definition value (u : nat) (p : particle) : R := coord u (pv p).
Definition inside (umin umax : R) (x : R) : bool := if Rle_dec umin x then if Rle_dec x umax then true else false else false.
Lemma inside_spec a b x : inside a b x = true <-> a <= x <= b.
Proof. unfold inside. destruct (Rle_dec a x), (Rle_dec x b); split; try discriminate; try tauto; intros; lra. Qed.
Definition covered (umin du : R) (nb : nat) (x : R) : Prop := x < umin + INR nb * du.
Lemma dist_loop_ok u umin umax du nb tr : 0 < du -> forall l first h lost, length h = nb -> (forall p, In p l -> inside umin umax (value u p) = true -> covered umin du nb (value u p)) ->
  (tr = true -> first = true -> match l with p :: _ => inside umin umax (value u p) = true | [] => True end) ->
  exists h', dist_loop u umin umax du nb tr first l h lost = Ok (if tr then filter (fun p => inside umin umax (value u p)) l else l, h', (lost + length (filter (fun p => negb (inside umin umax (value u p))) l))%nat) /\ length h' = nb /\
  (total_of h' = total_of h + length (filter (fun p => inside umin umax (value u p)) l))%nat /\
  forall i, (i < nb)%nat -> nth i h' 0%nat = (nth i h 0 + length (filter (fun p => inside umin umax (value u p) && within (umin + INR i * du) (umin + (INR i + 1) * du) (value u p)) l))%nat.
Proof.
  intros D. induction l as [|p l IH]; intros first h lost L C F; cbn [dist_loop].
  - exists h. cbn. rewrite !Nat.add_0_r. destruct tr; repeat split; auto; intros; lia.
  - assert (C' : forall q, In q l -> inside umin umax (value u q) = true -> covered umin du nb (value u q)) by (intros; apply C; auto; right; auto). fold (value u p).
    assert (O : Rltb (value u p) umin || Rltb umax (value u p) = negb (inside umin umax (value u p))). { unfold inside. destruct (Rltb_spec (value u p) umin), (Rltb_spec umax (value u p)), (Rle_dec umin (value u p)), (Rle_dec (value u p) umax); cbn; auto; lra. }
    rewrite O. destruct (inside umin umax (value u p)) eqn:I; cbn [negb].
    + specialize (C p (or_introl eq_refl) I). apply inside_spec in I as I2. destruct (to_size_ok ((value u p - umin) / du)) as (j & -> & J); [apply Rmult_le_pos; [lra|left; now apply Rinv_0_lt_compat]|]. cbn [bind]. assert (Q : (value u p - umin) / du * du = value u p - umin) by (field; lra).
      assert (Hj : (j < nb)%nat). { unfold covered in C. apply INR_lt. nra. } destruct (Nat.ltb_spec j nb); [|lia]. destruct (IH false (bump h j) lost) as (h' & -> & L' & T & N); [now rewrite bump_length|auto|intros; discriminate|]. cbn [bind]. exists h'. split; [cbn [filter]; rewrite I; cbn [negb]; destruct tr; reflexivity|]. split; auto. split; [rewrite T, bump_total by lia; cbn [filter]; rewrite I; cbn [length]; lia|].
      intros i Hi. rewrite N, bump_nth by (rewrite ?L; auto). cbn [filter]. rewrite I. cbn [andb]. pose proof (bin_iff umin du (value u p) i j D J) as BI. destruct (within (umin + INR i * du) (umin + (INR i + 1) * du) (value u p)) eqn:W.
      * apply within_spec, BI in W. subst i. rewrite Nat.eqb_refl. cbn [length]. lia.
      * destruct (Nat.eqb_spec i j) as [Ei|]; auto. apply BI, within_spec in Ei. congruence.
    + destruct tr.
      * destruct first; [specialize (F eq_refl eq_refl); congruence|]. destruct (IH false h (S lost)) as (h' & -> & L' & T & N); auto; [intros; discriminate|]. exists h'. cbn [filter]. rewrite I. cbn [negb length andb]. split; [f_equal; f_equal; lia|]. auto.
      * destruct (IH false h (S lost)) as (h' & -> & L' & T & N); auto; [intros; discriminate|]. cbn [bind]. exists h'. cbn [filter]. rewrite I. cbn [negb length andb]. split; [f_equal; f_equal; lia|]. auto.
Qed.
Lemma dist_loop_ub u umin umax du nb tr : 0 < du -> forall l first h lost, length h = nb ->
  (exists p, In p l /\ inside umin umax (value u p) = true /\ ~ covered umin du nb (value u p)) \/ (tr = true /\ first = true /\ match l with p :: _ => inside umin umax (value u p) = false | [] => False end) ->
  dist_loop u umin umax du nb tr first l h lost = UB.
Proof.
  intros D. induction l as [|p l IH]; intros first h lost L H; [destruct H as [(p & [] & _)|(_ & _ & [])]|]. cbn [dist_loop]. fold (value u p).
  assert (O : Rltb (value u p) umin || Rltb umax (value u p) = negb (inside umin umax (value u p))). { unfold inside. destruct (Rltb_spec (value u p) umin), (Rltb_spec umax (value u p)), (Rle_dec umin (value u p)), (Rle_dec (value u p) umax); cbn; auto; lra. }
  rewrite O. destruct (inside umin umax (value u p)) eqn:I; cbn [negb].
  - apply inside_spec in I as I2. destruct (to_size_ok ((value u p - umin) / du)) as (j & -> & J); [apply Rmult_le_pos; [lra|left; now apply Rinv_0_lt_compat]|]. cbn [bind]. assert (Q : (value u p - umin) / du * du = value u p - umin) by (field; lra). destruct (Nat.ltb_spec j nb) as [Lt|]; auto.
    destruct H as [(q & [<-|Iq] & Qi & Qc)|(_ & _ & F)]; [|rewrite IH; auto; [now rewrite bump_length|left; eauto]|congruence]. exfalso. apply Qc. unfold covered. assert (INR (S j) <= INR nb) by (apply le_INR; lia). rewrite S_INR in *. nra.
  - destruct H as [(q & [<-|Iq] & Qi & Qc)|(-> & -> & _)]; [congruence| |auto]. assert (E : forall h lost, length h = nb -> dist_loop u umin umax du nb tr false l h lost = UB) by (intros; apply IH; auto; left; eauto). destruct tr; [destruct first; auto|rewrite E; auto].
Qed.
Definition nbins_of (umin umax du : R) : nat := Z.to_nat (Int_part ((umax - umin) / du)).
Theorem C99_defined_refuted u umin umax du norm tr l : 0 < du -> umin <= umax ->
  (distribution u umin umax du norm tr l <> UB <-> (forall p, In p l -> umin <= value u p <= umax -> value u p < umin + INR (nbins_of umin umax du) * du) /\ (tr = true -> match l with p :: _ => umin <= value u p <= umax | [] => True end)).
Proof.
  intros D U. unfold distribution. destruct (Reqb_spec du 0) as [Dz|Dz]; [lra|]. destruct (to_size_ok ((umax - umin) / du)) as (nb & E & N); [apply Rmult_le_pos; [lra|left; now apply Rinv_0_lt_compat]|]. assert (nb = nbins_of umin umax du) as ->. { unfold to_size in E. destruct (Rleb_spec ((umax - umin) / du) (-1)); [discriminate|]. unfold nbins_of. congruence. } rewrite E. cbn [bind]. set (nb := nbins_of umin umax du) in *. split.
  - intros H. split.
    + intros p I B. destruct (Rlt_dec (value u p) (umin + INR nb * du)); auto. exfalso. apply H. rewrite dist_loop_ub; auto; [apply repeat_length|]. left. exists p. split; auto. split; [now apply inside_spec|auto].
    + intros ->. destruct l as [|p l]; auto. destruct (inside umin umax (value u p)) eqn:I; [now apply inside_spec|]. exfalso. apply H. rewrite dist_loop_ub; auto using repeat_length.
  - intros [A B]. destruct (dist_loop_ok u umin umax du nb tr D l true (repeat 0%nat nb) 0) as (h' & -> & _); [apply repeat_length|intros p I J; apply A; auto; now apply inside_spec|intros Tr _; specialize (B Tr); destruct l; auto; now apply inside_spec|]. cbn [bind]. discriminate.
Qed.
Print Assumptions C99_defined_refuted.
(* in particular the upper end itself never falls into a bin *)
Theorem C99_upper_end_refuted u umin umax du norm tr l p : 0 < du -> umin <= umax -> In p l -> value u p = umax -> distribution u umin umax du norm tr l = UB.
Proof.
  intros D U I E. destruct (distribution u umin umax du norm tr l) eqn:Er; auto; exfalso; assert (H : distribution u umin umax du norm tr l <> UB) by (rewrite Er; discriminate); apply (C99_defined_refuted u umin umax du norm tr l D U) in H; destruct H as [H _]; specialize (H p I ltac:(lra)).
  all: unfold nbins_of in H; destruct (to_size_ok ((umax - umin) / du)) as (nb & Eb & N); [apply Rmult_le_pos; [lra|left; now apply Rinv_0_lt_compat]|]; unfold to_size in Eb; destruct (Rleb_spec ((umax - umin) / du) (-1)); [discriminate|]; assert (En : Z.to_nat (Int_part ((umax - umin) / du)) = nb) by congruence; rewrite En in H; assert (Q : (umax - umin) / du * du = umax - umin) by (field; lra); nra.
Qed.
Print Assumptions C99_upper_end_refuted.
Theorem C173_counts u umin umax du norm tr l : 0 < du -> umin <= umax ->
  (forall p, In p l -> umin <= value u p <= umax -> value u p < umin + INR (nbins_of umin umax du) * du) -> (tr = true -> match l with p :: _ => umin <= value u p <= umax | [] => True end) ->
  exists h lost, distribution u umin umax du norm tr l = Ok (if tr then filter (fun p => inside umin umax (value u p)) l else l, h, lost) /\ lost = length (filter (fun p => negb (inside umin umax (value u p))) l) /\ length h = nbins_of umin umax du /\
  forall i, (i < nbins_of umin umax du)%nat -> let c := INR (length (filter (fun p => inside umin umax (value u p) && within (umin + INR i * du) (umin + (INR i + 1) * du) (value u p)) l)) in
    let n := length (filter (fun p => inside umin umax (value u p)) l) in
    nth i h None = if norm then if Nat.eqb n 0 then None else Some (c / INR n / du) else Some c.
Proof.
  intros D U A B. unfold distribution. destruct (Reqb_spec du 0) as [Dz|Dz]; [lra|]. destruct (to_size_ok ((umax - umin) / du)) as (nb & E & N); [apply Rmult_le_pos; [lra|left; now apply Rinv_0_lt_compat]|]. assert (nb = nbins_of umin umax du) as ->. { unfold to_size in E. destruct (Rleb_spec ((umax - umin) / du) (-1)); [discriminate|]. unfold nbins_of. congruence. } rewrite E. cbn [bind]. set (nb := nbins_of umin umax du) in *.
  destruct (dist_loop_ok u umin umax du nb tr D l true (repeat 0%nat nb) 0) as (h' & -> & L & T & C); [apply repeat_length|intros p I J; apply A; auto; now apply inside_spec|intros Tr _; specialize (B Tr); destruct l; auto; now apply inside_spec|]. cbn [bind]. do 2 eexists. split; [reflexivity|]. split; [reflexivity|]. split; [now rewrite map_length|]. intros i Hi. cbn zeta.
  assert (Z : total_of (repeat 0%nat nb) = 0%nat) by (clear; induction nb; cbn; auto). fold (total_of h'). rewrite T, Z. cbn [Nat.add]. set (f := fun n => if norm then scaled _ du (INR n) else Some (INR n)). rewrite (nth_indep _ None (f 0%nat)) by (rewrite map_length; lia). rewrite (map_nth f). rewrite C by auto.
  assert (Zi : nth i (repeat 0%nat nb) 0%nat = 0%nat) by (clear; revert i; induction nb; intros [|i]; cbn; auto). rewrite Zi. unfold f, scaled. reflexivity.
Qed.
Print Assumptions C173_counts.
Example C99_ex : 0 < 1 /\ 0 <= 2 /\ forall p, In p [mkP (V6 (1/2) 0 0 0 0 0) 0; mkP (V6 (3/2) 0 0 0 0 0) 1] -> 0 <= value 0 p <= 2 -> value 0 p < 0 + INR (nbins_of 0 2 1) * 1.
Proof.
  split; [lra|]. split; [lra|]. intros p I _. assert (E : nbins_of 0 2 1 = 2%nat). { destruct (to_size_ok ((2 - 0) / 1)) as (n & E & N); [lra|]. unfold to_size in E. destruct (Rleb_spec ((2 - 0) / 1) (-1)); [lra|]. unfold nbins_of. assert (Z.to_nat (Int_part ((2 - 0) / 1)) = n) as -> by congruence. apply INR_eq. replace ((2 - 0) / 1) with 2 in N by field. assert (n <= 2)%nat by (apply INR_le; cbn; lra). assert (2 <= n)%nat. { destruct (Nat.le_gt_cases 2 n); auto. assert (INR n <= INR 1) by (apply le_INR; lia). cbn in *. lra. } replace n with 2%nat by lia. reflexivity. }
  rewrite E. destruct I as [<-|[<-|[]]]; unfold value; cbn; lra.
Qed.
