From Coq Require Import ZArith Lia Permutation Sorted.
From Verif Require Import RBase Bunch BunchSpec BunchProofs BunchProps Hist HistProps Wake WakeSpec.
Local Open Scope R_scope.

Lemma filter_id {A} (f : A -> bool) l : length (filter f l) = length l -> filter f l = l.
Proof.
  induction l as [|x l IH]; cbn [filter]; auto. assert (H : (length (filter f l) <= length l)%nat) by (clear; induction l as [|y l IH]; cbn; auto; destruct (f y); cbn; lia).
  destruct (f x); cbn [length]; intros E; [f_equal; apply IH; lia|lia].
Qed.
Lemma perm_central nsig l l' : Permutation l l' -> Permutation (central nsig l) (central nsig l').
Proof.
  intros P. unfold central, ct_mean, ct_spread. rewrite (avg_perm _ _ _ P), (cov_perm _ _ _ _ P). now apply perm_filter.
Qed.
Lemma central_le nsig l : (length (central nsig l) <= length l)%nat.
Proof. unfold central. generalize (in_range (ct_mean l - nsig * ct_spread l) (ct_mean l + nsig * ct_spread l)). intros f. induction l as [|p l IH]; cbn; auto. destruct (f p); cbn; lia. Qed.
Lemma central_twice nsig l : length (central nsig l) = length l -> central nsig l = l.
Proof. apply filter_id. Qed.

(* the slices as the rest of the process sees them *)
Record slices_ok (l : list particle) (nb : nat) (s : sliced) : Prop := mkSO {
  so_bins : (0 < nb)%nat; so_width : 0 < width s; so_len : length (bounds s) = S nb; so_dens_len : length (dens s) = nb; so_ddens_len : length (ddens s) = nb;
  so_slice : forall n, (n < nb)%nat -> from_to (bounds s) n l = Some (filter (in_slice (zlow s) (width s) n) l);
  so_dens : forall n, (n < nb)%nat -> nth_error (dens s) n = Some (INR (length (filter (in_slice (zlow s) (width s) n) l)) / INR (length l) / width s);
  so_in : forall p, In p l -> zlow s <= ct_of p < zlow s + INR nb * width s;
  so_all : flat_map (fun n => filter (in_slice (zlow s) (width s) n) l) (seq 0 nb) = l }.

Lemma bin_list_inv sort l zmin zmax nb c r : sorts sort -> bin_list sort l zmin zmax nb c = Ok r -> kept r <> [] ->
  zmin < zmax /\ (0 < nb)%nat /\ well_sliced l zmin zmax nb r /\ length (hdp r) = nb.
Proof.
  intros S E K. assert (Kp : kept r = filter (in_range zmin zmax) (sort l) /\ (nb <> 0)%nat).
  { destruct (truncated zmin zmax (sort l)) as [T _]. unfold bin_list in E. destruct (truncate_z zmin zmax (sort l)) as [k lost]. cbn [fst] in T. subst k.
    destruct (slice_loop nb zmin ((zmax - zmin) / INR nb) (filter (in_range zmin zmax) (sort l)) 0) as [[ps hs] rest] eqn:Es. destruct rest; [|discriminate].
    assert (Ek : kept r = filter (in_range zmin zmax) (sort l)).
    { destruct c as [[|x c]|]; [discriminate| |]; [destruct (slopes (seq 0 nb) hs (x :: c)); cbn [bind] in E; try discriminate|]; apply (f_equal (fun o => match o with Ok r => kept r | _ => [] end)) in E; cbn [kept] in E; auto. }
    split; auto. intros ->. cbn [slice_loop] in Es. rewrite Ek in K. congruence. }
  destruct Kp as [Ek N]. assert (Z : zmin < zmax). { destruct (kept r) as [|p k] eqn:Q; [congruence|]. assert (I : In p (filter (in_range zmin zmax) (sort l))) by (rewrite <- Ek; now left). apply filter_In in I. destruct I as [_ I]. apply within_spec in I. lra. }
  split; auto. split; [lia|]. destruct (core sort l zmin zmax nb S Z ltac:(lia)) as (k & ps & hs & lost & E1 & E2 & L & W). unfold bin_list in E. rewrite E1, E2 in E.
  destruct c as [[|x c]|]; [discriminate| |].
  - assert (Ls : forall ns r, slopes ns hs (x :: c) = Ok r -> length r = length ns). { induction ns as [|n ns IH]; intros r'; cbn [slopes]; [now intros [= <-]|]. destruct (slope hs (x :: c) n); cbn [bind]; try discriminate. destruct (slopes ns hs (x :: c)); cbn [bind]; try discriminate. intros [= <-]. cbn. auto. }
    destruct (slopes (seq 0 nb) hs (x :: c)) as [ss| |] eqn:Q; cbn [bind] in E; try discriminate. assert (r = mkBin k (0%nat :: ps) (map (fun n => Hist.scaled (total_of hs) ((zmax - zmin) / INR nb) (INR n)) hs) (map (Hist.scaled (total_of hs) ((zmax - zmin) / INR nb)) ss) lost) as -> by (unfold total_of; congruence).
    split; [apply W|]. cbn [hdp]. rewrite map_length, (Ls _ _ Q). apply seq_length.
  - assert (r = mkBin k (0%nat :: ps) (map (fun n => Hist.scaled (total_of hs) ((zmax - zmin) / INR nb) (INR n)) hs) (map (fun _ => Some 0) hs) lost) as -> by (unfold total_of; congruence).
    split; [apply W|]. cbn [hdp]. rewrite map_length. auto.
Qed.

Lemma bounds_mono (pb : list nat) nb : (forall n, (n < nb)%nat -> (nth n pb 0 <= nth (S n) pb 0)%nat) -> forall i j, (i <= j <= nb)%nat -> (nth i pb 0 <= nth j pb 0)%nat.
Proof. intros H i j. induction j as [|j IH]; intros L; [assert (i = 0)%nat as -> by lia; lia|]. destruct (Nat.eq_dec i (S j)) as [->|]; [lia|]. specialize (IH ltac:(lia)). specialize (H j ltac:(lia)). lia. Qed.
Lemma firstn_piece {A} (l : list A) a b : (a <= b)%nat -> firstn a l ++ firstn (b - a) (skipn a l) = firstn b l.
Proof. revert a b. induction l as [|x l IH]; intros a b L; [now rewrite skipn_nil, !firstn_nil|]. destruct a as [|a], b as [|b]; cbn [firstn skipn Nat.sub app]; auto; [lia|]. f_equal. apply IH. lia. Qed.
Lemma pieces {A} (pb : list nat) (l : list A) : nth 0 pb 0%nat = 0%nat -> forall nb, (forall n, (n < nb)%nat -> (nth n pb 0 <= nth (S n) pb 0)%nat) ->
  flat_map (fun n => firstn (nth (S n) pb 0 - nth n pb 0)%nat (skipn (nth n pb 0%nat) l)) (seq 0 nb) = firstn (nth nb pb 0%nat) l.
Proof.
  intros Z. induction nb as [|nb IH]; intros H; [rewrite Z; reflexivity|]. rewrite seq_S, flat_map_app, IH by (intros; apply H; lia). cbn [Nat.add flat_map]. rewrite app_nil_r. apply firstn_piece, H. lia.
Qed.
Lemma nth_error_nth' {A} (l : list A) n d : (n < length l)%nat -> nth_error l n = Some (nth n l d).
Proof. apply nth_error_nth'. Qed.

Lemma flat_map_ext_in {A B} (f g : A -> list B) l : (forall a, In a l -> f a = g a) -> flat_map f l = flat_map g l.
Proof. induction l as [|a l IH]; cbn; intros H; auto. rewrite H by (now left). f_equal. apply IH. intros; apply H; now right. Qed.

Lemma init_inv sort nb nsig c b b1 s : sorts sort -> init sort nb nsig c b = Ok (b1, s) ->
  p0 b1 = p0 b /\ ct0 b1 = ct0 b /\ total_charge b1 = total_charge b /\ parts b1 <> [] /\ Permutation (parts b1) (central nsig (parts b)) /\
  zlow s = ct_mean (parts b) - nsig * ct_spread (parts b) /\ width s = 2 * nsig * ct_spread (parts b) / INR nb /\ slices_ok (parts b1) nb s.
Proof.
  intros S E. unfold init in E. destruct (parts b) as [|p0' l0] eqn:Ep; [discriminate|]. rewrite <- Ep in *. assert (NE : parts b <> []) by congruence. clear Ep p0' l0.
  rewrite (C25_coordinate (parts b) 4 NE) in E. fold (ct_mean (parts b)) in E. change (sqrt (cov (at_ 4) (at_ 4) (parts b))) with (ct_spread (parts b)) in E.
  set (m := ct_mean (parts b)) in *. set (g := ct_spread (parts b)) in *.
  replace (- nsig * g + m) with (m - nsig * g) in E by ring. replace (nsig * g + m) with (m + nsig * g) in E by ring.
  destruct (bin_list sort (parts b) (m - nsig * g) (m + nsig * g) nb c) as [r| |] eqn:Eb; try discriminate. destruct (kept r) as [|q k] eqn:Ek; [discriminate|]. rewrite <- Ek in *. assert (K : kept r <> []) by congruence. clear Ek q k.
  destruct (bin_list_inv _ _ _ _ _ _ _ S Eb K) as (Z & N & W & Lp). destruct W as (W1 & W2 & W3 & W4 & W5 & W6 & W7 & W8 & W9).
  set (q := if Nat.eqb (nlost r) 0 then qmp b else total_charge b / INR (length (kept r))) in *.
  assert (b1 = mkB (p0 b) (ct0 b) q (kept r)) as -> by congruence. assert (Es : s = mkSd (m - nsig * g) ((m + nsig * g - (m - nsig * g)) / INR nb) (pbins r) (map known (hd r)) (map known (hdp r))) by congruence. clear E.
  cbn [p0 ct0 parts]. split; auto. split; auto. assert (Lk : 0 < INR (length (kept r))) by now apply len_pos.
  assert (Hf : central nsig (parts b) = filter (in_range (m - nsig * g) (m + nsig * g)) (parts b)) by reflexivity.
  split. { unfold total_charge at 1. cbn [qmp parts]. subst q. destruct (Nat.eqb_spec (nlost r) 0) as [E0|E0]; [unfold total_charge; f_equal; f_equal; lia|]. field. lra. }
  split; auto. split; [now rewrite Hf|]. rewrite Es. cbn [zlow width]. split; auto. assert (Nr : 0 < INR nb) by now apply lt_0_INR. split; [field; lra|].
  set (dz := (m + nsig * g - (m - nsig * g)) / INR nb) in *. assert (D : 0 < dz) by (apply Rdiv_lt_0_compat; lra).
  assert (So : forall n, (n < nb)%nat -> from_to (pbins r) n (kept r) = Some (slice (pbins r) n (kept r))).
  { intros n Hn. unfold from_to, slice. rewrite (nth_error_nth' _ n 0%nat), (nth_error_nth' _ (Datatypes.S n) 0%nat) by lia. reflexivity. }
  split; cbn [bounds dens ddens zlow width]; auto.
  - now rewrite map_length.
  - now rewrite map_length.
  - intros n Hn. rewrite So by auto. f_equal. apply W9. auto.
  - intros n Hn. destruct (W9 n Hn) as (A & B & C). rewrite (nth_error_nth' _ n (known None)) by (rewrite map_length; lia). rewrite map_nth, C. rewrite B. destruct (Nat.eqb_spec (length (kept r)) 0) as [E0|E0]; [destruct (kept r); cbn in E0; [congruence|lia]|]. reflexivity.
  - intros p I. eapply Permutation_in in I; [|exact W1]. apply filter_In in I. destruct I as [_ I]. apply within_spec in I. unfold dz. replace (INR nb * _) with (m + nsig * g - (m - nsig * g)) by (field; lra). lra.
  - transitivity (flat_map (fun n => slice (pbins r) n (kept r)) (seq 0 nb)). { apply flat_map_ext_in. intros n I. apply in_seq in I. symmetry. apply W9. lia. }
    unfold slice. rewrite pieces; auto; [rewrite W7; apply firstn_all|]. intros n Hn. apply W9; auto.
Qed.

Lemma add_up_ok f g js : (forall j, In j js -> f j = Some (g j)) -> forall acc, add_up f js acc = Ok (acc + sum g js).
Proof.
  induction js as [|j js IH]; intros H acc; cbn [add_up sum]; [f_equal; ring|]. rewrite H by (now left). rewrite IH by (intros; apply H; now right). f_equal. ring.
Qed.
Lemma each_ok {A} (f : nat -> res werr A) g js : (forall j, In j js -> f j = Ok (g j)) -> each f js = Ok (map g js).
Proof. induction js as [|j js IH]; intros H; cbn [each map]; auto. rewrite H by (now left). cbn [bind]. rewrite IH by (intros; apply H; now right). reflexivity. Qed.

Lemma count_sum (l : list particle) : sum (fun _ => 1) l = INR (length l).
Proof. rewrite sum_const. ring. Qed.
Lemma size_sub_le j i : (i <= j)%nat -> size_sub j i + 1 / 2 = INR j + 1 / 2 - INR i.
Proof. intros L. unfold size_sub. destruct (Nat.leb_spec i j); [|lia]. rewrite minus_INR by auto. ring. Qed.

Definition charge_each (b : bunch) : R := Rabs (qmp b).
Lemma amp_dens ev b s n : parts b <> [] -> width s <> 0 -> INR n / INR (length (parts b)) / width s * amplitude ev b s = charge_each b * ev * INR n.
Proof.
  intros NE W. unfold amplitude, total_charge, charge_each. rewrite Rabs_mult. pose proof (len_pos _ NE) as L. rewrite (Rabs_right (INR (length (parts b)))) by lra. field. split; lra.
Qed.

Lemma wake_l_ok ev w b nb s : parts b <> [] -> slices_ok (parts b) nb s -> csr w = false ->
  wake_l ev w b s = Ok (map (fun i => charge_each b * ev * felt (wlong w) (fun _ => 1) (parts b) (zlow s) (width s) nb i) (seq 0 (S nb))).
Proof.
  intros NE O C. unfold wake_l. rewrite C, (so_len _ _ _ O). apply each_ok. intros i I. apply in_seq in I.
  replace (S nb - 1 - i)%nat with (nb - i)%nat by lia.
  rewrite (add_up_ok _ (fun j => INR (length (filter (in_slice (zlow s) (width s) j) (parts b))) / INR (length (parts b)) / width s * wlong w ((INR j + 1 / 2 - INR i) * width s))).
  - cbn [bind]. f_equal. rewrite Rplus_0_l. unfold felt. rewrite <- sum_scal, <- sum_scal_r. apply sum_ext. intros j J. apply in_seq in J.
    transitivity (INR (length (filter (in_slice (zlow s) (width s) j) (parts b))) / INR (length (parts b)) / width s * amplitude ev b s * wlong w ((INR j + 1 / 2 - INR i) * width s)); [ring|].
    rewrite amp_dens; auto; [|pose proof (so_width _ _ _ O); lra]. rewrite count_sum. ring.
  - intros j J. apply in_seq in J. rewrite (so_dens _ _ _ O) by lia. cbn [option_map]. now rewrite size_sub_le by lia.
Qed.

Lemma centroid_fold (l : list particle) : forall c, fold_left (fun c p => (fst c + vx (pv p), snd c + vy (pv p))) l c = (fst c + sum (at_ 0) l, snd c + sum (at_ 2) l).
Proof.
  induction l as [|p l IH]; intros [a b]; cbn [fold_left sum fst snd]; [f_equal; ring|]. rewrite IH. cbn [fst snd]. unfold at_. cbn [coord]. f_equal; ring.
Qed.
Lemma slice_centroid_ok l : INR (length l) * fst (slice_centroid l) = sum (at_ 0) l /\ INR (length l) * snd (slice_centroid l) = sum (at_ 2) l.
Proof.
  unfold slice_centroid. rewrite centroid_fold. cbn [fst snd]. rewrite !Rplus_0_l. destruct (Nat.ltb_spec 1 (length l)) as [L|L].
  - cbn [fst snd]. assert (0 < INR (length l)) by (apply lt_0_INR; lia). split; field; lra.
  - cbn [fst snd]. destruct l as [|p [|q l]]; cbn [length] in *; [cbn; lra| |lia]. change (INR 1) with 1. lra.
Qed.

Lemma wake_t_ok ev w b nb s : parts b <> [] -> slices_ok (parts b) nb s ->
  wake_t ev nb w b s = Ok (map (fun i => charge_each b * ev * felt (wtrans w) (at_ 0) (parts b) (zlow s) (width s) nb i) (seq 0 (S nb)),
                           map (fun i => charge_each b * ev * felt (wtrans w) (at_ 2) (parts b) (zlow s) (width s) nb i) (seq 0 (S nb))).
Proof.
  intros NE O. unfold wake_t. rewrite (so_len _ _ _ O).
  rewrite (each_ok _ (fun n => slice_centroid (filter (in_slice (zlow s) (width s) n) (parts b)))) by (intros n I; apply in_seq in I; rewrite (so_slice _ _ _ O) by lia; reflexivity). cbn [bind].
  set (xyc := map (fun n => slice_centroid (filter (in_slice (zlow s) (width s) n) (parts b))) (seq 0 nb)).
  assert (X : forall j, (j < nb)%nat -> nth_error xyc j = Some (slice_centroid (filter (in_slice (zlow s) (width s) j) (parts b)))).
  { intros j J. unfold xyc. rewrite nth_error_map, (nth_error_nth' _ j 0%nat) by (rewrite seq_length; lia). cbn [option_map]. now rewrite seq_nth by lia. }
  assert (G : forall pick u, (forall l, INR (length l) * pick (slice_centroid l) = sum (at_ u) l) -> forall i, In i (seq 0 (S nb)) ->
    bind (add_up (fun j => match nth_error (dens s) j with Some q => match nth_error xyc j with Some c => Some (q * wtrans w ((size_sub j i + 1 / 2) * width s) * pick c) | None => None end | None => None end) (seq i (S nb - 1 - i)) 0) (fun v => Ok (v * amplitude ev b s))
    = Ok (E := werr) (charge_each b * ev * felt (wtrans w) (at_ u) (parts b) (zlow s) (width s) nb i)).
  { intros pick u Hp i I. apply in_seq in I. replace (S nb - 1 - i)%nat with (nb - i)%nat by lia.
    rewrite (add_up_ok _ (fun j => INR (length (filter (in_slice (zlow s) (width s) j) (parts b))) / INR (length (parts b)) / width s * wtrans w ((INR j + 1 / 2 - INR i) * width s) * pick (slice_centroid (filter (in_slice (zlow s) (width s) j) (parts b))))).
    - cbn [bind]. f_equal. rewrite Rplus_0_l. unfold felt. rewrite <- sum_scal, <- sum_scal_r. apply sum_ext. intros j J. rewrite <- Hp.
      transitivity (INR (length (filter (in_slice (zlow s) (width s) j) (parts b))) / INR (length (parts b)) / width s * amplitude ev b s * wtrans w ((INR j + 1 / 2 - INR i) * width s) * pick (slice_centroid (filter (in_slice (zlow s) (width s) j) (parts b)))); [ring|].
      rewrite amp_dens; auto; [ring|pose proof (so_width _ _ _ O); lra].
    - intros j J. apply in_seq in J. rewrite (so_dens _ _ _ O), X by lia. now rewrite size_sub_le by lia. }
  erewrite (each_ok _ _ (seq 0 (S nb))); [|apply (G fst 0%nat); intros l; apply slice_centroid_ok]. cbn [bind].
  erewrite (each_ok _ _ (seq 0 (S nb))); [|apply (G snd 2%nat); intros l; apply slice_centroid_ok]. reflexivity.
Qed.

Lemma slice_number z dz n p : 0 < dz -> in_slice z dz n p = true -> Z.to_nat (Int_part ((ct_of p - z) / dz)) = n.
Proof.
  intros D I. apply within_spec in I. assert (B : INR n <= (ct_of p - z) / dz < INR n + 1).
  { split; [apply (Rmult_le_reg_r dz)|apply (Rmult_lt_reg_r dz)]; auto; unfold Rdiv; rewrite Rmult_assoc, Rinv_l; lra. }
  destruct (to_size_ok ((ct_of p - z) / dz)) as (m & E & M); [pose proof (pos_INR n); lra|]. unfold to_size in E. destruct (Rleb_spec ((ct_of p - z) / dz) (-1)); [discriminate|]. injection E as ->. symmetry. now apply (nat_between m n ((ct_of p - z) / dz)).
Qed.
Lemma between_ok U z dz n nb p : 0 < dz -> (n < nb)%nat -> in_slice z dz n p = true ->
  between (map U (seq 0 (S nb))) n dz (ct_of p - (z + INR n * dz)) = Some (interpolated U z dz (ct_of p)).
Proof.
  intros D N I. unfold between, interpolated. rewrite (slice_number _ _ _ _ D I). rewrite !nth_error_map, !(nth_error_nth' (seq 0 (S nb)) _ 0%nat) by (rewrite seq_length; lia). cbn [option_map]. rewrite !seq_nth by lia. cbn [Nat.add]. f_equal. field. lra.
Qed.

(* one particle *)
Definition kick_of (len P : R) (Fz Fx Fy : R -> R) (p : particle) : particle :=
  let v := pv p in let d := - len * Fz (vct v) / P in
  mkP (V6 (vx v) ((vxp v + len * Fx (vct v) / P) / (1 + d)) (vy v) ((vyp v + len * Fy (vct v) / P) / (1 + d)) (vct v) (vdp v + d)) (pid p).
Lemma kicks_ok k g d l : (forall p, In p l -> k p = Some (g p, d p)) -> kicks k l = Some (map g l, sum d l).
Proof. induction l as [|p l IH]; intros H; cbn [kicks map sum]; auto. rewrite H by (now left). now rewrite IH by (intros; apply H; now right). Qed.

Definition side_ok (tw : bool) (f : list R) (U : nat -> R) (F : R -> R) (nb : nat) (z dz : R) : Prop :=
  if tw then f = map U (seq 0 (S nb)) /\ (forall ct, F ct = interpolated U z dz ct) else forall ct, F ct = 0.
Lemma kick_slices_ok len P wz wx wy tw nb s l Uz Ux Uy Fx Fy : slices_ok l nb s -> wz = map Uz (seq 0 (S nb)) ->
  side_ok tw wx Ux Fx nb (zlow s) (width s) -> side_ok tw wy Uy Fy nb (zlow s) (width s) ->
  let Fz := interpolated Uz (zlow s) (width s) in
  kick_slices len P (width s) wz wx wy tw (bounds s) l (seq 0 nb) (zlow s) = Some (map (kick_of len P Fz Fx Fy) l, sum (fun p => - len * Fz (ct_of p) / P) l).
Proof.
  intros O Ez Ox Oy Fz. pose proof (so_width _ _ _ O) as D.
  assert (G : forall k n z, (n + k = nb)%nat -> z = zlow s + INR n * width s ->
    kick_slices len P (width s) wz wx wy tw (bounds s) l (seq n k) z = Some (map (kick_of len P Fz Fx Fy) (flat_map (fun n => filter (in_slice (zlow s) (width s) n) l) (seq n k)), sum (fun p => - len * Fz (ct_of p) / P) (flat_map (fun n => filter (in_slice (zlow s) (width s) n) l) (seq n k)))).
  { induction k as [|k IH]; intros n z E Z; cbn [seq kick_slices flat_map map sum]; auto. rewrite (so_slice _ _ _ O) by lia.
    rewrite (kicks_ok _ (kick_of len P Fz Fx Fy) (fun p => - len * Fz (ct_of p) / P)).
    - rewrite (IH (S n) (z + width s)) by (try lia; rewrite S_INR, Z; ring). now rewrite map_app, sum_app.
    - intros p I. apply filter_In in I. destruct I as [_ I]. unfold kick. change (vct (pv p)) with (ct_of p). rewrite Z, Ez, (between_ok Uz (zlow s) (width s) n nb p D ltac:(lia) I). fold Fz. unfold kick_of. change (vct (pv p)) with (ct_of p).
      destruct tw; cbn [side_ok] in Ox, Oy.
      + destruct Ox as [-> Hx], Oy as [-> Hy]. rewrite !(between_ok _ (zlow s) (width s) n nb p D ltac:(lia) I). cbn [option_map]. now rewrite Hx, Hy.
      + rewrite Ox, Oy. replace (len * 0 / P) with 0 by (unfold Rdiv; ring). reflexivity. }
  rewrite (G nb 0%nat (zlow s)); [|lia|cbn; ring]. now rewrite (so_all _ _ _ O).
Qed.
