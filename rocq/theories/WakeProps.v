From Coq Require Import ZArith Lia Permutation Sorted.
From Verif Require Import RBase Bunch BunchSpec BunchProofs BunchProps Hist HistProps Wake WakeSpec WakeProofs.
Local Open Scope R_scope.

(* the slices in use when the kicks are applied *)
Definition prepare (sort : list particle -> list particle) nb nsig c (b : bunch) : res werr (bunch * sliced) :=
  let b := mkB (p0 b) (ct0 b) (qmp b) (sort (parts b)) in
  do r1 <- init sort nb nsig c b ;
  if Nat.eqb (length (parts b)) (length (parts (fst r1))) then Ok r1 else init sort nb nsig c (fst r1).
Lemma ct_mean_perm l l' : Permutation l l' -> ct_mean l = ct_mean l'.
Proof. apply avg_perm. Qed.
Lemma ct_spread_perm l l' : Permutation l l' -> ct_spread l = ct_spread l'.
Proof. intros P. unfold ct_spread. now rewrite (cov_perm _ _ _ _ P). Qed.
Lemma prepare_inv sort nb nsig c b b1 s : sorts sort -> prepare sort nb nsig c b = Ok (b1, s) ->
  let l0 := central nsig (parts b) in
  p0 b1 = p0 b /\ ct0 b1 = ct0 b /\ total_charge b1 = total_charge b /\ parts b1 <> [] /\ Permutation (parts b1) (central nsig l0) /\
  zlow s = ct_mean l0 - nsig * ct_spread l0 /\ width s = 2 * nsig * ct_spread l0 / INR nb /\ slices_ok (parts b1) nb s.
Proof.
  intros S E l0. destruct (S (parts b)) as [P _]. unfold prepare in E. set (b0 := mkB (p0 b) (ct0 b) (qmp b) (sort (parts b))) in *.
  assert (Q : total_charge b0 = total_charge b) by (unfold total_charge; cbn [qmp parts b0]; now rewrite (Permutation_length P)).
  destruct (init sort nb nsig c b0) as [[b2 s2]| |] eqn:E1; cbn [bind fst] in E; try discriminate.
  destruct (init_inv _ _ _ _ _ _ _ S E1) as (A1 & A2 & A3 & A4 & A5 & A6 & A7 & A8). cbn [p0 ct0 parts b0] in *.
  pose proof (perm_central nsig _ _ P) as Pc. fold l0 in Pc. destruct (Nat.eqb_spec (length (sort (parts b))) (length (parts b2))) as [L|L].
  - assert (b2 = b1 /\ s2 = s) as [-> ->] by (split; congruence). clear E.
    assert (C : central nsig (sort (parts b)) = sort (parts b)) by (apply central_twice; rewrite <- (Permutation_length A5); lia).
    rewrite C in *. assert (P0 : Permutation (sort (parts b)) l0) by auto.
    rewrite <- (ct_mean_perm _ _ P0), <- (ct_spread_perm _ _ P0). repeat (split; auto); try congruence.
    eapply perm_trans; [exact A5|]. rewrite <- C at 1. now apply perm_central.
  - destruct (init_inv _ _ _ _ _ _ _ S E) as (B1 & B2 & B3 & B4 & B5 & B6 & B7 & B8). assert (P2 : Permutation (parts b2) l0) by (eapply perm_trans; eauto).
    rewrite <- (ct_mean_perm _ _ P2), <- (ct_spread_perm _ _ P2). repeat (split; auto); try congruence.
    eapply perm_trans; [exact B5|]. now apply perm_central.
Qed.
Lemma impulse_prepare sort nb nsig c ev tw w len b : impulse sort nb nsig c ev tw w len b =
  do r <- prepare sort nb nsig c b ;
  let '(b1, s) := r in
  do wz <- wake_l ev w b1 s ;
  do wt <- (if tw then wake_t ev nb w b1 s else Ok ([], [])) ;
  match kick_slices len (p0 b1) (width s) wz (fst wt) (snd wt) tw (bounds s) (parts b1) (seq 0 nb) (zlow s) with
  | None => UB
  | Some (l, bload) =>
      let b2 := mkB (p0 b1) (ct0 b1) (qmp b1) l in
      if csr w then Ok b2
      else match adjust_ref_momentum (bload / INR (length l)) b2 with
           | Ok (b3, _) => Ok b3
           | Throw _ => Throw Assert
           | UB => UB
           end
  end.
Proof. unfold impulse, prepare. destruct (init sort nb nsig c (mkB (p0 b) (ct0 b) (qmp b) (sort (parts b)))); reflexivity. Qed.
Lemma felt_perm W f l l' z dz nb i : Permutation l l' -> felt W f l z dz nb i = felt W f l' z dz nb i.
Proof. intros P. unfold felt. apply sum_ext. intros j _. f_equal. apply sum_perm, perm_filter, P. Qed.
Lemma interpolated_ext U V z dz ct : (forall i, U i = V i) -> interpolated U z dz ct = interpolated V z dz ct.
Proof. intros H. unfold interpolated. now rewrite !H. Qed.

(* the fields of a bunch *)
Definition in_use (nsig : R) (b : bunch) : list particle := central nsig (central nsig (parts b)).
Definition start (nsig : R) (b : bunch) : R := let l0 := central nsig (parts b) in ct_mean l0 - nsig * ct_spread l0.
Definition step (nsig : R) (nb : nat) (b : bunch) : R := 2 * nsig * ct_spread (central nsig (parts b)) / INR nb.
Definition field (nsig ev : R) (nb : nat) (W : R -> R) (f : particle -> R) (b : bunch) : R -> R :=
  wake_at (Rabs (total_charge b) / INR (length (in_use nsig b))) ev W f (in_use nsig b) (start nsig b) (step nsig nb b) nb.
Definition long_field nsig ev nb w b : R -> R := field nsig ev nb (wlong w) (fun _ => 1) b.
Definition side_field nsig ev nb (tw : bool) w (u : nat) b : R -> R := if tw then field nsig ev nb (wtrans w) (at_ u) b else fun _ => 0.

Lemma prepared sort nb nsig c ev tw w len b b1 s : sorts sort -> prepare sort nb nsig c b = Ok (b1, s) -> csr w = false ->
  impulse sort nb nsig c ev tw w len b =
  let Fz := long_field nsig ev nb w b in
  let m := avg (fun p => - len * Fz (ct_of p) / p0 b) (in_use nsig b) in
  match adjust_ref_momentum m (mkB (p0 b) (ct0 b) (qmp b1) (map (kick_of len (p0 b) Fz (side_field nsig ev nb tw w 0 b) (side_field nsig ev nb tw w 2 b)) (parts b1))) with
  | Ok (b3, _) => Ok b3
  | Throw _ => Throw Assert
  | UB => UB
  end.
Proof.
  intros S E C. rewrite impulse_prepare, E. cbn [bind]. destruct (prepare_inv _ _ _ _ _ _ _ S E) as (A1 & A2 & A3 & A4 & A5 & A6 & A7 & A8).
  rewrite (wake_l_ok ev w b1 nb s A4 A8 C). cbn [bind]. fold (in_use nsig b) in A5. fold (start nsig b) in A6. fold (step nsig nb b) in A7.
  assert (Q : charge_each b1 = Rabs (total_charge b) / INR (length (in_use nsig b))).
  { rewrite <- A3, <- (Permutation_length A5). unfold charge_each, total_charge. rewrite Rabs_mult. pose proof (len_pos _ A4) as L. rewrite (Rabs_right (INR _)) by lra. field. lra. }
  assert (F : forall W f ct, interpolated (fun i => charge_each b1 * ev * felt W f (parts b1) (zlow s) (width s) nb i) (zlow s) (width s) ct = field nsig ev nb W f b ct).
  { intros W f ct. unfold field, wake_at. rewrite A6, A7. apply interpolated_ext. intros i. rewrite Q. f_equal. apply felt_perm. auto. }
  set (Uz := fun i => charge_each b1 * ev * felt (wlong w) (fun _ => 1) (parts b1) (zlow s) (width s) nb i) in *.
  assert (G : forall wx wy, (forall r, (do wt <- (if tw then wake_t ev nb w b1 s else Ok ([], [])) ; r wt) = r (wx, wy) :> res werr bunch) ->
    side_ok tw wx (fun i => charge_each b1 * ev * felt (wtrans w) (at_ 0) (parts b1) (zlow s) (width s) nb i) (side_field nsig ev nb tw w 0 b) nb (zlow s) (width s) /\
    side_ok tw wy (fun i => charge_each b1 * ev * felt (wtrans w) (at_ 2) (parts b1) (zlow s) (width s) nb i) (side_field nsig ev nb tw w 2 b) nb (zlow s) (width s) -> 
    (do wt <- (if tw then wake_t ev nb w b1 s else Ok ([], [])) ;
     match kick_slices len (p0 b1) (width s) (map Uz (seq 0 (Datatypes.S nb))) (fst wt) (snd wt) tw (bounds s) (parts b1) (seq 0 nb) (zlow s) with
     | None => UB
     | Some (l, bload) =>
         let b2 := mkB (p0 b1) (ct0 b1) (qmp b1) l in
         if csr w then Ok b2
         else match adjust_ref_momentum (bload / INR (length l)) b2 with Ok (b3, _) => Ok b3 | Throw _ => Throw Assert | UB => UB end
     end) = let Fz := long_field nsig ev nb w b in
  let m := avg (fun p => - len * Fz (ct_of p) / p0 b) (in_use nsig b) in
  match adjust_ref_momentum m (mkB (p0 b) (ct0 b) (qmp b1) (map (kick_of len (p0 b) Fz (side_field nsig ev nb tw w 0 b) (side_field nsig ev nb tw w 2 b)) (parts b1))) with
  | Ok (b3, _) => Ok b3
  | Throw _ => Throw Assert
  | UB => UB
  end).
  { intros wx wy -> [Ox Oy]. cbn [fst snd]. rewrite (kick_slices_ok len (p0 b1) _ wx wy tw nb s (parts b1) Uz _ _ _ _ A8 eq_refl Ox Oy). rewrite C, A1, A2. cbn zeta.
    assert (K : forall p, kick_of len (p0 b) (interpolated Uz (zlow s) (width s)) (side_field nsig ev nb tw w 0 b) (side_field nsig ev nb tw w 2 b) p = kick_of len (p0 b) (long_field nsig ev nb w b) (side_field nsig ev nb tw w 0 b) (side_field nsig ev nb tw w 2 b) p).
    { intros p. unfold kick_of, long_field. now rewrite <- (F (wlong w) (fun _ => 1)). }
    rewrite (map_ext _ _ K). rewrite map_length. replace (sum _ (parts b1) / INR (length (parts b1))) with (avg (fun p => - len * long_field nsig ev nb w b (ct_of p) / p0 b) (in_use nsig b)); auto.
    rewrite <- (avg_perm _ _ _ A5). unfold avg. f_equal. apply sum_ext. intros p _. unfold long_field. now rewrite <- F. }
  destruct tw.
  - rewrite (wake_t_ok ev w b1 nb s A4 A8) in *. eapply G; [reflexivity|]. cbn [side_ok]. split; (split; [reflexivity|]); intros ct; symmetry; apply F.
  - eapply G; [reflexivity|]. cbn [side_ok]. split; reflexivity.
Qed.

(* C100, C101: the effect of one impulse *)
Theorem C175_kick sort nb nsig c ev tw w len b b' : sorts sort -> 0 < p0 b -> csr w = false -> impulse sort nb nsig c ev tw w len b = Ok b' ->
  let Fz := long_field nsig ev nb w b in
  (exists l, Permutation l (in_use nsig b) /\ Forall2 (kicked_by len Fz (side_field nsig ev nb tw w 0 b) (side_field nsig ev nb tw w 2 b) b b') l (parts b')) /\
  p0 b' = p0 b - len * avg (fun p => Fz (ct_of p)) (in_use nsig b) /\ ct0 b' = ct0 b /\ 0 < p0 b'.
Proof.
  intros S P C E Fz. destruct (prepare sort nb nsig c b) as [[b1 s]| |] eqn:Ep; [|rewrite impulse_prepare, Ep in E; discriminate|rewrite impulse_prepare, Ep in E; discriminate].
  destruct (prepare_inv _ _ _ _ _ _ _ S Ep) as (A1 & A2 & A3 & A4 & A5 & A6 & A7 & A8). rewrite (prepared sort nb nsig c ev tw w len b b1 s S Ep C) in E. cbn zeta in E. fold Fz in E. fold (in_use nsig b) in A5.
  set (m := avg (fun p => - len * Fz (ct_of p) / p0 b) (in_use nsig b)) in *.
  assert (M : m = - (len * avg (fun p => Fz (ct_of p)) (in_use nsig b) / p0 b)).
  { unfold m, avg. rewrite (sum_ext _ (fun p => (- len / p0 b) * Fz (ct_of p))) by (intros; field; lra). rewrite sum_scal. assert (0 < INR (length (in_use nsig b))) by (rewrite <- (Permutation_length A5); now apply len_pos). field. split; lra. }
  unfold adjust_ref_momentum in E. cbn [p0 ct0 qmp parts] in E. destruct (Rltb_spec 0 ((1 + m) * p0 b)) as [L|L]; [|discriminate]. injection E as <-. cbn [p0 ct0 parts].
  assert (L1 : 0 < 1 + m). { apply (Rmult_lt_reg_r (p0 b)); auto. lra. }
  split; [|split; [rewrite M; field; lra|auto]].
  exists (parts b1). split; auto. rewrite map_map. apply Forall2_map_r. intros p _. unfold kicked_by, kick_of, set_dp, momentum. cbn [pv pid vx vxp vy vyp vct vdp p0].
  replace (1 + - len * Fz (vct (pv p)) / p0 b) with (1 - len * Fz (vct (pv p)) / p0 b) by (unfold Rdiv; ring). repeat (split; [reflexivity|]). split; [field; lra|]. split; reflexivity.
Qed.
Print Assumptions C175_kick.
Theorem C174_charge sort nb nsig c ev tw w len b b' : sorts sort -> impulse sort nb nsig c ev tw w len b = Ok b' ->
  total_charge b' = total_charge b /\ Permutation (map (fun p => (pid p, vx (pv p), vy (pv p), vct (pv p))) (parts b')) (map (fun p => (pid p, vx (pv p), vy (pv p), vct (pv p))) (in_use nsig b)).
Proof.
  intros S E. rewrite impulse_prepare in E. destruct (prepare sort nb nsig c b) as [[b1 s]| |] eqn:Ep; try discriminate.
  destruct (prepare_inv _ _ _ _ _ _ _ S Ep) as (A1 & A2 & A3 & A4 & A5 & A6 & A7 & A8). cbn [bind] in E. fold (in_use nsig b) in A5.
  destruct (wake_l ev w b1 s) as [wz| |]; cbn [bind] in E; try discriminate. destruct (if tw then wake_t ev nb w b1 s else Ok ([], [])) as [wt| |]; cbn [bind] in E; try discriminate.
  set (key := fun p => (pid p, vx (pv p), vy (pv p), vct (pv p))).
  assert (K1 : forall n z l r t, kicks (kick len (p0 b1) (width s) z n wz (fst wt) (snd wt) tw) l = Some (r, t) -> map key r = map key l).
  { intros n z. induction l as [|p l IH]; cbn [kicks]; intros r t H; [injection H as <- <-; reflexivity|]. destruct (kick len (p0 b1) (width s) z n wz (fst wt) (snd wt) tw p) as [[p' d]|] eqn:K; [|discriminate]. destruct (kicks _ l) as [[r' t']|]; [|discriminate]. injection H as <- <-. cbn [map]. f_equal; [|eapply IH; reflexivity].
    unfold kick in K. destruct (between wz n (width s) (vct (pv p) - z)); [|discriminate]. destruct (if tw then _ else _); [|discriminate]. destruct (if tw then option_map _ (between (snd wt) _ _ _) else _); [|discriminate]. injection K as <- _. reflexivity. }
  assert (K2 : forall ns z r t, kick_slices len (p0 b1) (width s) wz (fst wt) (snd wt) tw (bounds s) (parts b1) ns z = Some (r, t) ->
     map key r = map key (flat_map (fun n => match from_to (bounds s) n (parts b1) with Some l => l | None => [] end) ns)).
  { induction ns as [|n ns IH]; cbn [kick_slices flat_map]; intros z r t H; [injection H as <- <-; reflexivity|]. destruct (from_to (bounds s) n (parts b1)) as [sl|]; [|discriminate]. destruct (kicks _ sl) as [[r1 d1]|] eqn:K; [|discriminate]. destruct (kick_slices _ _ _ _ _ _ _ _ _ ns _) as [[r2 d2]|] eqn:K'; [|discriminate]. injection H as <- <-. rewrite !map_app. f_equal; eauto. }
  destruct (kick_slices _ _ _ _ _ _ _ _ _ _ _) as [[l t]|] eqn:K; [|discriminate]. apply K2 in K. rewrite (flat_map_ext_in _ (fun n => filter (in_slice (zlow s) (width s) n) (parts b1))) in K by (intros n I; apply in_seq in I; rewrite (so_slice _ _ _ A8) by lia; reflexivity). rewrite (so_all _ _ _ A8) in K.
  assert (L : length l = length (parts b1)) by (rewrite <- (map_length key l), K; apply map_length).
  assert (R : forall b2, map key (parts b2) = map key l -> qmp b2 = qmp b1 -> total_charge b2 = total_charge b /\ Permutation (map key (parts b2)) (map key (in_use nsig b))).
  { intros b2 H1 H2. split; [|rewrite H1, K; now apply Permutation_map]. rewrite <- A3. unfold total_charge. rewrite H2. f_equal. f_equal. rewrite <- L, <- (map_length key l), <- H1. now rewrite map_length. }
  destruct (csr w); [injection E as <-; now apply R|]. unfold adjust_ref_momentum in E. cbn [p0 ct0 qmp parts] in E. destruct (Rltb 0 _); [|discriminate]. injection E as <-. apply R; auto. cbn [parts]. rewrite map_map. apply map_ext. reflexivity.
Qed.
Print Assumptions C174_charge.

(* when the impulse succeeds *)
Definition filter_fits (nb : nat) (c : option (list R)) : Prop := match c with None => True | Some c => c <> [] /\ safe nb c end.
Lemma init_defined sort nb nsig c b : sorts sort -> (0 < nb)%nat -> filter_fits nb c -> central nsig (parts b) <> [] -> exists r, init sort nb nsig c b = Ok r.
Proof.
  intros S N Fc NE. unfold init. destruct (parts b) as [|p l] eqn:Ep; [contradiction|]. rewrite <- Ep in *. assert (Np : parts b <> []) by congruence. clear Ep p l.
  rewrite (C25_coordinate (parts b) 4 Np). change (R_sqrt.sqrt (cov (at_ 4) (at_ 4) (parts b))) with (ct_spread (parts b)). fold (ct_mean (parts b)). set (m := ct_mean (parts b)) in *. set (g := ct_spread (parts b)) in *.
  replace (- nsig * g + m) with (m - nsig * g) by ring. replace (nsig * g + m) with (m + nsig * g) by ring.
  assert (Z : m - nsig * g < m + nsig * g). { unfold central in NE. fold m g in NE. destruct (filter (in_range (m - nsig * g) (m + nsig * g)) (parts b)) as [|p l] eqn:Q; [congruence|]. assert (I : In p (p :: l)) by now left. rewrite <- Q in I. apply filter_In in I. destruct I as [_ I]. apply within_spec in I. lra. }
  assert (B : exists r, bin_list sort (parts b) (m - nsig * g) (m + nsig * g) nb c = Ok r /\ well_sliced (parts b) (m - nsig * g) (m + nsig * g) nb r).
  { destruct c as [c|]; [destruct Fc as [F1 F2]; destruct (C50_values_partial sort (parts b) _ _ nb c S Z N F1 F2) as (r & R1 & R2 & _); eauto|]. now apply C49_slices. }
  destruct B as (r & -> & W & _). destruct (kept r) as [|q k] eqn:K; [|rewrite <- K; eauto]. exfalso. apply NE. apply Permutation_nil in W. exact W.
Qed.
Lemma prepare_defined sort nb nsig c b : sorts sort -> (0 < nb)%nat -> filter_fits nb c -> in_use nsig b <> [] -> exists r, prepare sort nb nsig c b = Ok r.
Proof.
  intros S N Fc NE. unfold prepare. destruct (S (parts b)) as [P _]. set (b0 := mkB (p0 b) (ct0 b) (qmp b) (sort (parts b))).
  assert (N0 : central nsig (parts b0) <> []). { cbn [parts b0]. intros H. pose proof (perm_central nsig _ _ P) as Q. rewrite H in Q. apply Permutation_nil in Q. unfold in_use in NE. rewrite Q in NE. now apply NE. }
  destruct (init_defined sort nb nsig c b0 S N Fc N0) as [[b1 s] E]. rewrite E. cbn [bind fst]. destruct (Nat.eqb _ _); eauto. apply init_defined; auto.
  destruct (init_inv _ _ _ _ _ _ _ S E) as (_ & _ & _ & _ & A5 & _). intros H. pose proof (perm_central nsig _ _ A5) as Q. rewrite H in Q. apply Permutation_nil in Q. apply NE. unfold in_use. pose proof (perm_central nsig _ _ (perm_central nsig _ _ P)) as Q2. cbn [parts b0] in Q. rewrite Q in Q2. now apply Permutation_nil in Q2.
Qed.
Theorem C175_defined sort nb nsig c ev tw w len b : sorts sort -> 0 < p0 b -> csr w = false -> (0 < nb)%nat -> filter_fits nb c -> in_use nsig b <> [] ->
  ((exists b', impulse sort nb nsig c ev tw w len b = Ok b') <-> 0 < p0 b - len * avg (fun p => long_field nsig ev nb w b (ct_of p)) (in_use nsig b)) /\
  (p0 b - len * avg (fun p => long_field nsig ev nb w b (ct_of p)) (in_use nsig b) <= 0 -> impulse sort nb nsig c ev tw w len b = Throw Assert).
Proof.
  intros S P C N Fc NE. destruct (prepare_defined sort nb nsig c b S N Fc NE) as [[b1 s] Ep]. rewrite (prepared sort nb nsig c ev tw w len b b1 s S Ep C). cbn zeta. set (Fz := long_field nsig ev nb w b).
  set (m := avg (fun p => - len * Fz (ct_of p) / p0 b) (in_use nsig b)).
  assert (M : (1 + m) * p0 b = p0 b - len * avg (fun p => Fz (ct_of p)) (in_use nsig b)).
  { unfold m, avg. rewrite (sum_ext _ (fun p => (- len / p0 b) * Fz (ct_of p))) by (intros; field; lra). rewrite sum_scal. pose proof (len_pos _ NE). field. split; lra. }
  unfold adjust_ref_momentum. cbn [p0 ct0 qmp parts]. rewrite M. destruct (Rltb_spec 0 (p0 b - len * avg (fun p => Fz (ct_of p)) (in_use nsig b))) as [L|L].
  - split; [split; eauto|lra].
  - split; auto. split; [intros [? ?]; discriminate|lra].
Qed.
Print Assumptions C175_defined.
Lemma init_nothing sort nb nsig b : sorts sort -> (0 < nb)%nat -> central nsig (parts b) = [] -> init sort nb nsig None b = Throw Nothing.
Proof.
  intros S N NE. unfold init. destruct (parts b) as [|p l] eqn:Ep; [reflexivity|]. rewrite <- Ep in *. assert (Np : parts b <> []) by congruence. clear Ep p l.
  rewrite (C25_coordinate (parts b) 4 Np). change (R_sqrt.sqrt (cov (at_ 4) (at_ 4) (parts b))) with (ct_spread (parts b)). fold (ct_mean (parts b)). set (m := ct_mean (parts b)) in *. set (g := ct_spread (parts b)) in *.
  replace (- nsig * g + m) with (m - nsig * g) by ring. replace (nsig * g + m) with (m + nsig * g) by ring.
  destruct (Rlt_le_dec (m - nsig * g) (m + nsig * g)) as [Z|Z].
  - destruct (C49_slices sort (parts b) _ _ nb S Z N) as (r & -> & W & _). unfold central in NE. fold m g in NE. rewrite NE in W. apply Permutation_sym, Permutation_nil in W. now rewrite W.
  - destruct (C49_empty_range sort (parts b) _ _ nb S Z) as (r & -> & -> & _). reflexivity.
Qed.
Theorem C175_nothing_left sort nb nsig ev tw w len b : sorts sort -> (0 < nb)%nat -> in_use nsig b = [] -> impulse sort nb nsig None ev tw w len b = Throw Nothing.
Proof.
  intros S N NE. rewrite impulse_prepare. replace (prepare sort nb nsig None b) with (@Throw werr (bunch * sliced) Nothing); auto. unfold prepare. destruct (S (parts b)) as [P _]. set (b0 := mkB (p0 b) (ct0 b) (qmp b) (sort (parts b))).
  pose proof (perm_central nsig _ _ P) as Q. destruct (central nsig (parts b0)) as [|p l] eqn:Ec.
  - now rewrite (init_nothing sort nb nsig b0 S N Ec).
  - destruct (init_defined sort nb nsig None b0 S N I) as [[b1 s] E]; [congruence|]. rewrite E. cbn [bind fst]. destruct (init_inv _ _ _ _ _ _ _ S E) as (_ & _ & _ & A4 & A5 & _).
    assert (Q2 : Permutation (central nsig (parts b1)) (in_use nsig b)). { apply perm_central. eapply perm_trans; [exact A5|]. exact Q. }
    rewrite NE in Q2. apply Permutation_sym, Permutation_nil in Q2. destruct (Nat.eqb_spec (length (parts b0)) (length (parts b1))) as [L|L]; [|symmetry; now apply init_nothing].
    exfalso. rewrite (Permutation_length A5) in L. symmetry in L. apply central_twice in L. rewrite L in A5. pose proof (Permutation_length (perm_central nsig _ _ A5)) as H. rewrite Q2, L in H. cbn [length] in H. destruct (parts b0); [cbn in Ec; discriminate|discriminate].
Qed.
Print Assumptions C175_nothing_left.
(* with the filter that the constructor installs (29 coefficients) the binning reads outside its arrays *)
Theorem C101_default_filter_refuted sort nb nsig c ev tw w len b : sorts sort -> (0 < nb)%nat -> length c = 29%nat -> central nsig (parts b) <> [] ->
  impulse sort nb nsig (Some c) ev tw w len b = UB.
Proof.
  intros S N L NE. rewrite impulse_prepare. replace (prepare sort nb nsig (Some c) b) with (@UB werr (bunch * sliced)); auto. unfold prepare. destruct (S (parts b)) as [P _]. set (b0 := mkB (p0 b) (ct0 b) (qmp b) (sort (parts b))).
  assert (N0 : central nsig (parts b0) <> []). { intros H. pose proof (perm_central nsig _ _ P) as Q. cbn [parts b0] in H. rewrite H in Q. apply Permutation_nil in Q. auto. }
  replace (init sort nb nsig (Some c) b0) with (@UB werr (bunch * sliced)); auto. clear P. revert N0. generalize b0. clear b0 NE b. intros b NE.
  unfold init. destruct (parts b) as [|p l] eqn:Ep; [contradiction|]. rewrite <- Ep in *. assert (Np : parts b <> []) by congruence. clear Ep p l.
  rewrite (C25_coordinate (parts b) 4 Np). change (R_sqrt.sqrt (cov (at_ 4) (at_ 4) (parts b))) with (ct_spread (parts b)). fold (ct_mean (parts b)). set (m := ct_mean (parts b)) in *. set (g := ct_spread (parts b)) in *.
  replace (- nsig * g + m) with (m - nsig * g) by ring. replace (nsig * g + m) with (m + nsig * g) by ring.
  assert (Z : m - nsig * g < m + nsig * g). { unfold central in NE. fold m g in NE. destruct (filter (in_range (m - nsig * g) (m + nsig * g)) (parts b)) as [|p l] eqn:Q; [congruence|]. assert (I : In p (p :: l)) by now left. rewrite <- Q in I. apply filter_In in I. destruct I as [_ I]. apply within_spec in I. lra. }
  now rewrite (C50_default_refuted sort (parts b) _ _ nb c S Z N L).
Qed.
Print Assumptions C101_default_filter_refuted.
(* a wake that only decelerates lets no particle gain momentum *)
Lemma Forall2_imp {A B} (P Q : A -> B -> Prop) l m : (forall a b, In a l -> P a b -> Q a b) -> Forall2 P l m -> Forall2 Q l m.
Proof. intros H F. induction F; constructor; [apply H; auto; now left|]. apply IHF. intros; apply H; auto; now right. Qed.
Lemma felt_nonneg W f l z dz nb i : (forall x, 0 <= W x) -> (forall p, 0 <= f p) -> 0 <= felt W f l z dz nb i.
Proof. intros HW Hf. apply sum_nonneg. intros j _. apply Rmult_le_pos; auto. apply sum_nonneg. auto. Qed.
Lemma in_use_range nsig nb b p : (0 < nb)%nat -> In p (in_use nsig b) -> 0 < step nsig nb b /\ start nsig b <= ct_of p < start nsig b + INR nb * step nsig nb b.
Proof.
  intros N I. unfold in_use in I. unfold central at 1 in I. apply filter_In in I. destruct I as [_ I]. apply within_spec in I. unfold start, step. set (l0 := central nsig (parts b)) in *. pose proof (lt_0_INR _ N). split; [apply Rdiv_lt_0_compat; lra|]. replace (INR nb * _) with (2 * nsig * ct_spread l0) by (field; lra). lra.
Qed.
Lemma interpolated_between U z dz ct : 0 < dz -> z <= ct -> exists n t, 0 <= t < 1 /\ ct = z + (INR n + t) * dz /\ interpolated U z dz ct = (1 - t) * U n + t * U (S n).
Proof.
  intros D Z. destruct (to_size_ok ((ct - z) / dz)) as (n & E & B); [apply Rmult_le_pos; [lra|apply Rlt_le, Rinv_0_lt_compat; auto]|]. unfold to_size in E. destruct (Rleb_spec ((ct - z) / dz) (-1)); [discriminate|]. injection E as E.
  exists n, ((ct - z) / dz - INR n). split; [lra|]. split; [field; lra|]. unfold interpolated. rewrite E. field. lra.
Qed.
Theorem C175_deceleration sort nb nsig c ev tw w len b b' : sorts sort -> 0 < p0 b -> csr w = false -> (0 < nb)%nat -> impulse sort nb nsig c ev tw w len b = Ok b' -> 0 <= len -> 0 <= ev -> (forall z, 0 <= wlong w z) ->
  exists l, Permutation l (in_use nsig b) /\ Forall2 (fun p p' => pid p' = pid p /\ momentum b' p' <= momentum b p) l (parts b').
Proof.
  intros S P C N E L V W. destruct (C175_kick sort nb nsig c ev tw w len b b' S P C E) as ((l & Pl & F) & _). exists l. split; auto. eapply Forall2_imp; [|exact F]. intros p p' Ip (A & _ & _ & _ & B & _). split; auto. rewrite B.
  assert (Ip' : In p (in_use nsig b)) by (eapply Permutation_in; eauto). destruct (in_use_range nsig nb b p N Ip') as [D R].
  assert (0 <= long_field nsig ev nb w b (vct (pv p))); [|nra]. unfold long_field, field, wake_at. destruct (interpolated_between (fun i => Rabs (total_charge b) / INR (length (in_use nsig b)) * ev * felt (wlong w) (fun _ => 1) (in_use nsig b) (start nsig b) (step nsig nb b) nb i) (start nsig b) (step nsig nb b) (vct (pv p)) D) as (n & t & T & _ & ->); [apply R|].
  assert (Q : 0 <= Rabs (total_charge b) / INR (length (in_use nsig b)) * ev). { apply Rmult_le_pos; auto. apply Rmult_le_pos; [apply Rabs_pos|]. apply Rlt_le, Rinv_0_lt_compat. apply lt_0_INR. destruct (in_use nsig b); [contradiction|cbn; lia]. }
  pose proof (felt_nonneg (wlong w) (fun _ => 1) (in_use nsig b) (start nsig b) (step nsig nb b) nb n W ltac:(intros; lra)). pose proof (felt_nonneg (wlong w) (fun _ => 1) (in_use nsig b) (start nsig b) (step nsig nb b) nb (Datatypes.S n) W ltac:(intros; lra)).
  apply Rplus_le_le_0_compat; apply Rmult_le_pos; try lra; apply Rmult_le_pos; auto.
Qed.
Print Assumptions C175_deceleration.

(* C102: which particles act on which, and how the kick varies along the bunch *)
Theorem C102_causal q ev W f l l' z dz nb ct : 0 < dz -> z <= ct ->
  Permutation (filter (fun p => if Rlt_dec (ct - dz) (ct_of p) then true else false) l) (filter (fun p => if Rlt_dec (ct - dz) (ct_of p) then true else false) l') ->
  wake_at q ev W f l z dz nb ct = wake_at q ev W f l' z dz nb ct.
Proof.
  intros D Z P. assert (G : forall i, ct - dz < z + INR i * dz -> felt W f l z dz nb i = felt W f l' z dz nb i).
  { intros i Hi. unfold felt. apply sum_ext. intros j J. apply in_seq in J. f_equal. assert (J' : INR i <= INR j) by (apply le_INR; lia).
    assert (H : forall m, filter (in_slice z dz j) m = filter (in_slice z dz j) (filter (fun p => if Rlt_dec (ct - dz) (ct_of p) then true else false) m)).
    { intros m. rewrite filter_filter. apply filter_ext. intros p. unfold in_slice, in_range, within. destruct (Rle_dec (z + INR j * dz) (ct_of p)); auto. destruct (Rlt_dec (ct - dz) (ct_of p)); [now rewrite andb_true_r|nra]. }
    rewrite (H l), (H l'). now apply sum_perm, perm_filter. }
  unfold wake_at. destruct (to_size_ok ((ct - z) / dz)) as (n & E & B); [apply Rmult_le_pos; [lra|apply Rlt_le, Rinv_0_lt_compat; auto]|]. unfold to_size in E. destruct (Rleb_spec ((ct - z) / dz) (-1)); [discriminate|]. injection E as E.
  unfold interpolated. rewrite E. assert (B' : ct < z + (INR n + 1) * dz). { destruct B as [_ B]. apply (Rmult_lt_compat_r dz) in B; auto. unfold Rdiv in B. rewrite Rmult_assoc, Rinv_l in B by lra. lra. }
  rewrite (G n), (G (S n)); auto; rewrite ?S_INR; lra.
Qed.
Print Assumptions C102_causal.
Lemma interpolated_closed U z dz n ct : 0 < dz -> z + INR n * dz <= ct <= z + (INR n + 1) * dz -> interpolated U z dz ct = U n + (U (S n) - U n) * ((ct - (z + INR n * dz)) / dz).
Proof.
  intros D [A B]. unfold interpolated. destruct (Rle_lt_or_eq_dec _ _ B) as [L|E].
  - assert (I : in_slice z dz n (mkP (V6 0 0 0 0 ct 0) 0) = true) by (apply within_spec; cbn; lra). apply (slice_number _ _ _ _ D) in I. change (ct_of (mkP (V6 0 0 0 0 ct 0) 0)) with ct in I. now rewrite I.
  - assert (I : in_slice z dz (S n) (mkP (V6 0 0 0 0 ct 0) 0) = true) by (apply within_spec; change (ct_of (mkP (V6 0 0 0 0 ct 0) 0)) with ct; rewrite S_INR; lra). apply (slice_number _ _ _ _ D) in I. change (ct_of (mkP (V6 0 0 0 0 ct 0) 0)) with ct in I. rewrite I, S_INR, E. field. lra.
Qed.
Lemma interpolated_lipschitz U z dz M : 0 < dz -> (forall n, Rabs (U (S n) - U n) <= M * dz) -> forall a b, z <= a <= b -> Rabs (interpolated U z dz b - interpolated U z dz a) <= M * (b - a).
Proof.
  intros D H. assert (One : forall n a b, z + INR n * dz <= a <= b -> b <= z + (INR n + 1) * dz -> Rabs (interpolated U z dz b - interpolated U z dz a) <= M * (b - a)).
  { intros n a b A B. rewrite !(interpolated_closed U z dz n) by (auto; lra). replace (_ - _) with ((U (S n) - U n) * ((b - a) / dz)) by (field; lra). rewrite Rabs_mult. rewrite (Rabs_right ((b - a) / dz)) by (apply Rle_ge, Rmult_le_pos; [lra|apply Rlt_le, Rinv_0_lt_compat; auto]).
    apply (Rle_trans _ (M * dz * ((b - a) / dz))); [apply Rmult_le_compat_r; auto; apply Rmult_le_pos; [lra|apply Rlt_le, Rinv_0_lt_compat; auto]|]. right. field. lra. }
  assert (G : forall k n a b, z + INR n * dz <= a <= z + (INR n + 1) * dz -> a <= b -> b <= z + (INR (n + k) + 1) * dz -> Rabs (interpolated U z dz b - interpolated U z dz a) <= M * (b - a)).
  { induction k as [|k IH]; intros n a b A L B; [rewrite Nat.add_0_r in B; apply (One n); lra|]. destruct (Rle_dec b (z + (INR n + 1) * dz)) as [Bn|Bn]; [apply (One n); lra|]. set (m := z + (INR n + 1) * dz) in *.
    replace (_ - _) with ((interpolated U z dz b - interpolated U z dz m) + (interpolated U z dz m - interpolated U z dz a)) by ring. eapply Rle_trans; [apply Rabs_triang|].
    assert (R1 : Rabs (interpolated U z dz b - interpolated U z dz m) <= M * (b - m)). { apply (IH (S n)); rewrite ?S_INR; unfold m in *; try lra. replace (S n + k)%nat with (n + S k)%nat by lia. auto. }
    assert (R2 : Rabs (interpolated U z dz m - interpolated U z dz a) <= M * (m - a)) by (apply (One n); unfold m in *; [split|]; lra). lra. }
  intros a b [A L]. destruct (interpolated_between U z dz a D A) as (n & t & T & Ea & _). destruct (interpolated_between U z dz b D ltac:(lra)) as (n' & t' & T' & Eb & _).
  assert (Hn : INR n' <= INR (n + (n' - n))) by (apply le_INR; lia). apply (G (n' - n)%nat n); try lra; rewrite ?Ea, ?Eb; [split; apply Rplus_le_compat_l, Rmult_le_compat_r; lra|apply Rplus_le_compat_l, Rmult_le_compat_r; lra].
Qed.
Theorem C102_continuous q ev W f l z dz nb : 0 < dz -> exists M, forall a b, z <= a -> z <= b -> Rabs (wake_at q ev W f l z dz nb b - wake_at q ev W f l z dz nb a) <= M * Rabs (b - a).
Proof.
  intros D. set (U := fun i => q * ev * felt W f l z dz nb i).
  assert (Z : forall i, (nb <= i)%nat -> U i = 0). { intros i Hi. unfold U, felt. replace (nb - i)%nat with 0%nat by lia. cbn. ring. }
  assert (B : exists M, forall n, Rabs (U (S n) - U n) <= M * dz).
  { assert (Bk : forall k, exists M, 0 <= M /\ forall n, (n < k)%nat -> Rabs (U (S n) - U n) <= M).
    { induction k as [|k (M & M0 & HM)]; [exists 0; split; [lra|lia]|]. exists (Rmax M (Rabs (U (S k) - U k))). split; [eapply Rle_trans; [exact M0|apply Rmax_l]|]. intros n Hn. destruct (Nat.eq_dec n k) as [->|]; [apply Rmax_r|]. eapply Rle_trans; [apply HM; lia|apply Rmax_l]. }
    destruct (Bk nb) as (M & M0 & HM). exists (M / dz). intros n. replace (M / dz * dz) with M by (field; lra). destruct (Nat.lt_ge_cases n nb) as [L|L]; [now apply HM|]. rewrite !Z by lia. rewrite Rminus_0_r, Rabs_R0. auto. }
  destruct B as [M HM]. exists M. intros a b A B. unfold wake_at. fold U. destruct (Rle_dec a b) as [L|L].
  - rewrite (Rabs_right (b - a)) by lra. now apply interpolated_lipschitz.
  - rewrite Rabs_minus_sym, (Rabs_left (b - a)) by lra. replace (- (b - a)) with (a - b) by ring. apply interpolated_lipschitz; auto; lra.
Qed.
Print Assumptions C102_continuous.
(* the wake vanishes at the head of the bunch *)
Theorem C102_head q ev W f l z dz nb ct : 0 < dz -> z + INR nb * dz <= ct -> wake_at q ev W f l z dz nb ct = 0.
Proof.
  intros D H. pose proof (pos_INR nb) as P. destruct (interpolated_between (fun i => q * ev * felt W f l z dz nb i) z dz ct D ltac:(nra)) as (n & t & T & E & I). unfold wake_at. rewrite I.
  assert (Nn : (nb <= n)%nat). { destruct (Nat.lt_ge_cases n nb) as [L|L]; auto. apply lt_INR in L. assert (L' : INR n + 1 <= INR nb) by (rewrite <- S_INR; apply le_INR; apply INR_lt in L; lia). nra. }
  unfold felt. replace (nb - n)%nat with 0%nat by lia. replace (nb - S n)%nat with 0%nat by lia. cbn. ring.
Qed.
Print Assumptions C102_head.

(* C100: the cut is made twice: when the first pass removes particles, a second pass
   removes those beyond nsig spreads of the already shortened bunch *)
Theorem C174_kept sort nb nsig c ev tw w len b b' : sorts sort -> impulse sort nb nsig c ev tw w len b = Ok b' ->
  Forall (fun p => ct_mean (parts b) - nsig * ct_spread (parts b) <= ct_of p < ct_mean (parts b) + nsig * ct_spread (parts b)) (parts b) ->
  Permutation (map pid (parts b')) (map pid (parts b)).
Proof.
  intros S E F. destruct (C174_charge sort nb nsig c ev tw w len b b' S E) as [_ P]. apply (Permutation_map (fun k => fst (fst (fst k)))) in P. rewrite !map_map in P. cbn [fst] in P.
  assert (C : central nsig (parts b) = parts b). { unfold central. rewrite Forall_forall in F. assert (H : forall p, In p (parts b) -> in_range (ct_mean (parts b) - nsig * ct_spread (parts b)) (ct_mean (parts b) + nsig * ct_spread (parts b)) p = true) by (intros p I; apply within_spec; auto). revert H. generalize (in_range (ct_mean (parts b) - nsig * ct_spread (parts b)) (ct_mean (parts b) + nsig * ct_spread (parts b))). clear. intros f. induction (parts b) as [|p l IH]; cbn [filter]; intros H; auto. rewrite H by (now left). f_equal. apply IH. intros; apply H; now right. }
  unfold in_use in P. rewrite !C in P. exact P.
Qed.
Print Assumptions C174_kept.
Definition at_ct (ct : R) (k : Z) : particle := mkP (V6 1 0 0 0 ct 0) k.
Definition five : list particle := [at_ct (-3) 0; at_ct 3 1; at_ct (-1) 2; at_ct 1 3; at_ct 0 4].
Lemma five_once : central 1 five = [at_ct (-1) 2; at_ct 1 3; at_ct 0 4].
Proof.
  unfold central. assert (ct_mean five = 0) as -> by (unfold ct_mean, avg, five, at_, at_ct; cbn [sum coord pv vct length INR]; field).
  assert (ct_spread five = 2) as ->. { unfold ct_spread. replace (cov (at_ 4) (at_ 4) five) with (2 * 2) by (unfold cov, avg, five, at_, at_ct; cbn [sum coord pv vct length INR]; field). apply sqrt_square. lra. }
  unfold five, at_ct. cbn [filter]. unfold in_range, within, ct_of. cbn [pv vct]. repeat match goal with |- context [Rle_dec ?a ?b] => destruct (Rle_dec a b); [|exfalso; lra] || (destruct (Rle_dec a b); [exfalso; lra|]) end.
  repeat match goal with |- context [Rlt_dec ?a ?b] => (destruct (Rlt_dec a b); [|exfalso; lra]) || (destruct (Rlt_dec a b); [exfalso; lra|]) end. reflexivity.
Qed.
Lemma five_twice : central 1 (central 1 five) = [at_ct 0 4].
Proof.
  rewrite five_once. unfold central. set (l := [at_ct (-1) 2; at_ct 1 3; at_ct 0 4]). assert (ct_mean l = 0) as -> by (unfold ct_mean, avg, l, at_, at_ct; cbn [sum coord pv vct length INR]; field).
  assert (B : 0 < ct_spread l < 1). { unfold ct_spread. replace (cov (at_ 4) (at_ 4) l) with (2 / 3) by (unfold cov, avg, l, at_, at_ct; cbn [sum coord pv vct length INR]; field). split; [apply sqrt_lt_R0; lra|]. rewrite <- sqrt_1. apply sqrt_lt_1; lra. }
  generalize dependent (ct_spread l). intros g B. unfold l, at_ct. cbn [filter]. unfold in_range, within, ct_of. cbn [pv vct]. repeat match goal with |- context [Rle_dec ?a ?b] => (destruct (Rle_dec a b); [|exfalso; lra]) || (destruct (Rle_dec a b); [exfalso; lra|]) end.
  repeat match goal with |- context [Rlt_dec ?a ?b] => (destruct (Rlt_dec a b); [|exfalso; lra]) || (destruct (Rlt_dec a b); [exfalso; lra|]) end. reflexivity.
Qed.
Definition no_wake : wake := mkW (fun _ => 0) (fun _ => 0) false.
Lemma no_field nsig ev nb b ct : long_field nsig ev nb no_wake b ct = 0.
Proof.
  unfold long_field, field, wake_at, interpolated. assert (Z : forall l z dz i, felt (wlong no_wake) (fun _ => 1) l z dz nb i = 0). { intros l z dz i. unfold felt. induction (seq i (nb - i)) as [|j js IH]; cbn [sum]; auto. rewrite IH. cbn [wlong no_wake]. ring. }
  rewrite !Z. ring.
Qed.
Theorem C100_truncation_refuted : exists sort nb nsig ev w len b b', sorts sort /\ impulse sort nb nsig None ev true w len b = Ok b' /\ ~ Permutation (map pid (parts b')) (map pid (central nsig (parts b))).
Proof.
  set (b := mkB 1 0 1 five). assert (U : in_use 1 b = [at_ct 0 4]) by apply five_twice.
  destruct (C175_defined isort 4 1 None 1 true no_wake 1 b isort_sorts ltac:(cbn; lra) eq_refl ltac:(lia) I ltac:(rewrite U; discriminate)) as [[_ H] _].
  destruct H as [b' E]. { rewrite U. unfold avg. cbn [sum length INR p0 b]. rewrite no_field. lra. }
  exists isort, 4%nat, 1, 1, no_wake, 1, b, b'. split; [apply isort_sorts|]. split; auto. intros P. destruct (C174_charge isort 4 1 None 1 true no_wake 1 b b' isort_sorts E) as [_ Q]. apply Permutation_length in P, Q. rewrite !map_length in *. rewrite Q, U in P. cbn [parts b] in P. rewrite five_once in P. discriminate.
Qed.
Print Assumptions C100_truncation_refuted.

(* C103: the transverse momentum after the kick *)
Definition px (b : bunch) (p : particle) : R := momentum b p * vxp (pv p).
Definition py (b : bunch) (p : particle) : R := momentum b p * vyp (pv p).
Theorem C103_formula len Fz Fx Fy b b' p p' : p0 b <> 0 -> p0 b - len * Fz (vct (pv p)) <> 0 -> kicked_by len Fz Fx Fy b b' p p' ->
  px b' p' = (momentum b p - len * Fz (vct (pv p))) / (p0 b - len * Fz (vct (pv p))) * (p0 b * vxp (pv p) + len * Fx (vct (pv p))) /\
  py b' p' = (momentum b p - len * Fz (vct (pv p))) / (p0 b - len * Fz (vct (pv p))) * (p0 b * vyp (pv p) + len * Fy (vct (pv p))).
Proof.
  intros P N (_ & _ & _ & _ & A & B & C). unfold px, py. rewrite A, B, C. replace (1 - len * Fz (vct (pv p)) / p0 b) with ((p0 b - len * Fz (vct (pv p))) / p0 b) by (field; auto). split; field; auto.
Qed.
Print Assumptions C103_formula.
(* exact for a particle with the reference momentum *)
Theorem C103_momentum_partial sort nb nsig c ev tw w len b b' : sorts sort -> 0 < p0 b -> csr w = false -> impulse sort nb nsig c ev tw w len b = Ok b' ->
  exists l, Permutation l (in_use nsig b) /\ Forall2 (fun p p' => pid p' = pid p /\ (vdp (pv p) = 0 -> p0 b - len * long_field nsig ev nb w b (ct_of p) <> 0 ->
    px b' p' = px b p + len * side_field nsig ev nb tw w 0 b (ct_of p) /\ py b' p' = py b p + len * side_field nsig ev nb tw w 2 b (ct_of p))) l (parts b').
Proof.
  intros S P C E. destruct (C175_kick sort nb nsig c ev tw w len b b' S P C E) as ((l & Pl & F) & _). exists l. split; auto. eapply Forall2_imp; [|exact F]. intros p p' _ K. split; [apply K|]. intros D N. assert (Pn : p0 b <> 0) by lra. destruct (C103_formula _ _ _ _ _ _ _ _ Pn N K) as [-> ->]. change (ct_of p) with (vct (pv p)) in *. unfold px, py, momentum. rewrite D. split; field; auto.
Qed.
Print Assumptions C103_momentum_partial.
Definition two_b : bunch := mkB 10 0 1 [mkP (V6 0 1 0 0 (-1) (1 / 10)) 0; mkP (V6 0 1 0 0 1 (1 / 10)) 1].
Definition flat_wake : wake := mkW (fun _ => 1) (fun _ => 0) false.
Lemma two_mean : ct_mean (parts two_b) = 0.
Proof. unfold ct_mean, avg, two_b, at_. cbn [sum coord pv vct length INR parts]. field. Qed.
Lemma two_spread : ct_spread (parts two_b) = 1.
Proof. unfold ct_spread. replace (cov (at_ 4) (at_ 4) (parts two_b)) with 1 by (unfold cov, avg, two_b, at_; cbn [sum coord pv vct length INR parts]; field). apply sqrt_1. Qed.
Lemma two_central : central 2 (parts two_b) = parts two_b.
Proof.
  unfold central. rewrite two_mean, two_spread. unfold two_b. cbn [filter parts]. unfold in_range, within, ct_of. cbn [pv vct].
  repeat match goal with |- context [Rle_dec ?a ?b] => (destruct (Rle_dec a b); [|exfalso; lra]) end. repeat match goal with |- context [Rlt_dec ?a ?b] => (destruct (Rlt_dec a b); [|exfalso; lra]) end. reflexivity.
Qed.
Lemma two_in_use : in_use 2 two_b = parts two_b.
Proof. unfold in_use. now rewrite !two_central. Qed.
Lemma two_start : start 2 two_b = -2.
Proof. unfold start. rewrite two_central, two_mean, two_spread. ring. Qed.
Lemma two_step : step 2 1 two_b = 4.
Proof. unfold step. rewrite two_central, two_spread. cbn [INR]. field. Qed.
Lemma two_field ct : -2 <= ct <= 2 -> long_field 2 1 1 flat_wake two_b ct = (2 - ct) / 2.
Proof.
  intros B. unfold long_field, field, wake_at. rewrite two_in_use, two_start, two_step. rewrite (interpolated_closed _ _ _ 0) by (cbn [INR]; lra). unfold felt. cbn [Nat.sub seq sum]. cbn [wlong flat_wake INR].
  assert (S0 : filter (in_slice (-2) 4 0) (parts two_b) = parts two_b).
  { unfold two_b. cbn [filter parts]. unfold in_slice, in_range, within, ct_of. cbn [pv vct INR]. repeat match goal with |- context [Rle_dec ?a ?b] => (destruct (Rle_dec a b); [|exfalso; lra]) end. repeat match goal with |- context [Rlt_dec ?a ?b] => (destruct (Rlt_dec a b); [|exfalso; lra]) end. reflexivity. }
  rewrite S0. unfold total_charge, two_b. cbn [qmp parts length sum INR]. rewrite Rabs_right by lra. field.
Qed.
Lemma two_run tw : exists b', impulse isort 1 2 None 1 tw flat_wake 1 two_b = Ok b'.
Proof.
  destruct (C175_defined isort 1 2 None 1 tw flat_wake 1 two_b isort_sorts ltac:(cbn; lra) eq_refl ltac:(lia) I ltac:(rewrite two_in_use; discriminate)) as [[_ H] _]. apply H.
  rewrite two_in_use. unfold avg. cbn [two_b parts sum length INR p0]. rewrite !two_field by (unfold ct_of; cbn; lra). unfold ct_of. cbn [pv vct]. lra.
Qed.
(* the hypotheses of C101 are met, and the field acts *)
Example C101_ex : exists b', sorts isort /\ 0 < p0 two_b /\ impulse isort 1 2 None 1 true flat_wake 1 two_b = Ok b' /\ p0 b' = 9 /\ in_use 2 two_b <> [].
Proof.
  destruct (two_run true) as [b' E]. exists b'. split; [apply isort_sorts|]. split; [cbn; lra|]. split; auto. split; [|rewrite two_in_use; discriminate].
  destruct (C175_kick isort 1 2 None 1 true flat_wake 1 two_b b' isort_sorts ltac:(cbn; lra) eq_refl E) as (_ & -> & _). rewrite two_in_use. unfold avg. cbn [two_b parts sum length INR p0]. rewrite !two_field by (unfold ct_of; cbn; lra). unfold ct_of. cbn [pv vct]. lra.
Qed.
Theorem C103_momentum_refuted : exists b', impulse isort 1 2 None 1 false flat_wake 1 two_b = Ok b' /\ exists p p', In p (parts two_b) /\ In p' (parts b') /\ pid p' = pid p /\ px b' p' <> px two_b p.
Proof.
  destruct (two_run false) as [b' E]. exists b'. split; auto. destruct (C175_kick isort 1 2 None 1 false flat_wake 1 two_b b' isort_sorts ltac:(cbn; lra) eq_refl E) as ((l & P & F) & _ & _). rewrite two_in_use in P.
  set (p := mkP (V6 0 1 0 0 (-1) (1 / 10)) 0). assert (I0 : In p (parts two_b)) by now left. assert (Il : In p l) by (eapply Permutation_in; [apply Permutation_sym; exact P|auto]).
  assert (G : forall l m, Forall2 (kicked_by 1 (long_field 2 1 1 flat_wake two_b) (side_field 2 1 1 false flat_wake 0 two_b) (side_field 2 1 1 false flat_wake 2 two_b) two_b b') l m -> In p l -> exists p', In p' m /\ kicked_by 1 (long_field 2 1 1 flat_wake two_b) (side_field 2 1 1 false flat_wake 0 two_b) (side_field 2 1 1 false flat_wake 2 two_b) two_b b' p p').
  { clear. induction 1 as [|a a' l m K F IH]; [contradiction|]. intros [<-|I]; [exists a'; split; [now left|auto]|]. destruct (IH I) as (p' & I' & K'). exists p'. split; [now right|auto]. }
  destruct (G _ _ F Il) as (p' & I' & K). exists p, p'. repeat split; auto; [apply K|]. assert (Ef : long_field 2 1 1 flat_wake two_b (vct (pv p)) = 3 / 2) by (rewrite two_field; cbn; lra).
  assert (H1 : p0 two_b <> 0) by (cbn; lra). assert (H2 : p0 two_b - 1 * long_field 2 1 1 flat_wake two_b (vct (pv p)) <> 0) by (rewrite Ef; cbn [p0 two_b]; lra). destruct (C103_formula _ _ _ _ _ _ _ _ H1 H2 K) as [-> _]. rewrite Ef. unfold px, momentum, side_field. cbn [p p0 two_b pv vxp vdp]. lra.
Qed.
Print Assumptions C103_momentum_refuted.

(* C104: a CSR wake is only ever evaluated some 2^64 slice widths away *)
Lemma wake_l_csr ev w b nb s B : slices_ok (parts b) nb s -> csr w = true -> (forall x, B <= x -> wlong w x = 0) -> B <= (IZR (2 ^ 64) - INR nb) * width s ->
  wake_l ev w b s = Ok (map (fun _ => 0) (seq 0 (S nb))).
Proof.
  intros O C HW HB. unfold wake_l. rewrite C, (so_len _ _ _ O). apply each_ok. intros i I. apply in_seq in I. pose proof (so_width _ _ _ O) as D.
  rewrite (add_up_ok _ (fun _ => 0)).
  - cbn [bind]. f_equal. rewrite sum_const. ring.
  - intros j J. apply in_seq in J. rewrite (nth_error_nth' _ j 0) by (rewrite (so_ddens_len _ _ _ O); lia). cbn [option_map]. f_equal. rewrite HW; [unfold Rdiv; ring|]. eapply Rle_trans; [exact HB|]. apply Rmult_le_compat_r; [lra|]. unfold size_sub. destruct (Nat.leb_spec i j); [lia|]. rewrite minus_IZR, <- INR_IZR_INZ. assert (INR (i - j) <= INR nb) by (apply le_INR; lia). lra.
Qed.
Theorem C104_csr_refuted sort nb nsig c ev tw w len b b' B : sorts sort -> csr w = true -> (forall x, B <= x -> wlong w x = 0) -> B <= (IZR (2 ^ 64) - INR nb) * step nsig nb b ->
  impulse sort nb nsig c ev tw w len b = Ok b' -> p0 b' = p0 b /\ exists l, Permutation l (in_use nsig b) /\ Forall2 (fun p p' => pid p' = pid p /\ vdp (pv p') = vdp (pv p)) l (parts b').
Proof.
  intros S C HW HB E. rewrite impulse_prepare in E. destruct (prepare sort nb nsig c b) as [[b1 s]| |] eqn:Ep; try discriminate. cbn [bind] in E.
  destruct (prepare_inv _ _ _ _ _ _ _ S Ep) as (A1 & A2 & A3 & A4 & A5 & A6 & A7 & A8). fold (step nsig nb b) in A7. fold (in_use nsig b) in A5. rewrite <- A7 in HB. rewrite (wake_l_csr ev w b1 nb s B A8 C HW HB) in E. cbn [bind] in E. rewrite C in E.
  assert (G : forall wx wy Ux Uy Fx Fy, side_ok tw wx Ux Fx nb (zlow s) (width s) -> side_ok tw wy Uy Fy nb (zlow s) (width s) ->
    match kick_slices len (p0 b1) (width s) (map (fun _ => 0) (seq 0 (Datatypes.S nb))) wx wy tw (bounds s) (parts b1) (seq 0 nb) (zlow s) with None => UB | Some (l, bload) => Ok (E := werr) (mkB (p0 b1) (ct0 b1) (qmp b1) l) end = Ok b' ->
    p0 b' = p0 b /\ exists l, Permutation l (in_use nsig b) /\ Forall2 (fun p p' => pid p' = pid p /\ vdp (pv p') = vdp (pv p)) l (parts b')).
  { intros wx wy Ux Uy Fx Fy Ox Oy H. rewrite (kick_slices_ok len (p0 b1) _ wx wy tw nb s (parts b1) (fun _ => 0) Ux Uy Fx Fy A8 eq_refl Ox Oy) in H. injection H as <-. cbn [p0 parts]. split; auto. exists (parts b1). split; auto. apply Forall2_map_r. intros p _. cbn [kick_of pid pv vdp]. split; auto. unfold interpolated. unfold Rdiv. ring. }
  destruct tw.
  - rewrite (wake_t_ok ev w b1 nb s A4 A8) in E. cbn [bind fst snd] in E. eapply G; [| |exact E]; cbn [side_ok]; (split; [reflexivity|]); intros ct; reflexivity.
  - cbn [bind fst snd] in E. eapply (G [] [] (fun _ => 0) (fun _ => 0) (fun _ => 0) (fun _ => 0)); [| |exact E]; cbn [side_ok]; auto.
Qed.
Print Assumptions C104_csr_refuted.
Definition csr_wake : wake := mkW (fun x => if Rltb x 100 then 1 else 0) (fun _ => 0) true.
Example C104_ex : csr csr_wake = true /\ (forall x, 100 <= x -> wlong csr_wake x = 0) /\ 100 <= (IZR (2 ^ 64) - INR 1) * step 2 1 two_b /\ (exists b', impulse isort 1 2 None 1 true csr_wake 1 two_b = Ok b').
Proof.
  split; auto. assert (HW : forall x, 100 <= x -> wlong csr_wake x = 0) by (intros x H; cbn [wlong csr_wake]; destruct (Rltb_spec x 100); lra). assert (HB : 100 <= (IZR (2 ^ 64) - INR 1) * step 2 1 two_b) by (rewrite two_step; cbn [INR]; change (2 ^ 64)%Z with 18446744073709551616%Z; lra).
  split; auto. split; auto. rewrite impulse_prepare. destruct (prepare_defined isort 1 2 None two_b isort_sorts ltac:(lia) I ltac:(rewrite two_in_use; discriminate)) as [[b1 s] Ep]. rewrite Ep. cbn [bind]. destruct (prepare_inv _ _ _ _ _ _ _ isort_sorts Ep) as (A1 & A2 & A3 & A4 & A5 & A6 & A7 & A8). fold (step 2 1 two_b) in A7. rewrite <- A7 in HB. rewrite (wake_l_csr 1 csr_wake b1 1 s 100 A8 eq_refl HW HB). cbn [bind]. rewrite (wake_t_ok 1 csr_wake b1 1 s A4 A8). cbn [bind fst snd].
  erewrite (kick_slices_ok 1 (p0 b1) _ _ _ true 1 s (parts b1) (fun _ => 0) _ _ _ _ A8 eq_refl); [eexists; reflexivity| |]; cbn [side_ok]; (split; [reflexivity|]); intros ct; reflexivity.
Qed.

(* C105: one impulse for each component with a wake *)
Definition due (c : comp) (s : proc) : option wake :=
  match cwake c with Some (w, None) => Some w | Some (w, Some k) => if Nat.eq_dec k (kind s) then Some w else None | None => None end.
(* the tracker calls an active process only; the impulses in order *)
Fixpoint steps (ds : list R) (s : proc) : proc * list (wake * R * R) :=
  match ds with
  | [] => (s, [])
  | d :: ds' =>
      if active s then let '(s', o) := do_process d s in let '(s2, l) := steps ds' s' in (s2, match o with Some (w, n) => (w, n, here s') :: l | None => l end)
      else steps ds' s
  end.
(* no step exceeds what the process allows *)
Fixpoint allowed (ds : list R) (s : proc) : Prop :=
  match ds with [] => True | d :: ds' => (active s = true -> d <= max_step s) /\ allowed ds' (if active s then fst (do_process d s) else s) end.
Definition place (s : proc) (len : R) : R := match imploc s with AtCentre => len / 2 | AtExit => len end.
Lemma steps_inactive ds : forall s, active s = false -> steps ds s = (s, []).
Proof. induction ds as [|d ds IH]; intros s H; cbn [steps]; auto. rewrite H. auto. Qed.
Theorem C105_once ds c s w : due c s = Some w -> 0 <= clen c -> ds <> [] -> sum (fun d => d) ds = clen c -> allowed ds (enter true c s) ->
  exists s' at_, steps ds (enter true c s) = (s', [(w, clen c, at_)]) /\ Rabs (at_ - place s (clen c)) <= eps /\ active s' = false.
Proof.
  intros D L NE T A. set (s0 := enter true c s) in *.
  assert (E0 : s0 = mkPr (kind s) (imploc s) 0 (place s (clen c)) (clen c) (Some w) true).
  { unfold s0, enter, due, place in *. destruct (cwake c) as [[w' [k|]]|]; [|now injection D as ->|discriminate]. destruct (Nat.eqb_spec k (kind s)), (Nat.eq_dec k (kind s)); try contradiction; [now injection D as ->|discriminate]. }
  assert (Pl : place s (clen c) <= clen c) by (unfold place; destruct (imploc s); lra).
  assert (G : forall ds s1, active s1 = true -> pwake s1 = Some w -> plen s1 = clen c -> goal s1 = place s (clen c) -> ds <> [] -> here s1 + sum (fun d => d) ds = clen c -> allowed ds s1 ->
    exists s' at_, steps ds s1 = (s', [(w, clen c, at_)]) /\ Rabs (at_ - place s (clen c)) <= eps /\ active s' = false).
  { clear A T NE E0 s0 ds. induction ds as [|d ds IH]; intros s1 H1 H2 H3 H4 NE T A; [congruence|]. cbn [steps allowed sum] in *. rewrite H1 in *. destruct A as [A1 A2]. specialize (A1 eq_refl). unfold max_step in A1. unfold do_process in *. rewrite H2, H3, H4 in *. cbn [option_map] in *.
    unfold fequal, fequal_tol in *. destruct (Rleb_spec (Rabs (here s1 + d - place s (clen c))) eps) as [F|F].
    - rewrite steps_inactive by reflexivity. cbn [here]. eexists _, _. split; [reflexivity|]. split; auto.
    - cbn [fst] in A2. rewrite H1 in A2 |- *. assert (ND : ds <> []). { intros ->. cbn [sum] in T. rewrite Rplus_0_r in T. rewrite T in *. assert (place s (clen c) = clen c) as Q by lra. rewrite Q in F. unfold Rminus in F. rewrite Rplus_opp_r, Rabs_R0 in F. pose proof eps_pos. lra. }
      destruct (IH (mkPr (kind s1) (imploc s1) (here s1 + d) (place s (clen c)) (clen c) (Some w) true)) as (s' & a & E & B & C); auto; [cbn [here]; lra|]. rewrite E. exists s', a. auto. }
  rewrite E0 in *. apply G; auto. cbn [here]. lra.
Qed.
Print Assumptions C105_once.
Theorem C105_none ds c s bs : due c s = None \/ bs = false -> steps ds (enter bs c s) = (enter bs c s, []) /\ active (enter bs c s) = false.
Proof.
  intros H. assert (A : active (enter bs c s) = false). { unfold enter, due in *. destruct bs; [|reflexivity]. destruct H as [H|H]; [|discriminate]. destruct (cwake c) as [[w [k|]]|]; [|discriminate|reflexivity]. destruct (Nat.eqb_spec k (kind s)), (Nat.eq_dec k (kind s)); try contradiction; [discriminate|reflexivity]. }
  split; auto. now apply steps_inactive.
Qed.
Print Assumptions C105_none.
Example C105_ex : let s := mkPr 0 AtCentre 0 0 0 None false in let c := mkComp 2 (Some (flat_wake, None)) in
  due c s = Some flat_wake /\ sum (fun d => d) [1; 1] = clen c /\ allowed [1; 1] (enter true c s).
Proof.
  cbn zeta. split; [reflexivity|]. split; [cbn; lra|]. cbn [allowed enter cwake kind imploc clen active]. split; [intros _; unfold max_step; cbn; lra|]. split; auto. unfold do_process. cbn [here goal kind imploc plen pwake]. destruct (fequal (0 + 1) (2 / 2)) eqn:F; cbn [fst active max_step]; [discriminate|].
  exfalso. unfold fequal, fequal_tol in F. replace (0 + 1 - 2 / 2) with 0 in F by field. rewrite Rabs_R0 in F. destruct (Rleb_spec 0 eps); [discriminate|]. pose proof eps_pos. lra.
Qed.
