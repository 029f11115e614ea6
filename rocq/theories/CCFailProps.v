(* C420-C427: failing crab cavities. *)
From Coq Require Import ZArith Lia Lra List Bool.
From Verif Require Import RBase Base Bunch CCFail CCFailSpec.
Import ListNotations.
Local Open Scope R_scope.

Definition visit (l : list R) (s : cc) : cc := fold_left (fun s p => set_component p s) l s.
Definition counts (s : cc) (a b c d : nat) (t : Z) : Prop :=
  a_on s = true /\ c_on s = true /\ n5u s = a /\ n5d s = b /\ n1d s = c /\ n1u s = d /\ f5u s = Nat.eqb a 4 /\ f5d s = Nat.eqb b 4 /\ f1d s = Nat.eqb c 4 /\ f1u s = Nat.eqb d 4 /\ turn s = t.
Lemma no_new s a b c d t : counts s a b c d t -> (a < 4 \/ b < 4 \/ c < 4 \/ d < 4)%nat -> new_turn s = s.
Proof.
  intros (A & C & _ & _ & _ & _ & F1 & F2 & F3 & F4 & _) H. unfold new_turn. rewrite A, C, F1, F2, F3, F4. destruct (Nat.eqb_spec a 4), (Nat.eqb_spec b 4), (Nat.eqb_spec c 4), (Nat.eqb_spec d 4); cbn [andb]; try reflexivity; lia.
Qed.
Lemma total l : (markers IP5up l + markers IP5down l + markers IP1down l + markers IP1up l <= length l)%nat.
Proof. induction l as [|p l IH]; cbn [markers length]; [lia|]. destruct (region_of p) as [[]|]; cbn [region_eqb]; lia. Qed.
Lemma part l : forall s a b c d t, counts s a b c d t -> (markers IP5up l + markers IP5down l + markers IP1down l + markers IP1up l = length l)%nat ->
  (a + markers IP5up l <= 4 /\ b + markers IP5down l <= 4 /\ c + markers IP1down l <= 4 /\ d + markers IP1up l <= 4)%nat ->
  counts (visit l s) (a + markers IP5up l) (b + markers IP5down l) (c + markers IP1down l) (d + markers IP1up l) t.
Proof.
  induction l as [|p l IH]; intros s a b c d t K L M; cbn [markers length visit fold_left] in *; [rewrite !Nat.add_0_r; exact K|].
  pose proof (total l) as T. unfold set_component. destruct (region_of p) as [[]|]; cbn [region_eqb] in *; [| | | |exfalso; lia]; rewrite (no_new _ _ _ _ _ _ K) by lia;
  destruct K as (A & C & N1 & N2 & N3 & N4 & F1 & F2 & F3 & F4 & TT).
  - change (fold_left (fun s p => set_component p s) l) with (visit l). replace (a + (1 + markers IP5up l))%nat with (S a + markers IP5up l)%nat by lia. apply IH; [|lia|lia]. unfold enter, counts; cbn [a_on c_on n5u n5d n1u n1d f5u f5d f1u f1d turn]. rewrite N1. tauto.
  - change (fold_left (fun s p => set_component p s) l) with (visit l). replace (b + (1 + markers IP5down l))%nat with (S b + markers IP5down l)%nat by lia. apply IH; [|lia|lia]. unfold enter, counts; cbn [a_on c_on n5u n5d n1u n1d f5u f5d f1u f1d turn]. rewrite N2. tauto.
  - change (fold_left (fun s p => set_component p s) l) with (visit l). replace (c + (1 + markers IP1down l))%nat with (S c + markers IP1down l)%nat by lia. apply IH; [|lia|lia]. unfold enter, counts; cbn [a_on c_on n5u n5d n1u n1d f5u f5d f1u f1d turn]. rewrite N3. tauto.
  - change (fold_left (fun s p => set_component p s) l) with (visit l). replace (d + (1 + markers IP1up l))%nat with (S d + markers IP1up l)%nat by lia. apply IH; [|lia|lia]. unfold enter, counts; cbn [a_on c_on n5u n5d n1u n1d f5u f5d f1u f1d turn]. rewrite N4. tauto.
Qed.
Lemma restart p l s t : counts s 4 4 4 4 t -> exists s0, counts s0 0 0 0 0 (t + 1) /\ visit (p :: l) s = visit (p :: l) s0.
Proof.
  intros (A & C & _ & _ & _ & _ & F1 & F2 & F3 & F4 & T). exists (mkCC true true (horiz s) (up s) (atl s) false false false false 0 0 0 0 (turn s + 1) (t_at s) (t_cms s)). split; [rewrite T; repeat split|].
  cbn [visit fold_left]. f_equal. unfold set_component. f_equal. unfold new_turn. rewrite A, C, F1, F2, F3, F4. reflexivity.
Qed.
(* C420: with four cavities in each place turns are counted, whatever the order; before the k-th marker of a turn its places are known *)
Theorem C420_turns : forall ts t, Forall full_turn ts -> forall l1 l2, t = (l1 ++ l2)%list -> full_turn t -> l1 <> [] ->
  let s := visit (concat ts ++ l1) (init true true) in turn s = Z.of_nat (length ts + 1) /\
  n5u s = markers IP5up l1 /\ n5d s = markers IP5down l1 /\ n1d s = markers IP1down l1 /\ n1u s = markers IP1up l1.
Proof.
  assert (MA : forall r a b, markers r (a ++ b) = (markers r a + markers r b)%nat) by (intros r a b; induction a as [|p a IH]; cbn [app markers]; [reflexivity|]; rewrite IH; lia).
  assert (G : forall ts, Forall full_turn ts -> forall s, (counts s 0 0 0 0 1 -> ts <> [] -> counts (visit (concat ts) s) 4 4 4 4 (Z.of_nat (length ts))) /\ forall k, counts s 4 4 4 4 k -> counts (visit (concat ts) s) 4 4 4 4 (k + Z.of_nat (length ts))).
  { induction ts as [|u ts IH]; intros F s. { split; [now intros _ []|]. intros k K. cbn [concat visit fold_left length]. rewrite Z.add_0_r. exact K. }
    inversion F as [|u' ts' (L & M1 & M2 & M3 & M4) F']; subst. cbn [concat length]. unfold visit. rewrite fold_left_app. change (fold_left (fun s p => set_component p s)) with visit. split.
    - intros K _. pose proof (part u s _ _ _ _ _ K ltac:(lia) ltac:(lia)) as P. rewrite M1, M2, M3, M4 in P. pose proof (proj2 (IH F' _) _ P) as Q. replace (Z.of_nat (S (length ts))) with (1 + Z.of_nat (length ts))%Z by lia. exact Q.
    - intros k K. destruct u as [|p u]; [discriminate L|]. destruct (restart p u s k K) as (s0 & K0 & ->). pose proof (part (p :: u) s0 _ _ _ _ _ K0 ltac:(lia) ltac:(lia)) as P. rewrite M1, M2, M3, M4 in P. pose proof (proj2 (IH F' _) _ P) as Q. replace (k + Z.of_nat (S (length ts)))%Z with (k + 1 + Z.of_nat (length ts))%Z by lia. exact Q. }
  intros ts t F l1 l2 -> (L & M1 & M2 & M3 & M4) NE. rewrite MA in M1, M2, M3, M4. rewrite app_length in L. pose proof (total l1) as T1. pose proof (total l2) as T2.
  assert (I0 : counts (init true true) 0 0 0 0 1) by (repeat split). cbv zeta. unfold visit. rewrite fold_left_app. change (fold_left (fun s p => set_component p s)) with visit.
  assert (E : exists s0, counts s0 0 0 0 0 (Z.of_nat (length ts + 1)) /\ visit l1 (visit (concat ts) (init true true)) = visit l1 s0).
  { destruct ts as [|u ts]; [exists (init true true); split; [exact I0|reflexivity]|]. destruct l1 as [|p l1]; [now destruct NE|]. pose proof (proj1 (G _ F _) I0 ltac:(discriminate)) as K. destruct (restart p l1 _ _ K) as (s0 & K0 & E). exists s0. split; [|exact E]. replace (Z.of_nat (length (u :: ts) + 1)) with (Z.of_nat (length (u :: ts)) + 1)%Z by lia. exact K0. }
  destruct E as (s0 & K0 & ->). destruct (part l1 s0 _ _ _ _ _ K0 ltac:(lia) ltac:(lia)) as (_ & _ & N1 & N2 & N3 & N4 & _ & _ & _ & _ & T). cbn [Nat.add] in N1, N2, N3, N4. tauto.
Qed.
Print Assumptions C420_turns.
Example C420_ex : let t := [21000; 22000; 23000; 24000; 10; 20; 30; 40; 11000; 11001; 11002; 11003; 14000; 14001; 14002; 14003] in full_turn t.
Proof.
  assert (U1 : forall s, 20000 <= s <= 30000 -> region_of s = Some IP1up) by (intros s H; unfold region_of; rewrite (Rleb_true 10000), (Rleb_false s 13200), (Rleb_true 13300), (Rleb_false s 15000), (Rleb_false s 200), (Rleb_true 20000), (Rleb_true s 30000) by lra; reflexivity).
  assert (D1 : forall s, s <= 200 -> region_of s = Some IP1down) by (intros s H; unfold region_of; rewrite (Rleb_false 10000), (Rleb_false 13300), (Rleb_true s 200) by lra; reflexivity).
  assert (U5 : forall s, 10000 <= s <= 13200 -> region_of s = Some IP5up) by (intros s H; unfold region_of; rewrite (Rleb_true 10000), (Rleb_true s 13200) by lra; reflexivity).
  assert (D5 : forall s, 13300 <= s <= 15000 -> region_of s = Some IP5down) by (intros s H; unfold region_of; rewrite (Rleb_true 10000), (Rleb_false s 13200), (Rleb_true 13300), (Rleb_true s 15000) by lra; reflexivity).
  cbv zeta. unfold full_turn. cbn [markers length].
  rewrite (U1 21000), (U1 22000), (U1 23000), (U1 24000), (D1 10), (D1 20), (D1 30), (D1 40), (U5 11000), (U5 11001), (U5 11002), (U5 11003), (D5 14000), (D5 14001), (D5 14002), (D5 14003) by lra. cbn [region_eqb]. repeat split.
Qed.
Theorem C420_regions : forall s, (region_of s = Some IP5up <-> 10000 <= s <= 13200) /\ (region_of s = Some IP5down <-> 13300 <= s <= 15000) /\ (region_of s = Some IP1down <-> s <= 200) /\ (region_of s = Some IP1up <-> 20000 <= s <= 30000).
Proof.
  intros s. unfold region_of. destruct (Rleb_spec 10000 s), (Rleb_spec s 13200), (Rleb_spec 13300 s), (Rleb_spec s 15000), (Rleb_spec s 200), (Rleb_spec 20000 s), (Rleb_spec s 30000); cbn [andb]; try (exfalso; lra); repeat split; intros; try discriminate; try reflexivity; lra.
Qed.
Print Assumptions C420_regions.
(* with one point only, the counters of its places decide *)
Theorem C420_single : forall s pos, a_on s = negb (c_on s) -> let full := if a_on s then (f1u s && f1d s)%bool else (f5u s && f5d s)%bool in let s' := set_component pos s in
  turn s' = (if full then turn s + 1 else turn s)%Z /\ a_on s' = a_on s /\ c_on s' = c_on s /\ t_at s' = t_at s /\ t_cms s' = t_cms s /\
  (forall r, region_of pos = Some r -> up s' = match r with IP1up | IP5up => true | _ => false end /\ atl s' = match r with IP1up | IP1down => true | _ => false end /\ horiz s' = negb (atl s')) /\
  let add := fun r => match region_of pos with Some r' => if region_eqb r r' then 1%nat else O | None => O end in
  let hit := fun r => match region_of pos with Some r' => region_eqb r r' | None => false end in
  n1u s' = (add IP1up + if full && a_on s then 0 else n1u s)%nat /\ n1d s' = (add IP1down + if full && a_on s then 0 else n1d s)%nat /\
  n5u s' = (add IP5up + if full && c_on s then 0 else n5u s)%nat /\ n5d s' = (add IP5down + if full && c_on s then 0 else n5d s)%nat /\
  f1u s' = (if hit IP1up then Nat.eqb (n1u s') 4 else if full && a_on s then false else f1u s) /\ f1d s' = (if hit IP1down then Nat.eqb (n1d s') 4 else if full && a_on s then false else f1d s) /\
  f5u s' = (if hit IP5up then Nat.eqb (n5u s') 4 else if full && c_on s then false else f5u s) /\ f5d s' = (if hit IP5down then Nat.eqb (n5d s') 4 else if full && c_on s then false else f5d s).
Proof.
  intros s pos A. cbv zeta. unfold set_component, new_turn. destruct (c_on s) eqn:C; cbn [negb] in A; rewrite A; cbn [andb]; [destruct (f5u s) eqn:F1, (f5d s) eqn:F2|destruct (f1u s) eqn:F1, (f1d s) eqn:F2]; cbn [andb];
  destruct (region_of pos) as [[]|]; cbn [enter turn a_on c_on t_at t_cms up atl horiz n1u n1d n5u n5d f1u f1d f5u f5d region_eqb negb Nat.add]; rewrite ?A, ?C, ?F1, ?F2; repeat split; intros; try reflexivity; match goal with H : Some _ = Some ?r |- _ => injection H as <-; reflexivity | H : None = Some _ |- _ => discriminate H end.
Qed.
Print Assumptions C420_single.
(* C421: a fifth cavity before a point writes outside the tables *)
Theorem C421_five_refuted : forall g pos n1 s phi l, a_on s = true -> c_on s = true -> region_of pos = Some IP1up -> (4 <= n1u s)%nat -> f5u s = false ->
  (turn s < g_nft g + g_ft g)%Z -> process g n1 (set_component pos s) phi l = UB \/ process g n1 (set_component pos s) phi l = Throw CNaN.
Proof.
  intros g pos n1 s phi l A C R N F T. unfold set_component. replace (new_turn s) with s by (unfold new_turn; rewrite A, C, F, !andb_false_r; reflexivity). rewrite R. unfold enter, process. cbn [horiz up atl a_on c_on turn n1u]. cbv zeta. rewrite A, C, (proj2 (Z.ltb_lt _ _) T). cbn [negb].
  destruct (m12 _ _ _ _ _) as [m| |]; cbn [bind]; [|destruct e; auto|auto]. destruct (v1_of g m) as [v| |]; cbn [bind]; [|destruct e; auto|auto]. unfold wr. rewrite (proj2 (Nat.leb_gt (S (n1u s)) 4)) by lia. rewrite andb_false_r. auto.
Qed.
Print Assumptions C421_five_refuted.
(* C422: with both points on, cavities of the second do nothing to the bunch; behind it the counter of the other point is used *)
Theorem C422_second_refuted : forall g n1 s phi l s' phi' l', a_on s = true -> c_on s = true -> atl s = false -> process g n1 s phi l = Ok (s', phi', l') -> l' = l /\ phi' = phi /\ (up s = false -> s' = s).
Proof.
  intros g n1 s phi l s' phi' l' A C AT E. unfold process in E. cbv zeta in E. rewrite A, C, AT in E. destruct (negb _); [injection E as <- <- <-; auto|]. destruct (up s) eqn:U.
  - destruct (m12 _ _ _ _ _); cbn [bind] in E; try discriminate. destruct (v1_of _ _); cbn [bind] in E; try discriminate. destruct (wr _ _ _ _ _); cbn [bind] in E; try discriminate. injection E as <- <- <-. repeat split; first [discriminate|auto].
  - destruct (rd _ _); cbn [bind] in E; try discriminate. destruct (if horiz s then _ else _); cbn [bind] in E; try discriminate. destruct (m22 _ _ _ _ _); cbn [bind] in E; try discriminate. destruct (rd _ _); cbn [bind] in E; try discriminate. injection E as <- <- <-. repeat split; first [discriminate|auto].
Qed.
Print Assumptions C422_second_refuted.
Theorem C422_counter_refuted : forall g pos n1 s phi l, a_on s = true -> c_on s = true -> region_of pos = Some IP5down -> n1d s = O -> f1d s = false -> (turn s < g_nft g + g_ft g)%Z -> process g n1 (set_component pos s) phi l = UB.
Proof.
  intros g pos n1 s phi l A C R N F T. unfold set_component. replace (new_turn s) with s by (unfold new_turn; rewrite A, C, F, !andb_false_r; reflexivity). rewrite R. unfold enter, process. cbn [horiz up atl a_on c_on turn n1d t_cms]. cbv zeta. rewrite A, C, (proj2 (Z.ltb_lt _ _) T), N. reflexivity.
Qed.
Print Assumptions C422_counter_refuted.
Lemma kicks_ok g h phi v l k : kicks g h phi v l = Ok k -> Forall2 (kicked h (g_energy g) (g_omega g) (g_c g) phi v) l k.
Proof.
  unfold kicks. destruct (Reqb_spec (g_energy g) 0) as [|N]; [discriminate|]. destruct (Reqb_spec (g_c g) 0) as [|NC]; [discriminate|]. cbn [orb]. intros [= <-]. induction l as [|p l IH]; cbn [map]; constructor; [|exact IH].
  unfold kicked, same_but, angle, kick. cbv zeta. replace (vct (pv p) * (g_omega g / g_c g)) with (vct (pv p) * g_omega g / g_c g) by (field; exact NC). destruct h; cbn [pid pv vx vxp vy vyp vct vdp]; repeat split; auto.
Qed.
Lemma m12_ok g h a b mu m : m12 g h a b mu = Ok m -> m = sqrt (beta g h a * beta g h b) * sin mu.
Proof. unfold m12. cbv zeta. destruct (Rltb _ _); [discriminate|]. now intros [= <-]. Qed.
Lemma m22_ok g h a b mu m : m22 g h a b mu = Ok m -> beta g h b <> 0 /\ m = sqrt (beta g h a / beta g h b) * cos mu.
Proof. unfold m22. cbv zeta. destruct (Reqb_spec (beta g h b) 0); [discriminate|]. destruct (Rltb _ _); [discriminate|]. now intros [= <-]. Qed.
Lemma v1_ok g m v : v1_of g m = Ok v -> v * (g_omega g * m * 4) = g_c g * g_energy g * tan (g_theta g).
Proof. unfold v1_of. destruct (Reqb_spec (g_omega g * m * 4) 0) as [|N]; [discriminate|]. intros [= <-]. unfold Rdiv. rewrite Rmult_assoc, Rinv_l by exact N. ring. Qed.
Lemma wr_ok t n v mu e t' : wr t n v mu e = Ok t' -> (1 <= n <= 4)%nat /\ t_v t' n = v /\ t_mu t' n = mu /\ t_el t' n = e /\ forall k, k <> n -> t_v t' k = t_v t k /\ t_mu t' k = t_mu t k /\ t_el t' k = t_el t k.
Proof.
  unfold wr. destruct (Nat.leb_spec 1 n); [|discriminate]. destruct (Nat.leb_spec n 4); [|discriminate]. cbn [andb]. intros [= <-]. cbn [t_v t_mu t_el]. rewrite Nat.eqb_refl. split; [lia|]. do 3 (split; [reflexivity|]). intros k K. rewrite (proj2 (Nat.eqb_neq _ _) K). auto.
Qed.
Lemma rd_ok A (t : nat -> A) n a : rd t n = Ok a -> (1 <= n <= 4)%nat /\ a = t n.
Proof. unfold rd. destruct (Nat.leb_spec 1 n); [|discriminate]. destruct (Nat.leb_spec n 4); [|discriminate]. cbn [andb]. intros [= <-]. split; [lia|reflexivity]. Qed.
Lemma ramp_eq g s v : ramp g s v = strength (g_fon g) (g_nft g) (g_ft g) (turn s) * v.
Proof. unfold ramp, strength. destruct (_ && _)%bool; [|ring]. unfold Rdiv. ring. Qed.
(* C423: before a point: the voltage that, four times, gives the crossing angle at the point, kept in the table *)
Theorem C423_before : forall g n1 s phi l s' phi' l', up s = true -> (turn s < g_nft g + g_ft g)%Z -> (if atl s then a_on s = true else c_on s = true) -> process g n1 s phi l = Ok (s', phi', l') ->
  let ip := if atl s then g_ip1 g else g_ip5 g in let n := if atl s then n1u s else n5u s in let tab := fun s => if atl s then t_at s else t_cms s in
  exists v, v * (g_omega g * (sqrt (beta g (horiz s) n1 * beta g (horiz s) ip) * sin (dmu g (horiz s) n1 ip)) * 4) = g_c g * g_energy g * tan (g_theta g) /\ (1 <= n <= 4)%nat /\
  (if andb (a_on s) (negb (atl s)) then l' = l else Forall2 (kicked (horiz s) (g_energy g) (g_omega g) (g_c g) phi ((if andb (a_on s) (negb (c_on s)) then 1 else strength (g_fon g) (g_nft g) (g_ft g) (turn s)) * v)) l l') /\
  t_v (tab s') n = v /\ t_mu (tab s') n = dmu g (negb (atl s)) n1 ip /\ t_el (tab s') n = n1 /\ (forall k, k <> n -> t_v (tab s') k = t_v (tab s) k /\ t_mu (tab s') k = t_mu (tab s) k /\ t_el (tab s') k = t_el (tab s) k) /\
  (if atl s then t_cms s' = t_cms s else t_at s' = t_at s) /\ turn s' = turn s /\ n1u s' = n1u s /\ n1d s' = n1d s /\ n5u s' = n5u s /\ n5d s' = n5d s /\ f1u s' = f1u s /\ f1d s' = f1d s /\ f5u s' = f5u s /\ f5d s' = f5d s /\ horiz s' = horiz s /\ up s' = up s /\ atl s' = atl s /\ a_on s' = a_on s /\ c_on s' = c_on s.
Proof.
  intros g n1 s phi l s' phi' l' U T W E. cbv zeta. unfold process in E. cbv zeta in E. rewrite U, (proj2 (Z.ltb_lt _ _) T) in E. cbn [negb] in E. destruct (atl s) eqn:AT; cbn [negb] in *.
  - rewrite W in *. cbn [andb]. destruct (c_on s) eqn:C; cbn [negb] in *.
    + destruct (m12 _ _ _ _ _) as [m| |] eqn:M; cbn [bind] in E; try discriminate. apply m12_ok in M. destruct (v1_of g m) as [v| |] eqn:V; cbn [bind] in E; try discriminate. apply v1_ok in V. destruct (wr _ _ _ _ _) as [t| |] eqn:WW; cbn [bind] in E; try discriminate. destruct (wr_ok _ _ _ _ _ _ WW) as (N & W1 & W2 & W3 & W4). destruct (kicks _ _ _ _ _) as [k| |] eqn:K; cbn [bind] in E; try discriminate. apply kicks_ok in K. rewrite ramp_eq in K. injection E as <- <- <-. exists v. rewrite M in V. unfold put_at. cbn [atl t_at t_cms turn n1u n1d n5u n5d f1u f1d f5u f5d horiz up a_on c_on]. rewrite AT, ?W, ?C. repeat (split; [first [assumption|reflexivity]|]). first [assumption|reflexivity].
    + destruct (m12 _ _ _ _ _) as [m| |] eqn:M; cbn [bind] in E; try discriminate. apply m12_ok in M. destruct (v1_of g m) as [v| |] eqn:V; cbn [bind] in E; try discriminate. apply v1_ok in V. destruct (wr _ _ _ _ _) as [t| |] eqn:WW; cbn [bind] in E; try discriminate. destruct (wr_ok _ _ _ _ _ _ WW) as (N & W1 & W2 & W3 & W4). destruct (kicks _ _ _ _ _) as [k| |] eqn:K; cbn [bind] in E; try discriminate. apply kicks_ok in K. injection E as <- <- <-. exists v. rewrite M in V. unfold put_at. cbn [atl t_at t_cms turn n1u n1d n5u n5d f1u f1d f5u f5d horiz up a_on c_on]. rewrite AT, ?W, ?C, Rmult_1_l. repeat (split; [first [assumption|reflexivity]|]). first [assumption|reflexivity].
  - rename W into C. destruct (a_on s) eqn:A; rewrite C in *; cbn [andb negb].
    + destruct (m12 _ _ _ _ _) as [m| |] eqn:M; cbn [bind] in E; try discriminate. apply m12_ok in M. destruct (v1_of g m) as [v| |] eqn:V; cbn [bind] in E; try discriminate. apply v1_ok in V. destruct (wr _ _ _ _ _) as [t| |] eqn:WW; cbn [bind] in E; try discriminate. destruct (wr_ok _ _ _ _ _ _ WW) as (N & W1 & W2 & W3 & W4). injection E as <- <- <-. exists v. rewrite M in V. unfold put_cms. cbn [atl t_at t_cms turn n1u n1d n5u n5d f1u f1d f5u f5d horiz up a_on c_on]. rewrite AT, ?A, ?C. repeat (split; [first [assumption|reflexivity]|]). first [assumption|reflexivity].
    + destruct (m12 _ _ _ _ _) as [m| |] eqn:M; cbn [bind] in E; try discriminate. apply m12_ok in M. destruct (v1_of g m) as [v| |] eqn:V; cbn [bind] in E; try discriminate. apply v1_ok in V. destruct (wr _ _ _ _ _) as [t| |] eqn:WW; cbn [bind] in E; try discriminate. destruct (wr_ok _ _ _ _ _ _ WW) as (N & W1 & W2 & W3 & W4). destruct (kicks _ _ _ _ _) as [k| |] eqn:K; cbn [bind] in E; try discriminate. apply kicks_ok in K. rewrite ramp_eq in K. injection E as <- <- <-. exists v. rewrite M in V. unfold put_cms. cbn [atl t_at t_cms turn n1u n1d n5u n5d f1u f1d f5u f5d horiz up a_on c_on]. rewrite AT, ?A, ?C. repeat (split; [first [assumption|reflexivity]|]). first [assumption|reflexivity].
Qed.
Print Assumptions C423_before.
(* C424: behind a point: minus the voltage of the partner before it, times the matrix element between the two *)
Theorem C424_behind : forall g n1 s phi l s' phi' l', up s = false -> horiz s = negb (atl s) -> (turn s < g_nft g + g_ft g)%Z -> (if atl s then a_on s = true else a_on s = false /\ c_on s = true) -> process g n1 s phi l = Ok (s', phi', l') ->
  let n := if atl s then n1d s else n5d s in let tab := if atl s then t_at s else t_cms s in let h := horiz s in
  let mu := (if atl s then sqrt (phase g h n1 * phase g h n1) * 2 * PI else dmu g h n1 (g_ip5 g)) + t_mu tab n in
  let shift := if (a_on s && negb (c_on s) && Z.leb (g_nft g) (turn s) && g_fon g)%bool then IZR (turn s + 1 - g_nft g) / IZR (g_ft g) * (PI / 2) else phi in
  (1 <= n <= 4)%nat /\ beta g h n1 <> 0 /\ Forall2 (kicked h (g_energy g) (g_omega g) (g_c g) shift (- (sqrt (beta g h (t_el tab n) / beta g h n1) * cos mu * t_v tab n))) l l' /\ s' = s.
Proof.
  intros g n1 s phi l s' phi' l' U H T W E. cbv zeta. unfold process in E. cbv zeta in E. rewrite U, H, (proj2 (Z.ltb_lt _ _) T) in E. rewrite H. destruct (atl s) eqn:AT; cbn [negb] in *.
  - rewrite W in *. cbn [andb]. destruct (c_on s) eqn:C; cbn [negb andb] in *.
    + destruct (rd (t_mu _) _) as [a| |] eqn:R1; cbn [bind] in E; try discriminate. apply rd_ok in R1 as (N & ->). destruct (rd (t_el _) _) as [e| |] eqn:R2; cbn [bind] in E; try discriminate. apply rd_ok in R2 as (_ & ->). destruct (m22 _ _ _ _ _) as [m| |] eqn:M; cbn [bind] in E; try discriminate. apply m22_ok in M as (B & ->). destruct (rd (t_v _) _) as [v| |] eqn:R3; cbn [bind] in E; try discriminate. apply rd_ok in R3 as (_ & ->). destruct (kicks _ _ _ _ _) as [k| |] eqn:K; cbn [bind] in E; try discriminate. apply kicks_ok in K. injection E as <- <- <-. split; [exact N|]. split; [exact B|]. split; [|reflexivity]. revert K. unfold mu0. match goal with |- Forall2 (kicked _ _ _ _ _ ?a) _ _ -> Forall2 (kicked _ _ _ _ _ ?b) _ _ => replace b with a by ring end. auto.
    + destruct (rd (t_mu _) _) as [a| |] eqn:R1; cbn [bind] in E; try discriminate. apply rd_ok in R1 as (N & ->). destruct (rd (t_el _) _) as [e| |] eqn:R2; cbn [bind] in E; try discriminate. apply rd_ok in R2 as (_ & ->). destruct (m22 _ _ _ _ _) as [m| |] eqn:M; cbn [bind] in E; try discriminate. apply m22_ok in M as (B & ->). destruct (rd (t_v _) _) as [v| |] eqn:R3; cbn [bind] in E; try discriminate. apply rd_ok in R3 as (_ & ->). destruct (kicks _ _ _ _ _) as [k| |] eqn:K; cbn [bind] in E; try discriminate. apply kicks_ok in K. injection E as <- <- <-. split; [exact N|]. split; [exact B|]. split; [|reflexivity]. revert K. unfold mu0. match goal with |- Forall2 (kicked _ _ _ _ ?p ?a) _ _ -> Forall2 (kicked _ _ _ _ ?q ?b) _ _ => replace b with a by ring; replace q with p; [auto|] end. destruct (_ && _)%bool; [|reflexivity]. replace (turn s - (g_nft g - 1))%Z with (turn s + 1 - g_nft g)%Z by lia. unfold Rdiv. lra.
  - destruct W as (A & C). rewrite A, C in *. cbn [andb]. destruct (rd (t_mu _) _) as [a| |] eqn:R1; cbn [bind] in E; try discriminate. apply rd_ok in R1 as (N & ->). destruct (rd (t_el _) _) as [e| |] eqn:R2; cbn [bind] in E; try discriminate. apply rd_ok in R2 as (_ & ->). destruct (m22 _ _ _ _ _) as [m| |] eqn:M; cbn [bind] in E; try discriminate. apply m22_ok in M as (B & ->). destruct (rd (t_v _) _) as [v| |] eqn:R3; cbn [bind] in E; try discriminate. apply rd_ok in R3 as (_ & ->). destruct (kicks _ _ _ _ _) as [k| |] eqn:K; cbn [bind] in E; try discriminate. apply kicks_ok in K. injection E as <- <- <-. split; [exact N|]. split; [exact B|]. split; [|reflexivity]. revert K. match goal with |- Forall2 (kicked _ _ _ _ _ ?a) _ _ -> Forall2 (kicked _ _ _ _ _ ?b) _ _ => replace b with a by ring end. auto.
Qed.
Print Assumptions C424_behind.
(* C425: strength over the turns of a failure: full, then down to zero on the last *)
Theorem C425_strength : forall nft ft t, (0 < ft)%Z -> (t < nft + ft)%Z -> 0 <= strength true nft ft t <= 1 /\ ((t < nft)%Z -> strength true nft ft t = 1) /\ (t = (nft + ft - 1)%Z -> strength true nft ft t = 0) /\
  ((nft <= t)%Z -> strength true nft ft t < 1 /\ strength true nft ft (t + 1) = strength true nft ft t - 1 / IZR ft) /\ strength false nft ft t = 1.
Proof.
  intros nft ft t F T. unfold strength. rewrite !andb_true_r, !andb_false_r. pose proof (IZR_lt _ _ F) as F'. cbn in F'. assert (I : 0 < / IZR ft) by now apply Rinv_0_lt_compat. assert (II : IZR ft * / IZR ft = 1) by (apply Rinv_r; lra).
  destruct (Z.leb_spec nft t) as [L|L].
  - assert (A : 1 <= IZR (t + 1 - nft) <= IZR ft) by (split; apply IZR_le; lia). unfold Rdiv. assert (B : 0 < IZR (t + 1 - nft) * / IZR ft <= 1) by (split; [apply Rmult_lt_0_compat; lra|rewrite <- II; apply Rmult_le_compat_r; lra]). split; [lra|]. split; [lia|]. split; [intros ->; replace (nft + ft - 1 + 1 - nft)%Z with ft by lia; lra|]. split; [|reflexivity]. intros _. split; [lra|]. rewrite (proj2 (Z.leb_le nft (t + 1))) by lia. replace (t + 1 + 1 - nft)%Z with (t + 1 - nft + 1)%Z by lia. rewrite (plus_IZR (t + 1 - nft) 1). ring.
  - split; [lra|]. split; [reflexivity|]. split; [lia|]. split; [lia|reflexivity].
Qed.
Print Assumptions C425_strength.
(* C426: afterwards no cavity works, also those that did not fail *)
Theorem C426_after_refuted : forall g n1 s phi l, (g_nft g + g_ft g <= turn s)%Z -> process g n1 s phi l = Ok (s, phi, l).
Proof.
  intros g n1 s phi l T. unfold process. cbv zeta. rewrite (proj2 (Z.ltb_ge _ _) T). cbn [negb]. destruct (a_on s), (c_on s), (atl s); reflexivity.
Qed.
Print Assumptions C426_after_refuted.
(* C427: with the first point only, the phase asked for is lost at the first cavity *)
Theorem C427_phase_refuted : forall g n1 s phi l s' phi' l', a_on s = true -> c_on s = false -> atl s = true -> (turn s < g_nft g + g_ft g)%Z -> process g n1 s phi l = Ok (s', phi', l') -> phi' = 0.
Proof.
  intros g n1 s phi l s' phi' l' A C AT T E. unfold process in E. cbv zeta in E. rewrite A, C, AT, (proj2 (Z.ltb_lt _ _) T) in E. cbn [negb] in E. destruct (up s).
  - destruct (m12 _ _ _ _ _); cbn [bind] in E; try discriminate. destruct (v1_of _ _); cbn [bind] in E; try discriminate. destruct (wr _ _ _ _ _); cbn [bind] in E; try discriminate. destruct (kicks _ _ _ _ _); cbn [bind] in E; try discriminate. now injection E as _ <- _.
  - destruct (rd (t_mu _) _); cbn [bind] in E; try discriminate. destruct (rd (t_el _) _); cbn [bind] in E; try discriminate. destruct (m22 _ _ _ _ _); cbn [bind] in E; try discriminate. destruct (rd (t_v _) _); cbn [bind] in E; try discriminate. destruct (kicks _ _ _ _ _); cbn [bind] in E; try discriminate. now injection E as _ <- _.
Qed.
Print Assumptions C427_phase_refuted.
Theorem C427_phase_kept : forall g n1 s phi l s' phi' l', c_on s = true -> process g n1 s phi l = Ok (s', phi', l') -> phi' = phi.
Proof.
  intros g n1 s phi l s' phi' l' C E. unfold process in E. cbv zeta in E. rewrite C in E. destruct (a_on s), (atl s); cbn [negb] in E; try (destruct (Z.ltb _ _); cbn [negb] in E); destruct (up s); cbn [bind] in E;
  repeat match type of E with bind ?x _ = _ => destruct x; cbn [bind] in E; try discriminate | (if horiz s then _ else _) = _ => destruct (horiz s) end; injection E as _ <- _; reflexivity.
Qed.
Print Assumptions C427_phase_kept.
Theorem C427_off : forall g n1 s phi l, (a_on s = false /\ c_on s = false \/ a_on s = true /\ c_on s = false /\ atl s = false \/ a_on s = false /\ c_on s = true /\ atl s = true) -> process g n1 s phi l = Ok (s, phi, l).
Proof. intros g n1 s phi l [(A & C)|[(A & C & T)|(A & C & T)]]; unfold process; cbv zeta; rewrite A, C, ?T; reflexivity. Qed.
Print Assumptions C427_off.
(* a quarter of a turn of phase to the point: the cavity kicks *)
Example C423_ex : let g := mkSet 1 1 1 1 10 3 true (fun _ => 0) (fun e => if Z.eqb e 5 then 1 / 4 else 0) (fun _ => 1) (fun _ => 1) 5 6 in
  let s := set_component 25000 (init true true) in exists s' phi' l', process g 4 s 0 [mkP (V6 0 0 0 0 1 0) 1%Z] = Ok (s', phi', l') /\ up s = true /\ atl s = true /\ (turn s < g_nft g + g_ft g)%Z.
Proof.
  cbv zeta. unfold set_component. rewrite (proj2 (proj2 (proj2 (proj2 (C420_regions 25000))))) by lra. cbn. unfold process, m12, v1_of, kicks. cbn.
  match goal with |- context [Rltb ?a 0] => rewrite (Rltb_false a 0) by lra end. cbn [bind]. unfold dmu. cbn. replace (sqrt ((1 / 4 - 0) * (1 / 4 - 0)) * 2 * PI) with (PI / 2) by (rewrite sqrt_square by lra; field). rewrite sin_PI2, Rmult_1_r. replace (1 * 1) with 1 by ring. rewrite sqrt_1. rewrite (Reqb_false (1 * 1 * 4) 0) by lra. cbn [bind]. unfold wr. cbn. rewrite (Reqb_false 1 0) by lra. cbn. eexists _, _, _. split; [reflexivity|]. repeat split.
Qed.
