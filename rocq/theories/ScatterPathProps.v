(* Scattering of protons: free paths and random numbers.  Properties C322-C323. *)
From Verif Require Import RBase Bunch Material MaterialSpec MaterialProps Scatter ScatterSpec ScatterProps ScatterLoopProps ScatterMediumProps.
From Coq Require Import Reals Lra Lia List ZArith.
Import ListNotations.
Local Open Scope R_scope.

(** ** C322: a proton goes further than x without meeting anything with the probability
    exp(-x / lambda): this is so for the random numbers below it *)
Theorem C322_free_path o c K T a E inside w l x : mlam (w_mat w) = Val l -> 0 < l -> 0 < un o (w_k w) ->
  exists y, ph_path (proton o c K T a E inside) w = Ok (mkPS (w_mat w) (S (w_k w)) (w_model w) (w_sc w) (w_fc w), y) /\
    (x < y <-> un o (w_k w) < exp (- x / l)).
Proof.
  intros M L U. cbn [ph_path proton]. unfold path_length. rewrite M. rewrite Rleb_false by auto. cbn [bind]. eexists. split; [reflexivity|].
  set (u := un o (w_k w)) in *. split; intros H.
  - rewrite <- (exp_ln u) by auto. apply exp_increasing. apply (Rmult_lt_reg_r l); [auto|]. replace (- x / l * l) with (- x) by (field; lra). lra.
  - apply ln_increasing in H; [|auto]. rewrite ln_exp in H. apply (Rmult_lt_compat_r l) in H; [|auto]. replace (- x / l * l) with (- x) in H by (field; lra). lra.
Qed.
Print Assumptions C322_free_path.
(* a material without a mean free path is not silently used *)
Theorem C322_unset o c K T a E inside w :
  (mlam (w_mat w) = Unset -> ph_path (proton o c K T a E inside) w = UB) /\
  (mlam (w_mat w) = NotFinite -> ph_path (proton o c K T a E inside) w = Throw NotNumber).
Proof. split; intros H; cbn [ph_path proton]; unfold path_length; now rewrite H. Qed.
Print Assumptions C322_unset.
Example C322_example : exists o w l, mlam (w_mat w) = Val l /\ 0 < l /\ 0 < un o (w_k w).
Proof.
  exists (mkO (fun _ => 1 / 2) (fun _ => 0) (fun _ => 0)), (mkPS cu 0 new_model None None).
  unfold cu, new_material, update. cbn [mlam w_mat un w_k mST mSR mrho mA].
  assert (D : 0 < (1.232 + 0.00153) * 8960 * / 10 ^ 28 * (6022 * 10 ^ 20)) by (repeat apply Rmult_lt_0_compat; try lra).
  rewrite Reqb_false by lra. eexists. split; [reflexivity|]. split; [apply Rdiv_lt_0_compat; lra|lra].
Qed.

(** ** C323: a proton uses the random numbers one after the other: what happens to it depends
    on those between the first and the last position only, so the next proton gets
    fresh ones *)
Definition agree (o o' : oracle) (i j : nat) : Prop :=
  forall n, (i <= n < j)%nat -> un o n = un o' n /\ nrm o n = nrm o' n /\ lnd o n = lnd o' n.
Lemma agree_sub o o' i j a b : agree o o' i j -> (i <= a)%nat -> (b <= j)%nat -> agree o o' a b.
Proof. intros H A B n N. apply H. lia. Qed.
Lemma agree_un o o' i j n : agree o o' i j -> (i <= n < j)%nat -> un o' n = un o n.
Proof. intros H N. symmetry. now apply H. Qed.
Lemma agree_nrm o o' i j n : agree o o' i j -> (i <= n < j)%nat -> nrm o' n = nrm o n.
Proof. intros H N. symmetry. now apply H. Qed.
Lemma agree_lnd o o' i j n : agree o o' i j -> (i <= n < j)%nat -> lnd o' n = lnd o n.
Proof. intros H N. symmetry. now apply H. Qed.
Lemma nucleus_local f m o k k' a : nucleus f m o k = Ok (k', a) -> (k <= k')%nat /\ forall o', agree o o' k k' -> nucleus f m o' k = Ok (k', a).
Proof.
  unfold nucleus. destruct (mmix m).
  - destruct (f m (un o k)) eqn:F; try discriminate. cbn [bind]. intros H. injection H as <- <-. split; [lia|]. intros o' A.
    rewrite (agree_un _ _ _ _ k A) by lia. now rewrite F.
  - destruct (f m 0); try discriminate. cbn [bind]. intros H. injection H as <- <-. split; [lia|]. reflexivity.
Qed.
Lemma scatter_local o T q k p E k' r : scatter o T q k p E = Ok (k', r) -> (k <= k')%nat /\ forall o', agree o o' k k' -> scatter o' T q k p E = Ok (k', r).
Proof.
  destruct q; cbn [scatter]; intros H.
  all: try (destruct (nucleus _ m o k) as [[k1 a]| |] eqn:N; try discriminate H; cbn [bind fst snd] in H; apply nucleus_local in N; destruct N as (L & N)).
  all: hit; injection H as <- <-; (split; [lia|]); intros o' A.
  all: try (rewrite (N o') by (eapply agree_sub; [exact A|lia|lia]); cbn [bind fst snd]).
  all: rewrite ?(agree_un _ _ _ _ k A), ?(agree_un _ _ _ _ (S k) A), ?(agree_un _ _ _ _ (S (S k)) A) by lia.
  all: try rewrite !(agree_un _ _ _ _ k1 A) by lia; try rewrite !(agree_un _ _ _ _ (S k1) A) by lia.
  all: repeat match goal with E1 : ?e = false |- context [?e] => rewrite E1 end.
  all: cbn [bind]; repeat (match goal with |- context [bind ?e _] => match goal with E1 : e = Ok _ |- _ => rewrite E1 end end; match goal with |- context [bind (Ok ?x) ?f] => change (bind (Ok x) f) with (f x) end; cbv beta); reflexivity.
Qed.

Lemma prepare_kept o K T a m s k p E s' k' r : particle_scatter o K T a m s k p E = Ok (s', k', r) ->
  (k <= k')%nat /\ forall o', agree o o' k k' -> particle_scatter o' K T a m s k p E = Ok (s', k', r).
Proof.
  unfold particle_scatter. destruct (prepare K T a m E s) as [s1| |]; cbn [bind]; try discriminate. destruct (sm_xs s1) as [|tot xs]; [discriminate|].
  intros H. destruct (vget (sm_procs s1) (choose xs (tot * un o k) 0)) as [q| |] eqn:Q; cbn [bind] in H; try discriminate.
  destruct (scatter o T q (S k) p E) as [[k1 r1]| |] eqn:SC; cbn [bind] in H; try discriminate. injection H as <- <- <-.
  apply scatter_local in SC. destruct SC as (L & SC). cbn [fst snd]. split; [lia|]. intros o' A. rewrite (agree_un _ _ _ _ k A) by lia. rewrite Q. cbn [bind].
  rewrite SC by (eapply agree_sub; [exact A|lia|lia]). reflexivity.
Qed.
Section Local.
  Variables (c : consts) (K : kind) (T : tables) (a : nat) (E : R) (inside : R -> R -> R -> bool).
  Let ph o := proton o c K T a E inside.
  Lemma path_local o w w' y : ph_path (ph o) w = Ok (w', y) -> (w_k w <= w_k w')%nat /\ forall o', agree o o' (w_k w) (w_k w') -> ph_path (ph o') w = Ok (w', y).
  Proof.
    cbn [ph ph_path proton]. intros H. destruct (path_length _ _) as [l| |] eqn:P; try discriminate. injection H as <- <-. cbn [with_k w_k]. split; [lia|].
    intros o' A. rewrite (agree_un _ _ _ _ (w_k w) A) by lia. now rewrite P.
  Qed.
  Lemma loss_local o w p x w' q : ph_loss (ph o) w p x = Ok (w', q) -> (w_k w <= w_k w')%nat /\ forall o', agree o o' (w_k w) (w_k w') -> ph_loss (ph o') w p x = Ok (w', q).
  Proof.
    cbn [ph ph_loss proton]. destruct (sm_mode (w_model w)).
    - intros H. destruct (loss_simple _ _ _ _) as [r| |] eqn:P; try discriminate. injection H as <- <-. cbn [w_k]. split; [lia|]. reflexivity.
    - unfold loss_full. intros H. match type of H with context [bind (match w_fc w with _ => _ end) _] => destruct (match w_fc w with Some (b, f) => if Nat.eqb a b then Ok f else setup_full c (w_mat w) | None => setup_full c (w_mat w) end) as [f| |] eqn:F end; cbn [bind] in *; try discriminate.
      destruct (Reqb E 0) eqn:E0; [discriminate|]. destruct (delta_full c f x _) as [xd| |] eqn:D; cbn [bind fst snd] in *; try discriminate. injection H as <- <-. cbn [w_k]. split; [lia|].
      intros o' A. rewrite (agree_lnd _ _ _ _ (w_k w) A) by lia. reflexivity.
  Qed.
  Lemma strag_local o w p x E1 E2 w' q : ph_strag (ph o) w p x E1 E2 = Ok (w', q) -> (w_k w <= w_k w')%nat /\ forall o', agree o o' (w_k w) (w_k w') -> ph_strag (ph o') w p x E1 E2 = Ok (w', q).
  Proof.
    cbn [ph ph_strag proton]. unfold straggle. intros H. destruct (rad_length _ _ _) as [cX| |]; cbn [bind] in *; try discriminate. destruct (Reqb _ 0); [discriminate|].
    destruct (_ || _)%bool; [discriminate|]. cbn [bind fst snd] in *. injection H as <- <-. cbn [w_k]. split; [lia|].
    intros o' A. rewrite !(agree_nrm _ _ _ _ (w_k w) A), !(agree_nrm _ _ _ _ (S (w_k w)) A), !(agree_nrm _ _ _ _ (S (S (w_k w))) A), !(agree_nrm _ _ _ _ (S (S (S (w_k w)))) A) by lia. reflexivity.
  Qed.
  Lemma scat_local o w p E2 w' q : ph_scat (ph o) w p E2 = Ok (w', q) -> (w_k w <= w_k w')%nat /\ forall o', agree o o' (w_k w) (w_k w') -> ph_scat (ph o') w p E2 = Ok (w', q).
  Proof.
    cbn [ph ph_scat proton]. intros H. destruct (particle_scatter _ _ _ _ _ _ _ _ _) as [[[s1 k1] r]| |] eqn:P; try discriminate. injection H as <- <-. apply prepare_kept in P.
    destruct P as (L & P). cbn [w_k fst snd]. split; [exact L|]. intros o' A. now rewrite (P o' A).
  Qed.
  Lemma turn_local o E0 d d' out : turn (ph o) E0 d = Ok (d', out) ->
    (w_k (d_x d) <= w_k (d_x d'))%nat /\ forall o', agree o o' (w_k (d_x d)) (w_k (d_x d')) -> turn (ph o') E0 d = Ok (d', out).
  Proof.
    unfold turn. intros H. destruct (ph_path (ph o) (d_x d)) as [[x1 xl]| |] eqn:PP; cbn [bind fst snd] in *; try discriminate. apply path_local in PP. destruct PP as (L1 & PP).
    destruct (Rltb _ 0) eqn:C0; [discriminate|].
    destruct (ph_loss _ _ _ _) as [[x2 p2]| |] eqn:PL; cbn [bind fst snd] in *; try discriminate. apply loss_local in PL. destruct PL as (L2 & PL).
    destruct (Rleb _ 1) eqn:C1.
    { injection H as <- <-. cbn [d_x]. split; [lia|]. intros o' A. rewrite (PP o') by (eapply agree_sub; [exact A|lia|lia]). cbn [bind fst snd].
      rewrite (PL o') by (eapply agree_sub; [exact A|lia|lia]). cbn [bind fst snd]. now rewrite C1. }
    destruct (ph_strag _ _ _ _ _ _) as [[x3 p3]| |] eqn:PS; cbn [bind fst snd] in *; try discriminate. apply strag_local in PS. destruct PS as (L3 & PS).
    assert (Q : forall o', agree o o' (w_k (d_x d)) (w_k x3) -> ph_path (ph o') (d_x d) = Ok (x1, xl) /\ ph_loss (ph o') x1
        (set_xy (vx (pv (d_p d)) + (if Rltb xl (d_go d) then xl else d_go d) * vxp (pv (d_p d))) (vy (pv (d_p d)) + (if Rltb xl (d_go d) then xl else d_go d) * vyp (pv (d_p d))) (d_p d))
        (if Rltb xl (d_go d) then xl else d_go d) = Ok (x2, p2) /\
        ph_strag (ph o') x2 p2 (if Rltb xl (d_go d) then xl else d_go d) (E0 * (1 + vdp (pv (d_p d)))) (E0 * (1 + vdp (pv p2))) = Ok (x3, p3)).
    { intros o' A. repeat split; [apply PP|apply PL|apply PS]; (eapply agree_sub; [exact A|lia|lia]). }
    change (ph_inside (ph o)) with inside in *.
    destruct (Rltb _ (E0 / 100)) eqn:C2.
    { injection H as <- <-. cbn [d_x]. split; [lia|]. intros o' A. destruct (Q o' A) as (-> & Q2 & Q3). cbn [bind fst snd]. rewrite Q2. cbn [bind fst snd]. rewrite C1, Q3. cbn [bind fst snd]. now rewrite C2. }
    destruct (_ && _)%bool eqn:C3.
    { injection H as <- <-. cbn [d_x]. split; [lia|]. intros o' A. destruct (Q o' A) as (-> & Q2 & Q3). cbn [bind fst snd]. rewrite Q2. cbn [bind fst snd]. rewrite C1, Q3. cbn [bind fst snd].
      change (ph_inside (ph o')) with inside. now rewrite C2, C3. }
    destruct (Rltb (d_go d) xl) eqn:C4.
    { injection H as <- <-. cbn [d_x]. split; [lia|]. intros o' A. destruct (Q o' A) as (-> & Q2 & Q3). cbn [bind fst snd]. rewrite Q2. cbn [bind fst snd]. rewrite C1, Q3. cbn [bind fst snd].
      change (ph_inside (ph o')) with inside. now rewrite C2, C3, C4. }
    match type of H with bind ?e _ = _ => destruct e as [[x4 [p4 b]]| |] eqn:SC end; cbn [bind fst snd] in *; try discriminate.
    assert (L4 : (w_k x3 <= w_k x4)%nat /\ forall o', agree o o' (w_k x3) (w_k x4) -> (if Rltb xl (d_go d) then ph_scat (ph o') x3 p3 (E0 * (1 + vdp (pv p2))) else Ok (x3, (p3, true))) = Ok (x4, (p4, b))).
    { destruct (Rltb xl (d_go d)); [now apply scat_local|]. injection SC as <- <- <-. split; [lia|reflexivity]. }
    destruct L4 as (L4 & SQ).
    assert (X4 : d_x d' = x4). { cbv zeta in H. destruct (negb b); [now inversion H|]. destruct (_ || _)%bool; now inversion H. }
    rewrite X4. split; [lia|]. intros o' A. assert (A1 : agree o o' (w_k (d_x d)) (w_k x3)) by (eapply agree_sub; [exact A|lia|lia]).
    destruct (Q o' A1) as (-> & Q2 & Q3). cbn [bind fst snd]. rewrite Q2. cbn [bind fst snd]. rewrite C1, Q3. cbn [bind fst snd].
    change (ph_inside (ph o')) with inside. rewrite C2, C3, C4. assert (A2 : agree o o' (w_k x3) (w_k x4)) by (eapply agree_sub; [exact A|lia|lia]).
    match goal with |- bind ?e _ = _ => assert (ES : e = Ok (x4, (p4, b))) by exact (SQ o' A2); rewrite ES end. cbn [bind fst snd]. exact H.
  Qed.
  Lemma run_local o E0 n : forall d r out, run (ph o) E0 n d = Some (Ok (r, out)) ->
    (w_k (d_x d) <= w_k (d_x r))%nat /\ forall o', agree o o' (w_k (d_x d)) (w_k (d_x r)) -> run (ph o') E0 n d = Some (Ok (r, out)).
  Proof.
    induction n as [|n IH]; intros d r out; cbn [run]; (destruct (negb _); [intros H; injection H as <- <-; split; [lia|reflexivity]|]); [discriminate|].
    destruct (turn (ph o) E0 d) as [[d' [o1|]]| |] eqn:TU; try discriminate; apply turn_local in TU; destruct TU as (L & TU); intros H.
    - injection H as <- <-. split; [exact L|]. intros o' A. now rewrite (TU o' A).
    - apply IH in H. destruct H as (L2 & H). split; [lia|]. intros o' A. rewrite (TU o') by (eapply agree_sub; [exact A|lia|lia]). apply H. eapply agree_sub; [exact A|lia|lia].
  Qed.
End Local.
Theorem C323_fresh o c K T a E inside P0 int_s s p w n r out :
  do_scatter (proton o c K T a E inside) P0 int_s s p w n = Some (Ok (r, out)) ->
  (w_k w <= w_k (d_x r))%nat /\
  forall o', agree o o' (w_k w) (w_k (d_x r)) -> do_scatter (proton o' c K T a E inside) P0 int_s s p w n = Some (Ok (r, out)).
Proof. intros H. apply run_local in H. exact H. Qed.
Print Assumptions C323_fresh.
(* a proton going through half a metre of copper *)
Example C323_example : exists o w r, do_scatter (proton o k0 SixTrack T0 0 7000 (fun _ _ _ => false)) 7000 0 0.5 (pr 0 0) w 1 = Some (Ok (r, Survived)) /\ (w_k w <= w_k (d_x r))%nat.
Proof. destruct C320_example as (o & w & r & H & _). exists o, w, r. split; [exact H|]. exact (proj1 (C323_fresh _ _ _ _ _ _ _ _ _ _ _ _ _ _ _ H)). Qed.

(** ** the parts in a collimator: C302, C306, C316 and C317 for the medium a proton goes through *)
Theorem C302_in_collimator o c K T a E inside w p x v : sm_mode (w_model w) = Simple -> E <> 0 -> get_extra dEdx_name (w_mat w) = Ok (w_mat w, v) ->
  exists q, ph_loss (proton o c K T a E inside) w p x = Ok (w, q) /\ same_place p q /\ vxp (pv q) = vxp (pv p) /\ vyp (pv q) = vyp (pv p) /\ energy E q = energy E p - x * v.
Proof.
  intros M NE G. cbn [ph_loss proton]. rewrite M. assert (L : exists q, loss_simple (w_mat w) p x E = Ok (w_mat w, q)).
  { unfold loss_simple. rewrite (Reqb_false _ _ NE), G. cbn [bind fst snd]. eauto. }
  destruct L as (q & L). rewrite L. cbn [bind fst snd]. exists q. split; [now destruct w|]. apply (C302_given _ _ _ _ _ _ _ G L).
Qed.
Print Assumptions C302_in_collimator.
Theorem C306_in_collimator o c K T a E inside mats h w p E2 w' r : after o K T mats h (w_model w) -> mats a = w_mat w ->
  ph_scat (proton o c K T a E inside) w p E2 = Ok (w', r) ->
  after o K T mats (h ++ [(a, E2)]) (w_model w') /\ w_mat w' = w_mat w /\ w_sc w' = w_sc w /\ w_fc w' = w_fc w /\
  exists tot xs q, sm_xs (w_model w') = tot :: xs /\ nth_error (sm_procs (w_model w')) (choose xs (tot * un o (w_k w)) 0) = Some q /\
    scatter o T q (S (w_k w)) p E2 = Ok (w_k w', r).
Proof.
  intros A M H. cbn [ph_scat proton] in H. rewrite <- M in H. destruct (particle_scatter o K T a (mats a) (w_model w) (w_k w) p E2) as [[[s1 k1] r1]| |] eqn:P; try discriminate.
  cbn [bind fst snd] in H. injection H as <- <-. cbn [w_model w_mat w_sc w_fc w_k]. split; [exact (after_call _ _ _ _ _ _ _ _ _ _ _ _ _ A P)|]. repeat split; [exact M|].
  destruct (C306_acts _ _ _ _ _ _ _ _ _ _ _ _ _ A P) as (tot & xs & i & q & X & _ & -> & N & S). exists tot, xs, q. auto.
Qed.
Print Assumptions C306_in_collimator.
Theorem C316_in_collimator o c K T a E inside w p x E1 E2 : (forall b X, w_sc w = Some (b, X) -> a <> b) -> 0 < x -> 0 < mX0 (w_mat w) -> 0 < mrho (w_mat w) -> 0 < E1 + E2 ->
  exists q, ph_strag (proton o c K T a E inside) w p x E1 E2 = Ok (mkPS (w_mat w) (4 + w_k w) (w_model w) (Some (a, 10 * mX0 (w_mat w) / mrho (w_mat w))) (w_fc w), q) /\
    straggle o a (w_mat w) None (w_k w) p x E1 E2 = Ok (Some (a, 10 * mX0 (w_mat w) / mrho (w_mat w)), (4 + w_k w)%nat, q).
Proof.
  intros N PX P0 PR PE. destruct (C316_spread a (w_mat w) p x E1 E2 PX P0 PR PE) as (ca & cb & cc & cd & H & _). destruct (H o (w_k w)) as (q & S & _). exists q. split; [|exact S].
  cbn [ph_strag proton]. assert (X : straggle o a (w_mat w) (w_sc w) (w_k w) p x E1 E2 = straggle o a (w_mat w) None (w_k w) p x E1 E2).
  { unfold straggle, rad_length. destruct (w_sc w) as [[b X]|]; [|reflexivity]. assert (B : Nat.eqb a b = false) by (apply PeanoNat.Nat.eqb_neq; eauto). now rewrite B. }
  rewrite X, S. reflexivity.
Qed.
Print Assumptions C316_in_collimator.
(* with the address of the cache whatever the material is *)
Theorem C317_in_collimator o c K T a E inside w m2 X p x E1 E2 : w_sc w = Some (a, X) ->
  match ph_strag (proton o c K T a E inside) w p x E1 E2, ph_strag (proton o c K T a E inside) (mkPS m2 (w_k w) (w_model w) (w_sc w) (w_fc w)) p x E1 E2 with
  | Ok (_, q), Ok (_, q2) => q = q2 | Throw e, Throw e2 => e = e2 | UB, UB => True | _, _ => False end.
Proof.
  intros S. cbn [ph_strag proton w_mat w_sc w_k w_model w_fc]. rewrite S. unfold straggle, rad_length. rewrite PeanoNat.Nat.eqb_refl. cbn [bind fst snd].
  destruct (Reqb X 0); [reflexivity|]. destruct (_ || _)%bool; reflexivity.
Qed.
Print Assumptions C317_in_collimator.
