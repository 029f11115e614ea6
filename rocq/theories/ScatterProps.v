(* Scattering of protons: energy loss, the choice of the process, the kinematics.
   Properties C301-C310. *)
From Verif Require Import RBase Bunch Material MaterialSpec MaterialProps Scatter ScatterSpec.
From Coq Require Import Reals Lra Lia List ZArith.
Import ListNotations.
Local Open Scope R_scope.

Ltac hit := repeat match goal with
  | H : bind ?e _ = Ok _ |- _ => let E := fresh "E" in destruct e eqn:E; cbn [bind] in H; [|discriminate H|discriminate H]
  | H : (if ?b then Throw _ else _) = Ok _ |- _ => let E := fresh "B" in destruct b eqn:E; [discriminate H|]
  end.
Lemma set_dp6_same p d : vdp (pv p) = d -> set_dp6 d p = p.
Proof. destruct p as [[]]; cbn. now intros <-. Qed.

(** ** C301: with the simple energy loss a proton loses the energy dE/dx times the way.
    Refuted: the value is looked up under a name which no code ever sets, so nothing
    is lost, whatever the dE/dx of the material is *)
Theorem C301_refuted m p x E : E <> 0 -> have_extra dEdx_name m = Ok false ->
  exists m', loss_simple m p x E = Ok (m', p) /\ mdE m' = mdE m /\ have_extra dEdx_name m' = Ok true.
Proof.
  intros NE H. unfold have_extra in H. destruct (mextra m) as [e|] eqn:X; [|discriminate].
  destruct (assoc dEdx_name e) eqn:A; [discriminate|]. unfold loss_simple. rewrite (Reqb_false _ _ NE).
  unfold get_extra. rewrite X, A. cbn [bind fst snd]. eexists. split; [|split].
  - rewrite set_dp6_same; [reflexivity|]. field. auto.
  - reflexivity.
  - cbn [have_extra with_extra mextra]. clear. induction e as [|[k v] e IH]; cbn [put assoc].
    + assert (S : str_eqb dEdx_name dEdx_name = true) by reflexivity. now rewrite S.
    + destruct (str_eqb dEdx_name k) eqn:K; cbn [assoc]; rewrite K; auto.
Qed.
Print Assumptions C301_refuted.
Theorem C301_refuted_new a st si sr de x0 rho z p x E : E <> 0 ->
  exists m', loss_simple (new_material a st si sr de x0 rho z) p x E = Ok (m', p) /\ mdE m' = de.
Proof. intros NE. destruct (C301_refuted (new_material a st si sr de x0 rho z) p x E NE) as (m' & L & D & _); [reflexivity|]. eauto. Qed.
Print Assumptions C301_refuted_new.
Definition cu : material := new_material 63.546 1.232 0.782 0.00153 1.403 12.86 8960 29.
Definition pr (xp dp : R) : particle := mkP (V6 0.001 xp 0 0 0 dp) 7%Z.
Example C301_example : exists m', loss_simple cu (pr 0 0) 0.6 7000 = Ok (m', pr 0 0) /\ mdE m' = 1.403.
Proof. apply C301_refuted_new. lra. Qed.

(** ** C302: a value given by the user under that name is the energy lost per metre, and
    nothing else of the proton changes *)
Theorem C302_given m p x E v m' q : get_extra dEdx_name m = Ok (m, v) -> loss_simple m p x E = Ok (m', q) ->
  m' = m /\ same_place p q /\ vxp (pv q) = vxp (pv p) /\ vyp (pv q) = vyp (pv p) /\ energy E q = energy E p - x * v.
Proof.
  intros G L. unfold loss_simple in L. destruct (Reqb_spec E 0) as [|NE]; [discriminate|]. rewrite G in L. cbn [bind fst snd] in L.
  injection L as <- <-. unfold same_place, energy. cbn. repeat split. field. auto.
Qed.
Print Assumptions C302_given.
Example C302_example : exists m, set_extra dEdx_name [0.5] cu = Ok m /\ exists q, loss_simple m (pr 0 0) 0.6 7000 = Ok (m, q) /\ energy 7000 q = 7000 - 0.3.
Proof.
  unfold set_extra. change (words dEdx_name) with [dEdx_name]. cbn [cu new_material update mextra bind set_loop put]. eexists. split; [reflexivity|].
  unfold loss_simple. rewrite Reqb_false by lra. unfold get_extra. cbn [with_extra mextra assoc].
  assert (S : str_eqb dEdx_name dEdx_name = true) by reflexivity. rewrite S. cbn [bind fst snd]. eexists. split; [reflexivity|].
  unfold energy. cbn. lra.
Qed.

(** ** the histories of a scattering model *)
Lemma prepare_of o K T a m s k p E s' k' r : particle_scatter o K T a m s k p E = Ok (s', k', r) -> prepare K T a m E s = Ok s'.
Proof.
  unfold particle_scatter. intros H. destruct (prepare K T a m E s) as [s1| |]; cbn [bind] in H; [|discriminate|discriminate].
  destruct (sm_xs s1); [discriminate|]. hit. now injection H as -> _ _.
Qed.
Definition has {A} (l : list A) := l <> [].
Definition good K T (mats : nat -> material) (h : list call) (s : smodel) : Prop :=
  (forall a, match first_energy a h with
             | Some E => exists c, configure K T (mats a) E = Ok c /\ lookup a (sm_saved s) = Some c
             | None => lookup a (sm_saved s) = None end) /\
  (match sm_old s with
   | None => h = [] /\ s = new_model
   | Some a => (exists h' E', h = h' ++ [(a, E')]) /\
       exists E c, first_energy a h = Some E /\ configure K T (mats a) E = Ok c /\ sm_xs s = fst c /\ sm_procs s = snd c /\ sm_mode s = mode_of K Full
   end).
Lemma first_snoc a h b E : first_energy a (h ++ [(b, E)]) = match first_energy a h with Some x => Some x | None => if Nat.eqb a b then Some E else None end.
Proof. induction h as [|[c F] h IH]; cbn; [reflexivity|]. destruct (Nat.eqb a c); auto. Qed.
Lemma after_good o K T mats h s : after o K T mats h s -> good K T mats h s.
Proof.
  induction 1 as [|h s a E k p s' k' r A IH P]; [split; [intros a; reflexivity|cbn; auto]|].
  apply prepare_of in P. destruct IH as (V & C). unfold prepare in P.
  assert (F : forall E1, first_energy a h = Some E1 -> first_energy a (h ++ [(a, E)]) = Some E1). { intros E1 F. now rewrite first_snoc, F. }
  destruct (sm_old s) as [b|] eqn:O.
  - destruct (Nat.eqb_spec a b) as [<-|N].
    + injection P as <-. destruct C as (_ & E1 & c & F1 & C1 & X1 & Q1 & M1). split.
      * intros a'. rewrite first_snoc. specialize (V a'). destruct (first_energy a' h) eqn:FA; [auto|]. destruct (Nat.eqb_spec a' a) as [->|]; [congruence|auto].
      * rewrite O. split; [eauto|]. exists E1, c. auto.
    + destruct C as (_ & E1 & c1 & _ & _ & _ & _ & M1). pose proof (V a) as Va. destruct (lookup a (sm_saved s)) as [[xs ps]|] eqn:L.
      * injection P as <-. destruct (first_energy a h) as [Ea|] eqn:FA; [|discriminate]. destruct Va as (c & Ca & Lc). injection Lc as <-. split.
        -- intros a'. cbn [sm_saved]. rewrite first_snoc. specialize (V a'). destruct (first_energy a' h) eqn:FB; [auto|]. destruct (Nat.eqb_spec a' a) as [->|]; [congruence|auto].
        -- cbn [sm_old sm_xs sm_procs sm_mode]. split; [eauto|]. exists Ea, (xs, ps). rewrite (F _ eq_refl). auto.
      * destruct (configure K T (mats a) E) as [c| |] eqn:CC; cbn [bind] in P; [|discriminate|discriminate]. injection P as <-.
        assert (FA : first_energy a h = None). { destruct (first_energy a h); [destruct Va as (? & ? & ?); discriminate|reflexivity]. }
        split.
        -- intros a'. cbn [sm_saved lookup]. rewrite first_snoc. specialize (V a'). destruct (Nat.eqb_spec a' a) as [->|].
           ++ rewrite FA. eauto.
           ++ destruct (first_energy a' h); auto.
        -- cbn [sm_old sm_xs sm_procs sm_mode]. split; [eauto|]. exists E, c. rewrite first_snoc, FA, Nat.eqb_refl. repeat split; auto. rewrite M1. now destruct K.
  - destruct C as (-> & ->). cbn in P. destruct (configure K T (mats a) E) as [c| |] eqn:CC; cbn [bind] in P; [|discriminate|discriminate]. injection P as <-. split.
    + intros a'. cbn. destruct (Nat.eqb_spec a' a) as [->|]; [eauto|reflexivity].
    + cbn [sm_old sm_xs sm_procs sm_mode]. split; [exists [], E; reflexivity|]. exists E, c. cbn. rewrite Nat.eqb_refl. auto.
Qed.

(** ** C303: the models of SixTrack use the simple energy loss.  Refuted: before the first
    scattering every model uses the full one *)
Theorem C303_refuted o c K T a E inside w p x : w_model w = new_model ->
  ph_loss (proton o c K T a E inside) w p x =
    (do r <- loss_full o c a (w_mat w) (w_fc w) (w_k w) p x E; Ok (mkPS (w_mat w) (snd (fst r)) (w_model w) (w_sc w) (fst (fst r)), snd r)).
Proof. intros W. cbn [ph_loss proton]. now rewrite W. Qed.
Print Assumptions C303_refuted.
Theorem C303_later o K T mats h s : after o K T mats h s -> h <> [] ->
  sm_mode s = match K with Merlin | SixTrackIoniz => Full | SixTrack | SixTrackElastic | SixTrackSD => Simple end.
Proof.
  intros A N. apply after_good in A. destruct A as (_ & C). destruct (sm_old s).
  - destruct C as (_ & E & c & _ & _ & _ & _ & M). rewrite M. now destruct K.
  - destruct C as (-> & _). now destruct N.
Qed.
Print Assumptions C303_later.

(** ** C304: the cross sections and the processes in use are those of the material, made
    for the energy of the first scattering in this material, after every sequence of
    scatterings in any materials *)
Theorem C304_in_use o K T mats h a E s : after o K T mats (h ++ [(a, E)]) s ->
  exists E1 c, first_energy a (h ++ [(a, E)]) = Some E1 /\ configure K T (mats a) E1 = Ok c /\ sm_xs s = fst c /\ sm_procs s = snd c.
Proof.
  intros A. apply after_good in A. destruct A as (_ & C). destruct (sm_old s) as [b|].
  - destruct C as ((h' & E' & H) & E1 & c & F & G & X & Q & _). apply app_inj_tail in H. destruct H as (_ & H). injection H as <- <-. exists E1, c. auto.
  - destruct C as (C & _). now destruct h.
Qed.
Print Assumptions C304_in_use.

(** ** C305: the cross sections are those for the energy of the proton.  Refuted: for the
    SixTrack model any later energy in the same material gives other ones *)
Theorem C305_refuted o T mats h a E1 E2 s c : after o SixTrack T mats (h ++ [(a, E2)]) s -> first_energy a h = Some E1 ->
  0 < E1 -> E1 <> E2 -> configure SixTrack T (mats a) E2 = Ok c -> sm_xs s <> fst c.
Proof.
  intros A F P N C2 H. destruct (C304_in_use _ _ _ _ _ _ _ _ A) as (E & c1 & F1 & C1 & X & _). rewrite first_snoc, F in F1. injection F1 as <-.
  rewrite X in H. clear - P N C1 C2 H. unfold configure in C1, C2. unfold rpow_pos in *.
  destruct (Rleb (mA (mats a)) 0) eqn:A0; [discriminate C1|]. cbn [bind] in C1, C2.
  rewrite (Rleb_false E1 0) in C1 by lra.
  destruct (Rle_dec E2 0) as [|P2]; [rewrite (Rleb_true E2 0) in C2 by lra; discriminate|]. rewrite (Rleb_false E2 0) in C2 by lra.
  cbn [bind] in C1, C2. hit. injection C1 as <-. injection C2 as <-. cbn [fst] in H. injection H as H _.
  assert (W : 0 < Rpower (mA (mats a)) 0.333) by apply exp_pos.
  apply Rmult_eq_reg_l in H; [|nra]. apply Rmult_eq_reg_l in H; [|lra].
  unfold Rpower in H. apply exp_inv in H. apply Rmult_eq_reg_l in H; [|lra]. apply ln_inv in H; lra.
Qed.
Print Assumptions C305_refuted.

(** ** C306: the process is chosen by the cross sections one after the other: the shares of
    the random number are the cross sections over the total, the rest is scattering by
    nuclei; the chosen process then acts *)
Lemma choose_shift xs : forall r i, choose xs r i = (i + choose xs r 0)%nat.
Proof.
  induction xs as [|x xs IH]; intros r i; cbn; [lia|]. destruct (Rltb (r - x) 0); [lia|]. rewrite IH, (IH _ 1%nat). lia.
Qed.
Theorem C306_choice xs : forall r, let i := choose xs r 0 in (i <= length xs)%nat /\
  (forall j, (j < i)%nat -> total (firstn (S j) xs) <= r) /\ ((i < length xs)%nat -> r < total (firstn (S i) xs)).
Proof.
  induction xs as [|x xs IH]; intros r; cbn [choose].
  - cbn. repeat split; intros; lia.
  - cbn zeta. destruct (Rltb_spec (r - x) 0) as [L|L].
    + split; [lia|]. split; [intros; lia|]. intros _. cbn. lra.
    + rewrite choose_shift. destruct (IH (r - x)) as (I1 & I2 & I3). cbn zeta in *. set (i := choose xs (r - x) 0) in *. split; [cbn; lia|]. split.
      * intros [|j] J; [cbn; lra|]. specialize (I2 j ltac:(lia)). change (total (firstn (S (S j)) (x :: xs))) with (x + total (firstn (S j) xs)). lra.
      * intros J. cbn in J. specialize (I3 ltac:(lia)). change (total (firstn (S (1 + i)) (x :: xs))) with (x + total (firstn (S i) xs)). lra.
Qed.
Print Assumptions C306_choice.
Definition five {A B} (c : list A * list B) : Prop := length (fst c) = 5%nat /\ length (snd c) = 5%nat.
Lemma configure_five K T m E c : configure K T m E = Ok c -> five c.
Proof. unfold configure. intros H. destruct K; cbn [bind] in H; hit; injection H as <-; split; reflexivity. Qed.
Theorem C306_acts o K T mats h s a E k p s' k' r : after o K T mats h s -> particle_scatter o K T a (mats a) s k p E = Ok (s', k', r) ->
  exists tot xs i q, sm_xs s' = tot :: xs /\ length xs = 4%nat /\ i = choose xs (tot * un o k) 0 /\ nth_error (sm_procs s') i = Some q /\
    scatter o T q (S k) p E = Ok (k', r).
Proof.
  intros A P. pose proof (after_call _ _ _ _ _ _ _ _ _ _ _ _ _ A P) as A'. destruct (C304_in_use _ _ _ _ _ _ _ _ A') as (E1 & c & _ & C & X & Q).
  destruct (configure_five _ _ _ _ _ C) as (L1 & L2). pose proof (prepare_of _ _ _ _ _ _ _ _ _ _ _ _ P) as PP. unfold particle_scatter in P. rewrite PP in P. cbn [bind] in P.
  rewrite X in P |- *. rewrite Q in P |- *. destruct (fst c) as [|tot xs]; [discriminate|]. unfold vget in P. destruct (nth_error (snd c) (choose xs (tot * un o k) 0)) as [q|] eqn:N; [|discriminate].
  cbn [bind] in P. hit. destruct a0 as [k1 r1]. cbn [fst snd] in P. injection P as <- <-. exists tot, xs, (choose xs (tot * un o k) 0), q. injection L1 as L1. auto.
Qed.
Print Assumptions C306_acts.
Theorem C306_defined o K T mats h s a E k p : after o K T mats h s -> (forall b, mmix (mats b) = None) ->
  particle_scatter o K T a (mats a) s k p E <> UB.
Proof.
  intros A M. apply after_good in A. destruct A as (V & C).
  assert (G : forall s', prepare K T a (mats a) E s = Ok s' -> exists E1 c, configure K T (mats a) E1 = Ok c /\ sm_xs s' = fst c /\ sm_procs s' = snd c).
  { intros s' P. unfold prepare in P.
    assert (L : forall c, lookup a (sm_saved s) = Some c -> exists E1, configure K T (mats a) E1 = Ok c).
    { intros c L. specialize (V a). destruct (first_energy a h) as [E1|]; [|congruence]. destruct V as (c' & V1 & V2). exists E1. congruence. }
    destruct (sm_old s) as [b|] eqn:O.
    - destruct (Nat.eqb_spec a b) as [<-|].
      + injection P as <-. destruct C as (_ & E1 & c & _ & C1 & X & Q & _). eauto.
      + destruct (lookup a (sm_saved s)) as [[xs ps]|].
        * injection P as <-. destruct (L _ eq_refl) as (E1 & L1). exists E1, (xs, ps). auto.
        * hit. injection P as <-. eauto.
    - destruct (lookup a (sm_saved s)) as [[xs ps]|].
      + injection P as <-. destruct (L _ eq_refl) as (E1 & L1). exists E1, (xs, ps). auto.
      + hit. injection P as <-. eauto. }
  unfold particle_scatter. destruct (prepare K T a (mats a) E s) as [s'| |] eqn:P; cbn [bind]; [|discriminate|].
  - destruct (G s' eq_refl) as (E1 & c & C1 & X & Q). destruct (configure_five _ _ _ _ _ C1) as (L1 & L2). rewrite X, Q.
    assert (S : forall q, In q (snd c) -> scatter o T q (S k) p E <> UB).
    { intros q I. assert (W : forall m, q = Ruth m \/ q = ElpN m \/ q = SixElpN m -> mmix m = None).
      { intros m Q0. unfold configure in C1. destruct K; cbn [bind] in C1; hit; injection C1 as <-; cbn [snd In] in I;
          repeat (destruct I as [I|I]; [subst q; destruct Q0 as [Q0|[Q0|Q0]]; try discriminate Q0; injection Q0 as <-; apply M|]); contradiction. }
      assert (D : forall t E' f q', deflect t E' f q' <> UB). { intros. unfold deflect. destruct (_ || _)%bool; discriminate. }
      assert (D1 : forall u t E', stuff u p t E' <> UB) by (intros; apply D).
      assert (D2 : forall u d t E', stuff_dp u d p t E' <> UB). { intros. unfold stuff_dp. destruct (Reqb _ _); [discriminate|apply D]. }
      assert (D3 : forall u t m E', stuff_mass u p t m E' <> UB). { intros. unfold stuff_mass. destruct (_ || _)%bool; [discriminate|apply D]. }
      destruct q as [m| |Ec| |Ec| | |m|m]; cbn [scatter].
      - unfold nucleus. rewrite (W m) by auto. unfold nucleus_R. rewrite (W m) by auto. cbn [bind fst snd]. unfold ruth_t. destruct (Reqb _ _); cbn [bind]; [discriminate|].
        destruct (stuff_mass _ _ _ _ _) eqn:Z; cbn [bind]; [discriminate|discriminate|now apply D3 in Z].
      - unfold ruth_t. destruct (Reqb _ _); cbn [bind]; [discriminate|]. destruct (stuff _ _ _ _) eqn:Z; cbn [bind]; [discriminate|discriminate|now apply D1 in Z].
      - destruct (stuff _ _ _ _) eqn:Z; cbn [bind]; [discriminate|discriminate|now apply D1 in Z].
      - unfold slope_pp, exp_t. destruct (Rleb _ _); cbn [bind]; [discriminate|]. destruct (_ || _)%bool; cbn [bind]; [discriminate|].
        destruct (stuff _ _ _ _) eqn:Z; cbn [bind]; [discriminate|discriminate|now apply D1 in Z].
      - destruct (Reqb _ _); [discriminate|]. destruct (stuff_dp _ _ _ _ _) eqn:Z; cbn [bind]; [discriminate|discriminate|now apply D2 in Z].
      - unfold slope_pp, exp_t. destruct (Rleb _ _); cbn [bind]; [discriminate|]. destruct (_ || _)%bool; cbn [bind]; [discriminate|].
        destruct (stuff_dp _ _ _ _ _) eqn:Z; cbn [bind]; [discriminate|discriminate|now apply D2 in Z].
      - discriminate.
      - unfold nucleus. rewrite (W m) by auto. unfold nucleus_H. rewrite (W m) by auto. cbn [bind fst snd]. unfold rpow_pos, exp_t. destruct (Rleb _ _); cbn [bind]; [discriminate|].
        destruct (_ || _)%bool; cbn [bind]; [discriminate|]. destruct (stuff_mass _ _ _ _ _) eqn:Z; cbn [bind]; [discriminate|discriminate|now apply D3 in Z].
      - unfold nucleus. rewrite (W m) by auto. unfold nucleus_H. rewrite (W m) by auto. cbn [bind fst snd]. unfold rpow_pos, exp_t. destruct (Rleb _ _); cbn [bind]; [discriminate|].
        destruct (_ || _)%bool; cbn [bind]; [discriminate|]. destruct (stuff _ _ _ _) eqn:Z; cbn [bind]; [discriminate|discriminate|now apply D1 in Z]. }
    destruct (fst c) as [|tot xs]; [discriminate|]. injection L1 as L1. unfold vget.
    destruct (nth_error (snd c) (choose xs (tot * un o k) 0)) as [q|] eqn:N.
    + cbn [bind]. specialize (S q (nth_error_In _ _ N)). destruct (scatter o T q _ p E); cbn [bind]; [discriminate|discriminate|congruence].
    + exfalso. apply nth_error_None in N. destruct (C306_choice xs (tot * un o k)) as (B & _). cbn zeta in B. lia.
  - exfalso. unfold prepare in P. destruct (match sm_old s with Some b => Nat.eqb a b | None => false end); [discriminate|].
    destruct (lookup a (sm_saved s)) as [[]|]; [discriminate|]. unfold configure, rpow_pos in P. destruct (Rleb (mA (mats a)) 0); cbn [bind] in P; [discriminate|].
    destruct K; cbn [bind] in P; repeat (match type of P with context [if ?b then _ else _] => destruct b end; cbn [bind] in P); discriminate.
Qed.
Print Assumptions C306_defined.
(* two scatterings in copper, at 450 and at 7000 GeV *)
Definition o0 : oracle := mkO (fun _ => 0) (fun _ => 0) (fun _ => 0).
Definition T0 : tables := mkT (fun _ => 0.007) (fun _ u => u) (fun _ => 0.004) (fun _ u => u) (fun _ u => u).
Lemma two_calls : exists s s2, after o0 SixTrack T0 (fun _ => cu) [(0%nat, 450)] s /\ after o0 SixTrack T0 (fun _ => cu) [(0%nat, 450); (0%nat, 7000)] s2.
Proof.
  assert (D : forall k E, 0 < E -> exists r, scatter o0 T0 SixRuth k (pr 0 0) E = Ok (S (S k), r)).
  { intros k E PE. cbn [scatter o0 un]. unfold ruth_t. rewrite Reqb_false by lra. cbn [bind]. unfold stuff, deflect. cbn [pr pv vdp].
    rewrite Rltb_false by (unfold tmin; lra). rewrite Reqb_false by lra. cbn [orb bind]. eauto. }
  assert (C : forall E, 0 < E -> exists a b, configure SixTrack T0 cu E = Ok ([1.232; 0.00153; a; b; 0.782], [SixRuth; SixElpn; SixSD; Inel; SixElpN cu])).
  { intros E PE. unfold configure, rpow_pos. cbn [cu new_material update mA mST mSR mSI]. rewrite Rleb_false by lra. cbn [bind]. rewrite (Rleb_false E) by lra. cbn [bind].
    rewrite Rleb_false by (unfold mp; nra). cbn [bind]. eauto. }
  destruct (C 450 ltac:(lra)) as (a & b & C1). destruct (D 1%nat 450 ltac:(lra)) as (r & D1). destruct (D 1%nat 7000 ltac:(lra)) as (r2 & D2).
  pose proof (after_none o0 SixTrack T0 (fun _ => cu)) as A0.
  pose (c1 := ([1.232; 0.00153; a; b; 0.782], [SixRuth; SixElpn; SixSD; Inel; SixElpN cu])).
  pose (s1 := mkSM Simple (Some 0%nat) (fst c1) (snd c1) [(0%nat, c1)]).
  assert (K0 : forall x, choose (0.00153 :: x) (1.232 * un o0 0) 0 = 0%nat). { intros x. cbn [choose o0 un]. rewrite Rltb_true by lra. reflexivity. }
  assert (A1 : after o0 SixTrack T0 (fun _ => cu) ([] ++ [(0%nat, 450)]) s1).
  { eapply (after_call _ _ _ _ _ _ 0%nat 450 0%nat (pr 0 0) s1 3%nat r); [exact A0|]. unfold particle_scatter, prepare. cbn [new_model sm_old sm_saved lookup].
    rewrite C1. cbn [bind sm_xs sm_procs fst snd]. rewrite K0. cbn [vget nth_error bind]. rewrite D1. reflexivity. }
  exists s1, s1. split; [exact A1|].
  change [(0%nat, 450); (0%nat, 7000)] with (([] ++ [(0%nat, 450)]) ++ [(0%nat, 7000)]).
  eapply (after_call _ _ _ _ _ _ 0%nat 7000 0%nat (pr 0 0) s1 3%nat r2); [exact A1|]. unfold particle_scatter, prepare. unfold s1, c1. cbn [sm_old Nat.eqb bind sm_xs sm_procs fst snd].
  rewrite K0. cbn [vget nth_error bind]. rewrite D2. reflexivity.
Qed.
Example C303_example : exists s, after o0 SixTrack T0 (fun _ => cu) [(0%nat, 450)] s /\ sm_mode new_model = Full /\ sm_mode s = Simple.
Proof. destruct two_calls as (s & _ & A & _). exists s. split; [auto|]. split; [reflexivity|]. now apply C303_later in A. Qed.
Example C304_example : exists s c, after o0 SixTrack T0 (fun _ => cu) ([(0%nat, 450)] ++ [(0%nat, 7000)]) s /\ configure SixTrack T0 cu 450 = Ok c /\ sm_xs s = fst c.
Proof.
  destruct two_calls as (_ & s & _ & A). exists s. destruct (C304_in_use _ _ _ _ [(0%nat, 450)] _ _ _ A) as (E & c & F & C & X & _). injection F as <-. exists c. auto.
Qed.
Example C305_example : exists s, after o0 SixTrack T0 (fun _ => cu) ([(0%nat, 450)] ++ [(0%nat, 7000)]) s /\ forall c, configure SixTrack T0 cu 7000 = Ok c -> sm_xs s <> fst c.
Proof.
  destruct two_calls as (_ & s & _ & A). exists s. split; [exact A|]. intros c C. eapply (C305_refuted _ _ _ [(0%nat, 450)] _ 450 7000); [exact A|reflexivity|lra|lra|exact C].
Qed.
Example C306_example : choose [1; 2; 3; 4] 2.5 0 = 1%nat /\ choose [1; 2; 3; 4] 3 0 = 2%nat /\ choose [1; 2; 3; 4] 11 0 = 4%nat.
Proof. cbn [choose]. repeat split; repeat first [rewrite Rltb_true by lra; reflexivity | rewrite Rltb_false by lra | reflexivity]. Qed.

(** ** C307: Rutherford scattering happens as often as its cross section says.  Refuted: the
    free path is made with the total and the Rutherford cross section, the choice with
    the total only, so it happens more often, by the factor 1 + sR / sT *)
Theorem C307_refuted m l xs : path_fits m -> mlam m = Val l -> 0 < mST m -> 0 < mSR m -> 0 < mA m ->
  (forall u, choose (mSR m :: xs) (mST m * u) 0 = 0%nat <-> u < mSR m / mST m) /\
  1 / l * (mSR m / mST m) = per_metre m * mSR m * (1 + mSR m / mST m) /\
  1 / l * (mSR m / mST m) <> per_metre m * mSR m.
Proof.
  intros F L PT PR PA. unfold path_fits in F. rewrite L in F. destruct F as (N & F). unfold per_metre. set (nb := mrho m * avogadro * barn).
  assert (F' : l * ((mST m + mSR m) * nb) * 1000 = mA m). { unfold nb. lra. }
  assert (NL : l <> 0) by (intros ->; lra). assert (NN : nb <> 0) by (intros Z; rewrite Z in F'; lra).
  assert (E : 1 / l * (mSR m / mST m) = mrho m * 1000 * avogadro * barn / mA m * mSR m * (1 + mSR m / mST m)).
  { replace (mrho m * 1000 * avogadro * barn) with (1000 * nb) by (unfold nb; ring). rewrite <- F'. field. repeat split; lra. }
  split; [|split; [exact E|]].
  - intros u. cbn [choose]. destruct (Rltb_spec (mST m * u - mSR m) 0) as [H|H].
    + split; [|reflexivity]. intros _. apply (Rmult_lt_reg_l (mST m)); [auto|]. replace (mST m * (mSR m / mST m)) with (mSR m) by (field; lra). lra.
    + split; [rewrite choose_shift; discriminate|]. intros U. exfalso. apply H. apply (Rmult_lt_compat_l (mST m)) in U; [|auto]. replace (mST m * (mSR m / mST m)) with (mSR m) in U by (field; lra). lra.
  - rewrite E. replace (mrho m * 1000 * avogadro * barn) with (1000 * nb) by (unfold nb; ring). intros H.
    assert (Q : 1000 * nb / mA m * mSR m <> 0). { apply Rmult_integral_contrapositive_currified; [|lra]. unfold Rdiv. apply Rmult_integral_contrapositive_currified; [lra|]. apply Rinv_neq_0_compat. lra. }
    assert (Q2 : 0 < mSR m / mST m) by now apply Rdiv_lt_0_compat.
    assert (Q3 : 1000 * nb / mA m * mSR m * (mSR m / mST m) = 0) by lra. apply Rmult_integral in Q3. destruct Q3; lra.
Qed.
Print Assumptions C307_refuted.
Example C307_example : exists l, path_fits cu /\ mlam cu = Val l /\ 0 < mST cu /\ 0 < mSR cu /\ 0 < mA cu.
Proof.
  pose proof (update_fits (mkM 63.546 1.232 0.782 0.00153 1.403 12.86 8960 29 Unset (Some []) None)) as F.
  change (path_fits cu) in F. assert (L : exists l, mlam cu = Val l).
  { unfold path_fits in F. destruct (mlam cu) as [| |l]; [contradiction| |eauto]. exfalso. cbn [cu new_material update mST mSR mrho] in F. lra. }
  destruct L as (l & L). exists l. split; [exact F|]. cbn [cu new_material update mST mSR mA] in *. repeat split; try lra. exact L.
Qed.

(** ** C308: for a proton of reference energy E a process takes away the energy and gives
    the transverse momentum which belong to it, moves nothing else, and reports whether
    more than 0.1 GeV are left; after an inelastic one the proton is lost *)
Lemma plane_phi u : phi_of u = plane u.
Proof. unfold phi_of, plane. ring. Qed.
Lemma deflect_ok t E phi p q : deflect t E phi p = Ok q -> 0 <= t /\ E <> 0 /\ same_place p q /\ vdp (pv q) = vdp (pv p) /\
  (vxp (pv q) - vxp (pv p)) * E = sqrt t * cos phi /\ (vyp (pv q) - vyp (pv p)) * E = sqrt t * sin phi.
Proof.
  unfold deflect. destruct (Rltb_spec t 0); [discriminate|]. destruct (Reqb_spec E 0); [discriminate|]. cbn [orb]. intros H. injection H as <-.
  unfold same_place. cbn. repeat split; try lra; field; auto.
Qed.
Lemma stuff_ok u p t E q : stuff u p t E = Ok q -> kicked E 0 t (plane u) p q.
Proof.
  unfold stuff. intros H. apply deflect_ok in H. destruct H as (_ & _ & S & D & X & Y). rewrite plane_phi in X, Y. unfold kicked, energy. rewrite D. split; [auto|].
  split; [ring|]. replace (E * (1 + vdp (pv p))) with ((vdp (pv p) + 1) * E) by ring. auto.
Qed.
Lemma stuff_dp_ok u d p t E q : stuff_dp u d p t E = Ok q -> kicked E d t (plane u) p q.
Proof.
  unfold stuff_dp. destruct (Reqb_spec E 0) as [|NE]; [discriminate|]. intros H. apply deflect_ok in H. destruct H as (_ & _ & S & D & X & Y). rewrite plane_phi in X, Y.
  cbn [set_dp6 pv vxp vyp vdp] in X, Y, D. unfold kicked, energy. rewrite D. split; [exact S|].
  replace (E * (1 + ((vdp (pv p) + 1) * E - d - E) / E)) with ((vdp (pv p) + 1) * E - d) by (field; auto). split; [ring|auto].
Qed.
Lemma stuff_mass_ok u p t m E q : stuff_mass u p t m E = Ok q -> exists dE, dE * (2 * m) = t /\ kicked E dE t (plane u) p q.
Proof.
  unfold stuff_mass. destruct (Reqb_spec m 0) as [|NM]; [discriminate|]. cbn [orb]. intros H. exists (t / (2 * m)). split; [field; auto|]. apply stuff_dp_ok. unfold stuff_dp. exact H.
Qed.
Lemma exp_ok u b t : exp_t u b = Ok t -> exponential_t u b t.
Proof.
  unfold exp_t, exponential_t. destruct (Rleb_spec u 0); [discriminate|]. cbn [orb]. destruct (Reqb_spec b 0); [discriminate|]. intros H. injection H as <-. split; [lra|].
  replace (- (b * (- ln u / b))) with (ln u) by (field; auto). apply exp_ln. lra.
Qed.
Lemma ruth_ok u t : ruth_t u = Ok t -> rutherford_t u t.
Proof. unfold ruth_t, rutherford_t. destruct (Reqb_spec u 1); [discriminate|]. intros H. injection H as <-. unfold tmin. field. lra. Qed.
Lemma nucleus_ok f m o k k1 a : (forall u, mmix m = None -> f m u = f m 0) -> nucleus f m o k = Ok (k1, a) -> at_nucleus f m o k a k1.
Proof.
  intros Z H. unfold nucleus in H. unfold at_nucleus. destruct (mmix m) eqn:M; hit; injection H as <- <-; split; auto; now rewrite Z.
Qed.
Lemma slope_same x b : slope_sd x b = sd_slope x b.
Proof.
  unfold slope_sd, sd_slope. destruct (Rltb x 2); [reflexivity|]. destruct (Rleb_spec x 5); [rewrite Rltb_false by lra; field|rewrite Rltb_true by lra; field].
Qed.
Lemma alive_iff E p q b : alive E p = (q, b) -> q = p /\ (b = true <-> 0.1 < energy E p).
Proof.
  unfold alive, energy. intros H. injection H as <- <-. split; [reflexivity|]. destruct (Rleb_spec ((1 + vdp (pv p)) * E) 0.1); cbn; split; intros; try discriminate; try reflexivity; lra.
Qed.
Theorem C308_exchange o T q k p E k' p' b : q <> Inel -> scatter o T q k p E = Ok (k', (p', b)) ->
  exists t dE, exchanged o T q k k' E t dE /\ kicked E dE t (plane (un o (pred k'))) p p' /\ (b = true <-> 0.1 < energy E p').
Proof.
  intros NI H. destruct q as [m| |Ec| |Ec| | |m|m]; cbn [scatter] in H.
  - hit. destruct a as [k1 a]. cbn [fst snd] in *. destruct (alive E a1) as [p1 b1] eqn:A. injection H as <- <- <-. apply alive_iff in A. destruct A as (-> & B).
    apply stuff_mass_ok in E2. destruct E2 as (dE & D & K). exists a0, dE. split; [|auto]. cbn [exchanged]. exists a, k1. split; [apply nucleus_ok; auto|].
    { intros u M. unfold nucleus_R. now rewrite M. } split; [reflexivity|]. split; [now apply ruth_ok|exact D].
  - hit. destruct (alive E a0) as [p1 b1] eqn:A. injection H as <- <- <-. apply alive_iff in A. destruct A as (-> & B). exists a, 0. split; [|split; [now apply stuff_ok|auto]].
    cbn [exchanged]. split; [reflexivity|]. split; [now apply ruth_ok|reflexivity].
  - hit. destruct (alive E a) as [p1 b1] eqn:A. injection H as <- <- <-. apply alive_iff in A. destruct A as (-> & B). eexists _, 0. split; [|split; [apply stuff_ok in E0; exact E0|auto]].
    cbn [exchanged]. auto.
  - hit. destruct (alive E a1) as [p1 b1] eqn:A. injection H as <- <- <-. apply alive_iff in A. destruct A as (-> & B). exists a0, 0. split; [|split; [now apply stuff_ok|auto]].
    cbn [exchanged]. split; [reflexivity|]. split; [|reflexivity]. apply exp_ok in E1. unfold slope_pp in E0. hit. injection E0 as <-. exact E1.
  - destruct (Reqb_spec (2 * mp * E + 2 * mp * mp) 0) as [|NC]; [discriminate|]. hit. destruct (alive E a) as [p1 b1] eqn:A. injection H as <- <- <-. apply alive_iff in A. destruct A as (-> & B).
    eexists _, _. split; [|split; [apply stuff_dp_ok in E0; exact E0|auto]]. cbn [exchanged]. split; [reflexivity|]. split; [reflexivity|].
    unfold mprot. fold mp. field. auto.
  - hit. destruct (alive E a1) as [p1 b1] eqn:A. injection H as <- <- <-. apply alive_iff in A. destruct A as (-> & B). eexists _, _. split; [|split; [apply stuff_dp_ok in E2; exact E2|auto]].
    cbn [exchanged]. split; [reflexivity|]. exists (exp (un o k * ln (0.15 * (2 * mp * E)))). unfold mprot. fold mp. split; [apply ln_exp|]. split; [apply exp_pos|].
    apply exp_ok in E1. unfold slope_pp in E0. destruct (Rleb_spec (2 * mp * E) 0) as [|NC]; [discriminate|]. injection E0 as <-. split.
    + rewrite slope_same in E1. exact E1.
    + field. unfold mp in *. lra.
  - congruence.
  - hit. destruct a as [k1 a]. cbn [fst snd] in *. destruct (alive E a2) as [p1 b1] eqn:A. injection H as <- <- <-. apply alive_iff in A. destruct A as (-> & B).
    apply stuff_mass_ok in E3. destruct E3 as (dE & D & K). exists a1, dE. split; [|auto]. cbn [exchanged]. exists a, k1. split; [apply nucleus_ok; auto|].
    { intros u M. unfold nucleus_H. now rewrite M. } split; [reflexivity|]. split; [|exact D]. apply exp_ok in E2. unfold rpow_pos in E1. hit. injection E1 as <-. exact E2.
  - hit. destruct a as [k1 a]. cbn [fst snd] in *. destruct (alive E a2) as [p1 b1] eqn:A. injection H as <- <- <-. apply alive_iff in A. destruct A as (-> & B).
    exists a1, 0. split; [|split; [now apply stuff_ok|auto]]. cbn [exchanged]. exists a, k1. split; [apply nucleus_ok; auto|].
    { intros u M. unfold nucleus_H. now rewrite M. } split; [reflexivity|]. split; [|reflexivity]. apply exp_ok in E2. unfold rpow_pos in E1. hit. injection E1 as <-. exact E2.
Qed.
Print Assumptions C308_exchange.
Theorem C308_inelastic o T k p E : scatter o T Inel k p E = Ok (k, (p, false)).
Proof. reflexivity. Qed.
Print Assumptions C308_inelastic.

(** ** C309: the same holds in a collimator, where a proton may have an energy other than
    the reference energy.  Refuted: there the energy of the proton is given for the
    reference energy, so what is taken away is dE / (1 + dp) and not dE *)
Theorem C309_refuted o T q k p E k' p' b : q <> Inel -> 0 < energy E p -> scatter o T q k p (energy E p) = Ok (k', (p', b)) ->
  exists t dE, exchanged o T q k k' (energy E p) t dE /\ (energy E p - energy E p') * (1 + vdp (pv p)) = dE /\
    (dE <> 0 -> vdp (pv p) <> 0 -> energy E p - energy E p' <> dE).
Proof.
  intros NI P H. destruct (C308_exchange _ _ _ _ _ _ _ _ _ NI H) as (t & dE & X & (_ & D & _) & _). exists t, dE. split; [exact X|].
  unfold energy in *. assert (G : (E * (1 + vdp (pv p)) - E * (1 + vdp (pv p'))) * (1 + vdp (pv p)) = dE) by lra. split; [exact G|].
  intros N0 N1 Z. rewrite Z in G. assert (Q : dE * vdp (pv p) = 0) by lra. apply Rmult_integral in Q. tauto.
Qed.
Print Assumptions C309_refuted.
Theorem C309_on_momentum o T q k p E k' p' b : q <> Inel -> vdp (pv p) = 0 -> scatter o T q k p (energy E p) = Ok (k', (p', b)) ->
  exists t dE, exchanged o T q k k' (energy E p) t dE /\ kicked E dE t (plane (un o (pred k'))) p p'.
Proof.
  intros NI Z H. assert (W : energy E p = E) by (unfold energy; rewrite Z; ring). rewrite W in *. destruct (C308_exchange _ _ _ _ _ _ _ _ _ NI H) as (t & dE & X & K & _). eauto.
Qed.
Print Assumptions C309_on_momentum.
Example C308_example : exists p' , scatter o0 T0 (Ruth cu) 0 (pr 0 (-1/2)) (energy 7000 (pr 0 (-1/2))) = Ok (2%nat, (p', true)).
Proof.
  unfold energy. cbn [pr pv vdp]. replace (7000 * (1 + -1 / 2)) with 3500 by lra. cbn [scatter]. unfold nucleus. cbn [cu new_material update mmix]. unfold nucleus_R. change (mmix cu) with (@None (list (R * R * R))). cbn [bind fst snd o0 un]. change (mA cu) with 63.546. unfold ruth_t. rewrite Reqb_false by lra. cbn [bind].
  unfold stuff_mass. rewrite (Reqb_false (amu * 63.546)) by (unfold amu; lra). rewrite Reqb_false by lra. cbn [orb]. unfold deflect. cbn [pr pv vdp].
  assert (0 < tmin / (1 - 0)) by (unfold tmin; lra). assert (tmin / (1 - 0) / (2 * (amu * 63.546)) < 1).
  { unfold tmin, amu. lra. }
  rewrite Rltb_false by lra. rewrite Reqb_false by lra. cbn [orb bind]. eexists. do 2 f_equal. unfold alive, kick, set_dp6. cbn [pv vx vxp vy vyp vct vdp pid]. f_equal.
  rewrite Rleb_false by lra. reflexivity.
Qed.

(** ** C321: the cross sections of a model are the total, the Rutherford, the elastic and
    the single diffractive one of 1.618 A^0.333 nucleons, and the inelastic one; the
    models differ in where the elastic and the single diffractive one come from *)
Theorem C321_cross_sections K T m E : 0 < mA m -> 0 < E ->
  exists el sd c, configure K T m E = Ok c /\
    fst c = [mST m; mSR m; 1.618 * Rpower (mA m) 0.333 * el; 1.618 * Rpower (mA m) 0.333 * sd; mSI m] /\
    (el = match K with Merlin | SixTrackElastic => el_sigma T E | _ => 0.007 * Rpower (E / 450) 0.04792 end) /\
    (sd = match K with Merlin | SixTrackSD => sd_sigma T E | _ => 0.00068 * ln (0.15 * (mp * mp + 2 * E * mp)) end) /\
    snd c = match K with
            | Merlin => [Ruth m; Elpn E; SD E; Inel; ElpN m]
            | SixTrackElastic => [SixRuth; Elpn E; SixSD; Inel; ElpN m]
            | SixTrackSD => [SixRuth; SixElpn; SD E; Inel; SixElpN m]
            | _ => [SixRuth; SixElpn; SixSD; Inel; SixElpN m]
            end.
Proof.
  intros A P. assert (S : 0 < 2 * mp * E + mp * mp). { assert (0 < mp) by (unfold mp; lra). nra. }
  unfold configure, rpow_pos. rewrite Rleb_false by auto. rewrite (Rleb_false E) by auto. rewrite (Rleb_false _ _ S). cbn [bind].
  replace (2 * mp * E + mp * mp) with (mp * mp + 2 * E * mp) by ring.
  destruct K; cbn [bind]; do 3 eexists; (split; [reflexivity|]); cbn [fst snd]; (split; [reflexivity|]); repeat split; reflexivity.
Qed.
Print Assumptions C321_cross_sections.
(* no proton is scattered by a material without mass number or at rest *)
Theorem C321_rejects K T m E : mA m <= 0 -> configure K T m E = Throw NotNumber.
Proof. intros A. unfold configure, rpow_pos. now rewrite Rleb_true by auto. Qed.
Print Assumptions C321_rejects.
Example C321_example : exists c, configure SixTrack T0 cu 7000 = Ok c /\ nth 2 (fst c) 0 = 1.618 * Rpower 63.546 0.333 * (0.007 * Rpower (7000 / 450) 0.04792).
Proof.
  destruct (C321_cross_sections SixTrack T0 cu 7000) as (el & sd & c & C & F & E1 & _ & _); [cbn; lra|lra|]. exists c. split; [exact C|]. rewrite F, E1. reflexivity.
Qed.
