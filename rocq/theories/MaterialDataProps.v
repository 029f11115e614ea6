(* Extra values, copies and the prepared table of materials, C290-C298. *)
From Verif Require Import RBase Material MaterialData MaterialSpec MaterialProps MaterialTableProps.
From Coq Require Import List Permutation.
Import ListNotations.
Local Open Scope R_scope.

(* the same material except for its extra values *)
Definition like (a b : material) : Prop := same_bulk a b /\ mlam a = mlam b /\ mmix a = mmix b.
Lemma like_refl a : like a a.
Proof. unfold like, same_bulk. tauto. Qed.
Lemma like_trans a b c : like a b -> like b c -> like a c.
Proof. unfold like, same_bulk. intuition congruence. Qed.

(** ** C290: extra values can be read back *)
Definition plain_word (a : str) : Prop := a <> [] /\ Forall (fun c => is_space c = false) a.
Lemma words_go_word a cur r : Forall (fun c => is_space c = false) a -> words_go cur (a ++ r) = words_go (rev a ++ cur) r.
Proof.
  intros F. revert cur. induction F as [|c a C F IH]; intros cur; cbn; auto. rewrite C, IH. now rewrite <- app_assoc.
Qed.
Theorem C290_words l : Forall plain_word l -> words (join l) = l.
Proof.
  unfold words. induction 1 as [|a l [N A] F IH]; auto. destruct l as [|b l].
  - cbn [join]. rewrite <- (app_nil_r a) at 1. rewrite words_go_word, app_nil_r by auto. cbn. destruct (rev a) as [|x y] eqn:E.
    + exfalso. apply N. rewrite <- (rev_involutive a), E. auto.
    + now rewrite <- E, rev_involutive.
  - change (join (a :: b :: l)) with (a ++ space :: join (b :: l)). rewrite words_go_word, app_nil_r by auto. cbn [words_go].
    change (is_space space) with true. cbn iota. destruct (rev a) as [|x y] eqn:E.
    + exfalso. apply N. rewrite <- (rev_involutive a), E. auto.
    + rewrite IH, <- E, rev_involutive. reflexivity.
Qed.
(* words end at a blank, tab, line feed, vertical tab, form feed or carriage return, and
   at nothing else; several of them count as one *)
Definition white : list ascii := ["032"; "009"; "010"; "011"; "012"; "013"]%char.
Theorem C290_white c : is_space c = true <-> In c white.
Proof.
  split.
  - destruct c as [[] [] [] [] [] [] [] []]; cbn; intros H; try discriminate; auto 10.
  - intros [<-|[<-|[<-|[<-|[<-|[<-|[]]]]]]]; reflexivity.
Qed.
Print Assumptions C290_white.
Theorem C290_separated a b gap : plain_word a -> gap <> [] -> Forall (fun c => In c white) gap -> words (gap ++ b) = words b /\ words (a ++ gap ++ b) = a :: words b.
Proof.
  intros (N & A) NG G. assert (K : forall g, Forall (fun c => In c white) g -> words (g ++ b) = words b).
  { induction 1 as [|c g C G' IH]; [reflexivity|]. apply C290_white in C. unfold words in *. cbn [app words_go]. now rewrite C. }
  split; [now apply K|]. destruct gap as [|c gap]; [contradiction|]. inversion G as [|? ? C G']; subst. unfold words. rewrite words_go_word, app_nil_r by auto. cbn [app words_go]. rewrite (proj2 (C290_white c) C). destruct (rev a) as [|x y] eqn:E.
  - exfalso. apply N. rewrite <- (rev_involutive a), E. auto.
  - rewrite <- E, rev_involutive. f_equal. exact (K gap G').
Qed.
Print Assumptions C290_separated.
Lemma set_loop_ok ns vs e : (length ns <= length vs)%nat -> NoDup ns -> exists e', set_loop ns vs e = Ok e' /\
  (forall n, ~ In n ns -> assoc n e' = assoc n e) /\ (forall i n, nth_error ns i = Some n -> assoc n e' = nth_error vs i).
Proof.
  revert vs e. induction ns as [|n ns IH]; intros vs e L D.
  - exists e. cbn. repeat split; auto. intros i n H. destruct i; discriminate.
  - destruct vs as [|v vs]; [cbn in L; lia|]. cbn in L. inversion D as [|? ? NI D']; subst.
    destruct (IH vs (put n v e) ltac:(lia) D') as (e' & E & O1 & O2). exists e'. split; [auto|]. split.
    + intros k NK. rewrite O1 by (intros H; apply NK; now right). apply assoc_put_other. intros ->. apply NK. now left.
    + intros i k H. destruct i as [|i]; cbn in H; [|apply O2; auto]. injection H as <-. rewrite O1 by auto. apply assoc_put_same.
Qed.
Theorem C290_set props vs m e : mextra m = Some e -> NoDup (words props) -> (length (words props) <= length vs)%nat ->
  exists m', set_extra props vs m = Ok m' /\ like m m' /\
    (forall i n v, nth_error (words props) i = Some n -> nth_error vs i = Some v -> get_extra n m' = Ok (m', v) /\ have_extra n m' = Ok true) /\
    (forall n, ~ In n (words props) -> have_extra n m' = have_extra n m /\
       forall v, have_extra n m = Ok true -> get_extra n m = Ok (m, v) -> get_extra n m' = Ok (m', v)).
Proof.
  intros E D L. destruct (set_loop_ok (words props) vs e L D) as (e' & S1 & O1 & O2). unfold set_extra. rewrite E.
  destruct (words props) as [|w ws] eqn:W.
  - exists m. split; [auto|]. split; [apply like_refl|]. split; [intros i n v H; destruct i; discriminate|]. intros n _. split; auto.
  - rewrite S1. cbn [bind]. exists (with_extra e' m). split; [auto|]. split; [unfold like, same_bulk, with_extra; cbn; tauto|].
    unfold get_extra, have_extra. cbn [with_extra mextra]. rewrite E. split.
    + intros i n v H V. specialize (O2 i n H). rewrite V in O2. rewrite O2. auto.
    + intros n NI. rewrite (O1 n NI). split; [auto|]. intros v. destruct (assoc n e) as [u|]; [|discriminate]. intros _ H. injection H as ->. auto.
Qed.
(* fewer numbers than names *)
Theorem C290_few props vs m : (length vs < length (words props))%nat -> set_extra props vs m = UB.
Proof.
  intros L. unfold set_extra. destruct (words props) as [|w ws] eqn:W; [cbn in L; lia|]. destruct (mextra m) as [e|]; auto.
  rewrite <- W in *. clear w ws W. revert vs e L. generalize (words props) as ns. induction ns as [|n ns IH]; intros vs e L; [cbn in L; lia|].
  destruct vs as [|v vs]; auto. cbn. cbn in L. apply IH. lia.
Qed.
Example C290_example : exists m', set_extra (of_string "one two") [1; 2] m_a = Ok m' /\ get_extra (of_string "two") m' = Ok (m', 2).
Proof.
  destruct (C290_set (of_string "one two") [1; 2] m_a [] eq_refl) as (m' & H & _ & G & _).
  - change (words (of_string "one two")) with [of_string "one"; of_string "two"]. repeat constructor; cbn; intuition discriminate.
  - change (words (of_string "one two")) with [of_string "one"; of_string "two"]. cbn. lia.
  - exists m'. split; [auto|]. apply (G 1%nat (of_string "two") 2); reflexivity.
Qed.

(** ** C291: reading a value leaves the material as it was.  A missing one is
    entered as 0 *)
Theorem C291_refuted n m : have_extra n m = Ok false ->
  exists m', get_extra n m = Ok (m', 0) /\ have_extra n m' = Ok true /\ get_extra n m' = Ok (m', 0) /\ like m m' /\
    forall k, k <> n -> have_extra k m' = have_extra k m.
Proof.
  unfold have_extra, get_extra. destruct (mextra m) as [e|]; [|discriminate]. destruct (assoc n e) as [v|] eqn:A; [discriminate|]. intros _.
  exists (with_extra (put n 0 e) m). cbn [with_extra mextra]. rewrite assoc_put_same. repeat split; auto. intros k N. now rewrite assoc_put_other.
Qed.
Theorem C291_present n m m' v : have_extra n m = Ok true -> get_extra n m = Ok (m', v) -> m' = m.
Proof. unfold have_extra, get_extra. destruct (mextra m) as [e|]; [|discriminate]. destruct (assoc n e); [|discriminate]. congruence. Qed.
(* without a map all of them dereference the null pointer *)
Theorem C291_default n vs : have_extra n default_material = UB /\ get_extra n default_material = UB /\
  (words n <> [] -> set_extra n vs default_material = UB) /\ copy default_material = UB.
Proof. repeat split. intros N. unfold set_extra. destruct (words n); [congruence|reflexivity]. Qed.
Example C291_example : have_extra (of_string "x") m_a = Ok false.
Proof. reflexivity. Qed.

(** ** C292: a copy is like the original.  All is copied but the mean free path, and
    the nuclei of a mixture *)
Theorem C292_copied a m e : mextra a = Some e -> copy a = Ok m -> same_bulk a m /\ mextra m = mextra a /\ mmix m = None /\ mlam m = Unset.
Proof. unfold copy. intros ->. intros H. injection H as <-. unfold same_bulk. cbn. tauto. Qed.
Theorem C292_refuted a m : copy a = Ok m -> ~ path_fits m.
Proof. unfold copy, path_fits. destruct (mextra a); [|discriminate]. intros H. injection H as <-. cbn. auto. Qed.
Theorem C292_assigned t a m e : mextra a = Some e -> assign t a = Ok m -> same_bulk a m /\ mextra m = mextra a /\ mmix m = mmix t /\ mlam m = mlam t.
Proof. unfold assign. intros ->. intros H. injection H as <-. unfold same_bulk. cbn. tauto. Qed.
(* after an assignment the mean free path of the old material is left *)
Theorem C292_refuted_assign : exists t a m, path_fits t /\ path_fits a /\ assign t a = Ok m /\ ~ path_fits m.
Proof.
  exists m_a, m_b. eexists. split; [apply update_fits|]. split; [apply update_fits|]. split; [reflexivity|].
  unfold path_fits. cbn [mlam]. unfold m_a, new_material, update at 1. cbn [mlam mST mSR mrho mA].
  rewrite Reqb_false.
  2:{ apply Rmult_integral_contrapositive_currified; [apply Rmult_integral_contrapositive_currified; [lra|apply Rinv_neq_0_compat, pow_nonzero; lra]|].
      apply Rmult_integral_contrapositive_currified; [lra|apply pow_nonzero; lra]. }
  unfold barn, avogadro. cbn [mlam mST mSR mrho mA m_b new_material update].
  assert (U : 10 ^ 28 <> 0) by (apply pow_nonzero; lra). assert (V : 10 ^ 20 <> 0) by (apply pow_nonzero; lra).
  set (u := 10 ^ 28) in *. set (v := 10 ^ 20) in *. clearbody u v. intros [_ H].
  assert (Q : 2 * / 1000 / ((4 + 1) * 1000 * / u * (6022 * v)) * ((8 + 3) * / u) * (3000 * (6022 * v)) = 66 / 5000) by (field; auto).
  rewrite Q in H. lra.
Qed.
(* a copy followed by Update is right *)
Theorem C292_updated a m : copy a = Ok m -> path_fits (update m) /\ same_bulk a (update m).
Proof. intros H. split; [apply update_fits|]. unfold copy in H. destruct (mextra a); [|discriminate]. injection H as <-. unfold same_bulk. cbn. tauto. Qed.
Example C292_example : exists m, copy m_a = Ok m /\ mrho m = 1000.
Proof. eexists. split; reflexivity. Qed.

(** ** C293: the mean free path belongs to the other members after each of the
    calls which are to compute it *)
Theorem C293_fits :
  (forall a st si sr de x rho z, path_fits (new_material a st si sr de x rho z)) /\ (forall m, path_fits (update m)) /\
  (forall E m, path_fits (energy_scale E m)) /\ (forall d ns ps rho m, mixture d ns ps rho = Ok m -> path_fits m).
Proof.
  split; [intros; apply update_fits|]. split; [apply update_fits|]. split; [intros; apply update_fits|].
  intros d ns ps rho m H. destruct (mixture_ok _ _ _ _ _ H) as (ms & _ & _ & _ & ->). apply update_fits.
Qed.
(* Update does not touch anything else *)
Theorem C293_update m : same_bulk m (update m) /\ mextra (update m) = mextra m /\ mmix (update m) = mmix m.
Proof. unfold same_bulk. cbn. tauto. Qed.
(* the members are as given *)
Theorem C293_given a st si sr de x rho z : let m := new_material a st si sr de x rho z in
  mA m = a /\ mST m = st /\ mSI m = si /\ mSR m = sr /\ mdE m = de /\ mX0 m = x /\ mrho m = rho /\ mZ m = z /\ mextra m = Some [] /\ mmix m = None.
Proof. cbn. tauto. Qed.
Example C293_example : exists x, mlam m_a = Val x /\ 0 < x.
Proof.
  pose proof (update_fits (mkM 2 4 3 1 1 10 1000 1 Unset (Some []) None)) as F. change (update (mkM 2 4 3 1 1 10 1000 1 Unset (Some []) None)) with m_a in F.
  unfold path_fits in F. destruct (mlam m_a) as [| |x] eqn:E; [contradiction|cbn [mST mSR mrho m_a new_material update] in F; lra|].
  exists x. split; [auto|]. destruct F as [_ F]. cbn [mST mSR mrho mA m_a new_material update] in F. unfold barn, avogadro in F.
  assert (U : 0 < / 10 ^ 28) by (apply Rinv_0_lt_compat, pow_lt; lra). assert (V : 0 < 10 ^ 20) by (apply pow_lt; lra).
  set (u := / 10 ^ 28) in *. set (v := 10 ^ 20) in *. clearbody u v.
  assert (0 < (4 + 1) * u * (1000 * (6022 * v))) by (apply Rmult_lt_0_compat; lra). nra.
Qed.

(** ** C294: a material scaled to another energy: the energy is not used, and the
    extra values and nuclei are lost *)
Theorem C294_refuted E E' m : energy_scale E m = energy_scale E' m /\ same_bulk (energy_scale E m) m /\
  mextra (energy_scale E m) = Some [] /\ mmix (energy_scale E m) = None.
Proof. unfold same_bulk. cbn. tauto. Qed.
Example C294_example : exists m, set_extra (of_string "conductivity") [7] m_a = Ok m /\ have_extra (of_string "conductivity") m = Ok true /\
  have_extra (of_string "conductivity") (energy_scale 450 m) = Ok false.
Proof. eexists. split; [reflexivity|]. split; reflexivity. Qed.

Print Assumptions C290_words.
Print Assumptions C290_set.
Print Assumptions C290_few.
Print Assumptions C291_refuted.
Print Assumptions C291_present.
Print Assumptions C291_default.
Print Assumptions C292_copied.
Print Assumptions C292_refuted.
Print Assumptions C292_assigned.
Print Assumptions C292_refuted_assign.
Print Assumptions C292_updated.
Print Assumptions C293_fits.
Print Assumptions C293_update.
Print Assumptions C293_given.
Print Assumptions C294_refuted.
