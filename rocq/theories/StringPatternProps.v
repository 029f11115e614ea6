(** Theorems about name patterns (C01, C02, C57). *)
From Verif Require Import Base StringPattern StringPatternSpec StringPatternProofs.

Local Notation s2l := of_string.

(** ** C01 *)
Theorem C01_match_terminates_without_ub : forall wc p s,
  exists b, Match (mk_pattern wc p) s = Ok b.
Proof. exact Match_total. Qed.
Print Assumptions C01_match_terminates_without_ub.

Theorem C01_match_sound : forall wc p s,
  Match (mk_pattern wc p) s = Ok true -> in_language wc p s.
Proof. exact Match_sound. Qed.
Print Assumptions C01_match_sound.

Example C01_nontrivial :
  Match (mk_pattern "*" (s2l "Q*F.*3|D*")) (s2l "QXF.12.3") = Ok true
  /\ Match (mk_pattern "*" (s2l "Q*F.*3|D*")) (s2l "QXF.12.4") = Ok false
  /\ Match (mk_pattern "*" (s2l "Q*F.*3|D*")) (s2l "DRIFT") = Ok true.
Proof. repeat split; reflexivity. Qed.

(** the recursion in the constructor never goes deeper than the model's fuel *)
Theorem C01_constructor_depth : forall n wc p, mk_fuel (S (S n)) wc p = mk_pattern wc p.
Proof. exact mk_fuel_ok. Qed.
Print Assumptions C01_constructor_depth.

(** ** C02: every member of the language is accepted -- false: the search is
    greedy and does not back-track *)
Theorem C02_match_complete_refuted :
  exists p s, in_language "*" p s /\ Match (mk_pattern "*" p) s = Ok false.
Proof.
  exists (s2l "*b"), (s2l "abab"). split; [|reflexivity].
  right. split.
  - intros (l & r & H & _). assert (Hin : In "|"%char (s2l "*b")).
    { rewrite H. apply in_or_app. right. left. reflexivity. }
    simpl in Hin. intuition discriminate.
  - change (glob "*" ["*"%char; "b"%char] (s2l "aba" ++ s2l "b")).
    constructor. constructor; [discriminate|]. constructor.
Qed.
Print Assumptions C02_match_complete_refuted.

(** accepted whenever the text after the last wild-card does not occur in the
    name except at its very end (in particular for literals and for patterns
    ending with the wild-card) *)
Theorem C130_match_complete : forall wc p s,
  (alternation p -> exists q, alternative p q /\ glob wc q s
      /\ ((exists q0, q = q0 ++ [wc]) \/
          forall q0 g, q = q0 ++ wc :: g -> ~ In wc g -> g <> [] ->
            forall l r, s = l ++ g ++ r -> r = [])) ->
  (~ alternation p -> glob wc p s
      /\ ((exists q0, p = q0 ++ [wc]) \/
          forall q0 g, p = q0 ++ wc :: g -> ~ In wc g -> g <> [] ->
            forall l r, s = l ++ g ++ r -> r = [])) ->
  Match (mk_pattern wc p) s = Ok true.
Proof.
  intros wc p s H1 H2. apply Match_complete.
  - intros Ha. destruct (H1 Ha) as (q & Hq & Hg & Hu). exists q. auto.
  - intros Ha. destruct (H2 Ha). auto.
Qed.
Print Assumptions C130_match_complete.

Example C02_partial_hypotheses_met :
  glob "*" (s2l "M*.B*") (s2l "MQ.7.B1") /\ (exists q0, s2l "M*.B*" = q0 ++ ["*"%char])
  /\ ~ alternation (s2l "M*.B*").
Proof.
  split; [|split].
  - change (glob "*" (s2l "M*.B*") ("M"%char :: (s2l "Q.7" ++ (s2l ".B" ++ (s2l "1" ++ []))))).
    repeat (constructor; try discriminate).
  - exists (s2l "M*.B"). reflexivity.
  - intros (l & r & H & _). assert (Hin : In "|"%char (s2l "M*.B*")).
    { rewrite H. apply in_or_app. right. left. reflexivity. }
    simpl in Hin. intuition discriminate.
Qed.

(** a pattern without wild-card and without alternation accepts exactly itself *)
Theorem C130_literal_exact : forall wc p s, ~ In wc p -> ~ In "|"%char p ->
  (Match (mk_pattern wc p) s = Ok true <-> s = p).
Proof.
  intros wc p s Hwc Hbar.
  assert (Hna : ~ alternation p).
  { intros (l & r & -> & _). apply Hbar. apply in_or_app. right. left. reflexivity. }
  split.
  - intros H. apply Match_sound in H. destruct H as [[Ha _]|[_ H]]; [tauto|].
    rewrite <- (app_nil_r p) in H. apply glob_lit_app in H; [|assumption].
    destruct H as (b & -> & Hb). apply glob_nil_inv in Hb. subst b. apply app_nil_r.
  - intros ->. apply Match_complete; [tauto|]. intros _. split.
    + right. intros q0 g Heq. exfalso. apply Hwc. rewrite Heq. apply in_or_app. right. left. reflexivity.
    + rewrite <- (app_nil_r p) at 1. apply glob_lit_app; [assumption|].
      exists []. split; [rewrite app_nil_r; reflexivity|constructor].
Qed.
Print Assumptions C130_literal_exact.

Example C02_literal_case : Match (mk_pattern "*" (s2l "BPM.12")) (s2l "BPM.12") = Ok true
  /\ Match (mk_pattern "*" (s2l "BPM.12")) (s2l "BPM.123") = Ok false.
Proof. split; reflexivity. Qed.

(** ** C57: a printed pattern means the same as the original -- false for
    alternations, which print with the wild-card in place of the bar *)
Theorem C57_print_refuted : exists p s,
  in_language "*" p s /\ Match (mk_pattern "*" (print_pattern "*" p)) s = Ok false.
Proof.
  exists (s2l "a|b"), (s2l "a"). split; [|reflexivity].
  left. split.
  - exists (s2l "a"), (s2l "b"). split; [reflexivity|]. split.
    + exists "a"%char. split; [left; reflexivity|discriminate].
    + exists "b"%char. split; [left; reflexivity|discriminate].
  - exists (s2l "a"). split.
    + exists [], (s2l "|b"). split; [reflexivity|]. split; [discriminate|].
      split; [simpl; intuition discriminate|]. split; [auto|]. right. exists (s2l "b"). reflexivity.
    + constructor; [discriminate|]. constructor.
Qed.
Print Assumptions C57_print_refuted.

Theorem C151_print_equivalent : forall wc p s, ~ alternation p ->
  (glob wc (print_pattern wc p) s <-> glob wc p s).
Proof. exact print_equiv. Qed.
Print Assumptions C151_print_equivalent.

Example C57_case : print_pattern "*" (s2l "**a***b*") = s2l "*a*b*".
Proof. reflexivity. Qed.
