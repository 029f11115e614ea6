(* Collimator settings from a file: reading and gaps.  Properties C340-C345. *)
From Verif Require Import RBase Base Aper AperSpec AperProps JawProps CollDB CollDBSpec.
From Coq Require Import String List Lia Lra.
Import ListNotations.
Local Open Scope string_scope.
Local Open Scope list_scope.
Local Open Scope R_scope.

(** ** C340: each line of a file becomes one record with its name, numbers and material, in
    order; words behind the last complete line are left out *)
Lemma nums_split (x : token) ns (r : R) rs : map num (x :: ns) = map Some (r :: rs) -> num x = Some r /\ map num ns = map Some rs.
Proof. cbn. intros H. injection H as H1 H2. auto. Qed.
Lemma read_gap_line db l ts rest buf : written 8 l ts -> exists d, read_gaps db buf (ts ++ rest, false) = (d, l_mat l, (rest, false)) /\ gap_record db l d.
Proof.
  intros (a & ns & b & -> & TA & N & LN & TB). destruct l as [nm rs m]. cbn [l_name l_nums l_mat] in *.
  do 8 (destruct ns as [|? ns]; [discriminate|]). destruct ns; [|discriminate]. do 8 (destruct rs as [|? rs]; [discriminate|]). destruct rs; [|discriminate].
  do 8 (match goal with H : map num (_ :: _) = _ |- _ => apply nums_split in H; destruct H end).
  unfold read_gaps, get_s, get_d. cbn [app fst snd]. repeat match goal with H : num _ = Some _ |- _ => rewrite H; clear H; cbn [fst snd] end.
  rewrite TA, TB. eexists. split; [reflexivity|]. repeat split.
Qed.
Lemma read_sigma_line db l ts rest buf : written 3 l ts -> exists d, read_sigmas db buf (ts ++ rest, false) = (d, l_mat l, (rest, false)) /\ sigma_record db l d.
Proof.
  intros (a & ns & b & -> & TA & N & LN & TB). destruct l as [nm rs m]. cbn [l_name l_nums l_mat] in *.
  do 3 (destruct ns as [|? ns]; [discriminate|]). destruct ns; [|discriminate]. do 3 (destruct rs as [|? rs]; [discriminate|]). destruct rs; [|discriminate].
  do 3 (match goal with H : map num (_ :: _) = _ |- _ => apply nums_split in H; destruct H end).
  unfold read_sigmas, get_s, get_d. cbn [app fst snd]. repeat match goal with H : num _ = Some _ |- _ => rewrite H; clear H; cbn [fst snd] end.
  rewrite TA, TB. eexists. split; [reflexivity|]. repeat split.
Qed.
Lemma last_cons {A} (x d : A) l : last (x :: l) d = last l x.
Proof. revert x d. induction l as [|y l IH]; intros x d; [reflexivity|]. change (last (x :: y :: l) d) with (last (y :: l) d). now rewrite (IH y d), (IH y x). Qed.
(* the lines read one after the other, and then more *)
Lemma read_lines (one : string -> stream -> cdata * string * stream) (rec : line -> cdata -> Prop) k :
  (forall l ts rest buf, written k l ts -> exists d, one buf (ts ++ rest, false) = (d, l_mat l, (rest, false)) /\ rec l d) ->
  forall ls ts n buf rest, Forall2 (written k) ls ts ->
  exists ds, read_n one (List.length ls + n) buf (concat ts ++ rest, false) = ds ++ read_n one n (last (map l_mat ls) buf) (rest, false) /\ Forall2 rec ls ds.
Proof.
  intros H. induction ls as [|l ls IH]; intros ts n buf rest F; inversion F as [|? t0 ? ts0 W F']; subst.
  - exists []. split; [reflexivity|constructor].
  - cbn [List.length plus read_n concat]. rewrite <- app_assoc. destruct (H l t0 (concat ts0 ++ rest) buf W) as (d & -> & R). destruct (IH ts0 n (l_mat l) rest F') as (ds & E & FR).
    exists (d :: ds). split; [|constructor; auto]. rewrite E. cbn [app map]. now rewrite last_cons.
Qed.
Lemma words_count k ls ts : Forall2 (written k) ls ts -> List.length (concat ts) = (List.length ls * (k + 2))%nat.
Proof.
  induction 1 as [|l t ls ts W F IH]; [reflexivity|]. cbn [concat List.length]. rewrite app_length, IH. destruct W as (a & ns & b & -> & _ & _ & L & _). cbn [List.length]. rewrite app_length. cbn. lia.
Qed.
Lemma groups (n k r : nat) : (r < k)%nat -> Nat.div (n * k + r) k = n.
Proof. intros H. symmetry. apply (PeanoNat.Nat.div_unique _ _ _ r); lia. Qed.
Theorem C340_gaps db ls ts rest : Forall2 (written 8) ls ts -> (List.length rest < 10)%nat -> Forall2 (gap_record db) ls (load_db db false (concat ts ++ rest)).
Proof.
  intros F L. unfold load_db. rewrite app_length, (words_count _ _ _ F), groups by exact L.
  destruct (read_lines (read_gaps db) (gap_record db) 8 (fun l t r b => read_gap_line db l t r b) ls ts O (last_word (concat ts ++ rest)) rest F) as (ds & E & R). rewrite PeanoNat.Nat.add_0_r in E. rewrite E. cbn [read_n]. now rewrite app_nil_r.
Qed.
Print Assumptions C340_gaps.
Theorem C340_sigmas db ls ts rest : Forall2 (written 3) ls ts -> (List.length rest < 5)%nat -> Forall2 (sigma_record db) ls (load_db db true (concat ts ++ rest)).
Proof.
  intros F L. unfold load_db. rewrite app_length, (words_count _ _ _ F), groups by exact L.
  destruct (read_lines (read_sigmas db) (sigma_record db) 3 (fun l t r b => read_sigma_line db l t r b) ls ts O (last_word (concat ts ++ rest)) rest F) as (ds & E & R). rewrite PeanoNat.Nat.add_0_r in E. rewrite E. cbn [read_n]. now rewrite app_nil_r.
Qed.
Print Assumptions C340_sigmas.
Definition w (s : string) : token := mkT s None.
Definition v (r : R) : token := mkT "number" (Some r).
Definition mats (s : string) : option nat := if String.eqb s "Cu" then Some 1%nat else if String.eqb s "W" then Some 2%nat else None.
Example C340_example : Forall2 (written 3) [mkLine "TCP" [6; 30; 0] "Cu"; mkLine "TCT" [9; 9; 1] "W"] [[w "TCP"; v 6; v 30; v 0; w "Cu"]; [w "TCT"; v 9; v 9; v 1; w "W"]].
Proof. constructor; [|constructor; [|constructor]]; [exists (w "TCP"), [v 6; v 30; v 0], (w "Cu")|exists (w "TCT"), [v 9; v 9; v 1], (w "W")]; repeat split. Qed.

(** ** C341: a word in place of a number is reported.  Refuted: the rest of the file is read as
    collimators without a name, made of the last material *)
Theorem C341_refuted db ls ts a b rest : Forall2 (written 3) ls ts -> ls <> [] -> num b = None ->
  let m := last (map l_mat ls) "" in let file := concat ts ++ a :: b :: rest in
  exists ds d es, load_db db true file = ds ++ (if Nat.leb 3 (List.length rest) then d :: es else []) /\ Forall2 (sigma_record db) ls ds /\
    d_name d = text a /\ d_sx d = Some 0 /\ d_sy d = None /\ d_mat d = db m /\
    forall e, In e es -> d_name e = "" /\ d_sx e = None /\ d_sy e = None /\ d_tilt e = None /\ d_mat e = db m.
Proof.
  intros F NE NB m file. unfold load_db. assert (LF : (Nat.div (List.length file) 5 = List.length ls + Nat.div (2 + List.length rest) 5)%nat).
  { unfold file. rewrite app_length, (words_count _ _ _ F). cbn [List.length plus]. replace (3 + 2)%nat with 5%nat by reflexivity. rewrite PeanoNat.Nat.add_comm, PeanoNat.Nat.div_add by lia. lia. }
  rewrite LF. destruct (read_lines (read_sigmas db) (sigma_record db) 3 (fun l t r b0 => read_sigma_line db l t r b0) ls ts (Nat.div (2 + List.length rest) 5) (last_word file) (a :: b :: rest) F) as (ds & E & R).
  fold file in E. rewrite E. assert (LM : last (map l_mat ls) (last_word file) = m). { unfold m. destruct ls as [|l ls]; [contradiction|]. cbn [map]. now rewrite !last_cons. } rewrite LM.
  assert (G : forall n s, read_n (read_sigmas db) n m (s, true) = repeat (mkD "" None None None None None None None None None None (db m)) n).
  { induction n as [|n IH]; intros s; [reflexivity|]. cbn [read_n]. unfold read_sigmas at 1, get_s, get_d. cbn [fst snd]. now rewrite IH. }
  exists ds, (mkD (text a) None None None None None None None None (Some 0) None (db m)), (repeat (mkD "" None None None None None None None None None None (db m)) (Nat.pred (Nat.div (2 + List.length rest) 5))).
  split; [|split; [exact R|]; split; [reflexivity|]; split; [reflexivity|]; split; [reflexivity|]; split; [reflexivity|]; intros e I; apply repeat_spec in I; subst; repeat split].
  f_equal. destruct (PeanoNat.Nat.leb_spec 3 (List.length rest)) as [L|L].
  - assert (D : exists n, Nat.div (2 + List.length rest) 5 = Datatypes.S n). { assert (1 <= Nat.div (2 + List.length rest) 5)%nat by (apply PeanoNat.Nat.div_le_lower_bound; lia). destruct (Nat.div (2 + List.length rest) 5); [lia|eauto]. }
    destruct D as (n & ->). cbn [read_n Nat.pred]. unfold read_sigmas at 1, get_s, get_d. cbn [fst snd]. rewrite NB. cbn [fst snd]. now rewrite G.
  - rewrite PeanoNat.Nat.div_small by lia. reflexivity.
Qed.
Print Assumptions C341_refuted.
Example C341_example : load_db mats true [w "TCP"; v 6; v 30; v 0; w "Cu"; w "TCSG"; w "six"; v 30; v 0; w "W"; w "TCT"; v 9; v 9; v 1; w "W"] =
  [mkD "TCP" None None (Some 0) None None None None None (Some 6) (Some 30) (Some 1%nat); mkD "TCSG" None None None None None None None None (Some 0) None (Some 1%nat);
   mkD "" None None None None None None None None None None (Some 1%nat)].
Proof. reflexivity. Qed.

(** ** one record applied to the collimators *)
Lemma on_first_cases n f k i l : (exists u c t, l = u ++ c :: t /\ c_name c = n /\ (forall x, In x u -> c_name x <> n) /\
    on_first n f k i l = (do r <- f c; Ok (u ++ fst (fst r) :: t, snd (fst r), snd r))) \/
  ((forall x, In x l -> c_name x <> n) /\ on_first n f k i l = Ok (l, k, i)).
Proof.
  induction l as [|c l IH]; cbn [on_first]; [right; split; [intros x []|reflexivity]|]. destruct (String.eqb_spec (c_name c) n) as [E|E].
  - left. exists [], c, l. repeat split; auto.
  - destruct IH as [(u & c0 & t & -> & N & U & H)|(U & H)].
    + left. exists (c :: u), c0, t. split; [reflexivity|]. split; [exact N|]. split; [intros x [<-|X]; auto|]. rewrite H. destruct (f c0); reflexivity.
    + right. split; [intros x [<-|X]; auto|]. now rewrite H.
Qed.

(** ** C342: an unknown material is reported.  Refuted: the collimator gets none *)
Theorem C342_refuted d c xg yg t : d_mat d = None -> d_name d = c_name c -> d_xgap d = Some xg -> d_ygap d = Some yg -> d_tilt d = Some t ->
  exists c', configure_gaps [d] [c] = Ok [c'] /\ c_mat c' = None /\ c_jaws c' <> None.
Proof.
  intros M N X Y T. cbn [configure_gaps on_first]. rewrite N, String.eqb_refl. unfold gap_one. rewrite X, Y, T, M. cbn [known bind fst snd]. eexists. split; [reflexivity|]. split; [reflexivity|discriminate].
Qed.
Print Assumptions C342_refuted.

(** ** C343: with gaps given, each collimator of the file gets its gap, tilted, and its material;
    the others stay *)
Definition gap_shape (d : cdata) (c c' : coll) : Prop :=
  c_mat c' = d_mat d /\ exists j xg yg t, c_jaws c' = Some (Matched j) /\ d_xgap d = Some xg /\ d_ygap d = Some yg /\ d_tilt d = Some t /\
    forall x y z p q, 0 < c_len c -> 0 <= z <= c_len c -> seen_from 0 0 t x y p q -> within_jaws j x y z = true <-> box (xg / 2) (yg / 2) p q.
Lemma gap_one_shape d c c' : gap_one d c = Ok c' -> same_place c c' /\ gap_shape d c c'.
Proof.
  unfold gap_one. destruct (d_xgap d) as [xg|] eqn:X, (d_ygap d) as [yg|] eqn:Y, (d_tilt d) as [t|] eqn:T; cbn [known bind]; try discriminate. intros H. injection H as <-.
  split; [repeat split|]. split; [reflexivity|]. exists (gap_jaws xg yg t (c_len c)), xg, yg, t. do 4 (split; [auto|]). intros x y z p q L Z S. unfold gap_jaws.
  assert (B : forall a, between 0 a (c_len c) a z a). { intros a. exists (z / c_len c). split; [|split; field; lra]. split; [apply Rmult_le_pos; [lra|left; now apply Rinv_0_lt_compat]|]. apply (Rmult_le_reg_r (c_len c)); [lra|]. unfold Rdiv. rewrite Rmult_assoc, Rinv_l by lra. lra. }
  apply (C81_tapered xg yg t (c_len c) 0 0 xg yg 0 0 x y z 0 0 xg yg p q); auto. left. lra.
Qed.
Lemma names_app u c t : map c_name (u ++ c :: t) = map c_name u ++ c_name c :: map c_name t.
Proof. now rewrite map_app. Qed.
Lemma nodup_mid (u t : list string) x : NoDup (u ++ x :: t) -> (forall y, In y u -> y <> x) /\ (forall y, In y t -> y <> x).
Proof.
  intros H. apply NoDup_remove_2 in H. split; intros y Y E; subst; apply H, in_or_app; auto.
Qed.
Lemma gaps_step ds d l l' : configure_gaps (d :: ds) l = Ok l' -> exists l1, configure_gaps ds l1 = Ok l' /\
  (l1 = l /\ (forall x, In x l -> c_name x <> d_name d) \/ exists u c t c', l = u ++ c :: t /\ l1 = u ++ c' :: t /\ c_name c = d_name d /\ (forall x, In x u -> c_name x <> d_name d) /\ gap_one d c = Ok c').
Proof.
  cbn [configure_gaps]. destruct (on_first_cases (d_name d) (fun c => do c' <- gap_one d c; Ok (c', O, 0)) O 0 l) as [(u & c & t & -> & N & U & ->)|(U & ->)].
  - destruct (gap_one d c) as [c'| |] eqn:G; cbn [bind fst snd]; try discriminate. intros H. exists (u ++ c' :: t). split; [exact H|]. right. exists u, c, t, c'. auto.
  - cbn [bind fst snd]. intros H. exists l. split; [exact H|]. now left.
Qed.
Lemma Forall2_refl {A} (P : A -> A -> Prop) l : (forall x, In x l -> P x x) -> Forall2 P l l.
Proof. induction l as [|x l IH]; intros H; constructor; [apply H; now left|apply IH; intros y Y; apply H; now right]. Qed.
Theorem C343_gaps ds : forall l l', NoDup (map d_name ds) -> NoDup (map c_name l) -> configure_gaps ds l = Ok l' ->
  Forall2 (fun c c' => same_place c c' /\ (forall d, In d ds -> d_name d = c_name c -> gap_shape d c c') /\ ((forall d, In d ds -> d_name d <> c_name c) -> c' = c)) l l'.
Proof.
  induction ds as [|d ds IH]; intros l l' ND NL H.
  - cbn [configure_gaps] in H. injection H as <-. apply Forall2_refl. intros c _. split; [repeat split|]. split; [intros d []|auto].
  - cbn [map] in ND. inversion ND as [|? ? N1 N2]; subst. destruct (gaps_step _ _ _ _ H) as (l1 & H1 & [(-> & U)|(u & c & t & c' & -> & -> & NC & U & G)]).
    + specialize (IH _ _ N2 NL H1). revert U. clear -IH. intros U. assert (K : forall c c', In c l -> (same_place c c' /\ (forall d, In d ds -> d_name d = c_name c -> gap_shape d c c') /\ ((forall d, In d ds -> d_name d <> c_name c) -> c' = c)) ->
        same_place c c' /\ (forall d0, In d0 (d :: ds) -> d_name d0 = c_name c -> gap_shape d0 c c') /\ ((forall d0, In d0 (d :: ds) -> d_name d0 <> c_name c) -> c' = c)).
      { intros c c' I (A & B & C). split; [exact A|]. split; [intros d0 [<-|D]; [intros E; exfalso; apply (U c I); congruence|auto]|]. intros D. apply C. intros d0 D0. apply D. now right. }
      clear U. induction IH; constructor; [apply K; [now left|auto]|apply IHIH; intros; apply K; [now right|auto]].
    + destruct (gap_one_shape _ _ _ G) as (SP & GS). assert (NC' : c_name c' = d_name d) by (destruct SP as (-> & _); auto).
      assert (NL1 : NoDup (map c_name (u ++ c' :: t))). { rewrite names_app in *. now rewrite NC', <- NC. }
      specialize (IH _ _ N2 NL1 H1). apply Forall2_app_inv_l in IH. destruct IH as (u' & t0 & FU & FT & ->). inversion FT as [|? c2 ? t' FC FT']; subst.
      assert (FR : forall x x', c_name x <> d_name d -> (same_place x x' /\ (forall d0, In d0 ds -> d_name d0 = c_name x -> gap_shape d0 x x') /\ ((forall d0, In d0 ds -> d_name d0 <> c_name x) -> x' = x)) ->
        same_place x x' /\ (forall d0, In d0 (d :: ds) -> d_name d0 = c_name x -> gap_shape d0 x x') /\ ((forall d0, In d0 (d :: ds) -> d_name d0 <> c_name x) -> x' = x)).
      { intros x x' NX (A & B & C). split; [exact A|]. split; [intros d0 [<-|D]; [intros E; congruence|auto]|]. intros D. apply C. intros d0 D0. apply D. now right. }
      rewrite names_app in NL. apply nodup_mid in NL. destruct NL as (NU & NT). apply Forall2_app.
      * clear -FU FR U. induction FU; constructor; [apply FR; auto; apply U; now left|apply IHFU; intros; apply U; now right].
      * constructor.
        -- assert (E2 : c2 = c'). { apply FC. intros d0 D0 E. apply N1. rewrite <- NC', <- E. now apply in_map. } subst c2. split; [exact SP|]. split.
           ++ intros d0 [<-|D0] E; [exact GS|]. exfalso. apply N1. rewrite <- NC, <- E. now apply in_map.
           ++ intros D. exfalso. apply (D d); [now left|congruence].
        -- assert (T : forall x, In x t -> c_name x <> d_name d). { intros x X E. apply (NT (c_name x)); [now apply in_map|congruence]. }
           clear -FT' FR T. induction FT'; constructor; [apply FR; auto; apply T; now left|apply IHFT'; intros; apply T; now right].
Qed.
Print Assumptions C343_gaps.
Example C343_example : exists l', configure_gaps [mkD "TCP" (Some 0.002) (Some 0.04) (Some 0) (Some 0.001) None None None None None None (Some 1%nat)] [mkC "TCP" 0.6 100 None None; mkC "TCSG" 1 200 None None] = Ok l' /\
  nth_error l' 1 = Some (mkC "TCSG" 1 200 None None).
Proof. eexists. split; reflexivity. Qed.

(** ** C344: all collimators of a name are configured.  Refuted: only the first one *)
Lemma repeated_step u c c' t i : c_name c' = c_name c -> (forall x, In x u -> c_name x <> c_name c) -> repeated (u ++ c :: t) i ->
  repeated (u ++ c' :: t) i /\ nth_error (u ++ c' :: t) i = nth_error (u ++ c :: t) i.
Proof.
  intros E U (j & a & b & J & A & B & N). assert (G : forall k, k <> List.length u -> nth_error (u ++ c' :: t) k = nth_error (u ++ c :: t) k).
  { intros k K. destruct (Compare_dec.le_lt_dec (List.length u) k) as [L|L]; [|now rewrite !nth_error_app1]. rewrite !nth_error_app2 by lia. destruct (k - List.length u)%nat eqn:D; [lia|reflexivity]. }
  assert (NI : i <> List.length u). { intros ->. rewrite nth_error_app2, PeanoNat.Nat.sub_diag in B by lia. cbn in B. injection B as <-. rewrite nth_error_app1 in A by lia. apply nth_error_In in A. exact (U a A N). }
  split; [|now apply G]. destruct (PeanoNat.Nat.eq_dec j (List.length u)) as [->|NJ].
  - rewrite nth_error_app2, PeanoNat.Nat.sub_diag in A by lia. cbn in A. injection A as ->. exists (List.length u), c', b. split; [exact J|]. split; [rewrite nth_error_app2, PeanoNat.Nat.sub_diag by lia; reflexivity|]. split; [now rewrite G|congruence].
  - exists j, a, b. repeat split; auto; now rewrite G.
Qed.
Theorem C344_refuted ds : forall l l' i, configure_gaps ds l = Ok l' -> repeated l i -> nth_error l' i = nth_error l i.
Proof.
  induction ds as [|d ds IH]; intros l l' i H R; [cbn in H; injection H as <-; reflexivity|]. destruct (gaps_step _ _ _ _ H) as (l1 & H1 & [(-> & U)|(u & c & t & c' & -> & -> & NC & U & G)]); [eauto|].
  apply gap_one_shape in G. destruct G as ((N & _) & _). destruct (repeated_step u c c' t i N) as (R1 & E); [intros x X; rewrite NC; auto|exact R|]. now rewrite (IH _ _ _ H1 R1).
Qed.
Print Assumptions C344_refuted.
Example C344_example : repeated [mkC "TCP" 0.6 100 None None; mkC "TCP" 0.6 200 None None] 1.
Proof. exists O, (mkC "TCP" 0.6 100 None None), (mkC "TCP" 0.6 200 None None). repeat split. lia. Qed.

(** ** C345: offsets and tilts of the jaws in the file are used.  Refuted: they change nothing *)
Theorem C345_refuted ds ds' l : Forall2 (fun d d' => d_name d' = d_name d /\ d_xgap d' = d_xgap d /\ d_ygap d' = d_ygap d /\ d_tilt d' = d_tilt d /\ d_mat d' = d_mat d) ds ds' ->
  configure_gaps ds' l = configure_gaps ds l.
Proof.
  intros F. revert l. induction F as [|d d' ds ds' (N & X & Y & T & M) F IH]; intros l; [reflexivity|]. cbn [configure_gaps]. rewrite N.
  assert (E : forall c, gap_one d' c = gap_one d c) by (intros c; unfold gap_one; now rewrite X, Y, T, M).
  assert (O : on_first (d_name d) (fun c => do c' <- gap_one d' c; Ok (c', O, 0)) O 0 l = on_first (d_name d) (fun c => do c' <- gap_one d c; Ok (c', O, 0)) O 0 l).
  { induction l as [|c l IHl]; [reflexivity|]. cbn [on_first]. now rewrite E, IHl. }
  rewrite O. clear O. match goal with |- bind ?e _ = _ => destruct e as [r| |]; cbn [bind]; auto end.
Qed.
Print Assumptions C345_refuted.
