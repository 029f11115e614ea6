(* C229-C235: columns and rows of the table and what is read from it *)
From Coq Require Import ZArith Lia Lra.
From Verif Require Import RBase Bunch BunchSpec Optics Orbit OrbitSpec OrbitProofs LatFun LatFunSpec LatFunProofs LatFunProps.
Local Open Scope R_scope.

(* ---- C229: the columns after any history ---- *)
Definition goodtab (t : table) : Prop :=
  (exists cs, map idx (tcols t) = (0, 0, 0)%Z :: cs) /\ (torbit t = true <-> Forall (fun c => ck c = 0%Z) (tcols t)).
Lemma good_add i j k t : goodtab t -> goodtab (add_function i j k t).
Proof.
  intros [(cs & E) O]. split.
  - exists (cs ++ [(i, j, k)]). unfold add_function. cbn [tcols]. rewrite map_app, E. reflexivity.
  - unfold add_function. cbn [tcols torbit]. rewrite Forall_app. destruct (Z.eqb_spec k 0) as [->|N].
    + rewrite O. split; [intros H; split; [exact H|constructor; [reflexivity|constructor]]|intros [H _]; exact H].
    + split; [discriminate|]. intros [_ H]. inversion H. cbn in *. contradiction.
Qed.
Lemma good_remove t : goodtab (remove_all t).
Proof. split; [exists []; reflexivity|]. cbn. split; [intros _; constructor; [reflexivity|constructor]|reflexivity]. Qed.
Lemma good_all l : forall t, goodtab t -> goodtab (add_all l t).
Proof. induction l as [|[[i j] k] l IH]; intros t G; [exact G|]. apply IH. apply good_add. exact G. Qed.
Lemma good_new : goodtab new_table.
Proof. apply good_all, good_remove. Qed.
Lemma good_do o t : goodtab t -> goodtab (tabdo o t).
Proof. intros G. destruct o; cbn [tabdo]; try exact G; [apply good_add; exact G|apply good_remove|apply good_all, good_remove|apply good_all, good_remove]. Qed.
Theorem C229_columns : forall os,
  (exists cs, map idx (tcols (history os)) = (0, 0, 0)%Z :: cs) /\
  (torbit (history os) = true <-> Forall (fun c => ck c = 0%Z) (tcols (history os))).
Proof.
  intros os. change (goodtab (history os)). unfold history. generalize new_table, good_new. induction os as [|o os IH]; intros t G; [exact G|]. apply IH. apply good_do. exact G.
Qed.
Print Assumptions C229_columns.
Theorem C229_added : forall os i j k, tcols (history (os ++ [TAdd i j k])) = tcols (history os) ++ [mkCol i j k []].
Proof. intros os i j k. unfold history. rewrite fold_left_app. reflexivity. Qed.
Print Assumptions C229_added.
Theorem C229_sets : forall os,
  map idx (tcols (history (os ++ [TOrbit]))) = [(0, 0, 0); (1, 0, 0); (2, 0, 0); (3, 0, 0); (4, 0, 0)]%Z /\
  map idx (tcols (history (os ++ [TDefault]))) =
    [(0, 0, 0); (1, 0, 0); (2, 0, 0); (3, 0, 0); (4, 0, 0); (5, 0, 0); (6, 0, 0);
     (1, 1, 1); (1, 2, 1); (3, 3, 2); (3, 4, 2); (1, 6, 3); (2, 6, 3); (3, 6, 3); (4, 6, 3); (6, 6, 3)]%Z /\
  map idx (tcols (history (os ++ [TRemoveAll]))) = [(0, 0, 0)]%Z /\ history [] = new_table /\ tcols new_table = tcols (history (os ++ [TDefault])).
Proof. intros os. unfold history. rewrite !fold_left_app. cbn [fold_left tabdo]. repeat split. Qed.
Print Assumptions C229_sets.
Theorem C229_settings : forall os d s f g,
  let t := history (os ++ [TDelta d; TScale s; TSymp f; TForce g]) in
  tdelta t = d /\ tscale t = s /\ tsymp t = f /\ tforce t = g /\ tcols t = tcols (history os) /\ torbit t = torbit (history os) /\
  (forall i j k, let u := history (os ++ [TDelta d; TScale s; TSymp f; TForce g; TAdd i j k]) in tdelta u = d /\ tscale u = s /\ tsymp u = f /\ tforce u = g).
Proof. intros os d s f g t. subst t. unfold history. rewrite fold_left_app. cbn. repeat split; unfold history; rewrite fold_left_app; reflexivity. Qed.
Print Assumptions C229_settings.
Example C229_instance : torbit (history []) = false /\ torbit (history [TOrbit]) = true /\ torbit (history [TOrbit; TAdd 0 0 1]) = false /\ torbit (history [TOrbit; TAdd 0 0 1; TRemoveAll]) = true.
Proof. repeat split. Qed.

(* ---- C230, C231: tables of the orbit only ---- *)
Lemma walk_orbit_spec scale l : forall pref s cs cs', walk_orbit scale l pref s cs = Ok cs' ->
  Forall2 (fun c c' => idx c' = idx c /\ exists vs, cval c' = cval c ++ vs /\ length vs = length l /\
    forall r, (r < length l)%nat -> value_of 6 true (s + way l r) (arrives scale l r pref) (fun _ _ => 0) (ci c) (cj c) (ck c) = Ok (nth r vs 0)) cs cs'.
Proof.
  induction l as [|c l IH]; intros pref s cs cs' H; cbn [walk_orbit] in H.
  - inversion H. clear. induction cs' as [|a cs IH]; constructor; [|exact IH]. split; [reflexivity|]. exists []. rewrite app_nil_r. split; [reflexivity|]. split; [reflexivity|]. intros r Hr. inversion Hr.
  - destruct (calc_row 6 true s pref (fun _ _ => 0) cs) as [cs1| |] eqn:C; cbn [bind] in H; try discriminate.
    apply calc_row_ok in C. apply IH in H. revert cs' H. clear - C. induction C as [|a b cs cs1 (v & V & ->) _ IC]; intros cs' F; inversion F as [|? c2 ? cs2 (J & vs & E1 & E2 & E3) F']; subst; constructor.
    + split; [exact J|]. exists (v :: vs). split; [rewrite E1; cbn [cval append_value]; rewrite <- app_assoc; reflexivity|].
      split; [cbn [length]; rewrite E2; reflexivity|]. intros r Hr. destruct r as [|r]; cbn [nth].
      * rewrite way_0, Rplus_0_r. exact V.
      * rewrite way_S, arrives_S, <- Rplus_assoc. apply E3. cbn [length] in Hr. lia.
    + apply IC. exact F'.
Qed.
Lemma do_orbit_inv factor m t scale pi t' d : do_orbit factor m t scale pi = Ok (t', d) ->
  exists p cs, starts factor m t scale false pi p /\ m <> [] /\ walk_orbit scale m p 0 (map clear_values (tcols t)) = Ok cs /\ t' = with_cols cs t /\ d = vdp p.
Proof.
  unfold do_orbit. intros H.
  match type of H with bind ?X _ = _ => destruct X as [p| |] eqn:P; cbn [bind] in H; try discriminate end.
  destruct m as [|c m]; [discriminate|].
  match type of H with bind ?X _ = _ => destruct X as [cs| |] eqn:W; cbn [bind] in H; try discriminate end.
  inversion H; subst. exists p, cs. split.
  { destruct pi as [q|]; cbn [starts]; [inversion P; reflexivity|].
    match type of P with bind (of_orbit ?X) _ = _ => destruct X as [[[q w] it]| |] eqn:F; cbn in P; try discriminate end.
    inversion P; subst. exists w, it. exact F. }
  split; [discriminate|]. split; [exact W|]. split; reflexivity.
Qed.
Lemma orbit_cols factor m t scale pi t' d p : do_orbit factor m t scale pi = Ok (t', d) -> starts factor m t scale false pi p ->
  d = vdp p /\ m <> [] /\ map idx (tcols t') = map idx (tcols t) /\
  forall c, In c (tcols t') -> length (cval c) = length m /\
    forall r, (r < length m)%nat -> value_of 6 true (way m r) (arrives scale m r p) (fun _ _ => 0) (ci c) (cj c) (ck c) = Ok (at_row c r).
Proof.
  intros H S. destruct (do_orbit_inv _ _ _ _ _ _ _ H) as (q & cs & S' & NE & W & -> & ->).
  rewrite (starts_unique _ _ _ _ _ _ _ _ S' S) in *. clear q S'. apply walk_orbit_spec in W. rename W into F. cbn [tcols with_cols].
  split; [reflexivity|]. split; [exact NE|]. split.
  { clear - F. revert F. generalize (tcols t). intros l. revert cs. induction l; intros cs F; inversion F as [|? ? ? ? [I _] F']; subst; [reflexivity|]. cbn [map]. rewrite I, (IHl _ F'). reflexivity. }
  intros c Hc. apply In_nth_error in Hc. destruct Hc as [q Hq].
  match type of F with Forall2 ?P _ _ => assert (F2 : exists c0, P (clear_values c0) c) end.
  { clear - F Hq. revert q cs F Hq. generalize (tcols t). induction l; intros q cs F Hq; inversion F as [|? ? ? ? I F']; subst; destruct q; cbn in Hq; try discriminate; [inversion Hq; subst; eauto|eauto]. }
  destruct F2 as (c0 & I & vs & V1 & V2 & V3). cbn [cval clear_values app] in V1. unfold idx in I. cbn [ci cj ck clear_values] in *. injection I as I1 I2 I3. unfold at_row.
  rewrite V1. split; [exact V2|]. intros r Hr. specialize (V3 r Hr). rewrite Rplus_0_l in V3. rewrite I1, I2, I3. exact V3.
Qed.
Lemma calc_orbit_inv factor eig m t pi Mi t' : torbit t = true -> calculate factor eig m t pi Mi = Ok t' -> exists d, do_orbit factor m t (tscale t) pi = Ok (t', d).
Proof.
  intros O H. unfold calculate in H. rewrite O in H. destruct (do_orbit factor m t (tscale t) pi) as [[a d]| |]; cbn in H; try discriminate.
  inversion H. exists d. reflexivity.
Qed.
Theorem C230_rows : forall factor eig m t pi Mi t' p, torbit t = true -> calculate factor eig m t pi Mi = Ok t' -> starts factor m t (tscale t) false pi p ->
  map idx (tcols t') = map idx (tcols t) /\
  forall c, In c (tcols t') -> length (cval c) = length m /\
    forall r, (r < length m)%nat ->
      (idx c = (0, 0, 0)%Z -> at_row c r = way m r) /\
      (forall i, (1 <= i <= 6)%Z -> idx c = (i, 0, 0)%Z -> at_row c r = coord (Z.to_nat (i - 1)) (arrives (tscale t) m r p)).
Proof.
  intros factor eig m t pi Mi t' p O H S. destruct (calc_orbit_inv _ _ _ _ _ _ _ O H) as [d H1]. destruct (orbit_cols _ _ _ _ _ _ _ _ H1 S) as (_ & _ & I & V).
  split; [exact I|]. intros c Hc. destruct (V c Hc) as [L V']. split; [exact L|]. intros r Hr. specialize (V' r Hr). split.
  - intros E. destruct (idx_inv _ _ _ _ E) as (E1 & E2 & E3). rewrite E1, E2, E3 in V'. exact (value_s _ _ _ _ _ _ V').
  - intros i Hi E. destruct (idx_inv _ _ _ _ E) as (E1 & E2 & E3). rewrite E1, E2, E3 in V'. exact (value_orbit _ _ _ _ _ _ _ Hi V').
Qed.
Print Assumptions C230_rows.
Lemma walk_orbit_ok scale l : forall pref s cs, Forall (fun c => legal 6 (idx c)) cs -> exists cs', walk_orbit scale l pref s cs = Ok cs'.
Proof.
  induction l as [|c l IH]; intros pref s cs L; cbn [walk_orbit]; [eauto|].
  destruct (calc_row_legal 6 true s pref (fun _ _ => 0) cs eq_refl L) as [cs1 E]. rewrite E. cbn [bind]. apply IH.
  apply calc_row_idx in E. rewrite <- (Forall_map idx (legal 6)), E, Forall_map. exact L.
Qed.
Theorem C230_total : forall factor eig m t p Mi, torbit t = true -> m <> [] -> Forall (fun c => legal 6 (idx c)) (tcols t) ->
  exists t', calculate factor eig m t (Some p) Mi = Ok t'.
Proof.
  intros factor eig m t p Mi O NE L. unfold calculate. rewrite O. unfold do_orbit. cbn [bind]. destruct m as [|c m]; [congruence|].
  destruct (walk_orbit_ok (tscale t) (c :: m) p 0 (map clear_values (tcols t))) as [cs W].
  - rewrite Forall_map. eapply Forall_impl; [|exact L]. intros a Ha. exact Ha.
  - rewrite W. cbn. eauto.
Qed.
Print Assumptions C230_total.
Example C230_instance : exists t', calculate (fun _ _ => None) (fun _ => None) [mkL (mkC 1 false (fun _ v => v)) 1; mkL (mkC 2 true (fun _ v => v)) 1] (history [TOrbit]) (Some (V6 1 2 3 4 5 6)) None = Ok t' /\
  map cval (tcols t') = [[0; 1]; [1; 1]; [2; 2]; [3; 3]; [4; 4]].
Proof.
  eexists. split; [reflexivity|]. cbn. unfold pass. cbn. destruct (Reqb_spec 0 0); [|lra]. cbn. repeat f_equal; lra.
Qed.

(* asking for one more function changes the number of rows of all others *)
Theorem C231_refuted : forall factor eig m t pi Mi a b i j k, goodtab t -> torbit t = true -> k <> 0%Z ->
  calculate factor eig m t pi Mi = Ok a -> calculate factor eig m (add_function i j k t) pi Mi = Ok b ->
  rows_of a = Ok (Z.of_nat (length m)) /\ rows_of b = Ok (Z.of_nat (length m) + 1)%Z.
Proof.
  intros factor eig m t pi Mi a b i j k [(cs & G) _] O K Ha Hb. split.
  - destruct (calc_orbit_inv _ _ _ _ _ _ _ O Ha) as [d H1]. destruct (do_orbit_inv _ _ _ _ _ _ _ H1) as (p & _ & S & _).
    destruct (orbit_cols _ _ _ _ _ _ _ _ H1 S) as (_ & _ & I & V). rewrite G in I. unfold rows_of. destruct (tcols a) as [|c l]; [discriminate|]. destruct (V c (or_introl eq_refl)) as [-> _]. reflexivity.
  - assert (O' : torbit (add_function i j k t) = false) by (cbn; destruct (Z.eqb_spec k 0); [contradiction|reflexivity]).
    destruct (calc_inv _ _ _ _ _ _ _ O' Hb) as (d & H1). destruct (do_calc_inv _ _ _ _ _ _ _ _ _ H1) as (q & _ & _ & _ & _ & _ & S & _).
    destruct (C224_rows _ _ _ _ _ _ _ _ O' Hb S) as [I V]. unfold add_function in I. cbn [tcols] in I. rewrite map_app, G in I. cbn [app] in I. unfold rows_of. destruct (tcols b) as [|c l]; [discriminate|]. destruct (V c (or_introl eq_refl)) as [-> _]. f_equal. lia.
Qed.
Print Assumptions C231_refuted.

(* ---- C232: reading values ---- *)
Lemma get_column_in i j k cs c : get_column i j k cs = Some c -> In c cs /\ idx c = (i, j, k).
Proof.
  induction cs as [|a cs IH]; cbn [get_column]; [discriminate|]. destruct (Z.eqb_spec i (ci a)), (Z.eqb_spec j (cj a)), (Z.eqb_spec k (ck a)); cbn [andb];
    try (intros H; destruct (IH H); split; [right; assumption|assumption]).
  intros H. inversion H; subst. split; [left; reflexivity|reflexivity].
Qed.
Lemma get_column_none i j k cs : get_column i j k cs = None <-> ~ In (i, j, k) (map idx cs).
Proof.
  induction cs as [|a cs IH]; cbn [get_column map In]; [tauto|].
  destruct (Z.eqb_spec i (ci a)), (Z.eqb_spec j (cj a)), (Z.eqb_spec k (ck a)); cbn [andb];
    try (rewrite IH; unfold idx; split; [intros H [E|E]; [congruence|contradiction]|tauto]).
  subst. split; [discriminate|]. intros H. exfalso. apply H. left. reflexivity.
Qed.
Lemma col_at_ok c n : (0 <= n < Z.of_nat (length (cval c)))%Z -> col_at c n = Ok (at_row c (Z.to_nat n)).
Proof.
  intros H. unfold col_at, at_row. destruct (Z.ltb_spec n 0); [lia|].
  destruct (nth_error (cval c) (Z.to_nat n)) eqn:E; [rewrite (nth_error_nth _ _ 0 E); reflexivity|]. apply nth_error_None in E. lia.
Qed.
Lemma col_at_out c n : (n < 0 \/ Z.of_nat (length (cval c)) <= n)%Z -> col_at c n = Throw OutOfRange.
Proof.
  intros H. unfold col_at. destruct (Z.ltb_spec n 0); [reflexivity|]. destruct (nth_error (cval c) (Z.to_nat n)) eqn:E; [|reflexivity].
  assert (nth_error (cval c) (Z.to_nat n) <> None) by congruence. apply nth_error_Some in H1. lia.
Qed.
(* the first column with these indices, if the row is there *)
Theorem C232_value : forall t pre c post i j k n, tcols t = pre ++ c :: post -> idx c = (i, j, k) -> ~ In (i, j, k) (map idx pre) ->
  ((0 <= n < Z.of_nat (length (cval c)))%Z -> table_value i j k n t = Ok (at_row c (Z.to_nat n))) /\
  ((n < 0 \/ Z.of_nat (length (cval c)) <= n)%Z -> table_value i j k n t = Throw OutOfRange).
Proof.
  intros t pre c post i j k n E I NI.
  assert (G : get_column i j k (tcols t) = Some c).
  { rewrite E. clear E. induction pre as [|a pre IH]; cbn [app get_column].
    - destruct (idx_inv _ _ _ _ I) as (-> & -> & ->). rewrite !Z.eqb_refl. reflexivity.
    - destruct (Z.eqb_spec i (ci a)), (Z.eqb_spec j (cj a)), (Z.eqb_spec k (ck a)); cbn [andb]; try (apply IH; intros H; apply NI; right; exact H).
      exfalso. apply NI. left. unfold idx. congruence. }
  unfold table_value. rewrite G. split; [apply col_at_ok|apply col_at_out].
Qed.
Print Assumptions C232_value.
(* a function that was not asked for is not refused: the end of the list is read *)
Theorem C232_refuted : forall t i j k n, ~ In (i, j, k) (map idx (tcols t)) -> table_value i j k n t = UB.
Proof. intros t i j k n H. unfold table_value. apply get_column_none in H. rewrite H. reflexivity. Qed.
Print Assumptions C232_refuted.
Example C232_instance : let t := mkTab [mkCol 0 0 0 [0; 1]; mkCol 1 1 1 [7; 8]; mkCol 1 1 1 [9; 9]] false 1 0 false false in
  table_value 1 1 1 1 t = Ok 8 /\ table_value 1 1 1 2 t = Throw OutOfRange /\ table_value 2 2 1 0 t = UB.
Proof. repeat split. Qed.
(* the rows printed: all columns of n rows, from n1 (0 if negative) to n2 (the last if there is no such row or it is before n1) *)
Lemma print_cols_ok n cs row : Forall (fun c => length (cval c) = n) cs -> (0 <= row < Z.of_nat n)%Z -> print_cols row cs = Ok (map (fun c => at_row c (Z.to_nat row)) cs).
Proof. intros F H. induction F as [|c cs L _ IH]; cbn [print_cols map]; [reflexivity|]. rewrite col_at_ok by (rewrite L; exact H). cbn [bind]. rewrite IH. reflexivity. Qed.
Lemma print_rows_ok n cs : Forall (fun c => length (cval c) = n) cs -> forall fuel row n2, (0 <= row)%Z -> (n2 < Z.of_nat n)%Z -> fuel = Z.to_nat (n2 - row + 1) ->
  print_rows fuel row n2 cs = Ok (map (fun r => map (fun c => at_row c r) cs) (seq (Z.to_nat row) fuel)).
Proof.
  intros F. induction fuel as [|fuel IH]; intros row n2 H1 H2 E; cbn [print_rows seq map]; [reflexivity|].
  destruct (Z.leb_spec row n2); [|lia]. rewrite (print_cols_ok n) by (assumption || lia). cbn [bind]. rewrite IH by lia. cbn [bind].
  replace (Z.to_nat (row + 1)) with (S (Z.to_nat row)) by lia. reflexivity.
Qed.
Theorem C232_printed : forall t n n1 n2, tcols t <> [] -> Forall (fun c => length (cval c) = n) (tcols t) ->
  let a := Z.max 0 n1 in let b := if (Z.of_nat n <=? n2)%Z || (n2 <? a)%Z then (Z.of_nat n - 1)%Z else n2 in
  print_table n1 n2 t = Ok (map (fun r => map (fun c => at_row c r) (tcols t)) (seq (Z.to_nat a) (Z.to_nat (b - a + 1)))).
Proof.
  intros t n n1 n2 NE F a b. unfold print_table, rows_of. destruct (tcols t) as [|c l] eqn:E; [congruence|]. cbn [bind].
  rewrite (Forall_inv F). unfold row_range. replace (if (n1 <? 0)%Z then 0%Z else n1) with a by (unfold a; destruct (Z.ltb_spec n1 0); lia). cbn [fst snd]. fold b.
  apply (print_rows_ok n); [exact F|unfold a; lia| |reflexivity]. unfold b. destruct (Z.leb_spec (Z.of_nat n) n2), (Z.ltb_spec n2 a); cbn [orb]; lia.
Qed.
Print Assumptions C232_printed.
Theorem C232_size : forall t n, tcols t <> [] -> Forall (fun c => length (cval c) = n) (tcols t) -> size_of t = Ok (Z.of_nat n, Z.of_nat (length (tcols t))).
Proof. intros t n NE F. unfold size_of, rows_of. destruct (tcols t) as [|c l]; [congruence|]. cbn [bind]. rewrite (Forall_inv F). reflexivity. Qed.
Print Assumptions C232_size.

(* ---- C233: GetSPosIndex ---- *)
Lemma spos_spec vs s : forall n, (0 <= n)%Z ->
  (forall r, (r < length vs)%nat -> s <= nth r vs 0 -> (forall q, (q < r)%nat -> nth q vs 0 < s) -> spos_from vs s n = (n + Z.of_nat r)%Z) /\
  ((forall r, (r < length vs)%nat -> nth r vs 0 < s) -> spos_from vs s n = (-1)%Z).
Proof.
  induction vs as [|v vs IH]; intros n Hn; cbn [spos_from length]; split.
  - intros r Hr. lia.
  - reflexivity.
  - intros r Hr G L. destruct (Rleb_spec s v) as [Q|Q].
    + destruct r as [|r]; [lia|]. specialize (L O ltac:(lia)). cbn in L. lra.
    + destruct r as [|r]; [cbn in G; lra|]. destruct (IH (n + 1)%Z ltac:(lia)) as [I _]. rewrite (I r); [lia|lia|exact G|]. intros q Hq. exact (L (S q) ltac:(lia)).
  - intros L. destruct (Rleb_spec s v) as [Q|Q]; [specialize (L O ltac:(lia)); cbn in L; lra|]. apply IH; [lia|]. intros r Hr. exact (L (S r) ltac:(lia)).
Qed.
Theorem C233_position : forall t c l s, tcols t = c :: l ->
  (forall r, (r < length (cval c))%nat -> s <= at_row c r -> (forall q, (q < r)%nat -> at_row c q < s) -> spos_index s t = Ok (Z.of_nat r)) /\
  ((forall r, (r < length (cval c))%nat -> at_row c r < s) -> spos_index s t = Ok (-1)%Z).
Proof.
  intros t c l s E. unfold spos_index. rewrite E. destruct (spos_spec (cval c) s 0 (Z.le_refl 0)) as [A B]. split.
  - intros r H1 H2 H3. rewrite (A r H1 H2 H3). reflexivity.
  - intros H. rewrite (B H). reflexivity.
Qed.
Print Assumptions C233_position.
Example C233_instance : let t := mkTab [mkCol 0 0 0 [0; 1; 1; 3]] true 1 0 false false in
  spos_index 1 t = Ok 1%Z /\ spos_index (3 / 2) t = Ok 3%Z /\ spos_index 4 t = Ok (-1)%Z /\ spos_index (-1) t = Ok 0%Z.
Proof. cbn. repeat (match goal with |- context [Rleb ?a ?b] => destruct (Rleb_spec a b); try lra end). repeat split. Qed.

(* ---- C234, C235: means ---- *)
Definition trapezoid (f : R -> R) (s v : nat -> R) (a n : nat) : R := tot n (fun q => (s (a + q + 1)%nat - s (a + q)%nat) * (f (v (a + q)%nat) + f (v (a + q + 1)%nat)) / 2).
Lemma tot_head n f : tot (S n) f = f 0%nat + tot n (fun q => f (S q)).
Proof. induction n as [|n IH]; [rewrite !tot_S, !tot_0; ring|]. rewrite tot_S, IH, (tot_S n). ring. Qed.
Lemma mean_loop_ok f g sc c n : (forall x y, f y x = g x + g y) -> length (cval sc) = n -> length (cval c) = n ->
  forall fuel a b sums sumv, (0 <= a)%Z -> (a <= b)%Z -> (b < Z.of_nat n)%Z -> fuel = Z.to_nat (b - a) ->
  mean_loop f sc (Some c) fuel a b sums sumv =
    Ok (sums + (at_row sc (Z.to_nat b) - at_row sc (Z.to_nat a)), sumv + trapezoid g (at_row sc) (at_row c) (Z.to_nat a) fuel).
Proof.
  intros Fg L1 L2. induction fuel as [|fuel IH]; intros a b sums sumv H1 H2 H3 E; cbn [mean_loop].
  - assert (a = b) as -> by lia. unfold trapezoid. rewrite tot_0. f_equal. f_equal; ring.
  - destruct (Z.ltb_spec a b); [|lia]. rewrite !col_at_ok by (rewrite ?L1, ?L2; lia). cbn [bind]. rewrite IH by lia. f_equal. f_equal.
    + replace (Z.to_nat (a + 1)) with (S (Z.to_nat a)) by lia. ring.
    + unfold trapezoid. rewrite (tot_head fuel). rewrite Fg. replace (Z.to_nat (a + 1)) with (S (Z.to_nat a)) by lia. rewrite Nat.add_0_r. replace (Z.to_nat a + 1)%nat with (S (Z.to_nat a)) by lia.
      rewrite <- Rplus_assoc. f_equal; [field|]. apply tot_ext. intros q _. replace (Z.to_nat a + S q)%nat with (S (Z.to_nat a) + q)%nat by lia. reflexivity.
Qed.
(* column c is found under (i, j, k), all columns have n rows, and a..b are the rows meant *)
Definition reads (t : table) (sc c : lcol) (n : nat) (i j k n1 n2 : Z) (a b : nat) : Prop :=
  (exists l, tcols t = sc :: l) /\ (exists pre post, tcols t = pre ++ c :: post /\ ~ In (i, j, k) (map idx pre)) /\ idx c = (i, j, k) /\
  length (cval sc) = n /\ length (cval c) = n /\ (a <= b < n)%nat /\
  Z.of_nat a = Z.max 0 n1 /\ Z.of_nat b = (if (Z.of_nat n <=? n2)%Z || (n2 <? Z.of_nat a)%Z then (Z.of_nat n - 1)%Z else n2).
Lemma averages_ok f g t sc c n i j k n1 n2 a b : (forall x y, f y x = g x + g y) -> reads t sc c n i j k n1 n2 a b ->
  averages f i j k n1 n2 t = Ok (at_row sc b - at_row sc a, trapezoid g (at_row sc) (at_row c) a (b - a)).
Proof.
  intros Fg ((l & E) & (pre & post & E2 & NI) & I & L1 & L2 & AB & Ha & Hb).
  assert (G : get_column i j k (tcols t) = Some c).
  { rewrite E2. clear - I NI. induction pre as [|x pre IH]; cbn [app get_column].
    - destruct (idx_inv _ _ _ _ I) as (-> & -> & ->). rewrite !Z.eqb_refl. reflexivity.
    - destruct (Z.eqb_spec i (ci x)), (Z.eqb_spec j (cj x)), (Z.eqb_spec k (ck x)); cbn [andb]; try (apply IH; intros H; apply NI; right; exact H).
      exfalso. apply NI. left. unfold idx. congruence. }
  unfold averages. rewrite G, E, L1. unfold row_range.
  replace (if (n1 <? 0)%Z then 0%Z else n1) with (Z.of_nat a) by (destruct (Z.ltb_spec n1 0); lia). cbn [fst snd]. rewrite <- Hb.
  rewrite (mean_loop_ok f g sc c n Fg L1 L2) by lia. rewrite !Nat2Z.id. replace (Z.to_nat (Z.of_nat b - Z.of_nat a)) with (b - a)%nat by lia. f_equal. f_equal; ring.
Qed.
Theorem C234_mean : forall t sc c n i j k n1 n2 a b, reads t sc c n i j k n1 n2 a b -> at_row sc a <> at_row sc b ->
  mean i j k n1 n2 t = Ok (trapezoid (fun x => x) (at_row sc) (at_row c) a (b - a) / (at_row sc b - at_row sc a)).
Proof.
  intros t sc c n i j k n1 n2 a b R N. unfold mean. rewrite (averages_ok (fun v1 v0 => v1 + v0) (fun x => x) _ _ _ _ _ _ _ _ _ _ _ (fun x y => Rplus_comm y x) R). cbn [bind fst snd].
  destruct (Reqb_spec (at_row sc b - at_row sc a) 0); [exfalso; apply N; lra|]. reflexivity.
Qed.
Print Assumptions C234_mean.
Lemma trapezoid_le f g s u v a n : (forall q, (q < n)%nat -> s (a + q)%nat <= s (a + q + 1)%nat) -> (forall q, (q <= n)%nat -> f (u (a + q)%nat) <= g (v (a + q)%nat)) ->
  trapezoid f s u a n <= trapezoid g s v a n.
Proof.
  intros S L. unfold trapezoid. induction n as [|n IH]; [rewrite !tot_0; lra|]. rewrite !tot_S.
  assert (A : tot n (fun q => (s (a + q + 1)%nat - s (a + q)%nat) * (f (u (a + q)%nat) + f (u (a + q + 1)%nat)) / 2) <= tot n (fun q => (s (a + q + 1)%nat - s (a + q)%nat) * (g (v (a + q)%nat) + g (v (a + q + 1)%nat)) / 2)) by (apply IH; [intros q Hq; apply S; lia|intros q Hq; apply L; lia]).
  pose proof (S n ltac:(lia)) as Sn. pose proof (L n ltac:(lia)) as L0. pose proof (L (n + 1)%nat ltac:(lia)) as L1. rewrite Nat.add_assoc in L1.
  set (d := s (a + n + 1)%nat - s (a + n)%nat) in *. assert (0 <= d) by (unfold d; lra). nra.
Qed.
Lemma trapezoid_const x s a n : trapezoid (fun _ => x) s s a n = x * (s (a + n)%nat - s a).
Proof.
  unfold trapezoid. induction n as [|n IH]; [rewrite tot_0, Nat.add_0_r; ring|]. rewrite tot_S, IH. replace (a + S n)%nat with (a + n + 1)%nat by lia. field.
Qed.
Lemma trapezoid_path s a n : trapezoid (fun x => x) s s a n = (s (a + n)%nat + s a) / 2 * (s (a + n)%nat - s a).
Proof.
  unfold trapezoid. induction n as [|n IH]; [rewrite tot_0, Nat.add_0_r; ring|]. rewrite tot_S, IH. replace (a + S n)%nat with (a + n + 1)%nat by lia. field.
Qed.
Lemma climbs (s : nat -> R) a n : (forall q, (q < n)%nat -> s (a + q)%nat <= s (a + q + 1)%nat) -> s a <= s (a + n)%nat.
Proof. induction n as [|n IH]; intros H; [rewrite Nat.add_0_r; lra|]. replace (a + S n)%nat with (a + n + 1)%nat by lia. pose proof (H n ltac:(lia)). pose proof (IH ltac:(intros q Hq; apply H; lia)). lra. Qed.
Theorem C234_between : forall t sc c n i j k n1 n2 a b lo hi, reads t sc c n i j k n1 n2 a b -> at_row sc a <> at_row sc b ->
  (forall r, (a <= r < b)%nat -> at_row sc r <= at_row sc (r + 1)) -> (forall r, (a <= r <= b)%nat -> lo <= at_row c r <= hi) ->
  exists x, mean i j k n1 n2 t = Ok x /\ lo <= x <= hi.
Proof.
  intros t sc c n i j k n1 n2 a b lo hi R N S B. rewrite (C234_mean _ _ _ _ _ _ _ _ _ _ _ R N). eexists. split; [reflexivity|].
  destruct R as (_ & _ & _ & _ & _ & AB & _).
  assert (S' : forall q, (q < b - a)%nat -> at_row sc (a + q) <= at_row sc (a + q + 1)) by (intros q Hq; apply S; lia).
  pose proof (climbs (at_row sc) a (b - a) S') as C. replace (a + (b - a))%nat with b in C by lia.
  assert (D : 0 < at_row sc b - at_row sc a) by lra.
  assert (L : trapezoid (fun _ => lo) (at_row sc) (at_row sc) a (b - a) <= trapezoid (fun x => x) (at_row sc) (at_row c) a (b - a)) by (apply trapezoid_le; [exact S'|intros q Hq; apply B; lia]).
  assert (H : trapezoid (fun x => x) (at_row sc) (at_row c) a (b - a) <= trapezoid (fun _ => hi) (at_row sc) (at_row sc) a (b - a)) by (apply trapezoid_le; [exact S'|intros q Hq; apply B; lia]).
  rewrite trapezoid_const in L, H. replace (a + (b - a))%nat with b in L, H by lia. split.
  - apply (Rmult_le_reg_r (at_row sc b - at_row sc a)); [exact D|]. unfold Rdiv. rewrite Rmult_assoc, Rinv_l by lra. lra.
  - apply (Rmult_le_reg_r (at_row sc b - at_row sc a)); [exact D|]. unfold Rdiv. rewrite Rmult_assoc, Rinv_l by lra. lra.
Qed.
Print Assumptions C234_between.
Theorem C234_path : forall t sc n n1 n2 a b, reads t sc sc n 0 0 0 n1 n2 a b -> at_row sc a <> at_row sc b -> mean 0 0 0 n1 n2 t = Ok ((at_row sc a + at_row sc b) / 2).
Proof.
  intros t sc n n1 n2 a b R N. rewrite (C234_mean _ _ _ _ _ _ _ _ _ _ _ R N), trapezoid_path. destruct R as (_ & _ & _ & _ & _ & AB & _). replace (a + (b - a))%nat with b by lia. f_equal. field. lra.
Qed.
Print Assumptions C234_path.
Theorem C234_rms : forall t sc c n i j k n1 n2 a b, reads t sc c n i j k n1 n2 a b -> at_row sc a <> at_row sc b ->
  (forall r, (a <= r < b)%nat -> at_row sc r <= at_row sc (r + 1)) ->
  exists x y, rms i j k n1 n2 t = Ok x /\ mean i j k n1 n2 t = Ok y /\ 0 <= x /\
    x * x = trapezoid (fun v => v * v) (at_row sc) (at_row c) a (b - a) / (at_row sc b - at_row sc a) /\ Rabs y <= x.
Proof.
  intros t sc c n i j k n1 n2 a b R N S. unfold rms. rewrite (averages_ok (fun v1 v0 => v0 * v0 + v1 * v1) (fun x => x * x) _ _ _ _ _ _ _ _ _ _ _ (fun x y => eq_refl) R). cbn [bind fst snd].
  destruct (Reqb_spec (at_row sc b - at_row sc a) 0); [exfalso; apply N; lra|].
  rewrite (C234_mean _ _ _ _ _ _ _ _ _ _ _ R N). destruct R as (_ & _ & _ & _ & _ & AB & _).
  assert (S' : forall q, (q < b - a)%nat -> at_row sc (a + q) <= at_row sc (a + q + 1)) by (intros q Hq; apply S; lia).
  pose proof (climbs (at_row sc) a (b - a) S') as C. replace (a + (b - a))%nat with b in C by lia.
  assert (D : 0 < at_row sc b - at_row sc a) by lra.
  set (y := trapezoid (fun x => x) (at_row sc) (at_row c) a (b - a) / (at_row sc b - at_row sc a)).
  set (z := trapezoid (fun v => v * v) (at_row sc) (at_row c) a (b - a) / (at_row sc b - at_row sc a)).
  (* the mean of (v - y)^2 is not negative *)
  assert (Q : y * y <= z).
  { assert (T : trapezoid (fun v => 2 * y * v - y * y) (at_row sc) (at_row c) a (b - a) <= trapezoid (fun v => v * v) (at_row sc) (at_row c) a (b - a)) by (apply trapezoid_le; [exact S'|intros q _; pose proof (Rle_0_sqr (at_row c (a + q) - y)) as Q; unfold Rsqr in Q; lra]).
    assert (E : trapezoid (fun v => 2 * y * v - y * y) (at_row sc) (at_row c) a (b - a) = 2 * y * trapezoid (fun x => x) (at_row sc) (at_row c) a (b - a) - y * y * (at_row sc b - at_row sc a)).
    { transitivity (2 * y * trapezoid (fun x => x) (at_row sc) (at_row c) a (b - a) - trapezoid (fun _ => y * y) (at_row sc) (at_row sc) a (b - a)).
      - unfold trapezoid. generalize (b - a)%nat. intros m. induction m as [|m IH]; [rewrite !tot_0; ring|]. rewrite !tot_S, IH. field.
      - rewrite trapezoid_const. replace (a + (b - a))%nat with b by lia. reflexivity. }
    rewrite E in T. assert (Y : trapezoid (fun x => x) (at_row sc) (at_row c) a (b - a) = y * (at_row sc b - at_row sc a)) by (unfold y; field; lra).
    assert (Zz : trapezoid (fun v => v * v) (at_row sc) (at_row c) a (b - a) = z * (at_row sc b - at_row sc a)) by (unfold z; field; lra).
    rewrite Y, Zz in T. nra. }
  assert (0 <= z) by nra. destruct (Rltb_spec z 0); [lra|]. exists (sqrt z), y. split; [reflexivity|]. split; [reflexivity|]. split; [apply sqrt_pos|]. split; [apply sqrt_sqrt; assumption|].
  rewrite <- sqrt_Rsqr_abs. apply sqrt_le_1_alt. exact Q.
Qed.
Print Assumptions C234_rms.
Example C234_instance : let sc := mkCol 0 0 0 [0; 1; 3] in let c := mkCol 1 1 1 [2; 4; 4] in
  let t := mkTab [sc; c] false 1 0 false false in
  reads t sc c 3 1 1 1 0 (-1) 0 2 /\ reads t sc c 3 1 1 1 (-5) 1 0 1 /\ mean 1 1 1 0 (-1) t = Ok (11 / 3) /\ mean 1 1 1 (-5) 1 t = Ok 3.
Proof.
  intros sc c t.
  assert (R1 : reads t sc c 3 1 1 1 0 (-1) 0 2).
  { split; [eexists; reflexivity|]. split; [exists [sc], []; split; [reflexivity|]; cbn; intros [H|[]]; discriminate|]. repeat split; cbn; lia. }
  assert (R2 : reads t sc c 3 1 1 1 (-5) 1 0 1).
  { split; [eexists; reflexivity|]. split; [exists [sc], []; split; [reflexivity|]; cbn; intros [H|[]]; discriminate|]. repeat split; cbn; lia. }
  split; [exact R1|]. split; [exact R2|]. split.
  - rewrite (C234_mean _ _ _ _ _ _ _ _ _ _ _ R1) by (cbn; lra). unfold trapezoid, tot. cbn. f_equal. field.
  - rewrite (C234_mean _ _ _ _ _ _ _ _ _ _ _ R2) by (cbn; lra). unfold trapezoid, tot. cbn. f_equal. field.
Qed.
(* the mean of a single row is not the value in that row *)
Theorem C235_refuted : forall t sc c n i j k r, reads t sc c n i j k (Z.of_nat r) (Z.of_nat r) r r -> mean i j k (Z.of_nat r) (Z.of_nat r) t = Throw NotNumber /\ rms i j k (Z.of_nat r) (Z.of_nat r) t = Throw NotNumber.
Proof.
  intros t sc c n i j k r R. unfold mean, rms. rewrite (averages_ok (fun v1 v0 => v1 + v0) (fun x => x) _ _ _ _ _ _ _ _ _ _ _ (fun x y => Rplus_comm y x) R), (averages_ok (fun v1 v0 => v0 * v0 + v1 * v1) (fun x => x * x) _ _ _ _ _ _ _ _ _ _ _ (fun x y => eq_refl) R). cbn [bind fst].
  destruct (Reqb_spec (at_row sc r - at_row sc r) 0); [auto|lra].
Qed.
Print Assumptions C235_refuted.
