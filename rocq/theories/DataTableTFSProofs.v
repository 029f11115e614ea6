From Verif Require Import Base DataTable DataTableSpec DataTableProofs DataTableTFS.

(** * splitting *)
Definition plainc (c : ascii) : Prop := c <> quote /\ is_ws c = false.
Definition plain (s : str) : Prop := s <> [] /\ Forall plainc s.
Definition flush (cur : str) : list str := match cur with [] => [] | _ => [cur] end.

Lemma char_eqb_refl c : char_eqb c c = true.
Proof. unfold char_eqb. apply Ascii.eqb_refl. Qed.
Lemma char_eqb_neq c d : c <> d -> char_eqb c d = false.
Proof. intros H. unfold char_eqb. destruct (Ascii.eqb_spec c d); congruence. Qed.
Lemma str_eqb_neq a b : a <> b -> str_eqb a b = false.
Proof. intros H. destruct (str_eqb_spec a b); congruence. Qed.

Lemma split_plain w : Forall plainc w -> forall cur rest,
  split_go false cur (w ++ rest) = split_go false (cur ++ w) rest.
Proof.
  induction 1 as [|c w [Hq Hw] _ IH]; intros cur rest; simpl.
  - rewrite app_nil_r. reflexivity.
  - rewrite (char_eqb_neq _ _ Hq), Hw. rewrite IH, <- app_assoc. reflexivity.
Qed.

Lemma split_inquote v : ~ In quote v -> forall cur rest,
  split_go true cur (v ++ quote :: rest) = split_go false (cur ++ v) rest.
Proof.
  induction v as [|c v IH]; intros Hn cur rest; cbn [app split_go].
  - rewrite char_eqb_refl, app_nil_r. reflexivity.
  - simpl in Hn. rewrite char_eqb_neq by tauto. simpl negb. cbn [andb].
    rewrite IH by tauto. rewrite <- app_assoc. reflexivity.
Qed.

Lemma split_quoted v cur rest : ~ In quote v ->
  split_go false cur (quote :: v ++ quote :: rest) = split_go false (cur ++ v) rest.
Proof. intros H. cbn [split_go]. rewrite char_eqb_refl. apply split_inquote. exact H. Qed.

Lemma split_space cur rest : split_go false cur (space :: rest) = flush cur ++ split_go false [] rest.
Proof. destruct cur; reflexivity. Qed.

Lemma split_spaces n rest : split_go false [] (repeat space n ++ rest) = split_go false [] rest.
Proof. induction n; simpl; auto. Qed.

Lemma split_end cur : split_go false cur [] = flush cur.
Proof. destruct cur; reflexivity. Qed.

(** a text [x] starting with a space and contributing exactly the word [w] *)
Definition brk (rest : str) : Prop := rest = [] \/ exists r, rest = space :: r.
Lemma split_brk w rest : w <> [] -> brk rest ->
  split_go false w rest = w :: split_go false [] rest.
Proof.
  intros Hw [->|[r ->]].
  - destruct w; [congruence|reflexivity].
  - rewrite !split_space. destruct w; [congruence|reflexivity].
Qed.

Definition cell_ok (x w : str) : Prop :=
  (exists x', x = space :: x') /\
  forall cur rest, brk rest -> split_go false cur (x ++ rest) = flush cur ++ w :: split_go false [] rest.

Lemma brk_spaces k rest : brk rest -> brk (repeat space k ++ rest).
Proof. intros H. destruct k; simpl; [exact H|right; eauto]. Qed.

Lemma cell_ok_pad k w : plain w -> cell_ok (space :: pad k w) w.
Proof.
  intros [Hne Hp]. split; [eauto|]. intros cur rest Hr. unfold pad.
  cbn [app]. rewrite split_space. f_equal. rewrite <- app_assoc, split_plain by assumption.
  simpl app at 1. rewrite split_brk by (auto; apply brk_spaces; assumption).
  rewrite split_spaces. reflexivity.
Qed.

Lemma cell_ok_quote w : w <> [] -> ~ In quote w -> cell_ok (space :: quote :: w ++ [quote]) w.
Proof.
  intros Hne Hq. split; [eauto|]. intros cur rest Hr.
  replace ((space :: quote :: w ++ [quote]) ++ rest) with (space :: quote :: w ++ quote :: rest)
    by (simpl; rewrite <- app_assoc; reflexivity).
  rewrite split_space. f_equal. rewrite split_quoted by assumption. apply split_brk; assumption.
Qed.

Lemma cells_split xs ws : Forall2 cell_ok xs ws -> split_line (concat xs) = ws.
Proof.
  unfold split_line. intros H.
  assert (Hb : brk (concat xs)).
  { destruct H as [|x w xs ws [[x' ->] _] _]; [left; reflexivity|right; simpl; eauto]. }
  clear Hb. induction H as [|x w xs ws [_ Hx] Hr IH]; [reflexivity|].
  simpl concat. rewrite Hx; [rewrite IH; reflexivity|].
  destruct Hr as [|x2 w2 xs ws [[x' ->] _] _]; [left; reflexivity|right; simpl; eauto].
Qed.

Lemma names_split ns : Forall plain ns -> 
  split_go false [] (concat (map (fun n => n ++ [space]) ns)) = ns.
Proof.
  induction 1 as [|n ns [Hne Hp] _ IH]; [reflexivity|].
  simpl concat. rewrite <- app_assoc, split_plain by assumption. simpl app at 1.
  cbn [app]. rewrite split_space, IH. destruct n; [congruence|reflexivity].
Qed.

(** * lines *)
Lemma lines_go_app l : ~ In newline l -> forall cur s,
  lines_go cur (l ++ newline :: s) = let (ls, b) := lines_go [] s in ((cur ++ l) :: ls, b).
Proof.
  induction l as [|c l IH]; intros Hn cur s; cbn [app lines_go].
  - rewrite char_eqb_refl, app_nil_r. reflexivity.
  - simpl in Hn. rewrite char_eqb_neq by tauto. rewrite IH by tauto.
    rewrite <- app_assoc. reflexivity.
Qed.

Lemma lines_concat ls : Forall (fun l => ~ In newline l) ls ->
  lines (concat (map (fun l => l ++ [newline]) ls)) = (ls, true).
Proof.
  unfold lines. induction 1 as [|l ls Hl _ IH]; [reflexivity|].
  simpl concat. rewrite <- app_assoc. cbn [app]. rewrite lines_go_app by assumption.
  rewrite IH. reflexivity.
Qed.

Lemma plain_no_newline w : Forall plainc w -> ~ In newline w.
Proof.
  intros H Hin. rewrite Forall_forall in H. apply H in Hin. destruct Hin as [_ Hin].
  vm_compute in Hin. discriminate.
Qed.

Lemma not_in_app (c : ascii) a b : ~ In c a -> ~ In c b -> ~ In c (a ++ b).
Proof. intros Ha Hb H. apply in_app_or in H. tauto. Qed.

Lemma pad_no_newline k w : Forall plainc w -> ~ In newline (pad k w).
Proof.
  intros H. apply not_in_app; [apply plain_no_newline; assumption|].
  intros Hin. apply repeat_spec in Hin. discriminate.
Qed.

(** * the round trip *)
Section RT.
Context {D : Type} (d0 : D).
Context (stod : str -> res dt_err D) (stoi : str -> res dt_err Z).
Context (showd : D -> str) (showi : Z -> str).
Notation table := (table D).
Notation sheet := (sheet D).
Notation rel := (rel d0).
Notation showv := (show showd showi).
Notation parse := (parse stod stoi).

(** a value that the format can carry *)
Definition good (v : val D) : Prop :=
  match v with
  | VD x => plain (showd x) /\ stod (showd x) = Ok x
  | VI z => plain (showi z) /\ stoi (showi z) = Ok z
  | VS s => s <> [] /\ ~ In quote s /\ ~ In newline s
  end.

Lemma good_parse v : good v -> parse (ty_of v) (showv v) = Ok v.
Proof.
  destruct v; simpl; intros H; try reflexivity; destruct H as [_ ->]; reflexivity.
Qed.

Lemma upd_ok t r a : step_rel d0 (upd_out t r) (a, ODone) -> exists t', r = Ok t' /\ rel t' a.
Proof.
  intros [H1 H2]. destruct r as [t'| |]; simpl in *; try discriminate. eauto.
Qed.

(** ** header *)
Lemma read_heads (rest : list str) : forall hs hls words t1 a1 (hv : str -> val D),
  rel t1 a1 -> NoDup (map fst (heads a1 ++ hs)) ->
  (forall n y, In (n, y) hs -> ty_of (hv n) = y /\ good (hv n)) ->
  Forall2 (fun ny l => exists tw, split_line l = [of_string "@"; fst ny; tw; showv (hv (fst ny))]
                       /\ type_conv tw = Ok (ty_char (snd ny))) hs hls ->
  exists t2 a2 words2,
    read_header d0 stod stoi (hls ++ rest) words t1 = read_header d0 stod stoi rest words2 t2
    /\ rel t2 a2 /\ cols a2 = cols a1 /\ nrows a2 = nrows a1 /\ cell a2 = cell a1
    /\ heads a2 = heads a1 ++ hs
    /\ (forall n, In n (map fst hs) -> head a2 n = hv n)
    /\ (forall n, ~ In n (map fst hs) -> head a2 n = head a1 n).
Proof.
  induction hs as [|[n y] hs IH]; intros hls words t1 a1 hv H Hnd Hgood HF;
    inversion HF as [|? l ? ls (tw & Hsp & Htc) HF']; subst.
  - exists t1, a1, words. rewrite app_nil_r. simpl. intuition auto.
  - simpl app. cbn [read_header]. rewrite Hsp. cbn [fst snd] in *.
    replace (negb (str_eqb (of_string "@") (of_string "@"))) with false by reflexivity.
    rewrite Htc. simpl bind.
    destruct (Hgood n y (or_introl eq_refl)) as [Hty Hg].
    assert (Hnew : assoc n (heads a1) = None).
    { apply (assoc_none d0 stod stoi showd). rewrite map_app in Hnd. simpl in Hnd. apply NoDup_remove_2 in Hnd.
      rewrite in_app_iff in Hnd. tauto. }
    pose proof (rel_h_add_column d0 stod stoi showd showi n (ty_char y) t1 a1 H) as Hstep.
    simpl in Hstep. unfold head_ty in Hstep. rewrite Hnew in Hstep.
    replace (char_ty (ty_char y)) with (Some y) in Hstep by (destruct y; reflexivity).
    apply upd_ok in Hstep. destruct Hstep as (t1' & E1 & H1). rewrite E1. simpl lift. cbn [bind].
    pose proof (step_refines d0 stod stoi showd showi (HSetWithStr n (showv (hv n))) _ _ H1) as Hstep2.
    simpl in Hstep2. unfold head_ty in Hstep2. simpl in Hstep2.
    rewrite assoc_app, Hnew in Hstep2. simpl in Hstep2. rewrite str_eqb_refl in Hstep2. simpl in Hstep2.
    rewrite <- Hty in Hstep2. rewrite good_parse in Hstep2 by exact Hg. simpl in Hstep2.
    unfold s_hset, head_ty in Hstep2. simpl in Hstep2.
    rewrite assoc_app, Hnew in Hstep2. simpl in Hstep2. rewrite str_eqb_refl in Hstep2.
    set (a1' := mkS (cols a1) (nrows a1) (cell a1) (heads a1 ++ [(n, y)])
                  (put (put (head a1) n (default d0 y)) n (hv n))).
    assert (Hstep3 : step_rel d0 (upd_out t1' (h_set_with_str stod stoi n (showv (hv n)) t1')) (a1', ODone)).
    { revert Hstep2. unfold a1'. rewrite <- Hty. destruct (ty_of (hv n)); simpl; auto. }
    apply upd_ok in Hstep3. destruct Hstep3 as (t2' & E2 & H2). rewrite E2. simpl lift. cbn [bind].
    destruct (IH ls [of_string "@"; n; tw; showv (hv n)] t2' a1' hv H2) as
      (t3 & a3 & w3 & E3 & H3 & Hc & Hr & Hce & Hh & Hv & Hv'); auto.
    { simpl. rewrite <- app_assoc. exact Hnd. }
    { intros m z Hm. apply Hgood. right. exact Hm. }
    exists t3, a3, w3. split; [exact E3|]. split; [exact H3|].
    split; [exact Hc|]. split; [exact Hr|]. split; [exact Hce|].
    split; [rewrite Hh; simpl; rewrite <- app_assoc; reflexivity|]. split.
    + intros m [<-|Hm]; [|auto].
      assert (Hni : ~ In n (map fst hs)).
      { rewrite map_app in Hnd. simpl in Hnd. apply NoDup_remove_2 in Hnd. rewrite in_app_iff in Hnd. tauto. }
      rewrite Hv' by exact Hni. simpl. unfold put. rewrite str_eqb_refl. reflexivity.
    + intros m Hm. simpl in Hm. rewrite Hv' by tauto. simpl. unfold put.
      rewrite str_eqb_neq by (intros ->; tauto). reflexivity.
Qed.

(** ** columns *)
Lemma add_columns_ok : forall cs t1 a1, rel t1 a1 -> NoDup (map fst (cols a1 ++ cs)) ->
  exists t2 a2, add_columns d0 (map fst cs) (map (fun x => ty_char (snd x)) cs) t1 = Ok t2
    /\ rel t2 a2 /\ cols a2 = cols a1 ++ cs /\ nrows a2 = nrows a1 /\ heads a2 = heads a1 /\ head a2 = head a1.
Proof.
  induction cs as [|[n y] cs IH]; intros t1 a1 H Hnd.
  - exists t1, a1. rewrite app_nil_r. simpl. auto 10.
  - cbn [map fst snd add_columns].
    assert (Hnew : assoc n (cols a1) = None).
    { apply (assoc_none d0 stod stoi showd). rewrite map_app in Hnd. simpl in Hnd. apply NoDup_remove_2 in Hnd.
      rewrite in_app_iff in Hnd. tauto. }
    pose proof (rel_add_column d0 stod stoi showd showi n (ty_char y) t1 a1 H) as Hstep.
    simpl in Hstep. unfold col_ty in Hstep. rewrite Hnew in Hstep.
    replace (char_ty (ty_char y)) with (Some y) in Hstep by (destruct y; reflexivity).
    apply upd_ok in Hstep. destruct Hstep as (t1' & E1 & H1). rewrite E1. simpl lift. cbn [bind].
    destruct (IH t1' _ H1) as (t2 & a2 & E2 & H2 & Hc & Hr & Hh & Hhd).
    { simpl. rewrite <- app_assoc. exact Hnd. }
    exists t2, a2. split; [exact E2|]. split; [exact H2|].
    split; [rewrite Hc; simpl; rewrite <- app_assoc; reflexivity|]. auto.
Qed.

(** ** one row *)
Lemma set_row_ok row : forall cs t1 a1 (cv : str -> val D),
  rel t1 a1 -> NoDup (map fst cs) -> row < nrows a1 ->
  (forall n y, In (n, y) cs -> assoc n (cols a1) = Some y /\ ty_of (cv n) = y /\ good (cv n)) ->
  exists t2 a2, set_row stod stoi (map fst cs) row (map (fun x => showv (cv (fst x))) cs) t1 = Ok t2
    /\ rel t2 a2 /\ cols a2 = cols a1 /\ nrows a2 = nrows a1 /\ heads a2 = heads a1 /\ head a2 = head a1
    /\ (forall n, In n (map fst cs) -> cell a2 n row = cv n)
    /\ (forall n i, i <> row \/ ~ In n (map fst cs) -> cell a2 n i = cell a1 n i).
Proof.
  induction cs as [|[n y] cs IH]; intros t1 a1 cv H Hnd Hrow Hg.
  - exists t1, a1. simpl. intuition auto.
  - cbn [map fst snd set_row].
    destruct (Hg n y (or_introl eq_refl)) as (Hcol & Hty & Hgood).
    inversion Hnd as [|? ? Hni Hnd']; subst.
    pose proof (step_refines d0 stod stoi showd showi (SetWithStr n row (showv (cv n))) _ _ H) as Hstep.
    simpl in Hstep. unfold col_ty in Hstep. rewrite Hcol in Hstep. simpl in Hstep.
    rewrite good_parse in Hstep by exact Hgood. simpl in Hstep.
    set (a1' := mkS (cols a1) (nrows a1) (put (cell a1) n (puti (cell a1 n) row (cv n))) (heads a1) (head a1)).
    assert (Hstep3 : step_rel d0 (upd_out t1 (set_with_str stod stoi n row (showv (cv n)) t1)) (a1', ODone)).
    { revert Hstep. unfold s_set, col_ty. rewrite Hcol.
      replace (Nat.ltb row (nrows a1)) with true by (symmetry; apply Nat.ltb_lt; exact Hrow).
      unfold a1'. destruct (ty_of (cv n)); simpl; auto. }
    apply upd_ok in Hstep3. destruct Hstep3 as (t1' & E1 & H1). rewrite E1. simpl lift. cbn [bind].
    destruct (IH t1' a1' cv H1 Hnd' Hrow) as (t2 & a2 & E2 & H2 & Hc & Hr & Hh & Hhd & Hv & Hv').
    { intros m z Hm. apply Hg. right. exact Hm. }
    exists t2, a2. repeat (split; [assumption|]). split.
    + intros m [<-|Hm]; [|auto].
      rewrite Hv' by (right; exact Hni). simpl. unfold put, puti. rewrite str_eqb_refl, Nat.eqb_refl. reflexivity.
    + intros m i Hm. rewrite Hv' by (destruct Hm; [auto|right; simpl in *; tauto]). simpl. unfold put, puti.
      destruct (str_eqb_spec m n) as [->|]; auto. destruct (Nat.eqb_spec i row) as [->|]; auto.
      exfalso. destruct Hm as [?|Hm]; [congruence|]. apply Hm. left. reflexivity.
Qed.

(** ** all rows *)
Lemma read_rows_ok cs (cv : str -> nat -> val D) : cs <> [] -> NoDup (map fst cs) -> forall rls k t1 a1,
  rel t1 a1 -> nrows a1 = k -> cols a1 = cs ->
  (forall n y i, In (n, y) cs -> k <= i < k + length rls -> ty_of (cv n i) = y /\ good (cv n i)) ->
  Forall2 (fun i l => split_line l = map (fun x => showv (cv (fst x) i)) cs) (seq k (length rls)) rls ->
  exists t2 a2, read_rows d0 stod stoi (map fst cs) (length cs) rls t1 = Ok t2
    /\ rel t2 a2 /\ cols a2 = cs /\ nrows a2 = k + length rls /\ heads a2 = heads a1 /\ head a2 = head a1
    /\ (forall n i, In n (map fst cs) -> k <= i < k + length rls -> cell a2 n i = cv n i)
    /\ (forall n i, i < k -> cell a2 n i = cell a1 n i).
Proof.
  intros Hne Hnd. induction rls as [|l rls IH]; intros k t1 a1 H Hk Hcs Hg HF.
  - exists t1, a1. simpl. rewrite Nat.add_0_r. intuition (auto; lia).
  - simpl seq in HF. cbn [read_rows].
    assert (Hsp : split_line l = map (fun x => showv (cv (fst x) k)) cs) by (inversion HF; assumption).
    assert (HF' : Forall2 (fun i l => split_line l = map (fun x => showv (cv (fst x) i)) cs) (seq (S k) (length rls)) rls)
      by (inversion HF; assumption).
    rewrite Hsp.
    destruct (map (fun x => showv (cv (fst x) k)) cs) as [|w0 ws] eqn:Ew.
    { destruct cs; [congruence|discriminate]. }
    rewrite <- Ew. rewrite map_length, Nat.eqb_refl. simpl negb.
    pose proof (rel_add_row d0 t1 a1 H) as H1. unfold add_row in *. cbn [fst] in H1.
    set (t1' := mkT _ _ _ _ _ _ _ _ _ _ _) in *.
    destruct (set_row_ok (len t1) cs t1' _ (fun n => cv n k) H1 Hnd) as
      (t2 & a2 & E2 & H2 & Hc & Hr & Hh & Hhd & Hv & Hv').
    { rewrite (r_len _ _ _ H). simpl. lia. }
    { intros n y Hin. split; [|apply (Hg n y k Hin); simpl; lia].
      simpl. rewrite Hcs. clear - Hin Hnd. induction cs as [|[m z] cs IH]; [destruct Hin|].
      simpl in *. inversion Hnd; subst. destruct Hin as [Hin|Hin].
      - injection Hin as -> ->. rewrite str_eqb_refl. reflexivity.
      - rewrite str_eqb_neq; auto. intros ->. apply H1. apply in_map_iff. exists (m, y). auto. }
    rewrite E2. simpl bind.
    assert (Hk' : len t1 = k) by (rewrite (r_len _ _ _ H); exact Hk).
    destruct (IH (S k) t2 a2 H2) as (t3 & a3 & E3 & H3 & Hc3 & Hr3 & Hh3 & Hhd3 & Hv3 & Hv3').
    { rewrite Hr. simpl. lia. }
    { rewrite Hc. exact Hcs. }
    { intros n y i Hin Hi. apply Hg; auto. simpl. lia. }
    { exact HF'. }
    exists t3, a3. split; [exact E3|]. split; [exact H3|]. split; [exact Hc3|].
    split; [rewrite Hr3; simpl; lia|].
    split; [rewrite Hh3; exact Hh|]. split; [rewrite Hhd3; exact Hhd|]. split.
    + intros n i Hin Hi. simpl in Hi. destruct (Nat.eq_dec i k) as [->|Hni].
      * rewrite Hv3' by lia. rewrite <- Hk' at 1. apply Hv. exact Hin.
      * apply Hv3; [exact Hin|lia].
    + intros n i Hi. rewrite Hv3' by lia. rewrite Hv' by (left; lia). simpl.
      rewrite Hk. destruct (Nat.eqb_spec i k); [lia|reflexivity].
Qed.

(** ** relevant cells determine the relation *)
Lemma rel_equiv t a a' : rel t a -> cols a' = cols a -> nrows a' = nrows a -> heads a' = heads a ->
  (forall n i, In n (map fst (cols a)) -> i < nrows a -> cell a' n i = cell a n i) ->
  (forall n, In n (map fst (heads a)) -> head a' n = head a n) -> rel t a'.
Proof.
  intros H Hc Hr Hh Hcell Hhead. pose proof H as Hrel. destruct H.
  assert (Hin : forall n c p, assoc n (lookup t) = Some (c, p) -> In n (map fst (cols a))).
  { intros n c p E. destruct (names_rel_some' _ _ _ _ _ r_lk E) as (y & _ & Hy). eapply assoc_in; eauto. }
  assert (Hinh : forall n c p, assoc n (hlookup t) = Some (c, p) -> In n (map fst (heads a))).
  { intros n c p E. destruct (names_rel_some' _ _ _ _ _ r_hlk E) as (y & _ & Hy). eapply assoc_in; eauto. }
  assert (HC : forall A (data : list (list A)) inj dflt y,
    colrel d0 data inj dflt y (lookup t) (cell a) (len t) ->
    colrel d0 data inj dflt y (lookup t) (cell a') (len t)).
  { intros A data inj dflt y [C1 C2 C3 C4]. constructor; auto. intros m p Hm.
    destruct (C3 m p Hm) as (c & Hn & Hi). exists c. split; auto. intros i x Hx.
    rewrite Hcell; eauto. rewrite <- r_len.
    rewrite <- (C2 c) by (eapply nth_error_In; eauto). apply nth_error_Some. congruence. }
  assert (HH : forall A (data : list A) inj y, hrel data inj y (hlookup t) (head a) ->
    hrel data inj y (hlookup t) (head a')).
  { intros A data inj y [C1 C2]. constructor; auto. intros m p Hm.
    destruct (C1 m p Hm) as (x & Hn & Hi). exists x. split; auto. rewrite Hhead; eauto. }
  constructor; rewrite ?Hc, ?Hr, ?Hh; auto.
Qed.

(** the values of a related sheet have the type of their column *)
Lemma rel_cell_ty t a n y i : rel t a -> In (n, y) (cols a) -> i < nrows a ->
  ty_of (cell a n i) = y /\ holds t n i (cell a n i) /\ assoc n (cols a) = Some y
  /\ exists p, get_location n t = Ok (ty_char y, p).
Proof.
  intros H Hin Hi.
  assert (Ha : assoc n (cols a) = Some y).
  { pose proof (r_nodup _ _ _ H) as Hnd. clear - Hin Hnd. induction (cols a) as [|[m z] cs IH]; [destruct Hin|].
    simpl in *. inversion Hnd; subst. destruct Hin as [Hin|Hin].
    - injection Hin as -> ->. rewrite str_eqb_refl. reflexivity.
    - rewrite str_eqb_neq; auto. intros ->. apply H1. apply in_map_iff. exists (m, y). auto. }
  assert (Hty : ty_of (cell a n i) = y).
  { destruct (names_rel_some _ _ _ _ (r_lk _ _ _ H) Ha) as [p Hp]. 
    assert (HC : forall A (data : list (list A)) inj dflt,
      colrel d0 data inj dflt y (lookup t) (cell a) (len t) -> (forall x, ty_of (inj x) = y) ->
      ty_of (cell a n i) = y).
    { intros A data inj dflt Hcr Hinj.
      destruct (colrel_col _ _ _ _ _ _ _ _ _ _ _ Hcr Hp) as (c & _ & Hl & Hv).
      destruct (nth_error c i) as [x|] eqn:E.
      - rewrite (Hv _ _ E). apply Hinj.
      - apply nth_error_None in E. rewrite (r_len _ _ _ H) in Hl. lia. }
    destruct y; [eapply HC; [apply (r_d _ _ _ H)|] | eapply HC; [apply (r_i _ _ _ H)|] | eapply HC; [apply (r_s _ _ _ H)|]];
      reflexivity. }
  split; [exact Hty|]. split; [|split; [exact Ha|]].
  - apply (holds_rel d0 stod stoi showd t a n i _ H).
    unfold s_get, col_ty. rewrite Ha, Hty.
    replace (Nat.ltb i (nrows a)) with true by (symmetry; apply Nat.ltb_lt; exact Hi).
    destruct y; reflexivity.
  - pose proof (rel_loc d0 stod stoi showd t a n H) as Hl. unfold col_ty in Hl. rewrite Ha in Hl.
    destruct Hl as (p & Hp & _). eauto.
Qed.

(** header value [v] is stored under [n] *)
Definition hholds (t : table) (n : str) (v : val D) : Prop :=
  match v with VD x => h_get_d n t = Ok x | VI x => h_get_i n t = Ok x | VS x => h_get_s n t = Ok x end.

Lemma hholds_rel t a n v : rel t a -> (hholds t n v <-> s_hget n (ty_of v) a = Ok v).
Proof.
  intros H. destruct v as [x|x|x]; simpl;
    [rewrite <- (rel_hget_d d0 stod stoi showd t a n H)|rewrite <- (rel_hget_i d0 stod stoi showd t a n H)|rewrite <- (rel_hget_s d0 stod stoi showd t a n H)].
  - destruct (h_get_d n t); simpl; split; congruence.
  - destruct (h_get_i n t); simpl; split; congruence.
  - destruct (h_get_s n t); simpl; split; congruence.
Qed.

Lemma rel_head_ty t a n y : rel t a -> In (n, y) (heads a) ->
  ty_of (head a n) = y /\ hholds t n (head a n)
  /\ exists p, get_hlocation n t = Ok (ty_char y, p).
Proof.
  intros H Hin.
  assert (Ha : assoc n (heads a) = Some y).
  { pose proof (r_hnodup _ _ _ H) as Hnd. clear - Hin Hnd. induction (heads a) as [|[m z] cs IH]; [destruct Hin|].
    simpl in *. inversion Hnd; subst. destruct Hin as [Hin|Hin].
    - injection Hin as -> ->. rewrite str_eqb_refl. reflexivity.
    - rewrite str_eqb_neq; auto. intros ->. apply H1. apply in_map_iff. exists (m, y). auto. }
  assert (Hty : ty_of (head a n) = y).
  { destruct (names_rel_some _ _ _ _ (r_hlk _ _ _ H) Ha) as [p Hp].
    destruct y.
    - destruct (hr_cols _ _ _ _ _ (r_hd _ _ _ H) _ _ Hp) as (x & _ & ->). reflexivity.
    - destruct (hr_cols _ _ _ _ _ (r_hi _ _ _ H) _ _ Hp) as (x & _ & ->). reflexivity.
    - destruct (hr_cols _ _ _ _ _ (r_hs _ _ _ H) _ _ Hp) as (x & _ & ->). reflexivity. }
  split; [exact Hty|]. split.
  - apply (hholds_rel _ _ _ _ H). unfold s_hget, head_ty. rewrite Ha, Hty. destruct y; reflexivity.
  - pose proof (rel_hloc d0 stod stoi showd t a n H) as Hl. unfold head_ty in Hl. rewrite Ha in Hl.
    destruct Hl as (p & Hp & _). eauto.
Qed.

(** ** what the writer produces *)
Lemma mapM_Forall2 {E A B} (f : A -> res E B) (P : A -> B -> Prop) l :
  (forall x, In x l -> exists y, f x = Ok y /\ P x y) -> exists m, mapM f l = Ok m /\ Forall2 P l m.
Proof.
  induction l as [|x l IH]; intros H; simpl; [exists []; auto|].
  destruct (H x (or_introl eq_refl)) as (y & -> & Hp). simpl.
  destruct IH as (m & -> & Hm); [intros z Hz; apply H; right; exact Hz|]. simpl. exists (y :: m). auto.
Qed.

Lemma write_cell_ok t a n y i : rel t a -> In (n, y) (cols a) -> i < nrows a -> good (cell a n i) ->
  exists x, write_cell showd showi t i n = Ok x /\ cell_ok x (showv (cell a n i)) /\ ~ In newline x.
Proof.
  intros H Hin Hi Hg. destruct (rel_cell_ty t a n y i H Hin Hi) as (Hty & Hh & _ & p & Hl).
  unfold write_cell. rewrite Hl. cbn [bind fst].
  destruct (cell a n i) as [x|x|x] eqn:Ec; simpl in Hty; subst y; simpl in Hh; simpl ty_char; simpl;
    rewrite Hh; simpl; eexists; (split; [reflexivity|]).
  - destruct Hg as [Hp _]. split; [apply cell_ok_pad; exact Hp|]. intros [Hx|Hx]; [discriminate|].
    revert Hx. apply pad_no_newline. apply Hp.
  - destruct Hg as [Hp _]. split; [apply cell_ok_pad; exact Hp|]. intros [Hx|Hx]; [discriminate|].
    revert Hx. apply pad_no_newline. apply Hp.
  - destruct Hg as (Hne & Hq & Hn). split; [apply cell_ok_quote; assumption|].
    intros [Hx|[Hx|Hx]]; try discriminate. apply in_app_or in Hx. destruct Hx as [Hx|[Hx|[]]]; [tauto|discriminate].
Qed.

Lemma split_at_word w rest : plain w -> split_go false [] (w ++ space :: rest) = w :: split_go false [] rest.
Proof.
  intros [Hne Hp]. rewrite split_plain by assumption. simpl app at 1. rewrite split_space.
  destruct w; [congruence|reflexivity].
Qed.

Lemma head_prefix_split n rest : plain n ->
  split_line ((of_string "@ " ++ pad 16 n ++ [space]) ++ rest)
  = of_string "@" :: n :: split_go false [] rest.
Proof.
  intros Hn. unfold split_line.
  replace ((of_string "@ " ++ pad 16 n ++ [space]) ++ rest)
    with ("@"%char :: space :: n ++ (repeat space (16 - length n) ++ space :: rest)).
  2: { unfold pad. change (of_string "@ ") with ["@"%char; space]. cbn [app].
       rewrite <- !app_assoc. reflexivity. }
  transitivity (of_string "@" :: split_go false [] (n ++ (repeat space (16 - length n) ++ space :: rest))).
  { reflexivity. }
  f_equal. destruct Hn as [Hne Hp]. rewrite split_plain by assumption. simpl app at 1.
  rewrite split_brk; [|assumption|apply brk_spaces; right; eauto].
  rewrite split_spaces. reflexivity.
Qed.

Lemma write_head_ok t a n y : rel t a -> In (n, y) (heads a) -> plain n -> good (head a n) ->
  (forall z, plain (showi z)) ->
  exists l tw, write_head showd showi t n = Ok l
    /\ split_line l = [of_string "@"; n; tw; showv (head a n)]
    /\ type_conv tw = Ok (ty_char y) /\ ~ In newline l.
Proof.
  intros H Hin Hn Hg Hsi. destruct (rel_head_ty t a n y H Hin) as (Hty & Hh & p & Hl).
  assert (Hpre : ~ In newline (of_string "@ " ++ pad 16 n ++ [space])).
  { apply not_in_app; [simpl; intros [?|[?|[]]]; discriminate|].
    apply not_in_app; [apply pad_no_newline, Hn|]. simpl. intros [?|[]]; discriminate. }
  unfold write_head. rewrite Hl. cbn [bind fst].
  destruct (head a n) as [x|x|x] eqn:Ec; simpl in Hty; subst y; simpl in Hh;
    cbn [ty_char]; unfold cD, cI, cS; rewrite ?char_eqb_refl.
  - rewrite Hh. cbn [bind]. eexists _, (of_string "%le"). split; [reflexivity|]. destruct Hg as [Hp _]. split; [|split].
    + rewrite head_prefix_split by exact Hn. do 2 f_equal.
      change (of_string "%le ") with (of_string "%le" ++ [space]). rewrite <- app_assoc. cbn [app].
      transitivity (of_string "%le" :: split_go false [] (pad 18 (showd x))).
      { reflexivity. }
      f_equal. unfold pad. rewrite split_plain by apply Hp. cbn [app].
      rewrite <- (app_nil_r (repeat _ _)).
      rewrite split_brk; [|apply Hp|apply brk_spaces; left; reflexivity].
      rewrite split_spaces. reflexivity.
    + reflexivity.
    + apply not_in_app; [exact Hpre|]. apply not_in_app; [|apply pad_no_newline, Hp].
      simpl. intuition discriminate.
  - replace (char_eqb "i" "d") with false by reflexivity.
    rewrite Hh. cbn [bind]. eexists _, (of_string "%d"). split; [reflexivity|]. destruct Hg as [Hp _]. split; [|split].
    + rewrite head_prefix_split by exact Hn. do 2 f_equal.
      transitivity (of_string "%d" :: split_go false [] (pad 8 (showi x))).
      { reflexivity. }
      f_equal. unfold pad. rewrite split_plain by apply Hp. cbn [app].
      rewrite <- (app_nil_r (repeat _ _)).
      rewrite split_brk; [|apply Hp|apply brk_spaces; left; reflexivity].
      rewrite split_spaces. reflexivity.
    + reflexivity.
    + apply not_in_app; [exact Hpre|]. apply not_in_app; [|apply pad_no_newline, Hp].
      simpl. intuition discriminate.
  - replace (char_eqb "s" "d") with false by reflexivity. replace (char_eqb "s" "i") with false by reflexivity.
    rewrite Hh. cbn [bind]. destruct Hg as (Hne & Hq & Hnl).
    set (k := showi (Z.of_nat (length x))). pose proof (Hsi (Z.of_nat (length x))) as Hk. fold k in Hk.
    eexists _, ("%"%char :: k ++ ["s"%char]). split; [reflexivity|]. split; [|split].
    + rewrite head_prefix_split by exact Hn. do 2 f_equal.
      replace (of_string "%" ++ k ++ of_string "s " ++ quote :: x ++ [quote])
        with (("%"%char :: k ++ ["s"%char]) ++ space :: quote :: x ++ quote :: []).
      2: { simpl. rewrite <- app_assoc. reflexivity. }
      rewrite split_at_word.
      * f_equal. rewrite split_quoted by exact Hq. simpl app. destruct x; [congruence|reflexivity].
      * split; [discriminate|]. constructor; [split; [discriminate|reflexivity]|].
        apply Forall_app. split; [apply Hk|]. repeat constructor; discriminate.
    + unfold type_conv.
      assert (Hlast : last ("%"%char :: k ++ ["s"%char]) space = "s"%char).
      { change ("%"%char :: k ++ ["s"%char]) with (("%"%char :: k) ++ ["s"%char]). apply last_last. }
      assert (Hlen : Nat.ltb 2 (length ("%"%char :: k ++ ["s"%char])) = true).
      { apply Nat.ltb_lt. simpl. rewrite app_length. simpl. destruct Hk as [Hk _].
        destruct k; [congruence|simpl; lia]. }
      rewrite Hlast, Hlen, char_eqb_refl. cbn [andb].
      destruct (str_eqb_spec ("%"%char :: k ++ ["s"%char]) (of_string "%le")) as [E|_].
      { rewrite E in Hlast. discriminate. }
      destruct (str_eqb_spec ("%"%char :: k ++ ["s"%char]) (of_string "%e")) as [E|_].
      { rewrite E in Hlast. discriminate. }
      destruct (str_eqb_spec ("%"%char :: k ++ ["s"%char]) (of_string "%d")) as [E|_].
      { rewrite E in Hlast. discriminate. }
      destruct (str_eqb_spec ("%"%char :: k ++ ["s"%char]) (of_string "%s")) as [E|_]; reflexivity.
    + apply not_in_app; [exact Hpre|]. apply not_in_app; [simpl; intros [?|[]]; discriminate|].
      apply not_in_app; [apply plain_no_newline, Hk|].
      apply not_in_app; [simpl; intros [?|[?|[]]]; discriminate|].
      intros [Hx|Hx]; [discriminate|]. apply in_app_or in Hx. destruct Hx as [Hx|[Hx|[]]]; [tauto|discriminate].
Qed.

Lemma Forall2_map_l {A B C} (f : A -> B) (P : B -> C -> Prop) l m :
  Forall2 P (map f l) m <-> Forall2 (fun a c => P (f a) c) l m.
Proof.
  revert m. induction l as [|a l IH]; intros m; simpl; split; intros H; inversion H; subst; constructor; auto;
    apply IH; assumption.
Qed.

Lemma Forall2_len {A B} (P : A -> B -> Prop) l m : Forall2 P l m -> length l = length m.
Proof. induction 1; simpl; congruence. Qed.

Lemma type_word y : type_conv (match y with TD => of_string "%le" | TI => of_string "%d" | TS => of_string "%s" end)
  = Ok (ty_char y).
Proof. destruct y; reflexivity. Qed.

Definition tword (y : ty) : str :=
  match y with TD => of_string "%le" | TI => of_string "%d" | TS => of_string "%s" end.

Lemma tword_plain y : plain (tword y).
Proof. destruct y; (split; [discriminate|]); repeat constructor; discriminate. Qed.

Lemma nodup_fst_unique (cs : list (str * ty)) n y y' :
  NoDup (map fst cs) -> In (n, y) cs -> In (n, y') cs -> y = y'.
Proof.
  induction cs as [|[m z] cs IH]; simpl; intros Hnd H1 H2; [destruct H1|].
  inversion Hnd as [|? ? Hni Hnd']; subst.
  destruct H1 as [E1|H1], H2 as [E2|H2]; try congruence; auto; exfalso; apply Hni; apply in_map_iff.
  - exists (n, y'). injection E1 as -> ->. auto.
  - exists (n, y). injection E2 as -> ->. auto.
Qed.

Lemma types_written cs0 cs tys : NoDup (map fst cs0) -> incl cs cs0 ->
  Forall2 (fun (nx : str * ty) x => exists y, In (fst nx, y) cs0 /\ x = tword y ++ [space]) cs tys ->
  tys = map (fun n => n ++ [space]) (map (fun x => tword (snd x)) cs).
Proof.
  intros Hnd Hi HF. induction HF as [|[n y] x cs tys (y' & Hin & ->) _ IH]; [reflexivity|].
  simpl in *. apply incl_cons_inv in Hi. destruct Hi as [Hy Hi]. rewrite IH by exact Hi.
  rewrite (nodup_fst_unique _ _ _ _ Hnd Hin Hy). reflexivity.
Qed.

Lemma heads_written (a : sheet) hs0 hs hls : NoDup (map fst hs0) -> incl hs hs0 ->
  Forall2 (fun (nx : str * ty) l => exists y tw, In (fst nx, y) hs0
        /\ split_line l = [of_string "@"; fst nx; tw; showv (head a (fst nx))]
        /\ type_conv tw = Ok (ty_char y) /\ ~ In newline l) hs hls ->
  Forall2 (fun ny l => exists tw, split_line l = [of_string "@"; fst ny; tw; showv (head a (fst ny))]
                       /\ type_conv tw = Ok (ty_char (snd ny))) hs hls.
Proof.
  intros Hnd Hi HF. induction HF as [|[n y] l hs ls (y' & tw & Hin & Hs & Ht & _) _ IH]; [constructor|].
  simpl in *. apply incl_cons_inv in Hi. destruct Hi as [Hy Hi]. constructor; [|auto].
  exists tw. simpl. rewrite <- (nodup_fst_unique _ _ _ _ Hnd Hin Hy). auto.
Qed.

Theorem roundtrip t a : rel t a ->
  (forall z, plain (showi z)) ->
  Forall plain (col_names t) -> Forall plain (hcol_names t) ->
  (forall n i v, holds t n i v -> good v) -> (forall n v, hholds t n v -> good v) ->
  (col_names t <> [] \/ len t = 0) ->
  exists txt t', write showd showi t = Ok txt /\ read d0 stod stoi txt = Ok t' /\ rel t' a.
Proof.
  intros H Hsi Hcn Hhn Hgc Hgh Hdeg.
  (* header lines *)
  destruct (mapM_Forall2 (write_head showd showi t)
     (fun n l => exists y tw, In (n, y) (heads a) /\ split_line l = [of_string "@"; n; tw; showv (head a n)]
        /\ type_conv tw = Ok (ty_char y) /\ ~ In newline l) (hcol_names t)) as (hls & Ehs & Hhs).
  { intros n Hin. rewrite (r_hnames _ _ _ H) in Hin. apply in_map_iff in Hin. destruct Hin as ([n' y] & Hn & Hin).
    simpl in Hn. subst n'.
    assert (Hpn : plain n).
    { rewrite Forall_forall in Hhn. apply Hhn. rewrite (r_hnames _ _ _ H). apply in_map_iff. exists (n, y). auto. }
    assert (Hg : good (head a n)). { eapply Hgh. apply (rel_head_ty t a n y H Hin). }
    destruct (write_head_ok t a n y H Hin Hpn Hg Hsi) as (l & tw & E & Hs & Ht & Hl).
    exists l. split; [exact E|]. exists y, tw. auto. }
  (* type words *)
  destruct (mapM_Forall2 (write_type t)
     (fun n x => exists y, In (n, y) (cols a) /\ x = tword y ++ [space]) (col_names t)) as (tys & Ety & Hty).
  { intros n Hin. rewrite (r_names _ _ _ H) in Hin. apply in_map_iff in Hin. destruct Hin as ([n' y] & Hn & Hin).
    simpl in Hn. subst n'. 
    assert (Ha : assoc n (cols a) = Some y).
    { pose proof (r_nodup _ _ _ H) as Hnd. clear - Hin Hnd. induction (cols a) as [|[m z] cs IH]; [destruct Hin|].
      simpl in *. inversion Hnd; subst. destruct Hin as [Hin|Hin].
      - injection Hin as -> ->. rewrite str_eqb_refl. reflexivity.
      - rewrite str_eqb_neq; auto. intros ->. apply H1. apply in_map_iff. exists (m, y). auto. }
    pose proof (rel_loc d0 stod stoi showd t a n H) as Hl. unfold col_ty in Hl. rewrite Ha in Hl. destruct Hl as (p & Hp & _).
    unfold write_type. rewrite Hp. cbn [bind fst]. eexists. split; [reflexivity|]. exists y. split; [exact Hin|].
    destruct y; reflexivity. }
  (* rows *)
  destruct (mapM_Forall2 (fun r => do cs <- mapM (write_cell showd showi t r) (col_names t); Ok (concat cs))
     (fun i l => split_line l = map (fun x => showv (cell a (fst x) i)) (cols a) /\ ~ In newline l) (rows t))
    as (rls & Ers & Hrs).
  { intros i Hi. rewrite rows_seq in Hi. apply in_seq in Hi.
    destruct (mapM_Forall2 (write_cell showd showi t i)
      (fun n x => cell_ok x (showv (cell a n i)) /\ ~ In newline x) (col_names t)) as (cs & Ecs & Hcs).
    { intros n Hin. rewrite (r_names _ _ _ H) in Hin. apply in_map_iff in Hin. destruct Hin as ([n' y] & Hn & Hin).
      simpl in Hn. subst n'. assert (Hi' : i < nrows a) by (rewrite <- (r_len _ _ _ H); lia).
      apply write_cell_ok with (y := y); auto. eapply Hgc. apply (rel_cell_ty t a n y i H Hin Hi'). }
    exists (concat cs). rewrite Ecs. split; [reflexivity|]. split.
    - apply cells_split. rewrite (r_names _ _ _ H) in Hcs. apply Forall2_map_l in Hcs.
      clear - Hcs. induction Hcs as [|x c l m [Hx _] _ IH]; constructor; auto.
    - clear - Hcs. induction Hcs as [|x c l m [_ Hx] _ IH]; simpl; [tauto|]. apply not_in_app; assumption. }
  assert (Hlines : exists names_line types_line,
     write_lines showd showi t = Ok (hls ++ [names_line] ++ [types_line] ++ rls)
     /\ split_line names_line = of_string "*" :: col_names t
     /\ split_line types_line = of_string "$" :: map (fun x => tword (snd x)) (cols a)
     /\ ~ In newline names_line /\ ~ In newline types_line).
  { eexists _, _. split; [unfold write_lines; rewrite Ehs, Ety, Ers; reflexivity|].
    assert (Htys : tys = map (fun n => n ++ [space]) (map (fun x => tword (snd x)) (cols a))).
    { rewrite (r_names _ _ _ H) in Hty. apply Forall2_map_l in Hty.
      apply (types_written (cols a)); [apply (r_nodup _ _ _ H)|apply incl_refl|exact Hty]. }
    assert (Hnn : ~ In newline (concat (map (fun n => n ++ [space]) (col_names t)))).
    { clear - Hcn. induction Hcn as [|n ns Hn _ IH]; simpl; [tauto|].
      apply not_in_app; [|exact IH]. apply not_in_app; [apply plain_no_newline, Hn|]. simpl. intros [?|[]]; discriminate. }
    repeat split.
    - unfold split_line. transitivity (of_string "*" :: split_go false [] (concat (map (fun n => n ++ [space]) (col_names t)))).
      { reflexivity. }
      f_equal. apply names_split. exact Hcn.
    - unfold split_line. rewrite Htys.
      transitivity (of_string "$" :: split_go false [] (concat (map (fun n => n ++ [space]) (map (fun x => tword (snd x)) (cols a))))).
      { reflexivity. }
      f_equal. apply names_split. apply Forall_map. apply Forall_forall. intros x _. apply tword_plain.
    - apply not_in_app; [simpl; intros [?|[?|[]]]; discriminate|exact Hnn].
    - apply not_in_app; [simpl; intros [?|[?|[]]]; discriminate|]. rewrite Htys.
      clear. induction (cols a) as [|[n y] cs IH]; simpl; [tauto|].
      apply not_in_app; [|exact IH]. apply not_in_app; [apply plain_no_newline, tword_plain|].
      simpl. intros [?|[]]; discriminate. }
  destruct Hlines as (nl & tl & Ewl & Hnl & Htl & Hn1 & Hn2).
  unfold write. rewrite Ewl. cbn [bind].
  eexists. 
  (* reading back *)
  assert (Hread : exists t', read d0 stod stoi
      (concat (map (fun l => l ++ [newline]) (hls ++ [nl] ++ [tl] ++ rls))) = Ok t' /\ rel t' a).
  { unfold read. rewrite lines_concat.
    2: { apply Forall_app. split.
         { clear - Hhs. induction Hhs as [|n l ns ls (y & tw & _ & _ & _ & Hl) _ IH]; constructor; auto. }
         constructor; [exact Hn1|]. constructor; [exact Hn2|].
         clear - Hrs. induction Hrs as [|i l is ls [_ Hl] _ IH]; constructor; auto. }
    destruct (read_heads ([nl] ++ [tl] ++ rls) (heads a) hls [] (@empty D) (sheet0 d0) (head a)
                (rel_empty d0 stod stoi showd)) as (t2 & a2 & w2 & E2 & H2 & Hc2 & Hr2 & _ & Hh2 & Hv2 & _).
    { apply (r_hnodup _ _ _ H). }
    { intros n y Hin. destruct (rel_head_ty t a n y H Hin) as (Hy & Hh & _). split; auto. eapply Hgh; eauto. }
    { rewrite (r_hnames _ _ _ H) in Hhs. apply Forall2_map_l in Hhs.
      apply (heads_written a (heads a)); [apply (r_hnodup _ _ _ H)|apply incl_refl|exact Hhs]. }
    rewrite E2. clear E2.
    change ([nl] ++ [tl] ++ rls) with (nl :: tl :: rls). cbn [read_header]. rewrite Hnl.
    replace (negb (str_eqb (of_string "*") (of_string "@"))) with true by reflexivity. cbn [bind].
    replace (negb (str_eqb (of_string "*") (of_string "*"))) with false by reflexivity.
    rewrite Htl. replace (negb (str_eqb (of_string "$") (of_string "$"))) with false by reflexivity.
    assert (Etc : mapM type_conv (map (fun x : str * ty => tword (snd x)) (cols a))
             = Ok (map (fun x => ty_char (snd x)) (cols a))).
    { clear. induction (cols a) as [|[n y] cs IH]; [reflexivity|]. cbn [map mapM snd].
      unfold tword at 1. rewrite type_word. cbn [bind]. rewrite IH. reflexivity. }
    rewrite Etc. cbn [bind]. rewrite (r_names _ _ _ H), !map_length, Nat.eqb_refl. cbn [negb].
    destruct (add_columns_ok (cols a) t2 a2 H2) as (t3 & a3 & E3 & H3 & Hc3 & Hr3 & Hh3 & Hhd3).
    { rewrite Hc2. simpl. apply (r_nodup _ _ _ H). }
    rewrite E3. cbn [bind]. rewrite Hc2 in Hc3. simpl in Hc3.
    change (list (list ascii)) with (list str) in rls.
    assert (Hlenr : length rls = nrows a).
    { apply Forall2_len in Hrs. rewrite rows_seq, seq_length in Hrs. rewrite <- (r_len _ _ _ H). symmetry. exact Hrs. }
    destruct (list_eq_dec (fun x y => list_eq_dec ascii_dec x y) (map fst (cols a)) []) as [Hnil|Hnnil].
    - (* no columns: then no rows *)
      assert (Hz : nrows a = 0).
      { destruct Hdeg as [Hd|Hd]; [rewrite (r_names _ _ _ H) in Hd; exfalso; apply Hd; exact Hnil|]. rewrite <- (r_len _ _ _ H). exact Hd. }
      destruct rls; [|simpl in Hlenr; lia]. exists t3. split; [reflexivity|].
      apply (rel_equiv t3 a3); auto; try congruence.
      + rewrite Hr3, Hr2. simpl. exact Hz.
      + rewrite Hh3, Hh2. reflexivity.
      + intros n i _ Hi. rewrite Hr3, Hr2 in Hi. simpl in Hi. lia.
      + intros n Hin. rewrite Hhd3. symmetry. apply Hv2. rewrite Hh3, Hh2 in Hin. exact Hin.
    - destruct (read_rows_ok (cols a) (cell a)) with (rls := rls) (k := 0) (t1 := t3) (a1 := a3)
        as (t4 & a4 & E4 & H4 & Hc4 & Hr4 & Hh4 & Hhd4 & Hv4 & _); auto.
      { intros Hx. apply Hnnil. rewrite Hx. reflexivity. }
      { apply (r_nodup _ _ _ H). }
      { rewrite Hr3, Hr2. reflexivity. }
      { intros n y i Hin Hi. rewrite Hlenr in Hi.
        destruct (rel_cell_ty t a n y i H Hin) as (Hy & Hh & _); [lia|]. split; auto. eapply Hgc; eauto. }
      { rewrite rows_seq in Hrs. rewrite Hlenr, <- (r_len _ _ _ H).
        eapply Forall2_impl; [|exact Hrs]. simpl. tauto. }
      exists t4. split; [exact E4|].
      apply (rel_equiv t4 a4); auto; try congruence.
      + rewrite Hr4, Hlenr. reflexivity.
      + rewrite Hh4, Hh3, Hh2. reflexivity.
      + intros n i Hin Hi. symmetry. apply Hv4.
        * rewrite Hc4 in Hin. exact Hin.
        * rewrite Hr4 in Hi. lia.
      + intros n Hin. rewrite Hhd4, Hhd3. symmetry. apply Hv2. rewrite Hh4, Hh3, Hh2 in Hin. exact Hin. }
  destruct Hread as (t' & Er & Hr). exists t'. split; [reflexivity|]. split; [exact Er|exact Hr].
Qed.
(** ** reading arbitrary text *)
Lemma op_ok o t a r : (forall x, stod x <> UB) -> (forall x, stoi x <> UB) -> rel t a ->
  step d0 stod stoi showd showi o t = upd_out t r ->
  r <> UB /\ forall t', r = Ok t' -> exists a', rel t' a'.
Proof.
  intros Hd Hi H E. pose proof (step_refines d0 stod stoi showd showi o t a H) as [Hs _]. rewrite E in Hs.
  split.
  - intros ->. apply (run_no_ub d0 stod stoi showd showi [o] t a H Hd Hi). simpl. rewrite E. simpl. auto.
  - intros t' ->. simpl in Hs. eauto.
Qed.

Lemma lift_cases {A} (r : res dt_err A) : 
  (exists x, r = Ok x /\ lift r = Ok x) \/ (exists e, lift r = Throw (TableError e)) \/ (r = UB /\ lift r = UB).
Proof. destruct r; simpl; eauto. Qed.

Lemma type_conv_no_ub s : type_conv s <> UB.
Proof.
  unfold type_conv. destruct (str_eqb s (of_string "%le") || str_eqb s (of_string "%e")); [discriminate|].
  destruct (str_eqb s (of_string "%d")); [discriminate|]. destruct (str_eqb s (of_string "%s")); [discriminate|].
  destruct (Nat.ltb 2 (length s) && char_eqb (last s space) "s"); discriminate.
Qed.

Context (Hstod : forall x, stod x <> UB) (Hstoi : forall x, stoi x <> UB).

(** a computation that does not go wrong and yields well formed tables *)
Definition safe (r : res tfs_err table) : Prop :=
  r <> UB /\ forall t, r = Ok t -> exists a, rel t a.

Lemma safe_ok t a : rel t a -> safe (Ok t).
Proof. intros H. split; [discriminate|]. intros t' E. injection E as <-. eauto. Qed.
Lemma safe_throw e : safe (Throw e).
Proof. split; discriminate. Qed.
Lemma safe_bind_op o t a r k : rel t a -> step d0 stod stoi showd showi o t = upd_out t r ->
  (forall t' a', rel t' a' -> safe (k t')) -> safe (do t1 <- lift r; k t1).
Proof.
  intros H E Hk. destruct (op_ok o t a r Hstod Hstoi H E) as [Hn Hok].
  destruct (lift_cases r) as [(x & -> & ->)|[(e & ->)|[-> _]]]; [| |congruence].
  - simpl. destruct (Hok _ eq_refl) as [a' Ha]. eauto.
  - simpl. apply safe_throw.
Qed.

Lemma add_columns_safe names : forall types t a, rel t a -> safe (add_columns d0 names types t).
Proof.
  induction names as [|n ns IH]; intros [|c cs] t a H; simpl; try (eapply safe_ok; eassumption).
  apply (safe_bind_op (AddColumn n c) t a); auto. intros t' a'. apply IH.
Qed.

Lemma set_row_safe row names : forall words t a, rel t a -> safe (set_row stod stoi names row words t).
Proof.
  induction names as [|n ns IH]; intros [|c cs] t a H; simpl; try (eapply safe_ok; eassumption).
  apply (safe_bind_op (SetWithStr n row c) t a); auto. intros t' a'. apply IH.
Qed.

Lemma safe_bind r k : safe r -> (forall t a, rel t a -> safe (k t)) -> safe (do t <- r; k t).
Proof.
  intros [Hn Hok] Hk. destruct r as [t|e|]; simpl; [|apply safe_throw|congruence].
  destruct (Hok t eq_refl) as [a H]. eauto.
Qed.

Lemma read_rows_safe names k ls : forall t a, rel t a -> safe (read_rows d0 stod stoi names k ls t).
Proof.
  induction ls as [|l ls IH]; intros t a H; cbn [read_rows]; [eapply safe_ok; eassumption|].
  destruct (split_line l) as [|w ws]; [eapply IH; eassumption|].
  destruct (negb _); [apply safe_throw|].
  pose proof (rel_add_row d0 t a H) as H1. destruct (add_row d0 t) as [t1 row]. simpl in H1.
  apply safe_bind; [eapply set_row_safe; eassumption|]. exact IH.
Qed.

(** blank, or the first word is "@" *)
Definition header_line (l : str) : Prop :=
  split_line l = [] \/ exists ws, split_line l = of_string "@" :: ws.

Lemma read_header_safe nl rest w0 names : split_line nl = w0 :: names -> w0 <> of_string "@" ->
  forall pre words t a, Forall header_line pre -> rel t a ->
  (exists e, read_header d0 stod stoi (pre ++ nl :: rest) words t = Throw e) \/
  (exists t' a', read_header d0 stod stoi (pre ++ nl :: rest) words t = Ok (t', w0 :: names, rest) /\ rel t' a').
Proof.
  intros Hnl Hw. induction pre as [|l pre IH]; intros words t a HF H; simpl app; cbn [read_header].
  - rewrite Hnl. rewrite str_eqb_neq by exact Hw. simpl. right. eauto.
  - inversion HF as [|? ? Hl HF']; subst. destruct Hl as [->|[ws ->]]; [eapply IH; eassumption|].
    rewrite str_eqb_refl. simpl negb.
    destruct ws as [|n [|ty [|v [|? ?]]]]; cbv iota; eauto.
    destruct (type_conv ty) as [c|e|] eqn:Et; simpl bind; [|eauto|].
    2: { exfalso. revert Et. apply type_conv_no_ub. }
    destruct (op_ok (HAddColumn n c) t a _ Hstod Hstoi H eq_refl) as [Hn Hok].
    destruct (lift_cases (h_add_column d0 n c t)) as [(x & E1 & ->)|[(e & ->)|[E1 _]]]; [|simpl; eauto|congruence].
    simpl bind. destruct (Hok x E1) as [a1 H1].
    destruct (op_ok (HSetWithStr n v) x a1 _ Hstod Hstoi H1 eq_refl) as [Hn2 Hok2].
    destruct (lift_cases (h_set_with_str stod stoi n v x)) as [(y & E2 & ->)|[(e & ->)|[E2 _]]]; [|simpl; eauto|congruence].
    simpl bind. destruct (Hok2 y E2) as [a2 H2]. eapply IH; eassumption.
Qed.

Theorem read_safe txt pre nl tl post w0 names :
  fst (lines txt) = pre ++ nl :: tl :: post -> Forall header_line pre ->
  split_line nl = w0 :: names -> w0 <> of_string "@" -> split_line tl <> [] ->
  safe (read d0 stod stoi txt).
Proof.
  intros El Hpre Hnl Hw Htl. unfold read. destruct (lines txt) as [ls b]. simpl in El. subst ls.
  destruct (read_header_safe nl (tl :: post) w0 names Hnl Hw pre [] _ _ Hpre (rel_empty d0 stod stoi showd))
    as [(e & ->)|(t' & a' & -> & H)]; [apply safe_throw|]. cbn [bind].
  destruct (negb _); [apply safe_throw|].
  destruct (split_line tl) as [|d tys]; [congruence|].
  destruct (negb _); [apply safe_throw|].
  destruct (mapM type_conv tys) as [types|e|] eqn:Em; simpl bind; [|apply safe_throw|].
  2: { exfalso. clear - Em. revert Em. induction tys as [|x tys IH]; simpl; [discriminate|].
       destruct (type_conv x) eqn:Et; simpl; [|discriminate|].
       - destruct (mapM type_conv tys); simpl; try discriminate. auto.
       - intros _. exact (type_conv_no_ub _ Et). }
  destruct (negb _); [apply safe_throw|].
  apply safe_bind; [eapply add_columns_safe; eassumption|]. intros t1 a1 H1. eapply read_rows_safe; eassumption.
Qed.

(** a table accepted by the reader is well formed, whatever the text *)
Theorem read_wf txt t : read d0 stod stoi txt = Ok t -> exists a, rel t a.
Proof.
  unfold read. destruct (lines txt) as [ls b]. 
  assert (Hh : forall ls words t0 a0 x, rel t0 a0 -> read_header d0 stod stoi ls words t0 = Ok x -> exists a, rel (fst (fst x)) a).
  { clear ls b. induction ls as [|l ls IH]; intros words t0 a0 x H; cbn [read_header].
    - intros E. injection E as <-. simpl. eauto.
    - destruct (split_line l) as [|w ws]; [eapply IH; eassumption|]. destruct (negb _).
      + intros E. injection E as <-. simpl. eauto.
      + destruct ws as [|n [|ty [|v [|? ?]]]]; cbv iota; try discriminate.
        destruct (type_conv ty) as [c|e|]; simpl bind; try discriminate.
        destruct (op_ok (HAddColumn n c) t0 a0 _ Hstod Hstoi H eq_refl) as [Hn Hok].
        destruct (lift_cases (h_add_column d0 n c t0)) as [(z & E1 & ->)|[(e & ->)|[E1 _]]]; simpl bind; try discriminate; [|congruence].
        destruct (Hok z E1) as [a1 H1].
        destruct (op_ok (HSetWithStr n v) z a1 _ Hstod Hstoi H1 eq_refl) as [Hn2 Hok2].
        destruct (lift_cases (h_set_with_str stod stoi n v z)) as [(y & E2 & ->)|[(e & ->)|[E2 _]]]; simpl bind; try discriminate; [|congruence].
        destruct (Hok2 y E2) as [a2 H2]. eapply IH; eassumption. }
  destruct (read_header d0 stod stoi ls [] empty) as [[[t0 words] ls1]|e|] eqn:Er; simpl bind; try discriminate.
  destruct (Hh _ _ _ _ _ (rel_empty d0 stod stoi showd) Er) as [a0 H0]. simpl in H0.
  destruct words as [|w names]; [discriminate|]. destruct (negb _); [discriminate|].
  destruct ls1 as [|l ls2]; [destruct b; discriminate|].
  destruct (split_line l) as [|d tys]; [discriminate|]. destruct (negb _); [discriminate|].
  destruct (mapM type_conv tys) as [types|e|]; simpl bind; try discriminate.
  destruct (negb _); [discriminate|].
  intros E.
  assert (Hs : safe (do t1 <- add_columns d0 names types t0; read_rows d0 stod stoi names (length types) ls2 t1)).
  { apply safe_bind; [eapply add_columns_safe; eassumption|]. intros t1 a1 H1. eapply read_rows_safe; eassumption. }
  destruct Hs as [_ Hs]. apply Hs. exact E.
Qed.
End RT.
