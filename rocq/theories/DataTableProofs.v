From Verif Require Import Base DataTable DataTableSpec.

Section Proofs.
Context {D : Type} (d0 : D).
Context (stod : str -> res dt_err D) (stoi : str -> res dt_err Z).
Context (showd : D -> str) (showi : Z -> str).
Notation sheet := (sheet D).
Notation table := (table D).
Notation default := (default d0).

Lemma assoc_app {B} k (l m : list (str * B)) :
  assoc k (l ++ m) = match assoc k l with Some b => Some b | None => assoc k m end.
Proof. induction l as [|[k' b] l IH]; simpl; auto. destruct (str_eqb k k'); auto. Qed.

Lemma assoc_in {B} k (l : list (str * B)) b : assoc k l = Some b -> In k (map fst l).
Proof.
  induction l as [|[k' b'] l IH]; simpl; [discriminate|].
  destruct (str_eqb_spec k k'); auto.
Qed.

Lemma assoc_none {B} k (l : list (str * B)) : assoc k l = None <-> ~ In k (map fst l).
Proof.
  induction l as [|[k' b'] l IH]; simpl; [tauto|].
  destruct (str_eqb_spec k k') as [->|Hne].
  - split; [discriminate|]. intros H. exfalso. auto.
  - rewrite IH. intuition congruence.
Qed.

Lemma ty_char_inj y y' : ty_char y = ty_char y' -> y = y'.
Proof. destruct y, y'; simpl; congruence. Qed.

(** the index and the abstract column list describe the same columns *)
Definition names_rel (lk : list (str * (ascii * nat))) (cs : list (str * ty)) : Prop :=
  map (fun x => (fst x, fst (snd x))) lk = map (fun x => (fst x, ty_char (snd x))) cs.

Lemma names_rel_app lk cs n y p : names_rel lk cs ->
  names_rel (lk ++ [(n, (ty_char y, p))]) (cs ++ [(n, y)]).
Proof. unfold names_rel. intros H. rewrite !map_app, H. reflexivity. Qed.

Lemma names_rel_some lk cs n y : names_rel lk cs -> assoc n cs = Some y ->
  exists p, assoc n lk = Some (ty_char y, p).
Proof.
  unfold names_rel. revert cs. induction lk as [|[k [c p]] lk IH]; intros [|[k' y'] cs] H;
    simpl in *; try discriminate.
  injection H as -> -> H. destruct (str_eqb n k').
  - injection 1 as ->. eauto.
  - apply IH. exact H.
Qed.

Lemma names_rel_some' lk cs n c p : names_rel lk cs -> assoc n lk = Some (c, p) ->
  exists y, c = ty_char y /\ assoc n cs = Some y.
Proof.
  unfold names_rel. revert cs. induction lk as [|[k [c' p']] lk IH]; intros [|[k' y'] cs] H;
    simpl in *; try discriminate.
  injection H as -> -> H. destruct (str_eqb n k').
  - injection 1 as <- <-. eauto.
  - apply IH. exact H.
Qed.

Lemma names_rel_none lk cs n : names_rel lk cs -> (assoc n cs = None <-> assoc n lk = None).
Proof.
  intros H. destruct (assoc n cs) as [y|] eqn:E1.
  - destruct (names_rel_some _ _ _ _ H E1) as [p ->]. split; discriminate.
  - destruct (assoc n lk) as [[c p]|] eqn:E2; [|tauto].
    destruct (names_rel_some' _ _ _ _ _ H E2) as (y & _ & E). congruence.
Qed.

(** one type of data columns *)
Record colrel {A} (data : list (list A)) (inj : A -> val D) (dflt : A) (y : ty)
    (lk : list (str * (ascii * nat))) (cellf : str -> nat -> val D) (n : nat) : Prop := {
  cr_dflt : inj dflt = default y;
  cr_len : forall c, In c data -> length c = n;
  cr_cols : forall m p, assoc m lk = Some (ty_char y, p) ->
    exists c, nth_error data p = Some c /\ forall i a, nth_error c i = Some a -> cellf m i = inj a;
  cr_inj : forall m m' p, assoc m lk = Some (ty_char y, p) -> assoc m' lk = Some (ty_char y, p) -> m = m' }.

Lemma colrel_col A data inj (dflt : A) y lk cellf n m p :
  colrel data inj dflt y lk cellf n -> assoc m lk = Some (ty_char y, p) ->
  exists c, nth_error data p = Some c /\ length c = n
    /\ forall i a, nth_error c i = Some a -> cellf m i = inj a.
Proof.
  intros H Hm. destruct (cr_cols _ _ _ _ _ _ _ H m p Hm) as (c & Hc & Hi).
  exists c. split; auto. split; auto. apply (cr_len _ _ _ _ _ _ _ H). eapply nth_error_In; eauto.
Qed.

Lemma colrel_get A data inj (dflt : A) y lk cellf n m p i :
  colrel data inj dflt y lk cellf n -> assoc m lk = Some (ty_char y, p) ->
  (if Nat.ltb i n then exists a, (do c <- at_ data p; at_ c i) = Ok a /\ inj a = cellf m i
   else (do c <- at_ data p; at_ c i) = Throw OutOfRange).
Proof.
  intros H Hm. destruct (colrel_col _ _ _ _ _ _ _ _ _ _ H Hm) as (c & Hc & Hl & Hi).
  unfold at_. rewrite Hc. simpl.
  destruct (Nat.ltb_spec i n) as [Hlt|Hge].
  - destruct (nth_error c i) as [a|] eqn:E.
    + exists a. split; auto. symmetry. auto.
    + apply nth_error_None in E. lia.
  - destruct (nth_error c i) as [a|] eqn:E; auto.
    assert (nth_error c i <> None) by congruence. apply nth_error_Some in H0. lia.
Qed.

Lemma colrel_set A data inj (dflt : A) y lk cellf n m p i x :
  colrel data inj dflt y lk cellf n -> assoc m lk = Some (ty_char y, p) ->
  (if Nat.ltb i n then exists data',
      (do c <- at_ data p; do c' <- set_at c i x; set_at data p c') = Ok data'
      /\ colrel data' inj dflt y lk (put cellf m (puti (cellf m) i (inj x))) n
   else (do c <- at_ data p; do c' <- set_at c i x; set_at data p c') = Throw OutOfRange).
Proof.
  intros H Hm. destruct (colrel_col _ _ _ _ _ _ _ _ _ _ H Hm) as (c & Hc & Hl & Hi).
  unfold at_, set_at. rewrite Hc. simpl.
  destruct (Nat.ltb_spec i n) as [Hlt|Hge].
  - destruct (upd_some _ c i x) as [c' Hc']; [lia|]. rewrite Hc'. simpl.
    assert (Hp : p < length data) by (apply nth_error_Some; congruence).
    destruct (upd_some _ data p c' Hp) as [data' Hd']. rewrite Hd'.
    exists data'. split; auto.
    constructor.
    + apply (cr_dflt _ _ _ _ _ _ _ H).
    + intros c0 Hin. apply In_nth_error in Hin. destruct Hin as [q Hq].
      destruct (Nat.eq_dec q p) as [->|Hne].
      * rewrite (upd_nth_same _ _ _ _ _ Hd') in Hq. injection Hq as <-.
        rewrite (upd_length _ _ _ _ _ Hc'). exact Hl.
      * rewrite (upd_nth_other _ _ _ _ _ _ Hd' Hne) in Hq.
        apply (cr_len _ _ _ _ _ _ _ H). eapply nth_error_In; eauto.
    + intros m' p' Hm'. destruct (Nat.eq_dec p' p) as [->|Hne].
      * assert (m' = m) by (eapply (cr_inj _ _ _ _ _ _ _ H); eauto). subst m'.
        exists c'. split; [eapply upd_nth_same; eauto|].
        intros j a Ha. unfold put, puti. rewrite str_eqb_refl.
        destruct (Nat.eqb_spec j i) as [->|Hj].
        -- rewrite (upd_nth_same _ _ _ _ _ Hc') in Ha. congruence.
        -- rewrite (upd_nth_other _ _ _ _ _ _ Hc' Hj) in Ha. auto.
      * destruct (cr_cols _ _ _ _ _ _ _ H m' p' Hm') as (c2 & Hc2 & Hi2).
        exists c2. split; [rewrite (upd_nth_other _ _ _ _ _ _ Hd' Hne); exact Hc2|].
        intros j a Ha. unfold put. destruct (str_eqb_spec m' m) as [->|]; [|auto].
        congruence.
    + apply (cr_inj _ _ _ _ _ _ _ H).
  - rewrite upd_none by lia. reflexivity.
Qed.

Lemma colrel_other A data inj (dflt : A) y y' lk cellf n m p f :
  colrel data inj dflt y lk cellf n -> assoc m lk = Some (ty_char y', p) -> y' <> y ->
  colrel data inj dflt y lk (put cellf m f) n.
Proof.
  intros H Hm Hne. destruct H as [Hd Hl Hc Hi]. constructor; auto.
  intros m' p' Hm'. destruct (Hc m' p' Hm') as (c & Hn & Hcell). exists c. split; auto.
  intros i a Ha. unfold put. destruct (str_eqb_spec m' m) as [->|]; auto.
  exfalso. apply Hne. apply ty_char_inj. congruence.
Qed.

Lemma colrel_add_row A data inj (dflt : A) y lk cellf n cs :
  names_rel lk cs ->
  colrel data inj dflt y lk cellf n ->
  colrel (map (fun a => a ++ [dflt]) data) inj dflt y lk
    (fun m i => if Nat.eqb i n then match assoc m cs with Some y => default y | None => cellf m i end
                else cellf m i) (S n).
Proof.
  intros Hn H. destruct H as [Hd Hl Hc Hi]. constructor; auto.
  - intros c Hin. apply in_map_iff in Hin. destruct Hin as (c0 & <- & Hin).
    rewrite app_length. simpl. rewrite (Hl c0 Hin). lia.
  - intros m p Hm. destruct (Hc m p Hm) as (c & Hp & Hcell).
    exists (c ++ [dflt]). split.
    + rewrite nth_error_map, Hp. reflexivity.
    + intros i a Ha. assert (Hlc : length c = n) by (apply Hl; eapply nth_error_In; eauto).
      destruct (Nat.eqb_spec i n) as [->|Hne].
      * rewrite nth_error_app2 in Ha by lia. rewrite Hlc, Nat.sub_diag in Ha. simpl in Ha.
        injection Ha as <-. destruct (names_rel_some' _ _ _ _ _ Hn Hm) as (y' & Hy & ->).
        apply ty_char_inj in Hy. subst y'. symmetry. exact Hd.
      * apply Hcell. destruct (Nat.lt_ge_cases i n) as [Hlt|Hge].
        -- rewrite nth_error_app1 in Ha by lia. exact Ha.
        -- rewrite nth_error_app2 in Ha by lia. exfalso.
           destruct (i - length c) as [|k] eqn:E; [lia|]. destruct k; discriminate.
Qed.

Lemma nth_repeat_some A (a b : A) n i : nth_error (repeat a n) i = Some b -> b = a.
Proof. intros H. apply nth_error_In in H. eapply repeat_spec; eauto. Qed.

Lemma colrel_add_col A data inj (dflt : A) y lk cellf n m :
  assoc m lk = None -> colrel data inj dflt y lk cellf n ->
  colrel (data ++ [repeat dflt n]) inj dflt y (lk ++ [(m, (ty_char y, length data))])
    (put cellf m (fun _ => default y)) n.
Proof.
  intros Hm H. destruct H as [Hd Hl Hc Hi].
  assert (Hbound : forall m' p, assoc m' lk = Some (ty_char y, p) -> p < length data).
  { intros m' p Hm'. destruct (Hc _ _ Hm') as (c & Hp & _). apply nth_error_Some. congruence. }
  constructor; auto.
  - intros c Hin. apply in_app_or in Hin. destruct Hin as [Hin|[<-|[]]]; auto. apply repeat_length.
  - intros m' p Hm'. rewrite assoc_app in Hm'.
    destruct (assoc m' lk) as [[c' p']|] eqn:E.
    + injection Hm' as -> ->. destruct (Hc _ _ E) as (c & Hp & Hcell).
      exists c. split; [rewrite nth_error_app1; [exact Hp|eapply Hbound; eauto]|].
      intros i a Ha. unfold put. destruct (str_eqb_spec m' m) as [->|]; [congruence|auto].
    + simpl in Hm'. destruct (str_eqb_spec m' m) as [->|]; [|discriminate].
      injection Hm' as <-. exists (repeat dflt n). split.
      * rewrite nth_error_app2 by lia. rewrite Nat.sub_diag. reflexivity.
      * intros i a Ha. apply nth_repeat_some in Ha. subst a. unfold put. rewrite str_eqb_refl. auto.
  - intros m1 m2 p H1 H2. rewrite assoc_app in H1, H2.
    destruct (assoc m1 lk) as [[c1 p1]|] eqn:E1; destruct (assoc m2 lk) as [[c2 p2]|] eqn:E2; simpl in *.
    + injection H1 as -> ->. injection H2 as -> ->. eapply Hi; eauto.
    + injection H1 as -> ->. destruct (str_eqb m2 m); [|discriminate]. injection H2 as <-.
      apply Hbound in E1. lia.
    + injection H2 as -> ->. destruct (str_eqb m1 m); [|discriminate]. injection H1 as <-.
      apply Hbound in E2. lia.
    + destruct (str_eqb_spec m1 m), (str_eqb_spec m2 m); congruence.
Qed.

Lemma colrel_add_col_other A data inj (dflt : A) y y' lk cellf n m p f :
  assoc m lk = None -> y' <> y -> colrel data inj dflt y lk cellf n ->
  colrel data inj dflt y (lk ++ [(m, (ty_char y', p))]) (put cellf m f) n.
Proof.
  intros Hm Hne H. destruct H as [Hd Hl Hc Hi].
  assert (Hold : forall m' q, assoc m' (lk ++ [(m, (ty_char y', p))]) = Some (ty_char y, q) ->
    assoc m' lk = Some (ty_char y, q)).
  { intros m' q Hm'. rewrite assoc_app in Hm'. destruct (assoc m' lk) as [[c1 p1]|]; auto.
    simpl in Hm'. destruct (str_eqb m' m); [|discriminate]. injection Hm' as Hc' <-.
    exfalso. apply Hne. apply ty_char_inj. exact Hc'. }
  constructor; auto.
  - intros m' q Hm'. apply Hold in Hm'. destruct (Hc _ _ Hm') as (c & Hp & Hcell).
    exists c. split; auto. intros i a Ha. unfold put.
    destruct (str_eqb_spec m' m) as [->|]; [congruence|auto].
  - intros m1 m2 q H1 H2. eapply Hi; eauto.
Qed.

(** one type of header entries *)
Record hrel {A} (data : list A) (inj : A -> val D) (y : ty)
    (lk : list (str * (ascii * nat))) (hf : str -> val D) : Prop := {
  hr_cols : forall m p, assoc m lk = Some (ty_char y, p) ->
    exists a, nth_error data p = Some a /\ hf m = inj a;
  hr_inj : forall m m' p, assoc m lk = Some (ty_char y, p) -> assoc m' lk = Some (ty_char y, p) -> m = m' }.

Lemma hrel_get A (data : list A) inj y lk hf m p :
  hrel data inj y lk hf -> assoc m lk = Some (ty_char y, p) ->
  exists a, at_ data p = Ok a /\ inj a = hf m.
Proof.
  intros H Hm. destruct (hr_cols _ _ _ _ _ H m p Hm) as (a & Ha & Hi).
  unfold at_. rewrite Ha. eauto.
Qed.

Lemma hrel_set A (data : list A) inj y lk hf m p x :
  hrel data inj y lk hf -> assoc m lk = Some (ty_char y, p) ->
  exists data', set_at data p x = Ok data' /\ hrel data' inj y lk (put hf m (inj x)).
Proof.
  intros H Hm. destruct (hr_cols _ _ _ _ _ H m p Hm) as (a & Ha & Hi).
  unfold set_at. destruct (upd_some _ data p x) as [data' Hd'].
  { apply nth_error_Some. congruence. }
  rewrite Hd'. exists data'. split; auto. constructor.
  - intros m' p' Hm'. unfold put. destruct (Nat.eq_dec p' p) as [->|Hne].
    + assert (m' = m) by (eapply (hr_inj _ _ _ _ _ H); eauto). subst m'. rewrite str_eqb_refl.
      exists x. split; auto. eapply upd_nth_same; eauto.
    + destruct (hr_cols _ _ _ _ _ H m' p' Hm') as (a' & Ha' & Hi').
      exists a'. rewrite (upd_nth_other _ _ _ _ _ _ Hd' Hne). split; auto.
      destruct (str_eqb_spec m' m) as [->|]; [congruence|auto].
  - apply (hr_inj _ _ _ _ _ H).
Qed.

Lemma hrel_other A (data : list A) inj y y' lk hf m p v :
  hrel data inj y lk hf -> assoc m lk = Some (ty_char y', p) -> y' <> y ->
  hrel data inj y lk (put hf m v).
Proof.
  intros [Hc Hi] Hm Hne. constructor; auto. intros m' p' Hm'.
  destruct (Hc _ _ Hm') as (a & Ha & Hv). exists a. split; auto.
  unfold put. destruct (str_eqb_spec m' m) as [->|]; auto.
  exfalso. apply Hne, ty_char_inj. congruence.
Qed.

Lemma hrel_add A (data : list A) inj y lk hf m x :
  assoc m lk = None -> hrel data inj y lk hf ->
  hrel (data ++ [x]) inj y (lk ++ [(m, (ty_char y, length data))]) (put hf m (inj x)).
Proof.
  intros Hm [Hc Hi].
  assert (Hbound : forall m' p, assoc m' lk = Some (ty_char y, p) -> p < length data).
  { intros m' p Hm'. destruct (Hc _ _ Hm') as (c & Hp & _). apply nth_error_Some. congruence. }
  constructor.
  - intros m' p Hm'. rewrite assoc_app in Hm'.
    destruct (assoc m' lk) as [[c' p']|] eqn:E.
    + injection Hm' as -> ->. destruct (Hc _ _ E) as (a & Hp & Hv).
      exists a. split; [rewrite nth_error_app1; [exact Hp|eapply Hbound; eauto]|].
      unfold put. destruct (str_eqb_spec m' m) as [->|]; [congruence|auto].
    + simpl in Hm'. destruct (str_eqb_spec m' m) as [->|]; [|discriminate].
      injection Hm' as <-. exists x. split.
      * rewrite nth_error_app2 by lia. rewrite Nat.sub_diag. reflexivity.
      * unfold put. rewrite str_eqb_refl. auto.
  - intros m1 m2 p H1 H2. rewrite assoc_app in H1, H2.
    destruct (assoc m1 lk) as [[c1 p1]|] eqn:E1; destruct (assoc m2 lk) as [[c2 p2]|] eqn:E2; simpl in *.
    + injection H1 as -> ->. injection H2 as -> ->. eapply Hi; eauto.
    + injection H1 as -> ->. destruct (str_eqb m2 m); [|discriminate]. injection H2 as <-.
      apply Hbound in E1. lia.
    + injection H2 as -> ->. destruct (str_eqb m1 m); [|discriminate]. injection H1 as <-.
      apply Hbound in E2. lia.
    + destruct (str_eqb_spec m1 m), (str_eqb_spec m2 m); congruence.
Qed.

Lemma hrel_add_other A (data : list A) inj y y' lk hf m p v :
  assoc m lk = None -> y' <> y -> hrel data inj y lk hf ->
  hrel data inj y (lk ++ [(m, (ty_char y', p))]) (put hf m v).
Proof.
  intros Hm Hne [Hc Hi].
  assert (Hold : forall m' q, assoc m' (lk ++ [(m, (ty_char y', p))]) = Some (ty_char y, q) ->
    assoc m' lk = Some (ty_char y, q)).
  { intros m' q Hm'. rewrite assoc_app in Hm'. destruct (assoc m' lk) as [[c1 p1]|]; auto.
    simpl in Hm'. destruct (str_eqb m' m); [|discriminate]. injection Hm' as Hc' <-.
    exfalso. apply Hne. apply ty_char_inj. exact Hc'. }
  constructor.
  - intros m' q Hm'. apply Hold in Hm'. destruct (Hc _ _ Hm') as (a & Hp & Hv).
    exists a. split; auto. unfold put.
    destruct (str_eqb_spec m' m) as [->|]; [congruence|auto].
  - intros m1 m2 q H1 H2. eapply Hi; eauto.
Qed.

(** table and sheet *)
Record rel (t : table) (a : sheet) : Prop := {
  r_names : col_names t = map fst (cols a);
  r_lk : names_rel (lookup t) (cols a);
  r_nodup : NoDup (map fst (cols a));
  r_len : len t = nrows a;
  r_d : colrel (data_d t) VD d0 TD (lookup t) (cell a) (len t);
  r_i : colrel (data_i t) VI 0%Z TI (lookup t) (cell a) (len t);
  r_s : colrel (data_s t) VS [] TS (lookup t) (cell a) (len t);
  r_hnames : hcol_names t = map fst (heads a);
  r_hlk : names_rel (hlookup t) (heads a);
  r_hnodup : NoDup (map fst (heads a));
  r_hd : hrel (hdata_d t) VD TD (hlookup t) (head a);
  r_hi : hrel (hdata_i t) VI TI (hlookup t) (head a);
  r_hs : hrel (hdata_s t) VS TS (hlookup t) (head a) }.

Lemma rel_empty : rel (@empty D) (sheet0 d0).
Proof.
  constructor; simpl; try reflexivity; try constructor; simpl; try tauto; try discriminate; reflexivity.
Qed.

(** loc: what the index says about a column *)
Lemma rel_loc t a n : rel t a ->
  match col_ty n a with
  | None => get_location n t = Throw OutOfRange
  | Some y => exists p, get_location n t = Ok (ty_char y, p) /\ assoc n (lookup t) = Some (ty_char y, p)
  end.
Proof.
  intros H. unfold col_ty, get_location. destruct (assoc n (cols a)) as [y|] eqn:E.
  - destruct (names_rel_some _ _ _ _ (r_lk _ _ H) E) as [p Hp]. rewrite Hp. eauto.
  - apply (names_rel_none _ _ _ (r_lk _ _ H)) in E. rewrite E. reflexivity.
Qed.

Lemma rel_hloc t a n : rel t a ->
  match head_ty n a with
  | None => get_hlocation n t = Throw OutOfRange
  | Some y => exists p, get_hlocation n t = Ok (ty_char y, p) /\ assoc n (hlookup t) = Some (ty_char y, p)
  end.
Proof.
  intros H. unfold head_ty, get_hlocation. destruct (assoc n (heads a)) as [y|] eqn:E.
  - destruct (names_rel_some _ _ _ _ (r_hlk _ _ H) E) as [p Hp]. rewrite Hp. eauto.
  - apply (names_rel_none _ _ _ (r_hlk _ _ H)) in E. rewrite E. reflexivity.
Qed.

Definition match_set (t : table) (a : sheet) (r : res dt_err table) (r' : res dt_err sheet) : Prop :=
  match r, r' with
  | Ok t', Ok a' => rel t' a'
  | Throw e, Throw e' => e = e'
  | UB, UB => True
  | _, _ => False
  end.

Ltac oth :=
  first [ eapply (colrel_other _ _ _ _ _ TD); [eassumption|eassumption|discriminate]
        | eapply (colrel_other _ _ _ _ _ TI); [eassumption|eassumption|discriminate]
        | eapply (colrel_other _ _ _ _ _ TS); [eassumption|eassumption|discriminate] ].
Ltac hoth :=
  first [ eapply (hrel_other _ _ _ _ TD); [eassumption|eassumption|discriminate]
        | eapply (hrel_other _ _ _ _ TI); [eassumption|eassumption|discriminate]
        | eapply (hrel_other _ _ _ _ TS); [eassumption|eassumption|discriminate] ].

Lemma rel_set t a n i v : rel t a -> match_set t a (set n i v t) (s_set n i v a).
Proof.
  intros H. pose proof (rel_loc t a n H) as Hloc. unfold s_set.
  destruct (col_ty n a) as [y|] eqn:Ey.
  2: { destruct v; simpl; unfold set_d, set_i, set_s; rewrite Hloc; reflexivity. }
  destruct Hloc as (p & Hl & Ha). destruct H.
  assert (Hlen : nrows a = len t) by congruence. 
  destruct v as [x|x|x]; simpl; unfold set_d, set_i, set_s; rewrite Hl; simpl;
    destruct y; simpl; try reflexivity; rewrite Hlen.
  - pose proof (colrel_set _ _ _ _ _ _ _ _ n p i x r_d0 Ha) as Hs.
    destruct (Nat.ltb i (len t)).
    + destruct Hs as (data' & He & Hr).
      destruct (at_ (data_d t) p) as [c| |]; simpl in *; try discriminate.
      destruct (set_at c i x) as [c'| |]; simpl in *; try discriminate. rewrite He. simpl.
      constructor; simpl; auto; try congruence; oth.
    + destruct (at_ (data_d t) p) as [c| |]; simpl in *; try (injection Hs as ->; reflexivity); try discriminate.
      destruct (set_at c i x) as [c'| |]; simpl in *; try (injection Hs as ->; reflexivity); try discriminate.
      rewrite Hs. reflexivity.
  - pose proof (colrel_set _ _ _ _ _ _ _ _ n p i x r_i0 Ha) as Hs.
    destruct (Nat.ltb i (len t)).
    + destruct Hs as (data' & He & Hr).
      destruct (at_ (data_i t) p) as [c| |]; simpl in *; try discriminate.
      destruct (set_at c i x) as [c'| |]; simpl in *; try discriminate. rewrite He. simpl.
      constructor; simpl; auto; try congruence; oth.
    + destruct (at_ (data_i t) p) as [c| |]; simpl in *; try (injection Hs as ->; reflexivity); try discriminate.
      destruct (set_at c i x) as [c'| |]; simpl in *; try (injection Hs as ->; reflexivity); try discriminate.
      rewrite Hs. reflexivity.
  - pose proof (colrel_set _ _ _ _ _ _ _ _ n p i x r_s0 Ha) as Hs.
    destruct (Nat.ltb i (len t)).
    + destruct Hs as (data' & He & Hr).
      destruct (at_ (data_s t) p) as [c| |]; simpl in *; try discriminate.
      destruct (set_at c i x) as [c'| |]; simpl in *; try discriminate. rewrite He. simpl.
      constructor; simpl; auto; try congruence; oth.
    + destruct (at_ (data_s t) p) as [c| |]; simpl in *; try (injection Hs as ->; reflexivity); try discriminate.
      destruct (set_at c i x) as [c'| |]; simpl in *; try (injection Hs as ->; reflexivity); try discriminate.
      rewrite Hs. reflexivity.
Qed.

Definition map_res {A B} (f : A -> B) (r : res dt_err A) : res dt_err B :=
  match r with Ok a => Ok (f a) | Throw e => Throw e | UB => UB end.

Ltac get_tac t a n i data :=
  let H := fresh "H" in
  intros H; pose proof (rel_loc t a n H) as Hloc; unfold s_get;
  destruct (col_ty n a) as [y|] eqn:Ey; [|unfold get_d, get_i, get_s; rewrite Hloc; reflexivity];
  destruct Hloc as (p & Hl & Ha); unfold get_d, get_i, get_s; rewrite Hl;
  destruct y; simpl; try reflexivity; rewrite <- (r_len _ _ H);
  let Hg := fresh in
  pose proof (colrel_get _ _ _ _ _ _ _ _ n p i (data _ _ H) Ha) as Hg;
  destruct (Nat.ltb i (len t));
  [destruct Hg as (x & -> & <-); reflexivity | rewrite Hg; reflexivity].

Lemma rel_get_d t a n i : rel t a -> map_res VD (get_d n i t) = s_get n i TD a.
Proof. get_tac t a n i r_d. Qed.
Lemma rel_get_i t a n i : rel t a -> map_res VI (get_i n i t) = s_get n i TI a.
Proof. get_tac t a n i r_i. Qed.
Lemma rel_get_s t a n i : rel t a -> map_res VS (get_s n i t) = s_get n i TS a.
Proof. get_tac t a n i r_s. Qed.

Lemma rel_add_row t a : rel t a -> rel (fst (add_row d0 t)) (s_add_row d0 a).
Proof.
  intros H. destruct H. constructor; simpl; auto;
    rewrite <- r_len0; unfold col_ty; apply colrel_add_row; assumption.
Qed.

Lemma add_row_n_spec vs row : forall t a col, rel t a ->
  let (t', r) := add_row_n col row vs t in
  let (a', o) := s_fill (skipn col (map fst (cols a))) row vs a in
  rel t' a' /\ o = match r with Ok _ => ODone | Throw e => OErr e | UB => OUB end.
Proof.
  induction vs as [|v vs IH]; intros t a col H; [simpl; auto|].
  cbn [add_row_n s_fill]. unfold at_. rewrite (r_names _ _ H).
  destruct (nth_error (map fst (cols a)) col) as [n|] eqn:En.
  - assert (Hsk : skipn col (map fst (cols a)) = n :: skipn (S col) (map fst (cols a))).
    { clear - En. revert col En. induction (map fst (cols a)) as [|x l IH]; intros [|col] En; simpl in *;
        try discriminate; [congruence|]. apply IH in En. exact En. }
    rewrite Hsk. pose proof (rel_set t a n row v H) as Hs.
    destruct (set n row v t) as [t'| |], (s_set n row v a) as [a'| |] eqn:Es; simpl in Hs; try tauto.
    + assert (Hc : cols a' = cols a).
      { unfold s_set in Es. destruct (col_ty n a) as [y|]; [|discriminate].
        destruct y, (ty_of v); try discriminate; destruct (Nat.ltb row (nrows a)); try discriminate;
          injection Es as <-; reflexivity. }
      specialize (IH t' a' (S col) Hs). rewrite Hc in IH. exact IH.
    + subst e0. auto.
  - assert (Hsk : skipn col (map fst (cols a)) = []).
    { apply skipn_all2. apply nth_error_None. exact En. }
    rewrite Hsk. auto.
Qed.

Lemma char_ty_spec c y : char_ty c = Some y <-> c = ty_char y.
Proof.
  unfold char_ty, char_eqb. destruct (Ascii.eqb_spec c "d") as [->|H1].
  { destruct y; simpl; split; congruence. }
  destruct (Ascii.eqb_spec c "i") as [->|H2].
  { destruct y; simpl; split; congruence. }
  destruct (Ascii.eqb_spec c "s") as [->|H3].
  { destruct y; simpl; split; congruence. }
  destruct y; simpl; split; congruence.
Qed.

Lemma col_add_nodup (cs : list (str * ty)) n y : NoDup (map fst cs) -> assoc n cs = None ->
  NoDup (map fst (cs ++ [(n, y)])).
Proof.
  intros H Hn. rewrite map_app. simpl. apply NoDup_app_remove_l with (l := []) || idtac.
  apply assoc_none in Hn. clear - H Hn. induction (map fst cs) as [|x l IH]; simpl.
  - repeat constructor; simpl; tauto.
  - inversion H; subst. constructor.
    + rewrite in_app_iff. simpl in *. intuition.
    + apply IH; auto. simpl in Hn. tauto.
Qed.

Definition step_rel (x : table * out D) (y : sheet * out D) : Prop :=
  rel (fst x) (fst y) /\ snd x = snd y.

Lemma rel_add_column n c t a : rel t a ->
  step_rel (upd_out t (add_column d0 n c t)) (s_step d0 stod stoi showd showi (AddColumn n c) a).
Proof.
  intros H. simpl. pose proof (rel_loc t a n H) as Hloc. unfold add_column, col_ty in *.
  destruct (assoc n (cols a)) as [y|] eqn:Ey.
  { destruct Hloc as (p & _ & ->). split; auto. }
  assert (Hn : assoc n (lookup t) = None) by (apply (names_rel_none _ _ _ (r_lk _ _ H)); assumption).
  rewrite Hn. unfold cD, cI, cS. 
  destruct (char_ty c) as [y|] eqn:Ec.
  - apply char_ty_spec in Ec. subst c. destruct H.
    destruct y; simpl; (split; [|reflexivity]); simpl; constructor; simpl; auto;
      try (rewrite map_app, r_names0; reflexivity);
      try first [ apply (names_rel_app _ _ _ TD); assumption | apply (names_rel_app _ _ _ TI); assumption | apply (names_rel_app _ _ _ TS); assumption ];
      try (apply col_add_nodup; assumption);
      solve [ apply (colrel_add_col _ _ _ _ TD); assumption
            | apply (colrel_add_col _ _ _ _ TI); assumption
            | apply (colrel_add_col _ _ _ _ TS); assumption
            | apply (colrel_add_col_other _ _ _ _ _ TD); [assumption|discriminate|assumption]
            | apply (colrel_add_col_other _ _ _ _ _ TI); [assumption|discriminate|assumption]
            | apply (colrel_add_col_other _ _ _ _ _ TS); [assumption|discriminate|assumption]
            ].
  - unfold char_ty in Ec. destruct (char_eqb c "d"); [discriminate|].
    destruct (char_eqb c "i"); [discriminate|]. destruct (char_eqb c "s"); [discriminate|].
    split; auto.
Qed.

Lemma rel_h_add_column n c t a : rel t a ->
  step_rel (upd_out t (h_add_column d0 n c t)) (s_step d0 stod stoi showd showi (HAddColumn n c) a).
Proof.
  intros H. simpl. pose proof (rel_hloc t a n H) as Hloc. unfold h_add_column, head_ty in *.
  destruct (assoc n (heads a)) as [y|] eqn:Ey.
  { destruct Hloc as (p & _ & ->). split; auto. }
  assert (Hn : assoc n (hlookup t) = None) by (apply (names_rel_none _ _ _ (r_hlk _ _ H)); assumption).
  rewrite Hn. unfold cD, cI, cS. 
  destruct (char_ty c) as [y|] eqn:Ec.
  - apply char_ty_spec in Ec. subst c. destruct H.
    destruct y; simpl; (split; [|reflexivity]); simpl; constructor; simpl; auto;
      try (rewrite map_app, r_hnames0; reflexivity);
      try first [ apply (names_rel_app _ _ _ TD); assumption | apply (names_rel_app _ _ _ TI); assumption | apply (names_rel_app _ _ _ TS); assumption ];
      try (apply col_add_nodup; assumption);
      solve [ apply (hrel_add _ _ _ TD); assumption
            | apply (hrel_add _ _ _ TI); assumption
            | apply (hrel_add _ _ _ TS); assumption
            | apply (hrel_add_other _ _ _ _ TD); [assumption|discriminate|assumption]
            | apply (hrel_add_other _ _ _ _ TI); [assumption|discriminate|assumption]
            | apply (hrel_add_other _ _ _ _ TS); [assumption|discriminate|assumption]
            ].
  - unfold char_ty in Ec. destruct (char_eqb c "d"); [discriminate|].
    destruct (char_eqb c "i"); [discriminate|]. destruct (char_eqb c "s"); [discriminate|].
    split; auto.
Qed.

Lemma rel_hset t a n v : rel t a -> match_set t a (h_set n v t) (s_hset n v a).
Proof.
  intros H. pose proof (rel_hloc t a n H) as Hloc. unfold s_hset.
  destruct (head_ty n a) as [y|] eqn:Ey.
  2: { destruct v; simpl; unfold h_set_d, h_set_i, h_set_s; rewrite Hloc; reflexivity. }
  destruct Hloc as (p & Hl & Ha). destruct H.
  destruct v as [x|x|x]; simpl; unfold h_set_d, h_set_i, h_set_s; rewrite Hl; simpl;
    destruct y; simpl; try reflexivity.
  - destruct (hrel_set _ _ _ _ _ _ n p x r_hd0 Ha) as (data' & -> & Hr). simpl.
    constructor; simpl; auto; hoth.
  - destruct (hrel_set _ _ _ _ _ _ n p x r_hi0 Ha) as (data' & -> & Hr). simpl.
    constructor; simpl; auto; hoth.
  - destruct (hrel_set _ _ _ _ _ _ n p x r_hs0 Ha) as (data' & -> & Hr). simpl.
    constructor; simpl; auto; hoth.
Qed.

Ltac hget_tac t a n data :=
  let H := fresh "H" in
  intros H; pose proof (rel_hloc t a n H) as Hloc; unfold s_hget;
  destruct (head_ty n a) as [y|] eqn:Ey; [|unfold h_get_d, h_get_i, h_get_s; rewrite Hloc; reflexivity];
  destruct Hloc as (p & Hl & Ha); unfold h_get_d, h_get_i, h_get_s; rewrite Hl;
  destruct y; simpl; try reflexivity;
  destruct (hrel_get _ _ _ _ _ _ n p (data _ _ H) Ha) as (x & -> & <-); reflexivity.

Lemma rel_hget_d t a n : rel t a -> map_res VD (h_get_d n t) = s_hget n TD a.
Proof. hget_tac t a n r_hd. Qed.
Lemma rel_hget_i t a n : rel t a -> map_res VI (h_get_i n t) = s_hget n TI a.
Proof. hget_tac t a n r_hi. Qed.
Lemma rel_hget_s t a n : rel t a -> map_res VS (h_get_s n t) = s_hget n TS a.
Proof. hget_tac t a n r_hs. Qed.

Lemma match_upd t a r r' : rel t a -> match_set t a r r' -> step_rel (upd_out t r) (s_upd a r').
Proof.
  intros H Hm. unfold step_rel. destruct r, r'; simpl in *; try tauto; auto. subst. auto.
Qed.

Lemma obs_map {A} (t : table) a (r : res dt_err A) (r' : res dt_err (val D)) inj f :
  rel t a -> map_res inj r = r' -> step_rel (obs t r (fun x => f (inj x))) (s_obs a r' f).
Proof. intros H <-. destruct r; split; auto. Qed.

Theorem step_refines o t a : rel t a ->
  step_rel (step d0 stod stoi showd showi o t) (s_step d0 stod stoi showd showi o a).
Proof.
  intros H. destruct o.
  - apply rel_add_column; assumption.
  - split; [exact (rel_add_row t a H)|simpl; rewrite (r_len _ _ H); reflexivity].
  - simpl. unfold add_row_v. pose proof (rel_add_row t a H) as H1. simpl in *.
    pose proof (add_row_n_spec vs (len t) _ _ 0 H1) as Hs. simpl skipn in Hs.
    rewrite (r_len _ _ H) in *.
    destruct (add_row_n _ _ _ _) as [t' r].
    change (cols (s_add_row d0 a)) with (cols a) in Hs.
    destruct (s_fill _ _ _ _) as [a' o]. destruct Hs as [Hr ->]. split; auto.
  - apply match_upd; auto. apply rel_set; assumption.
  - simpl. apply match_upd; auto. unfold set_with_str.
    pose proof (rel_loc t a n H) as Hloc. destruct (col_ty n a) as [y|] eqn:Ey; simpl.
    2: { rewrite Hloc. reflexivity. }
    destruct Hloc as (p & -> & Ha). simpl. destruct y; simpl.
    + destruct (stod x) as [v| |]; simpl; try reflexivity; try exact I.
      apply (rel_set t a n i (VD v)); assumption.
    + destruct (stoi x) as [v| |]; simpl; try reflexivity; try exact I.
      apply (rel_set t a n i (VI v)); assumption.
    + apply (rel_set t a n i (VS x)); assumption.
  - apply (obs_map t a _ _ VD OVal); auto. apply rel_get_d; assumption.
  - apply (obs_map t a _ _ VI OVal); auto. apply rel_get_i; assumption.
  - apply (obs_map t a _ _ VS OVal); auto. apply rel_get_s; assumption.
  - simpl. unfold get_as_str.
    pose proof (rel_loc t a n H) as Hloc. destruct (col_ty n a) as [y|] eqn:Ey; simpl.
    2: { rewrite Hloc. split; auto. }
    destruct Hloc as (p & -> & Ha). simpl. destruct y; simpl.
    + rewrite <- (rel_get_d t a n i H). destruct (get_d n i t); split; auto.
    + rewrite <- (rel_get_i t a n i H). destruct (get_i n i t); split; auto.
    + rewrite <- (rel_get_s t a n i H). destruct (get_s n i t); split; auto.
  - split; auto. simpl. rewrite (r_len _ _ H). reflexivity.
  - split; auto. simpl. rewrite (r_names _ _ H). reflexivity.
  - split; auto. simpl. unfold has_col. pose proof (rel_loc t a n H) as Hloc.
    unfold get_location in Hloc. destruct (col_ty n a) as [y|].
    + destruct Hloc as (p & _ & ->). reflexivity.
    + destruct (assoc n (lookup t)); [discriminate|reflexivity].
  - split; auto. simpl. unfold has_col_t. pose proof (rel_loc t a n H) as Hloc.
    unfold get_location in Hloc. destruct (col_ty n a) as [y|].
    + destruct Hloc as (p & _ & ->). reflexivity.
    + destruct (assoc n (lookup t)); [discriminate|reflexivity].
  - simpl. pose proof (rel_loc t a n H) as Hloc. destruct (col_ty n a) as [y|].
    + destruct Hloc as (p & -> & _). split; auto.
    + rewrite Hloc. split; auto.
  - apply rel_h_add_column; assumption.
  - apply match_upd; auto. apply rel_hset; assumption.
  - simpl. apply match_upd; auto. unfold h_set_with_str.
    pose proof (rel_hloc t a n H) as Hloc. destruct (head_ty n a) as [y|] eqn:Ey; simpl.
    2: { rewrite Hloc. reflexivity. }
    destruct Hloc as (p & -> & Ha). simpl. destruct y; simpl.
    + destruct (stod x) as [v| |]; simpl; try reflexivity; try exact I.
      apply (rel_hset t a n (VD v)); assumption.
    + destruct (stoi x) as [v| |]; simpl; try reflexivity; try exact I.
      apply (rel_hset t a n (VI v)); assumption.
    + apply (rel_hset t a n (VS x)); assumption.
  - apply (obs_map t a _ _ VD OVal); auto. apply rel_hget_d; assumption.
  - apply (obs_map t a _ _ VI OVal); auto. apply rel_hget_i; assumption.
  - apply (obs_map t a _ _ VS OVal); auto. apply rel_hget_s; assumption.
  - simpl. unfold h_get_as_str.
    pose proof (rel_hloc t a n H) as Hloc. destruct (head_ty n a) as [y|] eqn:Ey; simpl.
    2: { rewrite Hloc. split; auto. }
    destruct Hloc as (p & -> & Ha). simpl. destruct y; simpl.
    + rewrite <- (rel_hget_d t a n H). destruct (h_get_d n t); split; auto.
    + rewrite <- (rel_hget_i t a n H). destruct (h_get_i n t); split; auto.
    + rewrite <- (rel_hget_s t a n H). destruct (h_get_s n t); split; auto.
  - split; auto. simpl. rewrite (r_hnames _ _ H). reflexivity.
  - split; auto. simpl. unfold h_has. pose proof (rel_hloc t a n H) as Hloc.
    unfold get_hlocation in Hloc. destruct (head_ty n a) as [y|].
    + destruct Hloc as (p & _ & ->). reflexivity.
    + destruct (assoc n (hlookup t)); [discriminate|reflexivity].
  - split; auto. simpl. unfold h_has_t. pose proof (rel_hloc t a n H) as Hloc.
    unfold get_hlocation in Hloc. destruct (head_ty n a) as [y|].
    + destruct Hloc as (p & _ & ->). reflexivity.
    + destruct (assoc n (hlookup t)); [discriminate|reflexivity].
  - simpl. pose proof (rel_hloc t a n H) as Hloc. destruct (head_ty n a) as [y|].
    + destruct Hloc as (p & -> & _). split; auto.
    + rewrite Hloc. split; auto.
Qed.

Notation run := (run d0 stod stoi showd showi).
Notation s_run := (s_run d0 stod stoi showd showi).

Theorem run_refines ops : forall t a, rel t a ->
  rel (fst (run ops t)) (fst (s_run ops a)) /\ snd (run ops t) = snd (s_run ops a).
Proof.
  induction ops as [|o ops IH]; intros t a H; [simpl; auto|].
  cbn [DataTable.run DataTableSpec.s_run].
  pose proof (step_refines o t a H) as [H1 H2].
  destruct (step d0 stod stoi showd showi o t) as [t1 x].
  destruct (s_step d0 stod stoi showd showi o a) as [a1 y]. simpl in *. subst y.
  specialize (IH t1 a1 H1). destruct (run ops t1) as [t2 xs], (s_run ops a1) as [a2 ys]. simpl in *.
  destruct IH as [IH1 ->]. auto.
Qed.

(** every table reachable through the interface is related to a sheet *)
Lemma reachable_rel ops : exists a, rel (fst (run ops empty)) a.
Proof. eexists. apply (run_refines ops _ _ rel_empty). Qed.

(** rectangular *)
Lemma reachable_rect ops : let t := fst (run ops empty) in
  NoDup (col_names t) /\
  (forall n, In n (col_names t) <-> has_col n t = true) /\
  (forall n c, has_col_t n c t = true -> c = cD \/ c = cI \/ c = cS) /\
  (forall n i, has_col_t n cD t = true ->
     (i < len t -> exists x, get_d n i t = Ok x) /\ (len t <= i -> get_d n i t = Throw OutOfRange)) /\
  (forall n i, has_col_t n cI t = true ->
     (i < len t -> exists x, get_i n i t = Ok x) /\ (len t <= i -> get_i n i t = Throw OutOfRange)) /\
  (forall n i, has_col_t n cS t = true ->
     (i < len t -> exists x, get_s n i t = Ok x) /\ (len t <= i -> get_s n i t = Throw OutOfRange)).
Proof.
  destruct (reachable_rel ops) as [a H]. cbv zeta. set (t := fst (run ops empty)) in *.
  assert (Hty : forall n c, has_col_t n c t = true -> exists y p, c = ty_char y
            /\ assoc n (lookup t) = Some (ty_char y, p) /\ col_ty n a = Some y).
  { intros n c. unfold has_col_t. destruct (assoc n (lookup t)) as [[c' p]|] eqn:E; [|discriminate].
    destruct (names_rel_some' _ _ _ _ _ (r_lk _ _ H) E) as (y & -> & Hy). simpl.
    unfold char_eqb. destruct (Ascii.eqb_spec (ty_char y) c); [|discriminate]. intros _. eauto. }
  repeat split.
  - rewrite (r_names _ _ H). apply (r_nodup _ _ H).
  - rewrite (r_names _ _ H). intros Hin. unfold has_col.
    destruct (assoc n (lookup t)) eqn:E; auto. apply (names_rel_none _ _ _ (r_lk _ _ H)) in E.
    apply assoc_none in E. tauto.
  - rewrite (r_names _ _ H). unfold has_col. destruct (assoc n (lookup t)) as [[c p]|] eqn:E; [|discriminate].
    intros _. destruct (names_rel_some' _ _ _ _ _ (r_lk _ _ H) E) as (y & _ & Hy). eapply assoc_in; eauto.
  - intros n c Hc. destruct (Hty _ _ Hc) as (y & p & -> & _). destruct y; auto.
  - intros Hi. destruct (Hty _ _ H0) as (y & p & Hc & Hp & Hy).
    assert (y = TD) by (apply ty_char_inj; rewrite <- Hc; reflexivity). subst y.
    pose proof (rel_get_d t a n i H) as Hg. unfold s_get in Hg. rewrite Hy, <- (r_len _ _ H) in Hg.
    destruct (Nat.ltb_spec i (len t)); [|lia]. destruct (get_d n i t); try discriminate. eauto.
  - intros Hi. destruct (Hty _ _ H0) as (y & p & Hc & Hp & Hy).
    assert (y = TD) by (apply ty_char_inj; rewrite <- Hc; reflexivity). subst y.
    pose proof (rel_get_d t a n i H) as Hg. unfold s_get in Hg. rewrite Hy, <- (r_len _ _ H) in Hg.
    destruct (Nat.ltb_spec i (len t)); [lia|]. destruct (get_d n i t); simpl in Hg; congruence.
  - intros Hi. destruct (Hty _ _ H0) as (y & p & Hc & Hp & Hy).
    assert (y = TI) by (apply ty_char_inj; rewrite <- Hc; reflexivity). subst y.
    pose proof (rel_get_i t a n i H) as Hg. unfold s_get in Hg. rewrite Hy, <- (r_len _ _ H) in Hg.
    destruct (Nat.ltb_spec i (len t)); [|lia]. destruct (get_i n i t); try discriminate. eauto.
  - intros Hi. destruct (Hty _ _ H0) as (y & p & Hc & Hp & Hy).
    assert (y = TI) by (apply ty_char_inj; rewrite <- Hc; reflexivity). subst y.
    pose proof (rel_get_i t a n i H) as Hg. unfold s_get in Hg. rewrite Hy, <- (r_len _ _ H) in Hg.
    destruct (Nat.ltb_spec i (len t)); [lia|]. destruct (get_i n i t); simpl in Hg; congruence.
  - intros Hi. destruct (Hty _ _ H0) as (y & p & Hc & Hp & Hy).
    assert (y = TS) by (apply ty_char_inj; rewrite <- Hc; reflexivity). subst y.
    pose proof (rel_get_s t a n i H) as Hg. unfold s_get in Hg. rewrite Hy, <- (r_len _ _ H) in Hg.
    destruct (Nat.ltb_spec i (len t)); [|lia]. destruct (get_s n i t); try discriminate. eauto.
  - intros Hi. destruct (Hty _ _ H0) as (y & p & Hc & Hp & Hy).
    assert (y = TS) by (apply ty_char_inj; rewrite <- Hc; reflexivity). subst y.
    pose proof (rel_get_s t a n i H) as Hg. unfold s_get in Hg. rewrite Hy, <- (r_len _ _ H) in Hg.
    destruct (Nat.ltb_spec i (len t)); [lia|]. destruct (get_s n i t); simpl in Hg; congruence.
Qed.

(** an operation other than the variadic AddRow that reports an error leaves
    the table exactly as it was *)
Lemma error_no_change o t e : (forall vs, o <> AddRowV vs) ->
  snd (step d0 stod stoi showd showi o t) = OErr e ->
  fst (step d0 stod stoi showd showi o t) = t.
Proof.
  intros Hv H. destruct o; simpl in *; try reflexivity; try discriminate;
    try (unfold upd_out in *; match goal with |- context [match ?r with _ => _ end] => destruct r end;
         simpl in *; try discriminate; reflexivity).
  exfalso. eapply Hv. reflexivity.
Qed.

(** no operation is undefined as long as the conversions are not *)
Lemma run_no_ub ops t a : rel t a -> (forall x, stod x <> UB) -> (forall x, stoi x <> UB) ->
  ~ In OUB (snd (run ops t)).
Proof.
  intros H Hd Hi. destruct (run_refines ops t a H) as [_ ->]. clear t H. revert a.
  assert (Hset : forall n i v (a : sheet), s_set n i v a <> UB).
  { intros n i v a. unfold s_set. destruct (col_ty n a) as [y|]; [|discriminate].
    destruct y, (ty_of v); try discriminate; destruct (Nat.ltb i (nrows a)); discriminate. }
  assert (Hget : forall n i y (a : sheet), s_get n i y a <> UB).
  { intros n i v a. unfold s_get. destruct (col_ty n a) as [y|]; [|discriminate].
    destruct y, v; try discriminate; destruct (Nat.ltb i (nrows a)); discriminate. }
  assert (Hhset : forall n v (a : sheet), s_hset n v a <> UB).
  { intros n v a. unfold s_hset. destruct (head_ty n a) as [y|]; [|discriminate].
    destruct y, (ty_of v); discriminate. }
  assert (Hhget : forall n y (a : sheet), s_hget n y a <> UB).
  { intros n v a. unfold s_hget. destruct (head_ty n a) as [y|]; [|discriminate].
    destruct y, v; discriminate. }
  assert (Hparse : forall y x, parse stod stoi y x <> UB).
  { intros [| |] x; simpl; try discriminate.
    - specialize (Hd x). destruct (stod x); simpl; congruence.
    - specialize (Hi x). destruct (stoi x); simpl; congruence. }
  assert (Hfill : forall vs ns row (a : sheet), snd (s_fill ns row vs a) <> OUB).
  { induction vs as [|v vs IH]; intros [|n ns] row a; simpl; try discriminate.
    specialize (Hset n row v a). destruct (s_set n row v a); simpl; [apply IH|congruence|congruence]. }
  assert (Hstep : forall o (a : sheet), snd (s_step d0 stod stoi showd showi o a) <> OUB).
  { intros o a. destruct o; simpl; try discriminate.
    - destruct (col_ty n a), (char_ty c); discriminate.
    - apply Hfill.
    - specialize (Hset n i v a). destruct (s_set n i v a); simpl; congruence.
    - destruct (col_ty n a) as [y|]; simpl; [|discriminate].
      specialize (Hparse y x). destruct (parse stod stoi y x) as [v| |]; simpl; try congruence.
      specialize (Hset n i v a). destruct (s_set n i v a); simpl; congruence.
    - specialize (Hget n i TD a). destruct (s_get n i TD a); simpl; congruence.
    - specialize (Hget n i TI a). destruct (s_get n i TI a); simpl; congruence.
    - specialize (Hget n i TS a). destruct (s_get n i TS a); simpl; congruence.
    - destruct (col_ty n a) as [y|]; simpl; [|discriminate].
      specialize (Hget n i y a). destruct (s_get n i y a); simpl; congruence.
    - destruct (col_ty n a); simpl; congruence.
    - destruct (head_ty n a), (char_ty c); discriminate.
    - specialize (Hhset n v a). destruct (s_hset n v a); simpl; congruence.
    - destruct (head_ty n a) as [y|]; simpl; [|discriminate].
      specialize (Hparse y x). destruct (parse stod stoi y x) as [v| |]; simpl; try congruence.
      specialize (Hhset n v a). destruct (s_hset n v a); simpl; congruence.
    - specialize (Hhget n TD a). destruct (s_hget n TD a); simpl; congruence.
    - specialize (Hhget n TI a). destruct (s_hget n TI a); simpl; congruence.
    - specialize (Hhget n TS a). destruct (s_hget n TS a); simpl; congruence.
    - destruct (head_ty n a) as [y|]; simpl; [|discriminate].
      specialize (Hhget n y a). destruct (s_hget n y a); simpl; congruence.
    - destruct (head_ty n a); simpl; congruence. }
  induction ops as [|o ops IH]; intros a; simpl; [tauto|].
  specialize (Hstep o a). destruct (s_step d0 stod stoi showd showi o a) as [a1 x]. simpl in *.
  specialize (IH a1). destruct (s_run ops a1) as [a2 xs]. simpl in *. intuition.
Qed.

(** variadic AddRow: all or nothing when it gets one value per column, of the
    column's type *)
Lemma s_fill_exact : forall vs row (a : sheet) ns,
  NoDup ns -> row < nrows a ->
  Forall2 (fun n v => col_ty n a = Some (ty_of v)) ns vs ->
  exists a', s_fill ns row vs a = (a', ODone) /\ nrows a' = nrows a /\ cols a' = cols a
    /\ (forall n i, (i <> row \/ ~ In n ns) -> cell a' n i = cell a n i)
    /\ Forall2 (fun n v => cell a' n row = v) ns vs.
Proof.
  induction vs as [|v vs IH]; intros row a ns Hnd Hrow HF; inversion HF as [|n ? ns' ? Hn HF']; subst; simpl.
  - exists a. repeat split; auto.
  - inversion Hnd as [|? ? Hnin Hnd']; subst.
    assert (Hs : exists a1, s_set n row v a = Ok a1 /\ nrows a1 = nrows a /\ cols a1 = cols a
      /\ cell a1 = put (cell a) n (puti (cell a n) row v)).
    { unfold s_set. rewrite Hn. destruct (Nat.ltb_spec row (nrows a)); [|lia].
      destruct (ty_of v); eexists; repeat split. }
    destruct Hs as (a1 & -> & Hr1 & Hc1 & Hcell1).
    destruct (IH row a1 ns') as (a' & Hf & Hr & Hc & Hother & Hrow'); auto; [lia| |].
    { eapply Forall2_impl; [|exact HF']. simpl. intros m w Hm. unfold col_ty in *. congruence. }
    exists a'. split; [exact Hf|]. split; [congruence|]. split; [congruence|]. split.
    + intros m i Hm. rewrite Hother by (destruct Hm; [auto|right; simpl in *; tauto]).
      rewrite Hcell1. unfold put, puti. destruct (str_eqb_spec m n) as [->|]; auto.
      destruct (Nat.eqb_spec i row) as [->|]; auto. exfalso. destruct Hm as [?|Hm]; [congruence|].
      apply Hm. left. reflexivity.
    + constructor; [|exact Hrow'].
      rewrite Hother by (right; assumption). rewrite Hcell1. unfold put, puti.
      rewrite str_eqb_refl, Nat.eqb_refl. reflexivity.
Qed.

(** cell [n],[i] of [t] reads as [v] *)
Definition holds (t : table) (n : str) (i : nat) (v : val D) : Prop :=
  match v with
  | VD x => get_d n i t = Ok x | VI x => get_i n i t = Ok x | VS x => get_s n i t = Ok x
  end.

Lemma holds_rel t a n i v : rel t a -> (holds t n i v <-> s_get n i (ty_of v) a = Ok v).
Proof.
  intros H. destruct v as [x|x|x]; simpl;
    [rewrite <- (rel_get_d t a n i H)|rewrite <- (rel_get_i t a n i H)|rewrite <- (rel_get_s t a n i H)].
  - destruct (get_d n i t); simpl; split; congruence.
  - destruct (get_i n i t); simpl; split; congruence.
  - destruct (get_s n i t); simpl; split; congruence.
Qed.

Lemma add_row_v_exact ops vs : let t := fst (run ops empty) in
  Forall2 (fun n v => has_col_t n (ty_char (ty_of v)) t = true) (col_names t) vs ->
  let (t', r) := add_row_v d0 vs t in
  r = Ok tt /\ len t' = S (len t) /\ col_names t' = col_names t
  /\ Forall2 (fun n v => holds t' n (len t) v) (col_names t) vs
  /\ (forall n i v, i < len t -> (holds t' n i v <-> holds t n i v)).
Proof.
  intros t HF. destruct (reachable_rel ops) as [a H]. fold t in H.
  pose proof (step_refines (AddRowV vs) t a H) as [H1 H2]. simpl in H1, H2.
  destruct (add_row_v d0 vs t) as [t' r]. simpl in *.
  assert (HF2 : Forall2 (fun n v => col_ty n (s_add_row d0 a) = Some (ty_of v)) (map fst (cols a)) vs).
  { rewrite <- (r_names _ _ H). eapply Forall2_impl; [|exact HF]. simpl. intros n v Hc.
    unfold has_col_t in Hc. destruct (assoc n (lookup t)) as [[c p]|] eqn:E; [|discriminate].
    destruct (names_rel_some' _ _ _ _ _ (r_lk _ _ H) E) as (y & -> & Hy). simpl in Hc.
    unfold char_eqb in Hc. destruct (Ascii.eqb_spec (ty_char y) (ty_char (ty_of v))) as [He|]; [|discriminate].
    apply ty_char_inj in He. subst y. exact Hy. }
  destruct (s_fill_exact vs (nrows a) (s_add_row d0 a) (map fst (cols a)) (r_nodup _ _ H)) as
    (a' & Hf & Hr & Hc & Hother & Hrow); [simpl; lia|exact HF2|].
  rewrite Hf in *. simpl in *.
  split; [destruct r as [[]| |]; congruence|].
  split; [rewrite (r_len _ _ H1), Hr, (r_len _ _ H); reflexivity|].
  split; [rewrite (r_names _ _ H1), Hc, (r_names _ _ H); reflexivity|].
  split.
  - rewrite (r_names _ _ H), (r_len _ _ H). clear HF Hf H2.
    assert (Hall : Forall2 (fun n v => col_ty n a' = Some (ty_of v)) (map fst (cols a)) vs).
    { eapply Forall2_impl; [|exact HF2]. simpl. intros n v. unfold col_ty. rewrite Hc. auto. }
    clear HF2 Hother. induction Hrow as [|n v ns vs0 Hn Hrow IH]; inversion Hall as [|? ? ? ? Hn' Hall']; subst;
      constructor; auto.
    apply (holds_rel _ _ _ _ _ H1). unfold s_get. rewrite Hn'.
    replace (Nat.ltb (nrows a) (nrows a')) with true by (symmetry; apply Nat.ltb_lt; lia).
    destruct (ty_of (cell a' n (nrows a))); reflexivity.
  - intros n i v Hi. rewrite (holds_rel _ _ _ _ _ H1), (holds_rel _ _ _ _ _ H).
    rewrite (r_len _ _ H) in Hi. unfold s_get.
    replace (col_ty n a') with (col_ty n a) by (unfold col_ty; rewrite Hc; reflexivity).
    rewrite Hother by (left; lia).
    replace (Nat.ltb i (nrows a')) with true by (symmetry; apply Nat.ltb_lt; lia).
    replace (Nat.ltb i (nrows a)) with true by (symmetry; apply Nat.ltb_lt; lia).
    destruct (Nat.eqb_spec i (nrows a)); [lia|]. tauto.
Qed.

(** row iteration *)
Lemma visit_seq fuel : forall pos last, last - pos < fuel -> pos <= last ->
  visit fuel pos last = seq pos (last - pos).
Proof.
  induction fuel as [|fuel IH]; intros pos last H1 H2; [lia|]. simpl.
  destruct (Nat.eqb_spec pos last) as [->|Hne]; [rewrite Nat.sub_diag; reflexivity|].
  replace (last - pos) with (S (last - S pos)) by lia. simpl. f_equal. apply IH; lia.
Qed.
Lemma rows_seq (t : table) : rows t = seq 0 (len t).
Proof. unfold rows. rewrite visit_seq by lia. rewrite Nat.sub_0_r. reflexivity. Qed.
End Proofs.
