(* C43, C44, C56, C90, C91, C92: channels and monitors *)
From Coq Require Import ZArith Psatz Permutation Sorted.
From Verif Require Import RBase StringPattern StringPatternProps Channels.
Local Open Scope R_scope.

(* ---- the order of the table ---- *)
Lemma ltb_irrefl a : str_ltb a a = false.
Proof. induction a as [|x a IH]; cbn; auto. rewrite N.ltb_irrefl. exact IH. Qed.
Lemma ltb_trans : forall a b c, str_ltb a b = true -> str_ltb b c = true -> str_ltb a c = true.
Proof.
  induction a as [|x a IH]; intros [|y b] [|z c]; cbn; try discriminate; auto.
  destruct (N.ltb_spec (N_of_ascii x) (N_of_ascii y)), (N.ltb_spec (N_of_ascii y) (N_of_ascii z)); intros H1 H2.
  - destruct (N.ltb_spec (N_of_ascii x) (N_of_ascii z)); auto. lia.
  - destruct (N.ltb_spec (N_of_ascii z) (N_of_ascii y)); [discriminate|]. destruct (N.ltb_spec (N_of_ascii x) (N_of_ascii z)); auto. lia.
  - destruct (N.ltb_spec (N_of_ascii y) (N_of_ascii x)); [discriminate|]. destruct (N.ltb_spec (N_of_ascii x) (N_of_ascii z)); auto. lia.
  - destruct (N.ltb_spec (N_of_ascii y) (N_of_ascii x)), (N.ltb_spec (N_of_ascii z) (N_of_ascii y)); try discriminate.
    destruct (N.ltb_spec (N_of_ascii x) (N_of_ascii z)); auto. destruct (N.ltb_spec (N_of_ascii z) (N_of_ascii x)); [lia|]. eapply IH; eauto.
Qed.
Lemma ltb_total a : forall b, str_ltb a b = false -> str_ltb b a = false -> a = b.
Proof.
  induction a as [|x a IH]; intros [|y b]; cbn; try discriminate; auto. intros H1 H2. destruct (N.ltb_spec (N_of_ascii x) (N_of_ascii y)); [discriminate|]. destruct (N.ltb_spec (N_of_ascii y) (N_of_ascii x)); [discriminate|].
  assert (E : N_of_ascii x = N_of_ascii y) by lia. rewrite <- (ascii_N_embedding x), <- (ascii_N_embedding y), E. f_equal. auto.
Qed.
Lemma ltb_prefix p : forall a b, str_ltb (p ++ a) (p ++ b) = str_ltb a b.
Proof. induction p as [|x p IH]; intros a b; cbn; auto. rewrite N.ltb_irrefl. auto. Qed.
(* what lies between strings with a common beginning has that beginning *)
Lemma prefix_between p : forall a b s, str_ltb (p ++ a) s = true -> str_ltb s (p ++ b) = true -> exists r, s = p ++ r.
Proof.
  induction p as [|x p IH]; intros a b s; cbn; [eauto|]. destruct s as [|y s]; [discriminate|]. cbn. destruct (N.ltb_spec (N_of_ascii x) (N_of_ascii y)) as [L|L].
  - intros _. destruct (N.ltb_spec (N_of_ascii y) (N_of_ascii x)); [lia|]. discriminate.
  - destruct (N.ltb_spec (N_of_ascii y) (N_of_ascii x)); [discriminate|]. intros H1 H2. destruct (IH _ _ _ H1 H2) as (r & ->). exists r. f_equal. rewrite <- (ascii_N_embedding x), <- (ascii_N_embedding y). f_equal. lia.
Qed.
Lemma dot_split t u : forall a b, ~ In dot t -> ~ In dot u -> t ++ dot :: a = u ++ dot :: b -> t = u /\ a = b.
Proof.
  revert u. induction t as [|x t IH]; intros [|y u] a b H K E; cbn in *.
  - injection E. auto.
  - injection E as E1 _. exfalso. apply K. now left.
  - injection E as E1 _. exfalso. apply H. now left.
  - injection E as E1 E2. subst y. destruct (IH u a b) as [-> ->]; tauto.
Qed.
(* ---- registration ---- *)
Definition ordered (t : table) : Prop := StronglySorted (fun x y => str_ltb (fst x) (fst y) = true) t.
Definition keyed (t : table) : Prop := Forall (fun x => fst x = ctor_id (snd x)) t.
Lemma insert_ok : forall t k c t', ordered t -> insert t k c = (t', true) -> ordered t' /\ Permutation t' ((k, c) :: t).
Proof.
  induction t as [|[k0 c0] t IH]; intros k c t' O; cbn.
  - intros E. injection E as <-. split; auto. repeat constructor.
  - inversion O as [|? ? O1 O2]; subst. destruct (str_ltb k k0) eqn:L1.
    + intros E. injection E as <-. split; auto. constructor; auto. constructor; auto. eapply Forall_impl; [|exact O2]. intros [k1 c1] H. cbn in *. eapply ltb_trans; eauto.
    + destruct (str_ltb k0 k) eqn:L2; [|discriminate]. destruct (insert t k c) as [t1 b] eqn:I. intros E. injection E as <- ->. destruct (IH _ _ _ O1 I) as [O3 P]. split.
      * constructor; auto. apply Forall_forall. intros x Ix. apply (Permutation_in _ P) in Ix. destruct Ix as [<-|Ix]; cbn; auto. rewrite Forall_forall in O2. auto.
      * rewrite P. apply perm_swap.
Qed.
Lemma insert_clash : forall t k c, ordered t -> (snd (insert t k c) = false <-> In k (map fst t)).
Proof.
  induction t as [|[k0 c0] t IH]; intros k c O; cbn; [split; [discriminate|tauto]|]. inversion O as [|? ? O1 O2]; subst. destruct (str_ltb k k0) eqn:L1.
  - cbn. split; [discriminate|]. intros [->|I]; [rewrite ltb_irrefl in L1; discriminate|]. apply in_map_iff in I. destruct I as ([k1 c1] & <- & I). rewrite Forall_forall in O2. specialize (O2 _ I). cbn in *. pose proof (ltb_trans _ _ _ O2 L1) as X. rewrite ltb_irrefl in X. discriminate.
  - destruct (str_ltb k0 k) eqn:L2.
    + specialize (IH k c O1). destruct (insert t k c) as [t1 b]. cbn in *. rewrite IH. split; auto. intros [->|I]; auto. rewrite ltb_irrefl in L2. discriminate.
    + cbn. split; auto. intros _. left. now apply ltb_total.
Qed.
Lemma register_ok l : forall t0 t, ordered t0 -> keyed t0 -> register_all t0 l = Ok t -> ordered t /\ keyed t /\ Permutation (map snd t) (map snd t0 ++ l).
Proof.
  induction l as [|c l IH]; intros t0 t O K; cbn.
  - intros E. injection E as <-. rewrite app_nil_r. auto.
  - unfold register. destruct (insert t0 (ctor_id c) c) as [t1 []] eqn:I; cbn; [|discriminate]. intros E. destruct (insert_ok _ _ _ _ O I) as [O1 P]. assert (K1 : keyed t1). { unfold keyed. rewrite P. constructor; auto. }
    destruct (IH _ _ O1 K1 E) as (O2 & K2 & Q). repeat split; auto. rewrite Q, (Permutation_map snd P). cbn. rewrite Permutation_middle. reflexivity.
Qed.
(* registering succeeds exactly when no two constructors share type and key *)
Theorem C43_registration l : (forall c, In c l -> ~ In dot (ctype c)) -> ((exists t, register_all [] l = Ok t) <-> NoDup (map (fun c => (ctype c, ckey c)) l)).
Proof.
  intros D.
  assert (G : forall l t0, ordered t0 -> (register_all t0 l <> UB <-> NoDup (map ctor_id l) /\ forall k, In k (map fst t0) -> ~ In k (map ctor_id l))).
  { clear. induction l as [|c l IH]; intros t0 O; cbn; [split; [intros _; split; [constructor|auto]|discriminate]|].
    unfold register. pose proof (insert_clash t0 (ctor_id c) c O) as C. destruct (insert t0 (ctor_id c) c) as [t1 []] eqn:I; cbn in *.
    - destruct (insert_ok _ _ _ _ O I) as [O1 P]. rewrite (IH t1 O1). assert (N : ~ In (ctor_id c) (map fst t0)) by (rewrite <- C; discriminate).
      assert (Q : forall k, In k (map fst t1) <-> k = ctor_id c \/ In k (map fst t0)). { intros k. rewrite (Permutation_map fst P). cbn. intuition. }
      split.
      + intros [H1 H2]. split; [constructor; auto; apply H2, Q; auto|]. intros k Ik [E|J]; [congruence|]. apply (H2 k); auto. apply Q. auto.
      + intros [H1 H2]. inversion H1; subst. split; auto. intros k Ik J. apply Q in Ik. destruct Ik as [->|Ik]; [auto|]. apply (H2 k Ik). auto.
    - split; [congruence|]. intros [_ H]. exfalso. apply (H (ctor_id c)); [now apply C|auto]. }
  assert (U : forall t0, exists r, register_all t0 l = r /\ (forall e, r <> Throw e)).
  { clear. induction l as [|c l IH]; intros t0; cbn; [eexists; split; eauto; discriminate|]. unfold register. destruct (insert _ _ _) as [t1 []]; cbn; [apply IH|eexists; split; eauto; discriminate]. }
  assert (E : NoDup (map ctor_id l) <-> NoDup (map (fun c => (ctype c, ckey c)) l)).
  { clear - D. induction l as [|c l IH]; cbn; [split; constructor|]. specialize (IH (fun c H => D c (or_intror H))). split; intros H; inversion H as [|? ? H1 H2]; subst; constructor; try tauto.
    - intros I. apply H1. apply in_map_iff in I. destruct I as (d & E & I). injection E as E1 E2. apply in_map_iff. exists d. split; auto. unfold ctor_id. now rewrite E1, E2.
    - intros I. apply H1. apply in_map_iff in I. destruct I as (d & E & I). apply in_map_iff. exists d. split; auto. apply dot_split in E; [destruct E as [-> ->]; reflexivity|apply D; now right|apply D; now left]. }
  rewrite <- E. destruct (G l [] (SSorted_nil _)) as [G1 G2]. split.
  - intros (t & T). apply G1. congruence.
  - intros N. destruct (U []) as (r & R & X). destruct r as [t|e|]; [eauto|exfalso; eapply X; eauto|]. exfalso. apply G2; auto.
Qed.
Print Assumptions C43_registration.
Lemma run_is_filter f : forall t, (forall k0 c0 k1 c1 k2 c2 a b c d, t = a ++ (k0, c0) :: b ++ (k1, c1) :: c ++ (k2, c2) :: d -> f c0 = true -> f c2 = true -> f c1 = true) ->
  take_while f (drop_until f t) = filter f (map snd t).
Proof.
  assert (A : forall t k0 c0, f c0 = true -> (forall k0' c0' k1 c1 k2 c2 a b c d, (k0, c0) :: t = a ++ (k0', c0') :: b ++ (k1, c1) :: c ++ (k2, c2) :: d -> f c0' = true -> f c2 = true -> f c1 = true) -> take_while f t = filter f (map snd t)).
  { induction t as [|[k1 c1] t IH]; intros k0 c0 F H; cbn; auto. destruct (f c1) eqn:F1.
    - f_equal. apply (IH k1 c1); auto. intros k0' c0' k2 c2 k3 c3 a b c d E. apply (H k0' c0' k2 c2 k3 c3 ((k0, c0) :: a) b c d). cbn. now rewrite E.
    - symmetry. assert (N : forall c2, In c2 (map snd t) -> f c2 = false).
      { intros c2 I. destruct (f c2) eqn:F2; auto. apply in_map_iff in I. destruct I as ([k2 c2'] & <- & I). apply in_split in I. destruct I as (x & y & ->). rewrite <- F1. symmetry. exact (H k0 c0 k1 c1 k2 c2' [] [] x y eq_refl F F2). }
      clear - N. induction (map snd t) as [|c l IH]; cbn; auto. rewrite (N c (or_introl eq_refl)). apply IH. intros; apply N; now right. }
  induction t as [|[k c] t IH]; intros H; cbn; auto. destruct (f c) eqn:F.
  - cbn. rewrite F. f_equal. apply (A t k c); auto.
  - apply IH. intros k0 c0 k1 c1 k2 c2 a b c' d E. apply (H k0 c0 k1 c1 k2 c2 ((k, c) :: a) b c' d). cbn. now rewrite E.
Qed.
(* the constructors found are the registered ones of the type whose key matches *)
Theorem C43_constructors l t type keypat : register_all [] l = Ok t -> (forall c, In c l -> ~ In dot (ctype c)) ->
  Permutation (find_ctors t type keypat) (filter (fun c => str_eqb (ctype c) type && pmatch keypat (ckey c)) l).
Proof.
  intros E D. destruct (register_ok l [] t (SSorted_nil _) (Forall_nil _) E) as (O & K & P). cbn in P.
  assert (D' : forall c, In c (map snd t) -> ~ In dot (ctype c)) by (intros c I; apply D; eapply Permutation_in; eauto).
  unfold find_ctors. rewrite run_is_filter.
  - assert (F : forall (f g : ctor -> bool) x, filter f (filter g x) = filter (fun c => g c && f c) x). { intros f g x. induction x as [|c x IH]; cbn; auto. destruct (g c); cbn; [destruct (f c); now rewrite IH|auto]. }
    rewrite F. clear - P. induction P; cbn; auto; repeat match goal with |- context [if ?b then _ else _] => destruct b end; auto using perm_skip, perm_swap, perm_nil. etransitivity; eauto.
  - intros k0 c0 k1 c1 k2 c2 a b c d Et F0 F2. apply str_eqb_eq in F0. apply str_eqb_eq in F2. apply str_eqb_eq. subst t.
    assert (I0 : In c0 (map snd (a ++ (k0, c0) :: b ++ (k1, c1) :: c ++ (k2, c2) :: d))) by (rewrite map_app; apply in_or_app; right; now left).
    assert (I1 : In c1 (map snd (a ++ (k0, c0) :: b ++ (k1, c1) :: c ++ (k2, c2) :: d))) by (rewrite map_app; apply in_or_app; right; right; rewrite map_app; apply in_or_app; right; now left).
    unfold keyed in K. rewrite Forall_forall in K.
    assert (K0 : k0 = ctor_id c0) by (apply (K (k0, c0)); apply in_or_app; right; now left).
    assert (K1 : k1 = ctor_id c1) by (apply (K (k1, c1)); apply in_or_app; right; right; apply in_or_app; right; now left).
    assert (K2 : k2 = ctor_id c2) by (apply (K (k2, c2)); apply in_or_app; right; right; apply in_or_app; right; right; apply in_or_app; right; now left).
    assert (S : forall x y (u v w : table), ordered (u ++ x :: v ++ y :: w) -> str_ltb (fst x) (fst y) = true).
    { clear. intros x y u. induction u as [|z u IH]; intros v w O; cbn in O; inversion O as [|? ? O1 O2]; subst; [|eapply IH; eauto]. rewrite Forall_forall in O2. apply O2. apply in_or_app. right. now left. }
    assert (L1 : str_ltb k0 k1 = true) by (apply (S (k0, c0) (k1, c1) a b (c ++ (k2, c2) :: d)); exact O).
    assert (L2 : str_ltb k1 k2 = true) by (apply (S (k1, c1) (k2, c2) (a ++ (k0, c0) :: b) c d); rewrite <- app_assoc; exact O).
    assert (A0 : k0 = (type ++ [dot]) ++ ckey c0) by (rewrite K0; unfold ctor_id; rewrite F0, <- app_assoc; reflexivity).
    assert (A2 : k2 = (type ++ [dot]) ++ ckey c2) by (rewrite K2; unfold ctor_id; rewrite F2, <- app_assoc; reflexivity).
    rewrite A0 in L1. rewrite A2 in L2. destruct (prefix_between _ _ _ _ L1 L2) as (r & R). rewrite K1 in R. unfold ctor_id in R. rewrite <- app_assoc in R. apply dot_split in R; [tauto|auto|]. rewrite <- F0. auto.
Qed.
Print Assumptions C43_constructors.
(* dots in a type name break the search *)
Theorem C43_dotted_type_refuted : exists l t type, register_all [] l = Ok t /\ find_ctors t type (of_string "*") <> [] /\ exists c, In c l /\ ctype c = type /\ ~ In c (find_ctors t type (of_string "*")).
Proof.
  set (l := [mkCt (of_string "A") (of_string "a") true; mkCt (of_string "A.b") (of_string "c") true; mkCt (of_string "A") (of_string "c") true]).
  destruct (register_all [] l) as [t|e|] eqn:E; try discriminate. exists l, t, (of_string "A"). split; auto. cbn in E. injection E as <-. split; [discriminate|]. exists (mkCt (of_string "A") (of_string "c") true). cbn. split; [tauto|]. split; auto. intros [H|[]]. discriminate.
Qed.
Print Assumptions C43_dotted_type_refuted.

(* ---- channel names ---- *)
Lemma find_from_app s : forall n k r, ~ In dot s -> (k <= length s)%nat -> find_from (s ++ dot :: r) n k = (n + Z.of_nat (length s))%Z.
Proof.
  induction s as [|c s IH]; intros n k r H K; cbn [find_from app length].
  - cbn in K. assert (k = 0)%nat by lia. subst. cbn. lia.
  - assert (N : char_eqb c dot = false). { unfold char_eqb. destruct (Ascii.eqb_spec c dot); auto. subst. exfalso. apply H. now left. }
    destruct k; [rewrite N|]; rewrite IH; try (intros I; apply H; now right); cbn in K; lia.
Qed.
Lemma find_from_none s : forall n k, ~ In dot s -> find_from s n k = (-1)%Z.
Proof.
  induction s as [|c s IH]; intros n k H; cbn; auto. assert (N : char_eqb c dot = false). { unfold char_eqb. destruct (Ascii.eqb_spec c dot); auto. subst. exfalso. apply H. now left. }
  rewrite N. destruct k; apply IH; intros I; apply H; now right.
Qed.
Lemma find_from_skip s : forall n k r, find_from (s ++ r) n (length s + k) = find_from r (n + Z.of_nat (length s)) k.
Proof. induction s as [|c s IH]; intros n k r; cbn [length app Nat.add find_from]; [f_equal; lia|]. rewrite IH. f_equal. lia. Qed.
Theorem C43_name ty id key : ~ In dot ty -> ~ In dot id -> chpath (ty ++ dot :: id ++ dot :: key) = mkPath ty id key.
Proof.
  intros H K. unfold chpath. rewrite find_from_app by (auto; lia). cbn [Z.add]. replace (Z.to_nat (Z.of_nat (length ty) + 1)) with (length ty + 1)%nat by lia.
  rewrite find_from_skip. cbn [find_from]. rewrite find_from_app by (auto; lia). unfold substr.
  replace (0 + Z.of_nat (length ty) + 1 + Z.of_nat (length id) - Z.of_nat (length ty) - 1)%Z with (Z.of_nat (length id)) by lia.
  destruct (Z.ltb_spec (Z.of_nat (length id)) 0); [lia|]. destruct (Z.ltb_spec (Z.of_nat (length ty)) 0); [lia|]. rewrite !Nat2Z.id. cbn [skipn].
  f_equal.
  - now rewrite firstn_app, Nat.sub_diag, firstn_all, firstn_O, app_nil_r.
  - replace (length ty + 1)%nat with (length (ty ++ [dot])) by (rewrite app_length; cbn; lia). replace (ty ++ dot :: id ++ dot :: key) with ((ty ++ [dot]) ++ id ++ dot :: key) by (now rewrite <- app_assoc). rewrite skipn_app, skipn_all, Nat.sub_diag. cbn [skipn app]. now rewrite firstn_app, Nat.sub_diag, firstn_all, firstn_O, app_nil_r.
  - replace (Z.to_nat (0 + Z.of_nat (length ty) + 1 + Z.of_nat (length id) + 1)) with (length (ty ++ dot :: id ++ [dot])) by (rewrite app_length; cbn; rewrite app_length; cbn; lia).
    replace (ty ++ dot :: id ++ dot :: key) with ((ty ++ dot :: id ++ [dot]) ++ key) by (rewrite <- app_assoc; cbn; now rewrite <- app_assoc). rewrite skipn_app, skipn_all, Nat.sub_diag. reflexivity.
Qed.
Print Assumptions C43_name.
(* a name with fewer dots is not rejected: the whole of it becomes the key *)
Theorem C43_short_name ty id : ~ In dot ty -> ~ In dot id -> chpath (ty ++ dot :: id) = mkPath ty id (ty ++ dot :: id) /\ chpath ty = mkPath ty ty ty.
Proof.
  intros H K. split; unfold chpath.
  - rewrite find_from_app by (auto; lia). replace (Z.to_nat (0 + Z.of_nat (length ty) + 1)) with (length ty + 1)%nat by lia. rewrite find_from_skip. cbn [find_from]. rewrite find_from_none by auto. unfold substr.
    destruct (Z.ltb_spec (-1 - (0 + Z.of_nat (length ty)) - 1) 0); [|lia]. destruct (Z.ltb_spec (0 + Z.of_nat (length ty)) 0); [lia|]. cbn [Z.add Z.to_nat skipn]. rewrite Nat2Z.id. f_equal.
    + now rewrite firstn_app, Nat.sub_diag, firstn_all, firstn_O, app_nil_r.
    + replace (length ty + 1)%nat with (length (ty ++ [dot])) by (rewrite app_length; cbn; lia). replace (ty ++ dot :: id) with ((ty ++ [dot]) ++ id) by (now rewrite <- app_assoc). rewrite skipn_app, skipn_all, Nat.sub_diag. reflexivity.
  - rewrite find_from_none by auto. cbn. rewrite find_from_none by auto. reflexivity.
Qed.
Print Assumptions C43_short_name.

(* ---- queries ---- *)
Definition wanted (l : list ctor) (ty id key : str) (e : elem) : list channel :=
  if pmatch (ty ++ dot :: id) (qname e) then map (pair e) (filter (fun c => str_eqb (ctype c) (etype e) && pmatch key (ckey c)) l) else [].
Definition components (l : list (option elem)) : list elem := flat_map (fun o => match o with Some e => [e] | None => [] end) l.
Theorem C43_beamline l t ty id key bl : register_all [] l = Ok t -> (forall c, In c l -> ~ In dot (ctype c)) -> ~ In dot ty -> ~ In dot id ->
  Permutation (ro_beamline t (ty ++ dot :: id ++ dot :: key) bl) (flat_map (wanted l ty id key) (components bl)).
Proof.
  intros E D H K. unfold ro_beamline. rewrite C43_name by auto. induction bl as [|[e|] bl IH]; cbn [beamline_channels components flat_map]; auto. cbn [app flat_map]. apply Permutation_app; auto.
  unfold wanted. unfold path_eid. cbn [ptype pident pkey]. destruct (pmatch _ _); auto. apply Permutation_map. now apply C43_constructors.
Qed.
Print Assumptions C43_beamline.
Theorem C43_writable t chid bl : rw_beamline t chid bl = if forallb (fun x => cwrites (snd x)) (ro_beamline t chid bl) then Ok (ro_beamline t chid bl) else UB.
Proof.
  unfold rw_beamline. induction (ro_beamline t chid bl) as [|[e c] l IH]; cbn; auto. unfold ctor_rw. destruct (cwrites c); cbn; auto. rewrite IH. destruct (forallb _ l); reflexivity.
Qed.
Print Assumptions C43_writable.
Definition demo_ctors : list ctor := [mkCt (of_string "Quadrupole") (of_string "B1") true; mkCt (of_string "BPM") (of_string "Y") false; mkCt (of_string "BPM") (of_string "X") false].
Example C43_ex : exists t, register_all [] demo_ctors = Ok t /\ ro_beamline t (of_string "BPM.*.X|Y") [None; Some (mkEl (of_string "BPM") (of_string "b1") 0); Some (mkEl (of_string "Quadrupole") (of_string "q1") 1)] =
  [(mkEl (of_string "BPM") (of_string "b1") 0, mkCt (of_string "BPM") (of_string "X") false); (mkEl (of_string "BPM") (of_string "b1") 0, mkCt (of_string "BPM") (of_string "Y") false)] /\
  rw_beamline t (of_string "BPM.*.X") [Some (mkEl (of_string "BPM") (of_string "b1") 0)] = UB.
Proof. eexists. split; [reflexivity|]. split; reflexivity. Qed.

(* the repository search stops at the first element whose type has no such channel *)
Fixpoint until_unknown (t : table) (key : str) (es : list elem) : list elem :=
  match es with [] => [] | e :: r => match find_ctors t (etype e) key with [] => [] | _ => e :: until_unknown t key r end end.
Theorem C170_repository t chid es : (forall e, In e es -> etype e <> []) -> ro_repository t chid es = flat_map (fun e => map (pair e) (find_ctors t (etype e) (pkey (chpath chid)))) (until_unknown t (pkey (chpath chid)) es).
Proof.
  unfold ro_repository. generalize (pkey (chpath chid)). intros key N.
  assert (G : forall es last cs, (forall e, In e es -> etype e <> []) -> (last = [] \/ cs = find_ctors t last key /\ cs <> []) -> repo_loop t key last cs es = flat_map (fun e => map (pair e) (find_ctors t (etype e) key)) (until_unknown t key es)).
  { clear. induction es as [|e es IH]; intros last cs N H; cbn; auto. destruct (str_eqb last (etype e)) eqn:L.
    - apply str_eqb_eq in L. destruct H as [->|[-> C]]; [exfalso; apply (N e); [now left|auto]|]. rewrite L in C |- *. destruct (find_ctors t (etype e) key) as [|c r] eqn:F; [congruence|]. cbn [flat_map]. rewrite F. f_equal. apply IH; [intros; apply N; now right|right; split; [auto|discriminate]].
    - destruct (find_ctors t (etype e) key) as [|c r] eqn:F; auto. cbn [flat_map]. rewrite F. f_equal. apply IH; [intros; apply N; now right|right; split; [auto|discriminate]]. }
  apply G; auto.
Qed.
Print Assumptions C170_repository.
Theorem C170_all_known t chid es : (forall e, In e es -> etype e <> [] /\ find_ctors t (etype e) (pkey (chpath chid)) <> []) -> ro_repository t chid es = flat_map (fun e => map (pair e) (find_ctors t (etype e) (pkey (chpath chid)))) es.
Proof.
  intros H. rewrite C170_repository by (intros e I; apply H; auto). f_equal. induction es as [|e es IH]; auto. cbn [until_unknown]. destruct (find_ctors t (etype e) (pkey (chpath chid))) eqn:F; [exfalso; apply (H e); [now left|auto]|]. f_equal. apply IH. intros; apply H. now right.
Qed.
Print Assumptions C170_all_known.
Theorem C90_skips_refuted : exists t es chid e c, register_all [] demo_ctors = Ok t /\ In e es /\ In c (find_ctors t (etype e) (pkey (chpath chid))) /\ ro_repository t chid es = [].
Proof.
  destruct (register_all [] demo_ctors) as [t|e|] eqn:E; try discriminate. exists t, [mkEl (of_string "Marker") (of_string "m") 0; mkEl (of_string "Quadrupole") (of_string "q") 1], (of_string "*.*.B1"), (mkEl (of_string "Quadrupole") (of_string "q") 1), (mkCt (of_string "Quadrupole") (of_string "B1") true).
  cbn in E. injection E as <-. repeat split; auto; try (now right; left); try (now left).
Qed.
Print Assumptions C90_skips_refuted.

(* ---- the repository's own searches ---- *)
Theorem C56_find_or_count_refuted neg pat es : (neg = false -> repo_find neg pat es = filter (fun e => negb (pmatch pat (qname e))) es) /\
  (neg = true -> repo_count neg pat es = length (filter (fun e => negb (pmatch pat (qname e))) es)) /\
  ((forall e, In e es -> pmatch pat (qname e) = true) -> es <> [] -> repo_find neg pat es = [] \/ repo_count neg pat es = 0%nat).
Proof.
  unfold repo_find, repo_count, match_id. split; [intros ->; reflexivity|]. split; [intros ->; reflexivity|]. intros H _. destruct neg; [right|left].
  - assert (E : filter (fun e => negb (pmatch pat (qname e))) es = []) by (clear - H; induction es as [|e es IH]; cbn; auto; rewrite (H e (or_introl eq_refl)); cbn; apply IH; intros; apply H; now right). now rewrite E.
  - clear - H; induction es as [|e es IH]; cbn; auto; rewrite (H e (or_introl eq_refl)); cbn; apply IH; intros; apply H; now right.
Qed.
Print Assumptions C56_find_or_count_refuted.
Theorem C56_intended_partial pat es : repo_find true pat es = filter (fun e => pmatch pat (qname e)) es /\ repo_count false pat es = length (repo_find true pat es).
Proof.
  assert (E : repo_find true pat es = filter (fun e => pmatch pat (qname e)) es) by (unfold repo_find, match_id; apply filter_ext; intros e; apply negb_involutive). split; auto. rewrite E. reflexivity.
Qed.
Print Assumptions C56_intended_partial.

(* ---- channel arrays ---- *)
Section Arrays.
Variable M : Type.
Implicit Types (cs : list (chan M)) (m : M) (vs : list R).
Definition lawful (c : chan M) : Prop := forall v m, rd c (wr c v m) = v.
Definition apart (c d : chan M) : Prop := (forall v m, rd c (wr d v m) = rd c m) /\ forall v m, rd d (wr c v m) = rd d m.
Definition independent cs : Prop := Forall lawful cs /\ ForallOrdPairs apart cs.
Definition untouched (A : Type) (q : M -> A) cs : Prop := forall c v m, In c cs -> q (wr c v m) = q m.
Lemma write_frame A (q : M -> A) : forall cs vs m, untouched A q cs -> q (write_each cs vs m) = q m.
Proof. induction cs as [|c cs IH]; intros [|v vs] m H; cbn; auto. rewrite IH; [apply H; now left|intros d w n I; apply H; now right]. Qed.
Lemma incr_frame A (q : M -> A) : forall cs vs m, untouched A q cs -> q (incr_each cs vs m) = q m.
Proof. induction cs as [|c cs IH]; intros [|v vs] m H; cbn; auto. rewrite IH; [unfold incr_ch; apply H; now left|intros d w n I; apply H; now right]. Qed.
Lemma apart_untouched c cs : Forall (apart c) cs -> untouched R (rd c) cs.
Proof. intros H d v m I. rewrite Forall_forall in H. apply (H d I). Qed.
Lemma apart_others c cs v m : Forall (apart c) cs -> map (fun d => rd d (wr c v m)) cs = map (fun d => rd d m) cs.
Proof. intros H. apply map_ext_in. intros d I. rewrite Forall_forall in H. apply (H d I). Qed.
Theorem C44_write_read cs vs m : independent cs -> length vs = length cs -> exists m', write_all cs vs m = Ok m' /\ read_all (length cs) cs m' = Ok vs /\ forall A (q : M -> A), untouched A q cs -> q m' = q m.
Proof.
  intros [L I] N. unfold write_all, read_all. rewrite N, Nat.eqb_refl. eexists. split; [reflexivity|]. split; [|intros; now apply write_frame]. f_equal.
  revert vs m N. induction cs as [|c cs IH]; intros [|v vs] m N; cbn in *; try discriminate; auto. inversion L as [|? ? L1 L2]; subst. inversion I as [|? ? I1 I2]; subst. f_equal; auto.
  rewrite (write_frame R (rd c)) by (now apply apart_untouched). apply L1.
Qed.
Theorem C44_increment cs vs m : independent cs -> length vs = length cs -> exists m', incr_all cs vs m = Ok m' /\ read_all (length cs) cs m' = Ok (map (fun x => fst x + snd x) (combine (map (fun c => rd c m) cs) vs)) /\ forall A (q : M -> A), untouched A q cs -> q m' = q m.
Proof.
  intros [L I] N. unfold incr_all, read_all. rewrite N, Nat.eqb_refl. eexists. split; [reflexivity|]. split; [|intros; now apply incr_frame]. f_equal.
  revert vs m N. induction cs as [|c cs IH]; intros [|v vs] m N; cbn in *; try discriminate; auto. inversion L as [|? ? L1 L2]; subst. inversion I as [|? ? I1 I2]; subst. f_equal.
  - rewrite (incr_frame R (rd c)) by (now apply apart_untouched). apply L1.
  - rewrite IH by auto. unfold incr_ch. now rewrite apart_others.
Qed.
Theorem C44_same cs v m : write_same cs v m = write_each cs (repeat v (length cs)) m /\ incr_same cs v m = incr_each cs (repeat v (length cs)) m.
Proof. split; unfold write_same, incr_same; revert m; induction cs as [|c cs IH]; intros m; cbn; auto. Qed.
Theorem C44_sizes cs vs m n : (length vs <> length cs -> write_all cs vs m = UB /\ incr_all cs vs m = UB) /\ (n <> length cs -> read_all n cs m = UB).
Proof. unfold write_all, incr_all, read_all. split; intros H; [destruct (Nat.eqb_spec (length vs) (length cs)); [contradiction|auto]|destruct (Nat.eqb_spec n (length cs)); [contradiction|auto]]. Qed.
(* a saved state can be restored after anything happened *)
Theorem C44_restore cs m m1 : independent cs -> exists vs m2, cache cs m = Ok vs /\ reset cs vs m1 = Ok m2 /\ cache cs m2 = Ok vs.
Proof.
  intros I. unfold cache, reset. set (vs := map (fun c => rd c m) cs). assert (N : length vs = length cs) by (unfold vs; apply map_length).
  destruct (C44_write_read cs vs m1 I N) as (m2 & E & F & _). exists vs, m2. repeat split; auto. unfold read_all. now rewrite Nat.eqb_refl.
Qed.
End Arrays.
Print Assumptions C44_write_read.
Print Assumptions C44_increment.
Print Assumptions C44_same.
Print Assumptions C44_sizes.
Print Assumptions C44_restore.
Definition cell (k : nat) : chan (nat -> R) := mkCh (fun m => m k) (fun v m j => if Nat.eqb j k then v else m j).
Example C44_ex : independent _ [cell 2; cell 0; cell 5] /\ untouched _ R (fun m => m 1%nat) [cell 2; cell 0; cell 5].
Proof.
  split; [split|].
  - repeat constructor; intros v m; cbn; reflexivity.
  - repeat constructor; intros v m; cbn; reflexivity.
  - intros c v m [<-|[<-|[<-|[]]]]; reflexivity.
Qed.

(* ---- monitors ---- *)
Theorem C171_inactive all_in gen def resp b cx cy ct nx ny : active b = false \/ all_in = true \/ (def = None /\ buffers b = []) -> measure all_in gen def resp b cx cy ct nx ny = ([], []).
Proof. unfold measure, takes_data. intros [-> | [-> | [-> ->]]]; cbn; auto; [rewrite andb_false_r; reflexivity|]. now rewrite andb_false_r. Qed.
Print Assumptions C171_inactive.
Definition reading (gen : bool) (resol c n s : R) : R := s * (c + (if gen then if Rle_dec (Rabs resol) eps then 0 else n else 0)).
Theorem C171_measurement gen def b cx cy ct nx ny resp : active b = true -> (def <> None \/ buffers b <> []) -> NoDup (buffers b) -> (forall k, def = Some k -> ~ In k (buffers b)) ->
  let sent := fst (measure false gen def resp b cx cy ct nx ny) in
  NoDup (map fst sent) /\ (forall k, In k (map fst sent) <-> def = Some k \/ In k (buffers b)) /\
  Forall (fun s => snd s = resp (mkMD (reading gen (res_x b) cx nx (scale_x b)) (res_x b) (reading gen (res_y b) cy ny (scale_y b)) (res_y b) ct)) sent.
Proof.
  intros A B N D. unfold measure. assert (T : takes_data false def b = true). { unfold takes_data. rewrite A. cbn. destruct def; auto. destruct (buffers b); auto. destruct B; congruence. }
  assert (V : forall r c n s, (if noisy gen r then c + n else c) * s = reading gen r c n s).
  { intros. unfold noisy, reading, fequal, fequal_tol. rewrite Rminus_0_r. destruct gen; cbn [andb]; [|ring]. destruct (Rleb_spec (Rabs r) eps), (Rle_dec (Rabs r) eps); try lra; cbn; ring. }
  rewrite T. cbn [fst]. rewrite map_map. cbn [fst]. rewrite map_id. split; [|split].
  - destruct def as [k|]; auto. constructor; auto.
  - intros k. destruct def as [j|]; cbn; [|intuition discriminate]. split; [intros [->|I]; auto|intros [E|I]; [injection E as ->; auto|auto]].
  - apply Forall_forall. intros s I. apply in_map_iff in I. destruct I as (k & <- & _). cbn [snd]. now rewrite !V.
Qed.
Print Assumptions C171_measurement.
(* a buffer that is attached and is the default as well records twice *)
Theorem C91_default_refuted gen k b cx cy ct nx ny resp : active b = true -> In k (buffers b) -> (2 <= count_occ Nat.eq_dec (map fst (fst (measure false gen (Some k) resp b cx cy ct nx ny))) k)%nat.
Proof.
  intros A I. unfold measure, takes_data. rewrite A. cbn [andb negb fst map]. rewrite map_map. cbn [fst]. rewrite map_id. rewrite count_occ_cons_eq by reflexivity. apply (count_occ_In Nat.eq_dec) in I. lia.
Qed.
Print Assumptions C91_default_refuted.
(* noise is drawn only when asked for, with the square of the resolution *)
Theorem C171_noise gen def b cx cy ct nx ny resp : snd (measure false gen def resp b cx cy ct nx ny) = if takes_data false def b then map (fun r => r * r) (filter (fun r => noisy gen r) [res_x b; res_y b]) else [].
Proof. unfold measure. destruct (takes_data false def b); auto. cbn. destruct (noisy gen (res_x b)), (noisy gen (res_y b)); reflexivity. Qed.
Print Assumptions C171_noise.
Theorem C171_buffers k b : NoDup (buffers b) -> NoDup (buffers (add_buffer k b)) /\ (forall j, In j (buffers (add_buffer k b)) <-> j = k \/ In j (buffers b)) /\
  NoDup (buffers (fst (remove_buffer k b))) /\ (forall j, In j (buffers (fst (remove_buffer k b))) <-> j <> k /\ In j (buffers b)) /\ (snd (remove_buffer k b) = true <-> In k (buffers b)).
Proof.
  intros N. assert (X : existsb (Nat.eqb k) (buffers b) = true <-> In k (buffers b)). { rewrite existsb_exists. split; [intros (x & I & E); apply Nat.eqb_eq in E; now subst|intros I; exists k; split; auto; apply Nat.eqb_refl]. }
  unfold add_buffer, remove_buffer. cbn [buffers fst snd]. split; [|split; [|split; [|split]]]; auto.
  - destruct (existsb _ _) eqn:E; auto. apply (Permutation_NoDup (l := k :: buffers b)); [apply Permutation_cons_append|]. constructor; auto. intros I. apply X in I. congruence.
  - intros j. destruct (existsb _ _) eqn:E; [split; auto; intros [->|I]; auto; now apply X|]. rewrite in_app_iff. cbn. intuition.
  - now apply NoDup_filter.
  - intros j. rewrite filter_In, negb_true_iff, Nat.eqb_neq. tauto.
Qed.
Print Assumptions C171_buffers.
Example C91_ex : let b := mkBPM 0 0 1 1 true [3%nat; 4%nat] in active b = true /\ NoDup (buffers b) /\ fst (measure false false (Some 1%nat) (fun d => d) b 5 6 7 0 0) <> [].
Proof. cbn. repeat split; [repeat constructor; cbn; intuition discriminate|discriminate]. Qed.
(* ---- offsets of position channels ---- *)
Theorem C172_reading is_x d b : bpm_read is_x (record d b) = (if is_x then mx d + bxo b else my d + byo b).
Proof. destruct is_x; reflexivity. Qed.
Print Assumptions C172_reading.
Theorem C172_own_plane is_x v b : bpm_read is_x (set_offset is_x v b) = (if is_x then bx b else by_ b) + v.
Proof. destruct is_x; reflexivity. Qed.
Print Assumptions C172_own_plane.
Theorem C92_other_plane_refuted is_x v b : bpm_read (negb is_x) (set_offset is_x v b) = bpm_read (negb is_x) b <-> (if is_x then byo b else bxo b) = 0.
Proof. destruct is_x; cbn; split; intros; lra. Qed.
Print Assumptions C92_other_plane_refuted.
