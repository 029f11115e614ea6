(* Making mixtures in a table of materials, nuclei of a mixture, C284-C289. *)
From Verif Require Import RBase Material MaterialSpec MaterialProps.
From Coq Require Import List Permutation.
Import ListNotations.
Local Open Scope R_scope.

Lemma assoc_put_same {B} k (b : B) l : assoc k (put k b l) = Some b.
Proof. induction l as [|[k' b'] l IH]; cbn; [now rewrite str_eqb_refl|]. destruct (str_eqb k k') eqn:E; cbn; rewrite E; auto. Qed.
Lemma assoc_put_other {B} k k' (b : B) l : k <> k' -> assoc k (put k' b l) = assoc k l.
Proof.
  intros N. induction l as [|[q b'] l IH]; cbn.
  - destruct (str_eqb_spec k k'); [contradiction|auto].
  - destruct (str_eqb_spec k' q) as [<-|]; cbn; destruct (str_eqb_spec k k'); try contradiction; auto. now rewrite IH.
Qed.

(** ** C284: shares by weight *)
Lemma by_weight_known d ns ws ps : by_weight d ns ws = Ok ps ->
  exists ms, known d ns ms /\ length ps = length ns /\ (length ns <= length ws)%nat /\ Forall (fun m => mA m <> 0) ms /\
    combine ms ps = map (fun c => (fst c, snd c / mA (fst c))) (combine ms ws).
Proof.
  revert ws ps. induction ns as [|n ns IH]; intros ws ps; cbn.
  - intros H. injection H as <-. exists []. repeat split; cbn; auto; try lia; constructor.
  - destruct ws as [|w ws]; [discriminate|]. destruct (assoc n d) as [[m|]|] eqn:E; try discriminate.
    destruct (Reqb_spec (mA m) 0) as [|N]; [discriminate|]. destruct (by_weight d ns ws) as [l| |] eqn:F; cbn; try discriminate.
    intros H. injection H as <-. destruct (IH _ _ F) as (ms & K & L & LE & FA & C).
    exists (m :: ms). split; [constructor; auto|]. cbn. rewrite C. repeat split; auto; lia.
Qed.
Lemma known_touch d name ns ms : known d ns ms -> known (touch name d) ns ms.
Proof.
  unfold known, touch. intros H. destruct (assoc name d) as [q|] eqn:E; auto.
  eapply Forall2_impl; [|exact H]. cbn. intros k m A. rewrite assoc_put_other; [auto|]. intros ->. congruence.
Qed.
Lemma known_det d ns ms ms' : known d ns ms -> known d ns ms' -> ms = ms'.
Proof. intros A B. apply find_all_known in A, B. congruence. Qed.
(* for a mixture made by weight the parts count in the energy loss and the inverse
   radiation length with their weights, and in the rest with weight over A *)
Theorem C284_by_weight lf d name s ws rho d' : make_mixture_w lf d name s ws rho = (d', Ok tt) ->
  exists ms m, known d (cut s) ms /\ assoc name d' = Some (Some m) /\
  (let l := combine ms ws in
   is_mean l snd (fun c => mdE (fst c)) (mdE m) /\ is_mean l snd (fun c => / mX0 (fst c)) (/ mX0 m) /\
   is_mean l snd (fun c => / mA (fst c)) (/ mA m) /\
   let n c := snd c / mA (fst c) in
   is_mean l n (fun c => mZ (fst c)) (mZ m) /\ is_mean l n (fun c => mST (fst c)) (mST m) /\
   is_mean l n (fun c => mSI (fst c)) (mSI m) /\ is_mean l n (fun c => mSR (fst c)) (mSR m)) /\
  mrho m = rho /\ path_fits m.
Proof.
  unfold make_mixture_w. destruct (by_weight d (cut s) ws) as [ps| |] eqn:W; try discriminate.
  destruct (by_weight_known _ _ _ _ W) as (ms & K & L & LE & FA & C).
  unfold store_mixture. set (d1 := if lf then touch name d else d). destruct (mixture d1 (cut s) ps rho) as [m| |] eqn:M; try discriminate.
  intros H. injection H as <-. exists ms, m. split; [auto|]. split; [apply assoc_put_same|].
  destruct (C279_averages _ _ _ _ _ M) as (ms' & K' & _ & (E1 & E2 & E3 & E4 & E5 & E6 & E7 & _) & RHO & PF & _).
  assert (K1 : known d1 (cut s) ms) by (unfold d1; destruct lf; [now apply known_touch|auto]).
  rewrite <- (known_det _ _ _ _ K1 K') in *. rewrite C in *.
  assert (FA' : forall c, In c (combine ms ws) -> mA (fst c) <> 0).
  { intros [x w] J. apply in_combine_l in J. rewrite Forall_forall in FA. now apply FA. }
  assert (IM : forall w f x, is_mean (map (fun c => (fst c, snd c / mA (fst c))) (combine ms ws)) w f x ->
     is_mean (combine ms ws) (fun c => w (fst c, snd c / mA (fst c))) (fun c => f (fst c, snd c / mA (fst c))) x).
  { intros w f x [A B]. rewrite !tot_map in *. split; auto. }
  assert (CH : forall (w w' f : material * R -> R) x, (forall c, In c (combine ms ws) -> w c = w' c) -> is_mean (combine ms ws) w f x -> is_mean (combine ms ws) w' f x).
  { intros w w' f x Q [A B]. rewrite (tot_ext w w') in *; auto. split; auto. rewrite B. apply tot_ext. intros c I. now rewrite Q. }
  apply IM in E1, E2, E3, E4, E5, E6, E7. unfold share, mass in *. cbn [fst snd] in *.
  split; [|auto].
  assert (WT : forall c, In c (combine ms ws) -> snd c / mA (fst c) * mA (fst c) = snd c) by (intros c I; field; auto).
  split; [eapply CH; [|exact E6]; auto|]. split; [eapply CH; [|exact E7]; auto|].
  split.
  { destruct E1 as [A B]. destruct E6 as [A6 _]. rewrite (tot_ext _ snd) in A6 by auto. rewrite (tot_ext (fun a => snd a / mA (fst a) * mA (fst a)) snd) in B by auto.
    split; [auto|]. assert (Z : mA m <> 0) by (intros Z; rewrite Z in B; lra). rewrite <- B.
    change (fun a : material * R => snd a * / mA (fst a)) with (fun a : material * R => snd a / mA (fst a)). field. auto. }
  repeat split; try apply E2; try apply E3; try apply E4; apply E5.
Qed.
Example C284_example : exists d' m, make_mixture_w false two (of_string "x") (of_string "a b") [2; 6] 2000 = (d', Ok tt) /\
  assoc (of_string "x") d' = Some (Some m) /\ mdE m = 7 / 4 /\ mA m = 4.
Proof.
  assert (W : by_weight two (cut (of_string "a b")) [2; 6] = Ok [2 / 2; 6 / 6]).
  { change (cut (of_string "a b")) with [of_string "a"; of_string "b"]. cbn -[Rdiv m_a m_b Reqb]. unfold m_a, m_b. cbn [new_material update mA].
    rewrite !Reqb_false by lra. reflexivity. }
  exists (put (of_string "x") (Some (blend [m_a; m_b] [2 / 2; 6 / 6] 2000)) two), (blend [m_a; m_b] [2 / 2; 6 / 6] 2000).
  split; [|split; [apply assoc_put_same|]].
  - unfold make_mixture_w, store_mixture. rewrite W. change (cut (of_string "a b")) with [of_string "a"; of_string "b"].
    rewrite two_mix by lra. reflexivity.
  - unfold blend, update, share, mass, m_a, m_b, new_material, update. cbn [combine tot fst snd mX0 mA mST mSR mdE]. split; lra.
Qed.

(** ** C285: a wrong number of shares is reported.  By number it is; by weight,
    missing weights are read past the end of the vector and surplus ones ignored *)
Theorem C299_by_number lf d name s ps rho : length ps <> length (cut s) ->
  snd (make_mixture lf d name s ps rho) = Throw LengthMismatch.
Proof.
  intros N. unfold make_mixture, store_mixture. rewrite (proj1 (C279_rejects _ _ _ _)) by auto. reflexivity.
Qed.
Theorem C285_refuted_few lf d name s ws rho ms : known d (cut s) ms -> Forall (fun m => mA m <> 0) ms -> (length ws < length (cut s))%nat ->
  snd (make_mixture_w lf d name s ws rho) = UB.
Proof.
  intros K F L. unfold make_mixture_w. assert (B : by_weight d (cut s) ws = UB); [|now rewrite B].
  revert K F ws L. generalize (cut s) as ns. intros ns K. unfold known in K. induction K as [|n m ns ms H K IH]; intros F ws L; cbn in *; [lia|].
  destruct ws as [|w ws]; auto. rewrite H. inversion F; subst. rewrite Reqb_false by auto. rewrite IH; auto. cbn in L. lia.
Qed.
Theorem C285_refuted_many lf d name s ws more rho : (length (cut s) <= length ws)%nat ->
  make_mixture_w lf d name s (ws ++ more) rho = make_mixture_w lf d name s ws rho.
Proof.
  intros L. unfold make_mixture_w. assert (B : by_weight d (cut s) (ws ++ more) = by_weight d (cut s) ws); [|now rewrite B].
  revert ws L. generalize (cut s) as ns. induction ns as [|n ns IH]; intros ws L; [reflexivity|]. destruct ws as [|w ws]; [cbn in L; lia|]. cbn in *.
  destruct (assoc n d) as [[m|]|]; auto. rewrite IH by lia. reflexivity.
Qed.
(* an unknown part is reported by both *)
Theorem C299_unknown lf d name s pre n post ms : cut s = pre ++ n :: post -> known d pre ms -> assoc n d = None ->
  (forall ps rho, n <> name -> length ps = length (cut s) -> snd (make_mixture lf d name s ps rho) = Throw (NotFound n)) /\
  (forall ws rho, Forall (fun m => mA m <> 0) ms -> length ws = length (cut s) ->
     make_mixture_w lf d name s ws rho = (d, Throw OutOfRange)).
Proof.
  intros E K N. split.
  - intros ps rho NN L. unfold make_mixture, store_mixture.
    rewrite (proj2 (C279_rejects (if lf then touch name d else d) (cut s) ps rho) pre n post ms); auto.
    + destruct lf; auto. now apply known_touch.
    + destruct lf; auto. unfold touch. destruct (assoc name d); auto. now rewrite assoc_put_other.
  - intros ws rho F L. unfold make_mixture_w. assert (B : by_weight d (cut s) ws = Throw OutOfRange); [|now rewrite B].
    rewrite E in *. clear E s. unfold known in K. revert ws L F. induction K as [|a m pre ms H K IH]; intros ws L F; destruct ws as [|w ws]; try discriminate; cbn in *.
    + now rewrite N.
    + rewrite H. inversion F; subst. rewrite Reqb_false by auto. rewrite IH; auto.
Qed.
Example C285_example : snd (make_mixture false two (of_string "x") (of_string "a b") [2] 2000) = Throw LengthMismatch /\
  snd (make_mixture_w false two (of_string "x") (of_string "a b") [2] 2000) = UB /\
  snd (make_mixture_w false two (of_string "x") (of_string "a b") [2; 6; 9] 2000) = Ok tt.
Proof.
  split; [apply C299_by_number; discriminate|]. split.
  - apply C285_refuted_few with (ms := [m_a; m_b]); [apply two_known| |cbn; lia].
    repeat constructor; cbn [m_a m_b new_material update mA]; lra.
  - change [2; 6; 9] with ([2; 6] ++ [9]). rewrite C285_refuted_many by (cbn; lia).
    destruct C284_example as (d' & m & E & _). now rewrite E.
Qed.
Example C299_unknown_example : make_mixture_w true two (of_string "x") (of_string "a c") [2; 6] 2000 = (two, Throw OutOfRange).
Proof.
  apply (proj2 (C299_unknown true two (of_string "x") (of_string "a c") [of_string "a"] (of_string "c") [] [m_a] eq_refl ltac:(repeat constructor) eq_refl)); auto.
  repeat constructor; cbn [m_a m_b new_material update mA]; lra.
Qed.

(** ** C286: making a mixture changes only its own name; when it fails the table
    may be left with a null entry *)
Theorem C286_frame lf d name s ps rho k : k <> name -> assoc k (fst (make_mixture lf d name s ps rho)) = assoc k d.
Proof.
  intros N. unfold make_mixture, store_mixture.
  assert (T : assoc k (if lf then touch name d else d) = assoc k d).
  { destruct lf; auto. unfold touch. destruct (assoc name d); auto. now apply assoc_put_other. }
  destruct (mixture _ (cut s) ps rho); cbn; auto. now rewrite assoc_put_other.
Qed.
Theorem C286_frame_w lf d name s ws rho k : k <> name -> assoc k (fst (make_mixture_w lf d name s ws rho)) = assoc k d.
Proof.
  intros N. unfold make_mixture_w. destruct (by_weight d (cut s) ws) as [ps| |]; auto.
  apply (C286_frame lf d name s ps rho k N).
Qed.
Theorem C286_failed lf d name s ps rho e : snd (make_mixture lf d name s ps rho) = Throw e ->
  (lf = false \/ assoc name d <> None -> fst (make_mixture lf d name s ps rho) = d) /\
  (lf = true -> assoc name d = None -> assoc name (fst (make_mixture lf d name s ps rho)) = Some None).
Proof.
  unfold make_mixture, store_mixture. destruct (mixture _ (cut s) ps rho) as [m|e'|]; cbn; try discriminate. intros _. split.
  - intros [->|H]; auto. destruct lf; auto. unfold touch. destruct (assoc name d); congruence.
  - intros -> H. unfold touch. rewrite H. apply assoc_put_same.
Qed.
(* using the name after that dereferences the null pointer *)
Theorem C286_refuted : exists d name s ps rho n2 s2, snd (make_mixture true d name s ps rho) = Throw LengthMismatch /\
  assoc name d = None /\ snd (make_mixture true d n2 s2 [1] rho) = Throw (NotFound name) /\
  snd (make_mixture true (fst (make_mixture true d name s ps rho)) n2 s2 [1] rho) = UB.
Proof. exists two, (of_string "x"), (of_string "a b"), [2], 2000, (of_string "y"), (of_string "x"). repeat split. Qed.
Example C286_example : fst (make_mixture false two (of_string "x") (of_string "a b") [2] 2000) = two.
Proof. apply (proj1 (C286_failed false two (of_string "x") (of_string "a b") [2] 2000 LengthMismatch eq_refl)). auto. Qed.

(** ** the forms with arguments: the density follows the shares *)
Theorem C286_arguments lf d name s ps rho more : length ps = length (cut s) ->
  make_mixture_va lf d name s (ps ++ rho :: more) = make_mixture lf d name s ps rho /\
  (snd (make_mixture_w lf d name s ps rho) <> UB -> make_mixture_w_va lf d name s (ps ++ rho :: more) = make_mixture_w lf d name s ps rho).
Proof.
  intros L. unfold make_mixture_va, make_mixture_w_va, make_mixture_w. rewrite <- L, nth_error_app2, Nat.sub_diag by lia. cbn [nth_error].
  rewrite firstn_app, Nat.sub_diag, firstn_all, app_nil_r. split; [auto|]. intros _.
  assert (B : by_weight d (cut s) (ps ++ rho :: more) = by_weight d (cut s) ps); [|now rewrite B].
  revert ps L. generalize (cut s) as ns. induction ns as [|n ns IH]; intros ws L; [reflexivity|]. destruct ws as [|w ws]; [cbn in L; lia|]. cbn in *.
  destruct (assoc n d) as [[m|]|]; auto. rewrite IH by lia. reflexivity.
Qed.
Example C286_arguments_example : make_mixture_va false two (of_string "x") (of_string "a b") [2; 6; 2000; 88] = make_mixture false two (of_string "x") (of_string "a b") [2; 6] 2000.
Proof. apply (C286_arguments false two (of_string "x") (of_string "a b") [2; 6] 2000 [88]). reflexivity. Qed.

(** ** C287: the nucleus taken is the first whose share, added to those before,
    reaches the random number *)
Lemma pick_spec l r : l <> [] -> exists k a w, pick l r = Ok a /\ nth_error l k = Some (a, w) /\
  (forall j, (j < k)%nat -> upto l (S j) < r) /\ (S k = length l \/ r <= upto l (S k)).
Proof.
  revert r. induction l as [|[a w] l IH]; [congruence|]. intros r _. destruct l as [|y l].
  - exists 0%nat, a, w. cbn. repeat split; auto. intros j H. lia.
  - change (pick ((a, w) :: y :: l) r) with (if Rleb (r - w) 0 then Ok a else pick (y :: l) (r - w)). destruct (Rleb_spec (r - w) 0) as [H|H].
    + exists 0%nat, a, w. repeat split; auto; [intros j J; lia|]. right. cbn. destruct y. lra.
    + destruct (IH (r - w)) as (k & b & v & P & E & B & Z); [discriminate|]. exists (S k), b, v. split; [auto|]. split; [auto|].
      split.
      * intros j J. destruct j as [|j]; [cbn; destruct y; lra|]. specialize (B j ltac:(lia)). change (upto ((a, w) :: y :: l) (S (S j))) with (w + upto (y :: l) (S j)). lra.
      * destruct Z as [Z|Z]; [left; cbn in *; lia|right]. change (upto ((a, w) :: y :: l) (S (S k))) with (w + upto (y :: l) (S k)). lra.
Qed.
Lemma upto_tot (l : list (R * R)) k : upto l k = tot snd (firstn k l).
Proof. revert k; induction l as [|[a w] l IH]; destruct k; cbn; auto. now rewrite IH. Qed.
Theorem C287_nucleus d ns ps rho m ms r : mixture d ns ps rho = Ok m -> known d ns ms -> ns <> [] ->
  (exists k x, nucleus_H m r = Ok (mA x) /\ nth_error ms k = Some x /\
     (forall j, (j < k)%nat -> tot mST (firstn (S j) ms) / tot mST ms < r) /\ (S k = length ms \/ r <= tot mST (firstn (S k) ms) / tot mST ms)) /\
  (exists k x, nucleus_R m r = Ok (mA x) /\ nth_error ms k = Some x /\
     (forall j, (j < k)%nat -> tot mSR (firstn (S j) ms) / tot mSR ms < r) /\ (S k = length ms \/ r <= tot mSR (firstn (S k) ms) / tot mSR ms)).
Proof.
  intros H K NE. destruct (mixture_ok _ _ _ _ _ H) as (ms' & K' & _ & _ & ->). rewrite <- (known_det _ _ _ _ K K') in *.
  assert (NM : ms <> []). { intros ->. apply known_length in K. destruct ns; [congruence|discriminate]. }
  assert (G : forall f : material -> R, exists k x, pick (map (fun y => (mA y, f y / tot f ms)) ms) r = Ok (mA x) /\ nth_error ms k = Some x /\
     (forall j, (j < k)%nat -> tot f (firstn (S j) ms) / tot f ms < r) /\ (S k = length ms \/ r <= tot f (firstn (S k) ms) / tot f ms)).
  { intros f. destruct (pick_spec (map (fun y => (mA y, f y / tot f ms)) ms) r) as (k & a & w & P & E & B & Z).
    { intros E. apply map_eq_nil in E. auto. }
    rewrite map_length in Z. rewrite nth_error_map in E. destruct (nth_error ms k) as [x|] eqn:X; [|discriminate]. injection E as <- <-.
    assert (U : forall j, upto (map (fun y => (mA y, f y / tot f ms)) ms) j = tot f (firstn j ms) / tot f ms).
    { intros j. rewrite upto_tot, firstn_map, tot_map. cbn [snd]. apply div_scal. }
    exists k, x. repeat split; auto; [intros j J; rewrite <- U; auto|]. now rewrite <- U. }
  unfold nucleus_H, nucleus_R, blend, update. cbn [mmix]. rewrite !map_map. cbn [fst snd]. split; apply G.
Qed.
Example C287_example : exists m, mixture two [of_string "a"; of_string "b"] [1; 1] 2000 = Ok m /\ nucleus_H m 0.3 = Ok 2 /\ nucleus_H m 0.4 = Ok 6.
Proof.
  eexists. split; [apply two_mix; lra|]. unfold nucleus_H, blend, update, m_a, m_b, new_material, update. cbn [mmix map fst snd mA mSR mST tot pick].
  rewrite Rleb_true, Rleb_false by lra. auto.
Qed.

(** ** C288: the nuclei are to be hit according to cross section and share; the
    shares are not looked at *)
Definition right_choice (l : list (material * R)) (m : material) : Prop :=
  forall r k c, nth_error l k = Some c ->
    tot (fun c => share c * mST (fst c)) (firstn k l) < r * tot (fun c => share c * mST (fst c)) l ->
    r * tot (fun c => share c * mST (fst c)) l < tot (fun c => share c * mST (fst c)) (firstn (S k) l) ->
    nucleus_H m r = Ok (mA (fst c)).
Theorem C288_blind d ns ps ps' rho rho' m m' r : mixture d ns ps rho = Ok m -> mixture d ns ps' rho' = Ok m' ->
  nucleus_H m r = nucleus_H m' r /\ nucleus_R m r = nucleus_R m' r.
Proof.
  intros H H'. destruct (mixture_ok _ _ _ _ _ H) as (ms & K & _ & _ & ->). destruct (mixture_ok _ _ _ _ _ H') as (ms' & K' & _ & _ & ->).
  rewrite <- (known_det _ _ _ _ K K'). auto.
Qed.
Theorem C288_refuted : exists d ns ps rho m ms, mixture d ns ps rho = Ok m /\ known d ns ms /\ ~ right_choice (combine ms ps) m.
Proof.
  exists two, [of_string "a"; of_string "b"], [98; 1], 2000, (blend [m_a; m_b] [98; 1] 2000), [m_a; m_b].
  split; [apply two_mix; lra|]. split; [apply two_known|]. intros H.
  specialize (H 0.9 0%nat (m_a, 98) eq_refl). unfold share, m_a, m_b, new_material, update in H. cbn [combine tot fst snd mST mA firstn] in H.
  specialize (H ltac:(lra) ltac:(lra)). unfold nucleus_H, blend, update, m_a, m_b, new_material, update in H. cbn [mmix map fst snd mA mSR mST tot pick] in H.
  rewrite Rleb_false in H by lra. injection H as H. lra.
Qed.
(* with equal shares the choice is right *)
Theorem C288_equal d ns p rho m ms : 0 < p -> mixture d ns (repeat p (length ns)) rho = Ok m -> known d ns ms -> Forall (fun x => 0 <= mST x) ms ->
  right_choice (combine ms (repeat p (length ns))) m.
Proof.
  intros P H K F r k c E A B.
  assert (LN : length ns = length ms) by now apply known_length in K.
  assert (NE : ns <> []). { intros ->. destruct ms; [|discriminate]. destruct k; discriminate. }
  assert (C : forall j, tot (fun c => share c * mST (fst c)) (firstn j (combine ms (repeat p (length ns)))) = p * tot mST (firstn j ms)).
  { rewrite LN. clear. intros j. revert j. induction ms as [|x ms IH]; intros j; destruct j; cbn; try lra. rewrite IH. unfold share; cbn. ring. }
  assert (T : tot (fun c => share c * mST (fst c)) (combine ms (repeat p (length ns))) = p * tot mST ms).
  { specialize (C (length ms)). rewrite firstn_all in C. rewrite <- C. f_equal. symmetry. apply firstn_all2. rewrite combine_length. lia. }
  rewrite C, T in *.
  assert (A' : tot mST (firstn k ms) < r * tot mST ms) by nra. assert (B' : r * tot mST ms < tot mST (firstn (S k) ms)) by nra.
  destruct (mixture_ok _ _ _ _ _ H) as (ms2 & K2 & _ & (_ & _ & _ & N4 & _) & _). rewrite <- (known_det _ _ _ _ K K2) in *.
  rewrite <- (tot_fst mST) in N4 by (rewrite repeat_length; auto).
  assert (MONO : forall i j, (i <= j)%nat -> tot mST (firstn i ms) <= tot mST (firstn j ms)).
  { clear -F. induction F as [|x ms X F IH]; intros i j L; [rewrite !firstn_nil; lra|]. destruct i, j; cbn; try lra; try lia.
    - specialize (IH 0%nat j ltac:(lia)). cbn in IH. lra.
    - specialize (IH i j ltac:(lia)). lra. }
  assert (PT : 0 < tot mST ms).
  { assert (0 <= tot mST ms) by (specialize (MONO 0%nat (length ms) ltac:(lia)); rewrite firstn_all in MONO; cbn in MONO; lra). lra. }
  destruct (proj1 (C287_nucleus _ _ _ _ _ ms r H K NE)) as (q & x & N & X & LO & HI). rewrite N.
  assert (LO' : forall j, (j < q)%nat -> tot mST (firstn (S j) ms) < r * tot mST ms).
  { intros j J. specialize (LO j J). apply (Rmult_lt_compat_r _ _ _ PT) in LO. unfold Rdiv in LO. rewrite Rmult_assoc, Rinv_l in LO; lra. }
  assert (HI' : S q = length ms \/ r * tot mST ms <= tot mST (firstn (S q) ms)).
  { destruct HI as [|HI]; [auto|right]. apply (Rmult_le_compat_r _ _ _ (Rlt_le _ _ PT)) in HI. unfold Rdiv in HI. rewrite Rmult_assoc, Rinv_l in HI; lra. }
  assert (KL : (k < length ms)%nat).
  { apply (f_equal (fun o => match o with Some _ => true | None => false end)) in E. assert (J : nth_error (combine ms (repeat p (length ns))) k <> None) by (destruct (nth_error _ k); discriminate).
    apply nth_error_Some in J. rewrite combine_length in J. lia. }
  assert (QL : (q < length ms)%nat) by (apply nth_error_Some; congruence).
  assert (Q : q = k).
  { destruct (Nat.lt_trichotomy q k) as [L|[L|L]]; auto; exfalso.
    - destruct HI' as [HI'|HI']; [lia|]. specialize (MONO (S q) k ltac:(lia)). lra.
    - specialize (LO' k L). lra. }
  subst q. do 2 f_equal. destruct c as [y w].
  assert (Y : nth_error ms k = Some y).
  { clear -E. revert k E. generalize (repeat p (length ns)) as ps. induction ms as [|x ms IH]; intros ps k E; [destruct k; discriminate|].
    destruct ps; [destruct k; discriminate|]. destruct k; cbn in *; [congruence|eauto]. }
  cbn. congruence.
Qed.
Example C288_example : exists m, mixture two [of_string "a"; of_string "b"] (repeat 5 2) 2000 = Ok m /\ right_choice (combine [m_a; m_b] (repeat 5 2)) m.
Proof.
  exists (blend [m_a; m_b] [5; 5] 2000). assert (H : mixture two [of_string "a"; of_string "b"] (repeat 5 2) 2000 = Ok (blend [m_a; m_b] [5; 5] 2000)) by (apply two_mix; lra).
  split; [auto|]. apply (C288_equal two [of_string "a"; of_string "b"] 5 2000); auto; [lra|apply two_known|].
  repeat constructor; cbn [m_a m_b new_material update mST]; lra.
Qed.

(** ** C289: the names of the parts are what stands between single spaces *)
Lemma cut_go_no c0 a cur : ~ In space a -> cut_go cur (a ++ c0) = match c0 with [] => [rev cur ++ a] | _ => cut_go (rev a ++ cur) c0 end.
Proof.
  revert cur. induction a as [|c a IH]; intros cur N; cbn.
  - destruct c0; cbn; auto. now rewrite app_nil_r.
  - unfold char_eqb. destruct (Ascii.eqb_spec c space) as [->|]; [exfalso; apply N; now left|].
    rewrite IH by (intros I; apply N; now right). destruct c0; cbn; rewrite <- app_assoc; auto.
Qed.
Theorem C289_names l : l <> [] -> Forall (fun a => ~ In space a) l -> cut (join l) = l.
Proof.
  unfold cut. intros N F. induction F as [|a l A F IH]; [congruence|]. destruct l as [|b l].
  - cbn [join]. rewrite <- (app_nil_r a), cut_go_no by auto. now rewrite app_nil_r.
  - change (join (a :: b :: l)) with (a ++ space :: join (b :: l)). rewrite cut_go_no by auto. cbn [cut_go].
    change (char_eqb space space) with true. cbn iota. rewrite IH by discriminate. rewrite rev_app_distr, rev_involutive. cbn. reflexivity.
Qed.
Theorem C289_back s : join (cut s) = s /\ cut s <> [] /\ Forall (fun a => ~ In space a) (cut s).
Proof.
  assert (G : forall s cur, ~ In space cur -> join (cut_go cur s) = rev cur ++ s /\ cut_go cur s <> [] /\ Forall (fun a => ~ In space a) (cut_go cur s)).
  { clear s. induction s as [|c s IH]; intros cur N; cbn.
    - rewrite app_nil_r. repeat split; [discriminate|]. repeat constructor. now rewrite <- in_rev.
    - unfold char_eqb. destruct (Ascii.eqb_spec c space) as [->|NE].
      + destruct (IH [] ltac:(intros [])) as (E & NN & F). repeat split; [|discriminate|constructor; [now rewrite <- in_rev|auto]].
        destruct (cut_go [] s) as [|q qs] eqn:Q; [congruence|]. change (join (rev cur :: q :: qs)) with (rev cur ++ space :: join (q :: qs)). now rewrite E.
      + destruct (IH (c :: cur)) as (E & NN & F); [intros [H|H]; auto|]. repeat split; auto. rewrite E. cbn. now rewrite <- app_assoc. }
  apply (G s []). intros [].
Qed.
Example C289_example : cut (of_string "W Ni  Cu") = [of_string "W"; of_string "Ni"; []; of_string "Cu"].
Proof. reflexivity. Qed.
Print Assumptions C284_by_weight.
Print Assumptions C299_by_number.
Print Assumptions C285_refuted_few.
Print Assumptions C285_refuted_many.
Print Assumptions C299_unknown.
Print Assumptions C286_frame.
Print Assumptions C286_frame_w.
Print Assumptions C286_failed.
Print Assumptions C286_refuted.
Print Assumptions C286_arguments.
Print Assumptions C287_nucleus.
Print Assumptions C288_blind.
Print Assumptions C288_refuted.
Print Assumptions C288_equal.
Print Assumptions C289_names.
Print Assumptions C289_back.
