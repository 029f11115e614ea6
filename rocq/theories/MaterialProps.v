(* Mixtures of materials, C279-C289. *)
From Verif Require Import RBase Material MaterialSpec.
From Coq Require Import List Permutation.
Import ListNotations.
Local Open Scope R_scope.

(** ** helpers *)
Lemma sum_tot {A} (f : A -> R) l : sum (map f l) = tot f l.
Proof. induction l as [|a l IH]; cbn; [auto|now rewrite IH]. Qed.
Lemma tot_ext {A} (f g : A -> R) l : (forall a, In a l -> f a = g a) -> tot f l = tot g l.
Proof. induction l as [|a l IH]; cbn; intros H; [auto|]. rewrite (H a), IH; auto. Qed.
Lemma tot_scal {A} k (f : A -> R) l : tot (fun a => k * f a) l = k * tot f l.
Proof. induction l as [|a l IH]; cbn; [lra|]. rewrite IH. lra. Qed.
Lemma tot_perm {A} (f : A -> R) l l' : Permutation l l' -> tot f l = tot f l'.
Proof. induction 1; cbn; lra. Qed.
Lemma tot_map {A B} (f : B -> R) (g : A -> B) l : tot f (map g l) = tot (fun a => f (g a)) l.
Proof. induction l as [|a l IH]; cbn; [auto|now rewrite IH]. Qed.
Lemma tot_le {A} (f g : A -> R) l : Forall (fun a => f a <= g a) l -> tot f l <= tot g l.
Proof. induction 1; cbn; lra. Qed.
Lemma tot_snd {A} (ms : list A) ps : length ms = length ps -> sum ps = tot snd (combine ms ps).
Proof. revert ps; induction ms as [|m ms IH]; destruct ps as [|p ps]; cbn; intros H; try discriminate; auto. rewrite (IH ps); auto. Qed.
Lemma tot_fst {A} (f : A -> R) ms (ps : list R) : length ms = length ps -> tot f ms = tot (fun c => f (fst c)) (combine ms ps).
Proof. revert ps; induction ms as [|m ms IH]; destruct ps as [|p ps]; cbn; intros H; try discriminate; auto. rewrite (IH ps); auto. Qed.
Lemma div_scal {A} (f : A -> R) k l : tot (fun a => f a / k) l = tot f l / k.
Proof. induction l as [|a l IH]; cbn; [unfold Rdiv; lra|]. rewrite IH. unfold Rdiv. lra. Qed.
Lemma bool_eqR x y : (x = 0 <-> y = 0) -> Reqb x 0 = Reqb y 0.
Proof. intros H. destruct (Reqb_spec x 0), (Reqb_spec y 0); tauto. Qed.

Lemma find_all_known d ns ms : find_all d ns = Ok ms <-> known d ns ms.
Proof.
  unfold known. revert ms. induction ns as [|n ns IH]; intros ms; cbn.
  - split; intros H; [injection H as <-; constructor|inversion H; auto].
  - destruct (assoc n d) as [[m|]|] eqn:E.
    + destruct (find_all d ns) as [l| |] eqn:F; cbn.
      * split; intros H.
        -- injection H as <-. constructor; [auto|]. now apply IH.
        -- inversion H as [|? ? ? ? H1 H2]; subst. apply IH in H2. injection H2 as ->. congruence.
      * split; intros H; [discriminate|]. inversion H as [|? ? ? ? H1 H2]; subst. apply IH in H2. discriminate.
      * split; intros H; [discriminate|]. inversion H as [|? ? ? ? H1 H2]; subst. apply IH in H2. discriminate.
    + split; intros H; [discriminate|]. inversion H; congruence.
    + split; intros H; [discriminate|]. inversion H; congruence.
Qed.
Lemma known_length d ns ms : known d ns ms -> length ns = length ms.
Proof. induction 1; cbn; auto. Qed.

(* the mixture of known materials, in terms of the parts *)
Definition blend (ms : list material) (ps : list R) (rho : R) : material :=
  let l := combine ms ps in
  update (mkM (tot (fun c => share c * mA (fst c)) l / tot share l) (tot (fun c => share c * mST (fst c)) l / tot share l)
              (tot (fun c => share c * mSI (fst c)) l / tot share l) (tot (fun c => share c * mSR (fst c)) l / tot share l)
              (tot (fun c => mass c * mdE (fst c)) l / tot mass l) (tot mass l / tot (fun c => mass c * / mX0 (fst c)) l) rho
              (tot (fun c => share c * mZ (fst c)) l / tot share l) Unset (Some [])
              (Some (map (fun m => (mA m, mSR m / tot mSR ms, mST m / tot mST ms)) ms))).
Lemma rx_eq l sa : tot (fun c => / mX0 (fst c) * snd c * mA (fst c) / sa) l = tot (fun c => mass c * / mX0 (fst c)) l / sa.
Proof. rewrite <- div_scal. apply tot_ext. intros a _. unfold mass, Rdiv. ring. Qed.
Lemma mixture_known d ns ms ps rho : known d ns ms -> length ns = length ps ->
  (sound_parts (combine ms ps) -> mixture d ns ps rho = Ok (blend ms ps rho)) /\
  (~ sound_parts (combine ms ps) -> mixture d ns ps rho = Throw NotNumber).
Proof.
  intros K L. pose proof (known_length _ _ _ K) as L2. assert (L3 : length ms = length ps) by congruence.
  unfold mixture. rewrite (proj2 (Nat.eqb_eq _ _) L). cbn [negb]. rewrite (proj2 (find_all_known _ _ _) K). cbn [bind].
  unfold sumw. rewrite !sum_tot, (tot_snd ms ps L3).
  assert (EA : tot (fun c => mA (fst c) * snd c) (combine ms ps) = tot mass (combine ms ps)) by (apply tot_ext; intros; unfold mass; ring).
  rewrite EA. rewrite !rx_eq.
  change (tot (@snd material R) (combine ms ps)) with (tot share (combine ms ps)).
  assert (EX : existsb (fun m => Reqb (mX0 m) 0) ms = false <-> Forall (fun c => mX0 (fst c) <> 0) (combine ms ps)).
  { clear -L3. revert ps L3. induction ms as [|m ms IH]; destruct ps as [|p ps]; cbn; intros L3; try discriminate; [split; auto|].
    rewrite Bool.orb_false_iff, (IH ps) by congruence. destruct (Reqb_spec (mX0 m) 0).
    - split; [intros [? _]; discriminate|]. intros F. inversion F; subst. cbn in *. contradiction.
    - split; [intros [_ F]; constructor; auto|intros F; inversion F; auto]. }
  unfold sound_parts. rewrite <- (tot_fst mSR), <- (tot_fst mST) by auto.
  split.
  - intros (N1 & N2 & N3 & N4 & N5 & N6).
    rewrite !Reqb_false; auto.
    2:{ intros H. apply N6. apply (f_equal (fun z => z * tot mass (combine ms ps))) in H. unfold Rdiv in H. rewrite Rmult_assoc, Rinv_l in H; lra. }
    rewrite (proj2 EX N5). cbn [orb]. unfold blend. do 2 f_equal. f_equal.
    + rewrite <- div_scal. apply tot_ext. intros; unfold share, Rdiv; ring.
    + rewrite <- div_scal. apply tot_ext. intros; unfold share, Rdiv; ring.
    + rewrite <- div_scal. apply tot_ext. intros; unfold share, Rdiv; ring.
    + rewrite <- div_scal. apply tot_ext. intros; unfold share, Rdiv; ring.
    + rewrite <- div_scal. apply tot_ext. intros; unfold mass, Rdiv; ring.
    + field. split; auto.
    + rewrite <- div_scal. apply tot_ext. intros; unfold share, Rdiv; ring.
  - intros N. match goal with |- (if ?b then _ else _) = _ => destruct b eqn:B; [reflexivity|exfalso] end.
    apply N. rewrite !Bool.orb_false_iff in B. destruct B as (((((B1 & B2) & B3) & B4) & B5) & B6).
    apply EX in B5.
    repeat match goal with H : Reqb ?x 0 = false |- _ => destruct (Reqb_spec x 0); [discriminate|clear H] end.
    repeat split; auto.
    intros Z. apply n. rewrite Z. unfold Rdiv. ring.
Qed.
Lemma mixture_ok d ns ps rho m : mixture d ns ps rho = Ok m ->
  exists ms, known d ns ms /\ length ns = length ps /\ sound_parts (combine ms ps) /\ m = blend ms ps rho.
Proof.
  intros H. destruct (Nat.eqb (length ns) (length ps)) eqn:L.
  2:{ unfold mixture in H. rewrite L in H. discriminate. }
  destruct (find_all d ns) as [ms| |] eqn:F.
  2-3: unfold mixture in H; rewrite L, F in H; discriminate.
  apply find_all_known in F. apply Nat.eqb_eq in L. destruct (mixture_known d ns ms ps rho F L) as [G B].
  assert (S : sound_parts (combine ms ps)).
  { apply Classical_Prop.NNPP. intros N. rewrite (B N) in H. discriminate. }
  exists ms. repeat split; auto; try (apply S). rewrite (G S) in H. congruence.
Qed.

Lemma update_fits m : path_fits (update m).
Proof.
  unfold path_fits, update, barn, avogadro; cbn [mlam mST mSR mrho mA].
  assert (U : / 10 ^ 28 <> 0) by (apply Rinv_neq_0_compat, pow_nonzero; lra).
  assert (V : 6022 * 10 ^ 20 <> 0) by (apply Rmult_integral_contrapositive_currified; [lra|apply pow_nonzero; lra]).
  set (u := / 10 ^ 28) in *. set (v := 6022 * 10 ^ 20) in *. clearbody u v.
  destruct (Reqb_spec ((mST m + mSR m) * mrho m * u * v) 0) as [Z|Z].
  - destruct (Rmult_integral _ _ Z) as [Z1|]; [|contradiction]. destruct (Rmult_integral _ _ Z1); [auto|contradiction].
  - split; [intros N; apply Z; rewrite N; ring|]. field.
    repeat split; auto; intros N; apply Z; rewrite N; ring.
Qed.

(** ** C279: the members of a mixture are averages over its parts: numbers and
    cross sections by share, the energy loss and the inverse radiation length by
    mass *)
Theorem C279_averages d ns ps rho m : mixture d ns ps rho = Ok m ->
  exists ms, known d ns ms /\ length ps = length ns /\
  (let l := combine ms ps in
   is_mean l share (fun c => mA (fst c)) (mA m) /\ is_mean l share (fun c => mZ (fst c)) (mZ m) /\
   is_mean l share (fun c => mST (fst c)) (mST m) /\ is_mean l share (fun c => mSI (fst c)) (mSI m) /\
   is_mean l share (fun c => mSR (fst c)) (mSR m) /\ is_mean l mass (fun c => mdE (fst c)) (mdE m) /\
   is_mean l mass (fun c => / mX0 (fst c)) (/ mX0 m) /\ mX0 m <> 0) /\
  mrho m = rho /\ path_fits m /\ mextra m = Some [].
Proof.
  intros H. destruct (mixture_ok _ _ _ _ _ H) as (ms & K & L & (N1 & N2 & N3 & N4 & N5 & N6) & ->).
  exists ms. split; [auto|]. split; [auto|].
  assert (D : forall f, is_mean (combine ms ps) share f (tot (fun c => share c * f c) (combine ms ps) / tot share (combine ms ps))).
  { intros f. split; [auto|]. field. auto. }
  assert (X : mX0 (blend ms ps rho) <> 0).
  { cbn. unfold Rdiv. apply Rmult_integral_contrapositive_currified; [auto|]. now apply Rinv_neq_0_compat. }
  split; [|split; [reflexivity|split; [apply update_fits|reflexivity]]].
  cbn zeta. split; [apply (D (fun c => mA (fst c)))|]. split; [apply (D (fun c => mZ (fst c)))|].
  split; [apply (D (fun c => mST (fst c)))|]. split; [apply (D (fun c => mSI (fst c)))|].
  split; [apply (D (fun c => mSR (fst c)))|]. split; [split; [auto|cbn; field; auto]|].
  split; [|auto]. split; [auto|]. cbn. field. split; auto.
Qed.
(* and it is made whenever the parts are known and the sums are not zero *)
Theorem C279_accepts d ns ms ps rho : known d ns ms -> length ps = length ns -> sound_parts (combine ms ps) ->
  exists m, mixture d ns ps rho = Ok m.
Proof. intros K L S. exists (blend ms ps rho). apply (proj1 (mixture_known d ns ms ps rho K (eq_sym L))); auto. Qed.
(* a wrong number of shares or an unknown part is reported *)
Theorem C279_rejects d ns ps rho :
  (length ns <> length ps -> mixture d ns ps rho = Throw LengthMismatch) /\
  (forall pre n post ms, ns = pre ++ n :: post -> known d pre ms -> assoc n d = None -> length ns = length ps ->
   mixture d ns ps rho = Throw (NotFound n)).
Proof.
  split.
  - intros N. unfold mixture. apply Nat.eqb_neq in N. now rewrite N.
  - intros pre n post ms -> K E L. unfold mixture. rewrite (proj2 (Nat.eqb_eq _ _) L). cbn [negb].
    assert (F : find_all d (pre ++ n :: post) = Throw (NotFound n)); [|now rewrite F].
    clear L. unfold known in K. induction K as [|a m pre ms H K IH]; cbn; [now rewrite E|]. now rewrite H, IH.
Qed.

Definition m_a : material := new_material 2 4 3 1 1 10 1000 1.
Definition m_b : material := new_material 6 8 5 3 2 5 3000 3.
Definition two : db := [(of_string "a", Some m_a); (of_string "b", Some m_b)].
Lemma two_known : known two [of_string "a"; of_string "b"] [m_a; m_b].
Proof. unfold known, two. repeat constructor. Qed.
Lemma two_sound p q : 0 < p -> 0 < q -> sound_parts (combine [m_a; m_b] [p; q]).
Proof. intros P Q. unfold sound_parts, share, mass, m_a, m_b, new_material, update. cbn [combine tot fst snd mX0 mA mST mSR]. repeat split; try lra. repeat constructor; cbn [fst snd mX0]; lra. Qed.
Lemma two_mix p q : 0 < p -> 0 < q -> mixture two [of_string "a"; of_string "b"] [p; q] 2000 = Ok (blend [m_a; m_b] [p; q] 2000).
Proof. intros P Q. apply (proj1 (mixture_known two _ _ [p; q] 2000 two_known eq_refl)), two_sound; auto. Qed.
Example C279_example : exists m, mixture two [of_string "a"; of_string "b"] [3; 1] 2000 = Ok m /\ mA m = 3 /\ mdE m = 3 / 2.
Proof.
  eexists. split; [apply two_mix; lra|]. unfold blend, update, share, mass, m_a, m_b, new_material, update.
  cbn [combine tot fst snd mX0 mA mST mSR mdE]. split; lra.
Qed.
Example C279_rejects_example : mixture two [of_string "a"] [3; 1] 2000 = Throw LengthMismatch /\
  mixture two [of_string "a"; of_string "c"] [3; 1] 2000 = Throw (NotFound (of_string "c")).
Proof.
  split; [apply (proj1 (C279_rejects two _ _ _)); discriminate|].
  apply (proj2 (C279_rejects two _ [3; 1] 2000)) with (pre := [of_string "a"]) (post := []) (ms := [m_a]); auto.
  repeat constructor.
Qed.

(** ** C280: only the ratios of the shares count *)
Theorem C280_scale d ns ps rho k : k <> 0 -> mixture d ns (map (Rmult k) ps) rho = mixture d ns ps rho.
Proof.
  intros K. destruct (Nat.eq_dec (length ns) (length ps)) as [L|L].
  2:{ rewrite !(proj1 (C279_rejects d ns _ rho)); auto. now rewrite map_length. }
  destruct (find_all d ns) as [ms| |] eqn:F.
  2-3: unfold mixture; rewrite map_length, F; reflexivity.
  apply find_all_known in F.
  assert (C : combine ms (map (Rmult k) ps) = map (fun c => (fst c, k * snd c)) (combine ms ps)).
  { clear. revert ps. induction ms as [|m ms IH]; destruct ps as [|p ps]; cbn; auto. now rewrite IH. }
  assert (T : forall f, tot (fun c => share c * f (fst c)) (combine ms (map (Rmult k) ps)) = k * tot (fun c => share c * f (fst c)) (combine ms ps)).
  { intros f. rewrite C, tot_map, <- tot_scal. apply tot_ext. intros; unfold share; cbn; ring. }
  assert (T1 : forall f, tot (fun c => mass c * f (fst c)) (combine ms (map (Rmult k) ps)) = k * tot (fun c => mass c * f (fst c)) (combine ms ps)).
  { intros f. rewrite C, tot_map, <- tot_scal. apply tot_ext. intros; unfold mass; cbn; ring. }
  assert (T2 : tot share (combine ms (map (Rmult k) ps)) = k * tot share (combine ms ps)).
  { rewrite C, tot_map, <- tot_scal. apply tot_ext. intros; unfold share; cbn; ring. }
  assert (T3 : tot mass (combine ms (map (Rmult k) ps)) = k * tot mass (combine ms ps)).
  { rewrite C, tot_map, <- tot_scal. apply tot_ext. intros; unfold mass; cbn; ring. }
  assert (S : sound_parts (combine ms (map (Rmult k) ps)) <-> sound_parts (combine ms ps)).
  { unfold sound_parts. rewrite T2, T3, (T1 (fun m => / mX0 m)). rewrite C at 1 2 3. rewrite !tot_map, Forall_map. cbn [fst].
    assert (Z : forall x, k * x <> 0 <-> x <> 0).
    { intros x. split; [intros H E; apply H; rewrite E; ring|intros; now apply Rmult_integral_contrapositive_currified]. }
    rewrite !Z. reflexivity. }
  assert (L' : length ns = length (map (Rmult k) ps)) by now rewrite map_length.
  destruct (mixture_known d ns ms _ rho F L') as [G B]. destruct (mixture_known d ns ms ps rho F L) as [G' B'].
  destruct (Classical_Prop.classic (sound_parts (combine ms ps))) as [H|H].
  - rewrite G, G'; [|auto|now apply S]. f_equal. unfold blend. destruct H as (N1 & N2 & _ & _ & _ & N6).
    rewrite !T2, !T3, (T mA), (T mST), (T mSI), (T mSR), (T mZ), (T1 mdE), (T1 (fun m => / mX0 m)).
    f_equal. f_equal; field; auto.
  - rewrite B, B'; auto. now rewrite S.
Qed.
Example C280_example : mixture two [of_string "a"; of_string "b"] (map (Rmult 100) [0.03; 0.01]) 2000 = mixture two [of_string "a"; of_string "b"] [0.03; 0.01] 2000 /\
  exists m, mixture two [of_string "a"; of_string "b"] [0.03; 0.01] 2000 = Ok m.
Proof. split; [apply C280_scale; lra|]. eexists. apply two_mix; lra. Qed.

(** ** C281: the order of the parts does not matter *)
Definition mat_of (d : db) (n : str) : material := match assoc n d with Some (Some m) => m | _ => default_material end.
Lemma known_map d ns ms : known d ns ms -> ms = map (mat_of d) ns.
Proof. unfold known. induction 1 as [|n m ns ms H _ IH]; cbn; [auto|]. unfold mat_of at 1. now rewrite H, <- IH. Qed.
Lemma combine_map_l {A B C} (f : A -> C) (l : list A) (ps : list B) : combine (map f l) ps = map (fun c => (f (fst c), snd c)) (combine l ps).
Proof. revert ps; induction l as [|a l IH]; destruct ps; cbn; auto. now rewrite IH. Qed.
Lemma combine_fst {A B} (l : list A) (ps : list B) : length l = length ps -> map fst (combine l ps) = l.
Proof. revert ps; induction l as [|a l IH]; destruct ps; cbn; intros; try discriminate; auto. rewrite IH; auto. Qed.
Theorem C281_order d ns ps ns' ps' rho m : length ns = length ps -> length ns' = length ps' ->
  Permutation (combine ns ps) (combine ns' ps') -> mixture d ns ps rho = Ok m ->
  exists m' l l', mixture d ns' ps' rho = Ok m' /\ same_bulk m m' /\ mlam m = mlam m' /\ mextra m = mextra m' /\
    mmix m = Some l /\ mmix m' = Some l' /\ Permutation l l'.
Proof.
  intros L L' P H. destruct (mixture_ok _ _ _ _ _ H) as (ms & K & _ & S & ->).
  assert (Pn : Permutation ns ns').
  { rewrite <- (combine_fst ns ps L), <- (combine_fst ns' ps' L'). now apply Permutation_map. }
  pose proof (known_map _ _ _ K) as E.
  assert (K' : known d ns' (map (mat_of d) ns')).
  { assert (A : forall n, In n ns -> assoc n d = Some (Some (mat_of d n))).
    { unfold known in K. clear -K. induction K as [|n m ns ms H K IH]; [intros ? []|]. intros k [<-|I]; [unfold mat_of; now rewrite H|auto]. }
    assert (A' : forall n, In n ns' -> assoc n d = Some (Some (mat_of d n))).
    { intros n I. apply A. eapply Permutation_in; [apply Permutation_sym; eauto|auto]. }
    clear -A'. unfold known. induction ns' as [|n r IH]; cbn; constructor; [apply A'; now left|apply IH; intros; apply A'; now right]. }
  set (ms' := map (mat_of d) ns') in *.
  assert (Q : Permutation (combine ms ps) (combine ms' ps')).
  { unfold ms'. rewrite E, !combine_map_l. now apply Permutation_map. }
  assert (Q2 : Permutation ms ms') by (unfold ms'; rewrite E; now apply Permutation_map).
  assert (S' : sound_parts (combine ms' ps')).
  { destruct S as (N1 & N2 & N3 & N4 & N5 & N6). unfold sound_parts.
    rewrite <- !(tot_perm _ _ _ Q). repeat split; auto. eapply Permutation_Forall; eauto. }
  exists (blend ms' ps' rho). do 2 eexists.
  split; [apply (proj1 (mixture_known d ns' ms' ps' rho K' L')); auto|].
  assert (BQ : forall x, update (mkM (tot (fun c => share c * mA (fst c)) (combine ms ps) / tot share (combine ms ps)) (tot (fun c => share c * mST (fst c)) (combine ms ps) / tot share (combine ms ps))
              (tot (fun c => share c * mSI (fst c)) (combine ms ps) / tot share (combine ms ps)) (tot (fun c => share c * mSR (fst c)) (combine ms ps) / tot share (combine ms ps))
              (tot (fun c => mass c * mdE (fst c)) (combine ms ps) / tot mass (combine ms ps)) (tot mass (combine ms ps) / tot (fun c => mass c * / mX0 (fst c)) (combine ms ps)) rho
              (tot (fun c => share c * mZ (fst c)) (combine ms ps) / tot share (combine ms ps)) Unset (Some []) x) =
    update (mkM (tot (fun c => share c * mA (fst c)) (combine ms' ps') / tot share (combine ms' ps')) (tot (fun c => share c * mST (fst c)) (combine ms' ps') / tot share (combine ms' ps'))
              (tot (fun c => share c * mSI (fst c)) (combine ms' ps') / tot share (combine ms' ps')) (tot (fun c => share c * mSR (fst c)) (combine ms' ps') / tot share (combine ms' ps'))
              (tot (fun c => mass c * mdE (fst c)) (combine ms' ps') / tot mass (combine ms' ps')) (tot mass (combine ms' ps') / tot (fun c => mass c * / mX0 (fst c)) (combine ms' ps')) rho
              (tot (fun c => share c * mZ (fst c)) (combine ms' ps') / tot share (combine ms' ps')) Unset (Some []) x)).
  { intros x. now rewrite !(tot_perm _ _ _ Q). }
  unfold blend, same_bulk. rewrite BQ. unfold update. cbn [mA mST mSI mSR mdE mX0 mrho mZ mlam mextra mmix].
  split; [repeat split|]. split; [auto|]. split; [auto|]. split; [reflexivity|]. split; [reflexivity|].
  rewrite (tot_perm mSR _ _ Q2), (tot_perm mST _ _ Q2). now apply Permutation_map.
Qed.
Example C281_example : exists m m', mixture two [of_string "a"; of_string "b"] [3; 1] 2000 = Ok m /\
  mixture two [of_string "b"; of_string "a"] [1; 3] 2000 = Ok m' /\ same_bulk m m'.
Proof.
  assert (H : mixture two [of_string "a"; of_string "b"] [3; 1] 2000 = Ok (blend [m_a; m_b] [3; 1] 2000)) by (apply two_mix; lra).
  destruct (C281_order two [of_string "a"; of_string "b"] [3; 1] [of_string "b"; of_string "a"] [1; 3] 2000 _ eq_refl eq_refl (perm_swap _ _ _) H) as (m' & l & l' & G & B & _).
  exists (blend [m_a; m_b] [3; 1] 2000), m'. auto.
Qed.

(** ** C282: a mixture of one part is that part *)
Theorem C282_single d n x p rho : assoc n d = Some (Some x) -> p <> 0 -> mA x <> 0 -> mSR x <> 0 -> mST x <> 0 -> mX0 x <> 0 ->
  exists m, mixture d [n] [p] rho = Ok m /\ mrho m = rho /\ (rho = mrho x -> same_bulk m x) /\ mA m = mA x /\ mZ m = mZ x /\ mST m = mST x /\
    mSI m = mSI x /\ mSR m = mSR x /\ mdE m = mdE x /\ mX0 m = mX0 x /\ forall r, nucleus_R m r = Ok (mA x) /\ nucleus_H m r = Ok (mA x).
Proof.
  intros H P NA NR NT NX. assert (K : known d [n] [x]) by (repeat constructor; auto).
  exists (blend [x] [p] rho). split.
  - apply (proj1 (mixture_known d _ _ [p] rho K eq_refl)). unfold sound_parts, share, mass. cbn.
    rewrite !Rplus_0_r. pose proof (Rinv_neq_0_compat _ NX). pose proof (Rmult_integral_contrapositive_currified _ _ P NA).
    repeat split; auto.
  - unfold blend, same_bulk, update, share, mass. cbn [combine tot fst snd mX0 mA mST mSR mSI mZ mrho mdE mmix map].
    split; [auto|]. split; [intros ->; repeat split; try (field; auto)|].
    repeat split; try (field; auto).
Qed.
Example C282_example : exists m, mixture two [of_string "b"] [7] 3000 = Ok m /\ same_bulk m m_b.
Proof.
  destruct (C282_single two (of_string "b") m_b 7 3000 eq_refl ltac:(lra) ltac:(cbn [m_b new_material update mA]; lra) ltac:(cbn [m_b new_material update mSR]; lra)
    ltac:(cbn [m_b new_material update mST]; lra) ltac:(cbn [m_b new_material update mX0]; lra)) as (m & H & _ & B & _).
  exists m. split; [auto|]. now apply B.
Qed.

(** ** C283: with shares of one sign the averages lie between the least and the
    greatest of the parts *)
Lemma mean_between {A} (l : list A) (w f : A -> R) x lo hi : Forall (fun a => 0 <= w a) l -> Forall (fun a => lo <= f a <= hi) l ->
  is_mean l w f x -> lo <= x <= hi.
Proof.
  intros W F [N E].
  assert (P : 0 < tot w l).
  { assert (Z : 0 <= tot w l) by (clear -W; induction W; cbn; lra). lra. }
  assert (B : lo * tot w l <= tot (fun a => w a * f a) l <= hi * tot w l).
  { rewrite <- !tot_scal. clear -W F. split; apply tot_le; rewrite Forall_forall in *; intros a I; specialize (W a I); specialize (F a I); nra. }
  rewrite <- E in B. split; apply Rmult_le_reg_r with (tot w l); lra.
Qed.
Theorem C283_between d ns ps rho m ms : mixture d ns ps rho = Ok m -> known d ns ms -> Forall (fun p => 0 <= p) ps -> Forall (fun x => 0 < mA x) ms ->
  forall f, In f [mA; mZ; mST; mSI; mSR; mdE] -> forall lo hi, Forall (fun x => lo <= f x <= hi) ms -> lo <= f m <= hi.
Proof.
  intros H K P A f I lo hi B.
  destruct (C279_averages _ _ _ _ _ H) as (ms' & K' & L & (E1 & E2 & E3 & E4 & E5 & E6 & _) & _).
  apply find_all_known in K, K'. rewrite K in K'. injection K' as <-. apply find_all_known, known_length in K.
  assert (W : Forall (fun c => 0 <= share c) (combine ms ps)).
  { apply Forall_forall. intros [x p] J. apply in_combine_r in J. rewrite Forall_forall in P. apply P, J. }
  assert (W2 : Forall (fun c => 0 <= mass c) (combine ms ps)).
  { apply Forall_forall. intros [x p] J. rewrite Forall_forall in P, A. pose proof (P _ (in_combine_r _ _ _ _ J)). pose proof (A _ (in_combine_l _ _ _ _ J)). unfold mass; cbn. nra. }
  assert (F : Forall (fun c => lo <= f (fst c) <= hi) (combine ms ps)).
  { apply Forall_forall. intros [x p] J. apply in_combine_l in J. rewrite Forall_forall in B. apply B, J. }
  destruct I as [<-|[<-|[<-|[<-|[<-|[<-|[]]]]]]].
  1: apply (mean_between _ _ _ _ lo hi W F E1). 1: apply (mean_between _ _ _ _ lo hi W F E2). 1: apply (mean_between _ _ _ _ lo hi W F E3).
  1: apply (mean_between _ _ _ _ lo hi W F E4). 1: apply (mean_between _ _ _ _ lo hi W F E5). apply (mean_between _ _ _ _ lo hi W2 F E6).
Qed.
Example C283_example : exists m, mixture two [of_string "a"; of_string "b"] [5; 2] 2000 = Ok m /\ 2 <= mA m <= 6.
Proof.
  exists (blend [m_a; m_b] [5; 2] 2000). split; [apply two_mix; lra|].
  apply (C283_between two [of_string "a"; of_string "b"] [5; 2] 2000 _ [m_a; m_b]); [apply two_mix; lra|apply two_known| | |cbn; tauto|];
  repeat constructor; try lra; cbn [m_a m_b new_material update mA]; lra.
Qed.

Print Assumptions C279_averages.
Print Assumptions C279_accepts.
Print Assumptions C279_rejects.
Print Assumptions C280_scale.
Print Assumptions C281_order.
Print Assumptions C282_single.
Print Assumptions C283_between.
