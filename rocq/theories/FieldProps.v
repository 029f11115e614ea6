(* C47, C96, C97, C98: multipole fields *)
From Coq Require Import ZArith Psatz.
From Verif Require Import RBase Rot Cplx CplxFacts Field.
Local Open Scope R_scope.

(* specification: the coefficient of (x+iy)^n, zero beyond the stored ones *)
Definition coef (f : field) (n : nat) : cx := nth n (ex f) c0.
Definition term (f : field) (z : cx) (n : nat) : cx := cscale (b0 f) (cmul (coef f n) (cpow z n)).
Definition total (f : field) (z : cx) (ns : list nat) : cx := csum (map (term f z) ns).

Lemma grow_nth n l k : nth k (grow n l) c0 = nth k l c0.
Proof.
  unfold grow. destruct (Nat.ltb_spec k (length l)); [now apply app_nth1|]. rewrite app_nth2 by lia. rewrite (nth_overflow l) by lia. generalize (k - length l)%nat (n - length l)%nat. clear. intros i j. revert i. induction j; intros [|i]; cbn; auto.
Qed.
Lemma grow_length n l : length (grow n l) = Nat.max n (length l).
Proof. unfold grow. rewrite app_length, repeat_length. lia. Qed.
Lemma put_nth l n c k : (n < length l)%nat -> nth k (put l n c) c0 = if Nat.eqb k n then c else nth k l c0.
Proof.
  intros H. unfold put. destruct (upd_some _ l n c H) as (l' & E). rewrite E. destruct (Nat.eqb_spec k n) as [->|N].
  - apply nth_error_nth. eapply upd_nth_same; eauto.
  - pose proof (upd_nth_other _ l n c l' k E N) as O. destruct (nth_error l k) eqn:K.
    + rewrite (nth_error_nth _ _ _ O), (nth_error_nth _ _ _ K). reflexivity.
    + apply nth_error_None in K. rewrite (nth_overflow l) by lia. apply nth_error_None in O. now rewrite (nth_overflow l') by lia.
Qed.
Lemma put_length l n c : length (put l n c) = length l.
Proof. unfold put. destruct (upd l n c) eqn:E; auto. eapply upd_length; eauto. Qed.
Lemma nth_repeat0 n k : nth k (repeat c0 n) c0 = c0.
Proof. revert k. induction n; intros [|k]; cbn; auto. Qed.
(* C47: setting one component *)
Theorem C47_component np bn an r0 f : b0 f <> 0 -> r0 <> 0 -> exists f', set_component np bn an r0 f = Ok f' /\ snd (get_component np r0 f') = mkCx bn an /\
  b0 f' = b0 f /\ length (ex f') = Nat.max (S np) (length (ex f)) /\ forall k, k <> np -> coef f' k = coef f k.
Proof.
  intros B H. unfold set_component. destruct (Reqb_spec (b0 f) 0); [contradiction|]. eexists. split; [reflexivity|]. assert (P : r0 ^ np <> 0) by now apply pow_nonzero.
  assert (L : (np < length (grow (np + 1) (ex f)))%nat) by (rewrite grow_length; lia).
  unfold get_component, get_coefficient, coef. cbn [b0 ex snd fst]. repeat split.
  - rewrite grow_nth, put_nth, Nat.eqb_refl by auto. apply cx_eq; cbn; field; auto.
  - rewrite put_length, grow_length. lia.
  - intros k K. rewrite put_nth by auto. destruct (Nat.eqb_spec k np); [contradiction|]. apply grow_nth.
Qed.
Print Assumptions C47_component.
Theorem C47_coefficient np b r0 f : r0 <> 0 -> let f' := set_coefficient np b r0 f in snd (get_coefficient np r0 f') = b /\
  b0 f' = b0 f /\ length (ex f') = Nat.max (S np) (length (ex f)) /\ forall k, k <> np -> coef f' k = coef f k.
Proof.
  intros H. assert (P : r0 ^ np <> 0) by now apply pow_nonzero. assert (L : (np < length (grow (np + 1) (ex f)))%nat) by (rewrite grow_length; lia).
  unfold set_coefficient, get_coefficient, coef. cbn [b0 ex snd fst]. repeat split.
  - rewrite grow_nth, put_nth, Nat.eqb_refl by auto. apply cx_eq; cbn; field; auto.
  - rewrite put_length, grow_length. lia.
  - intros k K. rewrite put_nth by auto. destruct (Nat.eqb_spec k np); [contradiction|]. apply grow_nth.
Qed.
Print Assumptions C47_coefficient.
(* reading: the value in terms of the coefficients, and reading keeps all of them *)
Theorem C47_reading np r0 f : get_component np r0 f = (fst (get_coefficient np r0 f), cscale (b0 f * r0 ^ np) (coef f np)) /\ snd (get_coefficient np r0 f) = cscale (r0 ^ np) (coef f np) /\
  b0 (fst (get_coefficient np r0 f)) = b0 f /\ (forall k, coef (fst (get_coefficient np r0 f)) k = coef f k) /\ length (ex (fst (get_coefficient np r0 f))) = Nat.max (S np) (length (ex f)).
Proof.
  unfold get_component, get_coefficient, coef. cbn [fst snd b0 ex]. repeat split; rewrite ?grow_nth; auto.
  - f_equal. apply cx_eq; cbn; ring.
  - intros. apply grow_nth.
  - rewrite grow_length. lia.
Qed.
Print Assumptions C47_reading.
(* a finding: reading can raise the highest multipole *)
Theorem C47_reading_grows_refuted : exists f np, highest (fst (get_component np 1 f)) <> highest f.
Proof. exists (null_field 1 0), 3%nat. unfold highest, get_component, get_coefficient, null_field, grow. cbn. discriminate. Qed.
Print Assumptions C47_reading_grows_refuted.
(* the field as a series *)
Lemma csum_app a b : csum (a ++ b) = cadd (csum a) (csum b).
Proof. induction a as [|x a IH]; cbn [app csum]; [apply cx_eq; cbn; ring|rewrite IH; ring]. Qed.
Lemma start_power_ok z0 n : forall z, start_power z0 n z = cmul z (cpow z0 n).
Proof. induction n as [|n IH]; intros z; cbn [start_power cpow]; [|rewrite IH]; ring. Qed.
Lemma terms_ok z0 : forall l k z acc, z = cpow z0 k -> terms l z0 z acc = cadd acc (csum (map (fun n => cmul (nth (n - k) l c0) (cpow z0 n)) (seq k (length l)))).
Proof.
  induction l as [|c l IH]; intros k z acc ->; cbn [terms length seq map csum]; [change (mkCx 0 0) with c0; ring|]. rewrite (IH (S k)) by (cbn [cpow]; ring). rewrite Nat.sub_diag. change (nth 0 (c :: l) c0) with c. rewrite (map_ext_in (fun n => cmul (nth (n - S k) l c0) (cpow z0 n)) (fun n => cmul (nth (n - k) (c :: l) c0) (cpow z0 n))); [ring|].
  intros n I. apply in_seq in I. replace (n - k)%nat with (S (n - S k)) by lia. reflexivity.
Qed.
Lemma csum_scale k l : cscale k (csum l) = csum (map (cscale k) l).
Proof. induction l as [|x l IH]; cbn [map csum]; [apply cx_eq; cbn; ring|]. rewrite <- IH, !cscale_mul. ring. Qed.
Lemma nth_skipn {A} (l : list A) k n d : nth n (skipn k l) d = nth (k + n) l d.
Proof. revert l n. induction k as [|k IH]; intros l n; [reflexivity|]. destruct l; [destruct n; reflexivity|]. cbn. apply IH. Qed.
Theorem C47_series f x y exclude : (-1 <= exclude)%Z -> eps < Rabs (b0 f) ->
  field2d f x y exclude = Ok (total f (mkCx x y) (filter (fun n => Z.ltb exclude (Z.of_nat n)) (seq 0 (length (ex f))))).
Proof.
  intros He B. unfold field2d, is_null, fequal, fequal_tol. replace (b0 f - 0) with (b0 f) by ring. destruct (Rleb_spec (Rabs (b0 f)) eps); [lra|]. cbn [orb].
  assert (F : forall n k e, (e <= k + n)%nat -> (k <= e)%nat -> filter (fun i => Z.ltb exclude (Z.of_nat i)) (seq k n) = seq e (k + n - e) \/ Z.of_nat e <> (exclude + 1)%Z).
  { clear. induction n as [|n IH]; intros k e A C; cbn [seq filter]; [left; now replace (k + 0 - e)%nat with 0%nat by lia|]. destruct (Z.eq_dec (Z.of_nat e) (exclude + 1)) as [E|]; [|now right]. left. destruct (Nat.eq_dec k e) as [->|N].
    - destruct (Z.ltb_spec exclude (Z.of_nat e)); [|lia]. replace (e + S n - e)%nat with (S n) by lia. cbn [seq]. f_equal. clear IH. assert (G : forall m j, (e <= j)%nat -> filter (fun i => Z.ltb exclude (Z.of_nat i)) (seq j m) = seq j m). { induction m as [|m IHm]; intros j J; cbn [seq filter]; auto. destruct (Z.ltb_spec exclude (Z.of_nat j)); [|lia]. f_equal. apply IHm. lia. } apply G. lia.
    - destruct (Z.ltb_spec exclude (Z.of_nat k)); [lia|]. destruct (IH (S k) e) as [I|I]; [lia|lia| |lia]. rewrite I. f_equal. lia. }
  destruct (Z.ltb_spec (Z.of_nat (length (ex f))) (exclude + 1)).
  - f_equal. unfold total. assert (E : filter (fun n => Z.ltb exclude (Z.of_nat n)) (seq 0 (length (ex f))) = []). { clear - H. assert (G : forall m j, (Z.of_nat (j + m) <= exclude)%Z -> filter (fun i => Z.ltb exclude (Z.of_nat i)) (seq j m) = []). { induction m as [|m IHm]; intros j J; cbn [seq filter]; auto. destruct (Z.ltb_spec exclude (Z.of_nat j)); [lia|]. apply IHm. lia. } apply G. lia. }
    rewrite E. reflexivity.
  - destruct (Z.ltb_spec (exclude + 1) 0); [lia|]. f_equal. set (e := Z.to_nat (exclude + 1)). destruct (F (length (ex f)) 0%nat e) as [E|E]; [unfold e; lia|lia| |unfold e in E; lia]. rewrite E. rewrite (terms_ok _ _ e) by (rewrite start_power_ok; ring). replace (cadd c0 (csum _)) with (csum (map (fun n => cmul (nth (n - e) (skipn e (ex f)) c0) (cpow (mkCx x y) n)) (seq e (length (skipn e (ex f)))))) by ring.
    rewrite csum_scale, map_map, skipn_length. unfold total. f_equal. apply map_ext_in. intros j I. apply in_seq in I. unfold term, coef. rewrite nth_skipn. replace (e + (j - e))%nat with j by lia. reflexivity.
Qed.
Print Assumptions C47_series.
(* a finding: scales below the tolerance give no field although the components are there *)
Theorem C47_tiny_scale f x y e : Rabs (b0 f) <= eps -> field2d f x y e = Ok c0.
Proof. intros B. unfold field2d, is_null, fequal, fequal_tol. replace (b0 f - 0) with (b0 f) by ring. destruct (Rleb_spec (Rabs (b0 f)) eps); [reflexivity|lra]. Qed.
Print Assumptions C47_tiny_scale.
Theorem C47_tiny_scale_refuted : exists f f' x y, set_component 1 1 0 1 f = Ok f' /\ snd (get_component 1 1 f') = mkCx 1 0 /\ field2d f' x y (-1) = Ok c0 /\ total f' (mkCx x y) (seq 0 (length (ex f'))) = mkCx 1 0.
Proof.
  pose proof eps_pos as E. destruct (C47_component 1 1 0 1 (null_field eps 0)) as (f' & S & G & Bf & L & O); [cbn; lra|lra|]. exists (null_field eps 0), f', 1, 0. split; auto. split; auto. split; [apply C47_tiny_scale; rewrite Bf; cbn; rewrite Rabs_pos_eq; lra|].
  rewrite L. cbn [Nat.max length null_field ex repeat seq]. unfold total. cbn [map csum]. unfold term. rewrite (O 0%nat) by lia. cbn [null_field coef ex repeat nth]. rewrite (proj1 (C47_reading 1 1 f')) in G. cbn [snd] in G. rewrite Bf in *. cbn in G. apply cx_eq; cbn; apply (f_equal re) in G as G1; apply (f_equal im) in G as G2; cbn in G1, G2; nra.
Qed.
Print Assumptions C47_tiny_scale_refuted.
Theorem C47_bad_exclude f x y e : (e < -1)%Z -> eps < Rabs (b0 f) -> field2d f x y e = UB.
Proof. intros H B. unfold field2d, is_null, fequal, fequal_tol. replace (b0 f - 0) with (b0 f) by ring. destruct (Rleb_spec (Rabs (b0 f)) eps); [lra|]. cbn [orb]. destruct (Z.ltb_spec (Z.of_nat (length (ex f))) (e + 1)); [lia|]. destruct (Z.ltb_spec (e + 1) 0); [reflexivity|lia]. Qed.
Print Assumptions C47_bad_exclude.
(* lowest multipole *)
Theorem C47_lowest f n : lowest f = Ok n <-> (n < length (ex f))%nat /\ coef f n <> c0 /\ forall k, (k < n)%nat -> coef f k = c0.
Proof.
  unfold lowest, coef. assert (G : forall l m, lowest_loop l m = Ok n <-> (m <= n < m + length l)%nat /\ nth (n - m) l c0 <> c0 /\ forall k, (k < n - m)%nat -> nth k l c0 = c0).
  { induction l as [|z l IH]; intros m; cbn [lowest_loop length nth].
    - split; [discriminate|]. intros (A & _). lia.
    - assert (Z : Reqb (re z) 0 && Reqb (im z) 0 = true <-> z = c0). { destruct (Reqb_spec (re z) 0), (Reqb_spec (im z) 0); cbn; split; intros; try discriminate; try (subst z; cbn in *; congruence); auto. apply cx_eq; auto. }
      destruct (Reqb (re z) 0 && Reqb (im z) 0).
      + destruct Z as [Z _]. specialize (Z eq_refl). subst z. rewrite IH. split.
        * intros (A & B & C). replace (n - m)%nat with (S (n - S m)) by lia. split; [lia|]. split; auto. intros [|k] K; auto. apply C. lia.
        * intros (A & B & C). destruct (n - m)%nat as [|j] eqn:E; [congruence|]. replace (n - S m)%nat with j by lia. split; [lia|]. split; auto. intros k K. apply (C (S k)). lia.
      + split.
        * intros E. assert (m = n) as <- by congruence. rewrite Nat.sub_diag. split; [lia|]. split; [|intros; lia]. intros E2. apply Z in E2. discriminate.
        * intros (A & B & C). destruct (n - m)%nat as [|j] eqn:E; [f_equal; lia|]. specialize (C 0%nat ltac:(lia)). cbn in C. destruct Z as [_ Z]. specialize (Z C). discriminate. }
  rewrite G, Nat.sub_0_r. split; intros (A & B & C); repeat split; auto; lia.
Qed.
Print Assumptions C47_lowest.
Theorem C47_lowest_of_nothing_refuted f : (forall n, coef f n = c0) -> lowest f = UB.
Proof.
  intros H. destruct (lowest f) as [n|[]|] eqn:E; auto.
  - apply C47_lowest in E. destruct E as (_ & E & _). now rewrite H in E.
  - exfalso. clear H. unfold lowest in E. revert E. generalize 0%nat. induction (ex f); intros n; cbn; [discriminate|]. destruct (_ && _); [apply IHl|discriminate].
Qed.
Print Assumptions C47_lowest_of_nothing_refuted.
Example C47_ex : exists f', set_component 2 3 4 (1/2) (single_n 1 5 false) = Ok f' /\ coef f' 1 = c1 /\ b0 f' = 5 / 1.
Proof.
  destruct (C47_component 2 3 4 (1/2) (single_n 1 5 false)) as (f' & E & _ & B & _ & O); [|lra|].
  - unfold single_n, factorial. cbn. destruct (Reqb_spec 1 0); lra.
  - exists f'. split; auto. split; [rewrite O by lia; reflexivity|]. rewrite B. unfold single_n, factorial. cbn. destruct (Reqb_spec 1 0); lra.
Qed.
(* C96: Maxwell's equations and the force *)
Fixpoint peval (l : list cx) (z : cx) : cx := match l with [] => c0 | c :: l' => cadd c (cmul z (peval l' z)) end.
Fixpoint padd (a b : list cx) : list cx := match a, b with [], _ => b | _, [] => a | x :: a', y :: b' => cadd x y :: padd a' b' end.
Fixpoint pd (l : list cx) : list cx := match l with [] => [] | _ :: l' => padd l' (c0 :: pd l') end.
Lemma padd_eval a : forall b z, peval (padd a b) z = cadd (peval a z) (peval b z).
Proof. induction a as [|x a IH]; intros b z; cbn [padd peval]; [ring|]. destruct b; cbn [peval]; [ring|]. rewrite IH. ring. Qed.
Lemma pd_nth l : forall k, nth k (pd l) c0 = cscale (INR (S k)) (nth (S k) l c0).
Proof.
  assert (P : forall a b k, nth k (padd a b) c0 = cadd (nth k a c0) (nth k b c0)). { induction a as [|x a IH]; intros [|y b] [|k]; cbn [padd nth]; try ring; auto. }
  induction l as [|c l IH]; intros k; [destruct k; apply cx_eq; cbn; ring|]. cbn [pd]. rewrite P. destruct k as [|k]; cbn [nth].
  - apply cx_eq; cbn; ring.
  - rewrite IH. rewrite (S_INR (S k)). apply cx_eq; cbn [re im cadd cscale]; ring.
Qed.
Lemma peval_deriv l : forall g t u, cderiv g t u -> cderiv (fun s => peval l (g s)) t (cmul (peval (pd l) (g t)) u).
Proof.
  induction l as [|c l IH]; intros g t u H; cbn [peval pd].
  - replace (cmul c0 u) with c0 by ring. apply cderiv_const.
  - rewrite padd_eval. cbn [peval]. replace (cmul (cadd (peval l (g t)) (cadd c0 (cmul (g t) (peval (pd l) (g t))))) u) with (cadd c0 (cadd (cmul u (peval l (g t))) (cmul (g t) (cmul (peval (pd l) (g t)) u)))) by ring.
    apply (cderiv_add (fun _ => c)); [apply cderiv_const|]. apply (cderiv_mul g); auto.
Qed.
Lemma terms_eval z0 : forall l z acc, terms l z0 z acc = cadd acc (cmul z (peval l z0)).
Proof. induction l as [|c l IH]; intros z acc; cbn [terms peval]; [|rewrite IH]; ring. Qed.
Lemma field_eval f x y : field2d f x y (-1) = Ok (if is_null f then c0 else cscale (b0 f) (peval (ex f) (mkCx x y))).
Proof.
  unfold field2d. change (-1 + 1)%Z with 0%Z. destruct (is_null f); cbn [orb]; auto. destruct (Z.ltb_spec (Z.of_nat (length (ex f))) 0); [lia|]. change (Z.ltb 0 0) with false. change (Z.to_nat 0) with 0%nat. cbn [skipn start_power]. rewrite terms_eval. f_equal. f_equal. ring.
Qed.
Definition bx (f : field) (x y : R) : R := match b_at f (mkV3 x y 0) with Ok b => cx_ b | _ => 0 end.
Definition by_ (f : field) (x y : R) : R := match b_at f (mkV3 x y 0) with Ok b => cy_ b | _ => 0 end.
Lemma b_at_ok f p : b_at f p = Ok (mkV3 (bx f (cx_ p) (cy_ p)) (by_ f (cx_ p) (cy_ p)) 0).
Proof. unfold bx, by_, b_at. cbn [cx_ cy_]. rewrite field_eval. reflexivity. Qed.
(* in every direction of the plane the field has the derivative of a holomorphic function: no divergence, no curl *)
Theorem C96_maxwell f x y : exists dxx dxy dyx dyy, derivable_pt_lim (fun t => bx f t y) x dxx /\ derivable_pt_lim (fun t => bx f x t) y dxy /\ derivable_pt_lim (fun t => by_ f t y) x dyx /\ derivable_pt_lim (fun t => by_ f x t) y dyy /\
  dxx + dyy = 0 /\ dyx - dxy = 0.
Proof.
  assert (H : forall g t u, cderiv g t u -> cderiv (fun s => if is_null f then c0 else cscale (b0 f) (peval (ex f) (g s))) t (if is_null f then c0 else cmul (cscale (b0 f) (peval (pd (ex f)) (g t))) u)).
  { intros g t u D. destruct (is_null f); [apply cderiv_const|]. pose proof (peval_deriv (ex f) g t u D) as P. pose proof (cderiv_mul (fun _ => creal (b0 f)) _ t _ _ (cderiv_const _ t) P) as Q. replace (cmul (cscale (b0 f) (peval (pd (ex f)) (g t))) u) with (cadd (cmul c0 (peval (ex f) (g t))) (cmul (creal (b0 f)) (cmul (peval (pd (ex f)) (g t)) u))) by (rewrite cscale_mul; ring).
    destruct Q as [Q1 Q2]. split; [eapply (derivable_pt_lim_ext _ _ _ _ _ Q1)|eapply (derivable_pt_lim_ext _ _ _ _ _ Q2)]. Unshelve. all: intros s; cbn; ring. }
  assert (X : cderiv (fun s => mkCx s y) x (mkCx 1 0)) by (split; cbn; [apply derivable_pt_lim_id|apply derivable_pt_lim_const]).
  assert (Y : cderiv (fun s => mkCx x s) y (mkCx 0 1)) by (split; cbn; [apply derivable_pt_lim_const|apply derivable_pt_lim_id]).
  destruct (H _ _ _ X) as [X1 X2], (H _ _ _ Y) as [Y1 Y2].
  exists (im (if is_null f then c0 else cmul (cscale (b0 f) (peval (pd (ex f)) (mkCx x y))) (mkCx 1 0))), (im (if is_null f then c0 else cmul (cscale (b0 f) (peval (pd (ex f)) (mkCx x y))) (mkCx 0 1))), (re (if is_null f then c0 else cmul (cscale (b0 f) (peval (pd (ex f)) (mkCx x y))) (mkCx 1 0))), (re (if is_null f then c0 else cmul (cscale (b0 f) (peval (pd (ex f)) (mkCx x y))) (mkCx 0 1))).
  assert (E : forall a b, bx f a b = im (if is_null f then c0 else cscale (b0 f) (peval (ex f) (mkCx a b))) /\ by_ f a b = re (if is_null f then c0 else cscale (b0 f) (peval (ex f) (mkCx a b)))) by (intros a b; unfold bx, by_, b_at; cbn [cx_ cy_]; rewrite field_eval; cbn [bind cx_ cy_]; auto).
  repeat split.
  - eapply derivable_pt_lim_ext; [|exact X2]. intros t. symmetry. apply E.
  - eapply derivable_pt_lim_ext; [|exact Y2]. intros t. symmetry. apply E.
  - eapply derivable_pt_lim_ext; [|exact X1]. intros t. symmetry. apply E.
  - eapply derivable_pt_lim_ext; [|exact Y1]. intros t. symmetry. apply E.
  - destruct (is_null f); cbn; ring.
  - destruct (is_null f); cbn; ring.
Qed.
Print Assumptions C96_maxwell.
(* the force is the magnetic Lorentz force, which does no work *)
Theorem C96_force f p v q : exists F, force_at f p v q = Ok F /\ exists B, b_at f p = Ok B /\ cz_ B = 0 /\
  cx_ F = q * (cy_ v * cz_ B - cz_ v * cy_ B) /\ cy_ F = q * (cz_ v * cx_ B - cx_ v * cz_ B) /\ cz_ F = q * (cx_ v * cy_ B - cy_ v * cx_ B) /\
  cx_ F * cx_ v + cy_ F * cy_ v + cz_ F * cz_ v = 0.
Proof.
  unfold force_at, b_at. rewrite field_eval. cbn [bind]. eexists. split; [reflexivity|]. eexists. split; [reflexivity|]. cbn [cx_ cy_ cz_]. repeat split; ring.
Qed.
Print Assumptions C96_force.
Example C96_ex : bx (single_n 1 5 false) 2 3 = 15 /\ by_ (single_n 1 5 false) 2 3 = 10.
Proof.
  pose proof eps_small as E. assert (F : factorial 1 = 1) by (unfold factorial; cbn; destruct (Reqb_spec 1 0); lra).
  assert (N : is_null (single_n 1 5 false) = false). { unfold is_null, fequal, fequal_tol, single_n. cbn [b0]. rewrite F. replace (5 / 1 - 0) with 5 by field. rewrite Rabs_pos_eq by lra. destruct (Rleb_spec 5 eps); [lra|reflexivity]. }
  unfold bx, by_, b_at. cbn [cx_ cy_]. rewrite field_eval, N. unfold single_n. rewrite F. cbn. split; field.
Qed.
(* C97: strengths *)
Lemma fact_loop_ok n : forall f, fact_loop f n = f * INR (fact n).
Proof. induction n as [|n IH]; intros f; [cbn; ring|]. destruct n as [|n]; [cbn; ring|]. change (fact_loop f (S (S n))) with (fact_loop (f * INR (S (S n))) (S n)). rewrite IH. change (fact (S (S n))) with (S (S n) * fact (S n))%nat. rewrite mult_INR. ring. Qed.
Lemma factorial_ok n : factorial n = INR (fact n).
Proof.
  unfold factorial. rewrite fact_loop_ok. destruct n as [|n].
  - cbn. destruct (Reqb_spec (0 * 1) 0); lra.
  - replace (S n - 1)%nat with n by lia. replace (INR (S n) * INR (fact n)) with (INR (fact (S n))) by (cbn [fact]; rewrite <- mult_INR; f_equal; lia). pose proof (INR_fact_neq_0 (S n)). destruct (Reqb_spec (INR (fact (S n))) 0); [contradiction|reflexivity].
Qed.
Fixpoint derivs (n : nat) (l : list cx) : list cx := match n with O => l | S n => derivs n (pd l) end.
Lemma derivs_zero n : forall l, peval (derivs n l) c0 = cscale (INR (fact n)) (nth n l c0).
Proof.
  assert (G : forall n l k, nth k (derivs n l) c0 = cscale (INR (fact (n + k)) / INR (fact k)) (nth (n + k) l c0)).
  { clear n. induction n as [|n IH]; intros l k; cbn [derivs Nat.add].
    - apply cx_eq; cbn; field; apply INR_fact_neq_0.
    - rewrite IH, pd_nth. change (fact (S (n + k))) with (S (n + k) * fact (n + k))%nat. rewrite mult_INR. apply cx_eq; cbn [re im cscale]; field; apply INR_fact_neq_0. }
  intros l. assert (Z : forall l, peval l c0 = nth 0 l c0) by (intros [|c m]; cbn [peval nth]; ring). rewrite Z, G, Nat.add_0_r. cbn [fact INR]. apply cx_eq; cbn; field.
Qed.
(* Kn is the n-th complex derivative of By + i Bx at the origin over the rigidity *)
Theorem C97_kn f n rig : rig <> 0 -> get_kn f n rig = Ok (cscale (b0 f / rig) (peval (derivs n (ex f)) c0)).
Proof.
  intros H. unfold get_kn. destruct (Reqb_spec rig 0); [contradiction|]. f_equal. rewrite derivs_zero, factorial_ok. destruct (Nat.ltb_spec n (length (ex f))).
  - apply cx_eq; cbn; ring.
  - rewrite nth_overflow by lia. apply cx_eq; cbn; ring.
Qed.
Print Assumptions C97_kn.
(* [derivs 1] is the derivative of the polynomial along any path; the field is that polynomial times the scale *)
Theorem C97_derivative l g t u : cderiv g t u -> cderiv (fun s => peval l (g s)) t (cmul (peval (derivs 1 l) (g t)) u).
Proof. apply peval_deriv. Qed.
Print Assumptions C97_derivative.
Theorem C97_field f x y : eps < Rabs (b0 f) -> field2d f x y (-1) = Ok (cscale (b0 f) (peval (ex f) (mkCx x y))).
Proof. intros B. rewrite field_eval. unfold is_null, fequal, fequal_tol. replace (b0 f - 0) with (b0 f) by ring. destruct (Rleb_spec (Rabs (b0 f)) eps); [lra|reflexivity]. Qed.
Print Assumptions C97_field.
Theorem C97_gradient n bn skew : get_kn (single_n n bn skew) n 1 = Ok (cscale bn (unit_of skew)) /\ forall k, k <> n -> coef (single_n n bn skew) k = c0.
Proof.
  split.
  - unfold get_kn. destruct (Reqb_spec 1 0); [lra|]. unfold single_n. cbn [b0 ex]. rewrite put_length, repeat_length. destruct (Nat.ltb_spec n (n + 1)); [|lia]. rewrite put_nth, Nat.eqb_refl by (rewrite repeat_length; lia). f_equal. rewrite factorial_ok. pose proof (INR_fact_neq_0 n). apply cx_eq; cbn; field; auto.
  - intros k K. unfold coef, single_n. cbn [ex]. rewrite put_nth by (rewrite repeat_length; lia). destruct (Nat.eqb_spec k n); [contradiction|]. apply nth_repeat0.
Qed.
Print Assumptions C97_gradient.
(* the field constructors state the field at the pole radius *)
Theorem C97_pole_field n bn an r0 : r0 <> 0 -> (bn <> 0 \/ an <> 0) -> exists f, single_ba n bn an r0 = Some f /\ snd (get_component n r0 f) = mkCx bn an /\ csq (coef f n) = 1 /\ (forall k, k <> n -> coef f k = c0).
Proof.
  intros H NZ. assert (Q : 0 < csq (mkCx bn an)) by (unfold csq; cbn; destruct NZ; nra). pose proof (sqrt_lt_R0 _ Q) as S. pose proof (sqrt_sqrt _ (Rlt_le _ _ Q)) as SS. unfold single_ba. fold (cabs (mkCx bn an)) in *. unfold cabs in *. set (b := sqrt (csq (mkCx bn an))) in *. destruct (Reqb_spec b 0); [lra|]. assert (P : r0 ^ n <> 0) by now apply pow_nonzero. eexists. split; [reflexivity|].
  unfold get_component, get_coefficient, coef. cbn [snd ex b0]. assert (L : (n < length (repeat c0 (n + 1)))%nat) by (rewrite repeat_length; lia). split; [|split].
  - rewrite grow_nth, put_nth, Nat.eqb_refl by auto. apply cx_eq; cbn; field; auto.
  - rewrite put_nth, Nat.eqb_refl by auto. unfold csq in *. cbn in *. replace (bn / b * (bn / b) + an / b * (an / b)) with ((bn * bn + an * an) / (b * b)) by (field; lra). rewrite <- SS. field. lra.
  - intros k K. rewrite put_nth by auto. destruct (Nat.eqb_spec k n); [contradiction|]. apply nth_repeat0.
Qed.
Print Assumptions C97_pole_field.
Theorem C97_pole_field_skew n bn r0 skew : r0 <> 0 -> snd (get_component n r0 (single_r n bn r0 skew)) = cscale bn (unit_of skew) /\ forall k, k <> n -> coef (single_r n bn r0 skew) k = c0.
Proof.
  intros H. assert (P : r0 ^ n <> 0) by now apply pow_nonzero. assert (L : (n < length (repeat c0 (n + 1)))%nat) by (rewrite repeat_length; lia). unfold get_component, get_coefficient, coef, single_r. cbn [snd ex b0]. split.
  - rewrite grow_nth, put_nth, Nat.eqb_refl by auto. apply cx_eq; cbn; field; auto.
  - intros k K. rewrite put_nth by auto. destruct (Nat.eqb_spec k n); [contradiction|]. apply nth_repeat0.
Qed.
Print Assumptions C97_pole_field_skew.
Theorem C97_nothing_refuted n r0 : single_ba n 0 0 r0 = None.
Proof. unfold single_ba, cabs, csq. cbn. replace (0 * 0 + 0 * 0) with 0 by ring. rewrite sqrt_0. destruct (Reqb_spec 0 0); [reflexivity|lra]. Qed.
Print Assumptions C97_nothing_refuted.
Example C97_ex : get_kn (single_n 2 6 true) 2 3 = Ok (mkCx 0 2).
Proof. unfold get_kn. destruct (Reqb_spec 3 0); [lra|]. unfold single_n. cbn [b0 ex]. rewrite put_length. cbn. rewrite factorial_ok. f_equal. cbn. apply cx_eq; cbn; field. Qed.
(* C98: turning about the vertical *)
(* the turned field at (x, y): the field at (-x, y) with its horizontal part reversed *)
Definition conj (z : cx) : cx := mkCx (re z) (- im z).
Lemma rotate_nth l : forall e k, nth k (rotate_loop e l) c0 = if Bool.eqb e (Nat.even k) then conj (nth k l c0) else copp (conj (nth k l c0)).
Proof.
  induction l as [|z l IH]; intros e k; [destruct k; cbn [rotate_loop nth]; destruct (Bool.eqb _ _); apply cx_eq; cbn; ring|]. cbn [rotate_loop]. destruct k as [|k]; cbn [nth].
  - destruct e; cbn; [reflexivity|apply cx_eq; cbn; ring].
  - rewrite IH. rewrite Nat.even_succ, <- Nat.negb_even. destruct e, (Nat.even k); reflexivity.
Qed.
Lemma rotate_eval l : forall e z, peval (rotate_loop e l) z = (if e then conj (peval l (copp (conj z))) else copp (conj (peval l (copp (conj z))))).
Proof.
  induction l as [|c l IH]; intros e z; cbn [rotate_loop peval]; [destruct e; apply cx_eq; cbn; ring|]. rewrite IH. destruct e; cbn [negb]; apply cx_eq; cbn; ring.
Qed.
Theorem C98_twice f : rotate_y (rotate_y f) = f.
Proof.
  destruct f as [b l]. unfold rotate_y. cbn [b0 ex]. f_equal. generalize false. induction l as [|z l IH]; intros e; cbn [rotate_loop]; auto. rewrite IH. f_equal. destruct e; apply cx_eq; cbn; ring.
Qed.
Print Assumptions C98_twice.
Theorem C98_reversed_refuted f x y : bx (rotate_y f) x y = - (- bx f (- x) y) /\ by_ (rotate_y f) x y = - by_ f (- x) y.
Proof.
  unfold bx, by_, b_at. cbn [cx_ cy_]. rewrite !field_eval. change (is_null (rotate_y f)) with (is_null f). cbn [bind cx_ cy_]. destruct (is_null f); [cbn; split; ring|]. unfold rotate_y. cbn [b0 ex]. rewrite rotate_eval. replace (copp (conj (mkCx x y))) with (mkCx (- x) y) by (apply cx_eq; cbn; ring). split; cbn; ring.
Qed.
Print Assumptions C98_reversed_refuted.
(* so it is the turned field only where the field vanishes *)
Theorem C98_turned_refuted f : (forall x y, bx (rotate_y f) x y = - bx f (- x) y /\ by_ (rotate_y f) x y = by_ f (- x) y) <-> forall x y, bx f x y = 0 /\ by_ f x y = 0.
Proof.
  split.
  - intros H x y. specialize (H (- x) y). destruct (C98_reversed_refuted f (- x) y) as [A B]. replace (- - x) with x in * by ring. destruct H as [H1 H2]. rewrite A in H1. rewrite B in H2. lra.
  - intros H x y. destruct (C98_reversed_refuted f x y) as [-> ->]. destruct (H (- x) y) as [-> ->]. lra.
Qed.
Print Assumptions C98_turned_refuted.
Theorem C98_dipole_refuted : by_ (rotate_y (single_n 0 1 false)) 0 0 = -1 /\ by_ (single_n 0 1 false) 0 0 = 1.
Proof.
  assert (E : by_ (single_n 0 1 false) 0 0 = 1).
  { pose proof eps_small as E. assert (F : factorial 0 = 1) by (rewrite factorial_ok; cbn; lra). assert (N : is_null (single_n 0 1 false) = false). { unfold is_null, fequal, fequal_tol, single_n. cbn [b0]. rewrite F. replace (1 / 1 - 0) with 1 by field. rewrite Rabs_pos_eq by lra. destruct (Rleb_spec 1 eps); [lra|reflexivity]. }
    unfold by_, b_at. cbn [cx_ cy_]. rewrite field_eval, N. unfold single_n. rewrite F. cbn. field. }
  split; auto. destruct (C98_reversed_refuted (single_n 0 1 false) 0 0) as [_ ->]. rewrite Ropp_0, E. lra.
Qed.
Print Assumptions C98_dipole_refuted.
(* the highest multipole is the order last stored, and no order above it contributes *)
Theorem C47_highest : (forall np bn skew, highest (single_n np bn skew) = Z.of_nat np) /\ (forall np bn r0 skew, highest (single_r np bn r0 skew) = Z.of_nat np) /\
  (forall np bn an r0 f, single_ba np bn an r0 = Some f -> highest f = Z.of_nat np) /\ (forall s nt, highest (null_field s nt) = (Z.of_nat nt - 1)%Z) /\
  (forall np bn an r0 f f', set_component np bn an r0 f = Ok f' -> highest f' = Z.max (Z.of_nat np) (highest f)) /\
  (forall np b r0 f, highest (set_coefficient np b r0 f) = Z.max (Z.of_nat np) (highest f)) /\
  (forall np r0 f, highest (fst (get_component np r0 f)) = Z.max (Z.of_nat np) (highest f)) /\
  (forall f n, (highest f < Z.of_nat n)%Z -> coef f n = c0).
Proof.
  unfold highest. repeat split.
  - intros. unfold single_n. cbn [ex]. rewrite put_length, repeat_length. lia.
  - intros. unfold single_r. cbn [ex]. rewrite put_length, repeat_length. lia.
  - intros np bn an r0 f. unfold single_ba. destruct (Reqb _ 0); [discriminate |]. intros E. apply (f_equal (fun o => match o with Some g => length (ex g) | None => O end)) in E. cbn [ex] in E.
    rewrite put_length, repeat_length in E. lia.
  - intros. unfold null_field. cbn [ex]. rewrite repeat_length. lia.
  - intros np bn an r0 f f'. unfold set_component. destruct (Reqb _ 0); [discriminate |]. intros E. apply (f_equal (fun o => match o with Ok g => length (ex g) | _ => O end)) in E. cbn [ex] in E.
    rewrite put_length, grow_length in E. lia.
  - intros. unfold set_coefficient. cbn [ex]. rewrite put_length, grow_length. lia.
  - intros. unfold get_component, get_coefficient. cbn [fst ex]. rewrite grow_length. lia.
  - intros f n L. unfold coef. apply nth_overflow. lia.
Qed.
Print Assumptions C47_highest.
Example C47_highest_case : highest (set_coefficient 4 c1 1 (single_n 2 1 false)) = 4%Z /\ highest (set_coefficient 1 c1 1 (single_n 2 1 false)) = 2%Z.
Proof. split; reflexivity. Qed.
