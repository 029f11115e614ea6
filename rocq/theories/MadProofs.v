(* Lemmas about MADInterface. *)
From Coq Require Import String ZArith Psatz.
From Verif Require Import RBase StringPattern Cplx Field Lattice Mad MadSpec.
Local Open Scope R_scope.

Lemma lift_fin {A B} s (x : mres A) (f : A -> out B) b : lift s x f = Fin b -> exists a, x = Ok a /\ f a = Fin b.
Proof. destruct x; cbn; try discriminate. eauto. Qed.
Lemma liftl_fin {A B} (x : res lerr A) (f : A -> out B) b : liftl x f = Fin b -> exists a, x = Ok a /\ f a = Fin b.
Proof. destruct x; cbn; try discriminate. eauto. Qed.
Lemma omap_fin {A B} (x : out A) (f : A -> out B) b : omap x f = Fin b -> exists a, x = Fin a /\ f a = Fin b.
Proof. destruct x; cbn; try discriminate. eauto. Qed.
Lemma bind_ok {E A B} (x : res E A) (f : A -> res E B) b : bind x f = Ok b -> exists a, x = Ok a /\ f a = Ok b.
Proof. destruct x; cbn; try discriminate. eauto. Qed.

(* cells *)
Lemma cell_set n m x r : n <> m -> cell_of n (set_s m x r) = cell_of n r.
Proof.
  intros N. induction r as [| [k c] r IH]; [reflexivity |]. cbn [set_s]. destruct (str_eqb_spec k m) as [-> | K]; cbn [cell_of].
  - destruct (str_eqb_spec m n); [congruence | reflexivity].
  - destruct (str_eqb_spec k n); [reflexivity | exact IH].
Qed.
Lemma cell_set_same m x r : cell_of m r <> None -> cell_of m (set_s m x r) = Some (CS x).
Proof.
  induction r as [| [k c] r IH]; [cbn; congruence |]. cbn [set_s cell_of]. destruct (str_eqb_spec k m) as [-> | K]; cbn [cell_of].
  - intros _. rewrite str_eqb_refl. reflexivity.
  - intros H. destruct (str_eqb_spec k m); [contradiction | exact (IH H)].
Qed.
Definition same_cells (r r' : row) : Prop := forall n, n <> $"KEYWORD" -> cell_of n r' = cell_of n r.
Lemma same_set x r r' : same_cells r r' -> same_cells r (set_s $"KEYWORD" x r').
Proof. intros H n N. rewrite cell_set by exact N. apply H, N. Qed.
Lemma overrides_cells d sc r r' : overrides d sc r = Ok r' -> same_cells r r'.
Proof.
  unfold overrides. intros H. apply bind_ok in H as (kw & _ & H). cbv zeta in H.
  apply bind_ok in H as (r4 & E4 & H).
  assert (S4 : same_cells r r4).
  { assert (S0 : same_cells r r) by (intros n _; reflexivity).
    set (r1 := if mem kw d then _ else r) in *. assert (S1 : same_cells r r1) by (unfold r1; destruct (mem kw d); [apply same_set |]; exact S0).
    set (r2 := if str_eqb kw $"LCAV" then _ else r1) in *. assert (S2 : same_cells r r2) by (unfold r2; destruct (str_eqb kw _); [apply same_set |]; exact S1).
    set (r3 := if _ || _ then _ else r2) in *. assert (S3 : same_cells r r3) by (unfold r3; destruct (_ || _); [apply same_set |]; exact S2).
    destruct (str_eqb kw $"RBEND").
    - apply bind_ok in E4 as (k0 & _ & E4). injection E4 as <-. destruct (Reqb k0 0); [exact S3 | apply same_set, S3].
    - injection E4 as <-. exact S3. }
  destruct sc.
  - apply bind_ok in H as (kw' & _ & H). injection H as <-. destruct (str_eqb kw' _); [apply same_set |]; exact S4.
  - injection H as <-. exact S4.
Qed.
Lemma same_d n r r' : same_cells r r' -> n <> $"KEYWORD" -> get_d n r' = get_d n r.
Proof. intros S N. unfold get_d. rewrite (S n N). reflexivity. Qed.
Lemma same_s n r r' : same_cells r r' -> n <> $"KEYWORD" -> get_s n r' = get_s n r.
Proof. intros S N. unfold get_s. rewrite (S n N). reflexivity. Qed.
Lemma not_key_L : $"L" <> $"KEYWORD". Proof. discriminate. Qed.
Lemma not_key_NAME : $"NAME" <> $"KEYWORD". Proof. discriminate. Qed.

(* one LINE row *)
Definition line_step (s : mad) (name : str) : out mad :=
  match fstack s with
  | top :: st => if str_eqb name top then close_frame (with_stack s st) name else open_frame (with_stack s (name :: fstack s)) name
  | [] => open_frame (with_stack s (name :: fstack s)) name
  end.
Lemma step_cases s r s' : step s r = Fin s' -> exists type len, get_s $"KEYWORD" r = Ok type /\ get_d $"L" r = Ok len /\
  ((len = 0 /\ mem type (zero_types s) = true /\ s' = s) \/
   exists r', overrides (drift_types s) (single_cell s) r = Ok r' /\ (Reqb len 0 && mem type (zero_types s))%bool = false /\
   ((type = $"LINE" /\ flat_ s = true /\ s' = s) \/
    (type = $"LINE" /\ flat_ s = false /\ exists name, get_s $"NAME" r = Ok name /\ line_step s name = Fin s') \/
    (type = $"SROT" /\ exists name, get_s $"NAME" r = Ok name /\ place_patch s name = Fin s') \/
    (type <> $"LINE" /\ type <> $"SROT" /\ exists ms p, get_instance r' (rigidity (mom s)) = Ok ms /\ radiate s type len r' = Ok p /\ place_all (with_mom s p) ms = Fin s'))).
Proof.
  unfold step. intros H. apply lift_fin in H as (type & T & H). apply lift_fin in H as (len & L & H). exists type, len. split; [exact T |]. split; [exact L |].
  destruct (Reqb len 0 && mem type (zero_types s))%bool eqn:Z.
  - left. apply andb_prop in Z as [Z1 Z2]. destruct (Reqb_spec len 0); [| discriminate]. apply lift_fin in H as (nm & _ & H). injection H as <-. auto.
  - right. apply lift_fin in H as (r' & O & H). exists r'. split; [exact O |]. split; [reflexivity |]. pose proof (overrides_cells _ _ _ _ O) as SC.
    destruct (str_eqb_spec type $"LINE") as [-> | NL].
    + destruct (flat_ s) eqn:F; [left; injection H as <-; auto |]. right. left. apply lift_fin in H as (nm & N & H). rewrite (same_s _ _ _ SC not_key_NAME) in N. split; [reflexivity |]. split; [reflexivity |]. exists nm. split; [exact N |]. exact H.
    + destruct (str_eqb_spec type $"SROT") as [-> | NS].
      * right. right. left. apply lift_fin in H as (nm & N & H). rewrite (same_s _ _ _ SC not_key_NAME) in N. split; [reflexivity |]. exists nm. auto.
      * right. right. right. split; [exact NL |]. split; [exact NS |]. apply lift_fin in H as (ms & I & H). apply lift_fin in H as (p & P & H). exists ms, p. auto.
Qed.

(* what the rows cannot change *)
Definition same_settings (s s' : mad) : Prop :=
  inc_sr s' = inc_sr s /\ flat_ s' = flat_ s /\ single_cell s' = single_cell s /\ honour s' = honour s /\ appending s' = appending s /\
  zero_types s' = zero_types s /\ drift_types s' = drift_types s.
Lemma settings_refl s : same_settings s s. Proof. repeat split. Qed.
Lemma settings_trans a b c : same_settings a b -> same_settings b c -> same_settings a c.
Proof. unfold same_settings. intros (A1 & A2 & A3 & A4 & A5 & A6 & A7) (B1 & B2 & B3 & B4 & B5 & B6 & B7). repeat split; congruence. Qed.

Lemma fequal_00 : fequal 0 0 = true.
Proof. unfold fequal, fequal_tol. destruct (Rleb_spec (Rabs (0 - 0)) eps) as [A | A]; [reflexivity |]. exfalso. apply A. rewrite Rminus_0_r, Rabs_R0. unfold eps. lra. Qed.
(* appending to the constructor *)
Lemma append_frame_inv f k k' : append_component_frame f k = Ok k' -> exists f' i subs rest, stack k = (i, subs) :: rest /\ stack k' = (i, subs ++ [FComp f']) :: rest /\
  fcomp f' = fcomp f /\ fname f' = fname f /\ flat k' = flat k ++ [f'] /\ live k' = true.
Proof.
  unfold append_component_frame. destruct (live k); cbn [negb]; [| discriminate]. intros H. apply bind_ok in H as (st & A & H). injection H as <-.
  unfold append_top in A. destruct (stack k) as [| [i subs] rest] eqn:E; [discriminate |]. injection A as <-.
  exists (set_idx (length (flat k)) f), i, subs, rest. cbn. auto 6.
Qed.
Lemma components_app a b : components (a ++ b) = components a ++ components b.
Proof. apply flat_map_app. Qed.

Definition located1 (z : R) (m : made) : comp := mkC (mtype m) (mname m) (mlen m) z.
Fixpoint located (z : R) (ms : list made) : list comp := match ms with [] => [] | m :: ms' => located1 z m :: located (z + mlen m) ms' end.
Lemma located_app z a b : located z (a ++ b) = located z a ++ located (z + total (map mlen a)) b.
Proof.
  revert z. induction a as [| m a IH]; intros z; cbn [app located map total fold_right]; [rewrite Rplus_0_r; reflexivity |].
  rewrite IH. unfold total. rewrite <- Rplus_assoc. reflexivity.
Qed.
Lemma located_in_line z ms : in_line z (located z ms).
Proof.
  revert z. induction ms as [| m ms IH]; intros z k c H; [destruct k; discriminate |]. destruct k as [| k]; cbn [located nth_error firstn map] in *.
  - injection H as <-. cbn. ring.
  - apply IH in H. rewrite H. cbn. unfold total. ring.
Qed.
Lemma located_lens z ms : map clen (located z ms) = map mlen ms.
Proof. revert z. induction ms as [| m ms IH]; intros z; [reflexivity |]. cbn. rewrite IH. reflexivity. Qed.
Lemma located_id z ms : map (fun c => (ctype c, cname c, clen c)) (located z ms) = map (fun m => (mtype m, mname m, mlen m)) ms.
Proof. revert z. induction ms as [| m ms IH]; intros z; [reflexivity |]. cbn. rewrite IH. reflexivity. Qed.
Lemma total_app a b : total (a ++ b) = total a + total b.
Proof. unfold total. induction a as [| x a IH]; cbn [app fold_right]; [ring | rewrite IH; ring]. Qed.

(* the growth of the state: [new] components, [ts] in the innermost frame *)
Record grows (s s' : mad) (ms : list made) : Prop := {
  g_set : same_settings s s';
  g_z : zpos s' = zpos s + total (map mlen ms);
  g_placed : placed s' = placed s ++ ms;
  g_frames : exists fr, frames s' = frames s ++ fr;
  g_flat : forall k, mc s = Live k -> exists k', mc s' = Live k' /\ components (flat k') = components (flat k) ++ located (zpos s) ms;
  g_null : mc s = Null -> mc s' = Null }.
Lemma grows_refl s : grows s s [].
Proof.
  constructor; try (cbn; auto using settings_refl, app_nil_r; fail).
  - cbn. ring.
  - exists []. now rewrite app_nil_r.
  - intros k H. exists k. split; [exact H |]. cbn. now rewrite app_nil_r.
Qed.
Lemma grows_trans a b c m1 m2 : grows a b m1 -> grows b c m2 -> grows a c (m1 ++ m2).
Proof.
  intros A B. constructor.
  - eapply settings_trans; [apply A | apply B].
  - rewrite (g_z _ _ _ B), (g_z _ _ _ A), map_app, total_app. ring.
  - rewrite (g_placed _ _ _ B), (g_placed _ _ _ A), app_assoc. reflexivity.
  - destruct (g_frames _ _ _ A) as (f1 & E1). destruct (g_frames _ _ _ B) as (f2 & E2). exists (f1 ++ f2). rewrite E2, E1, app_assoc. reflexivity.
  - intros k H. destruct (g_flat _ _ _ A k H) as (k1 & H1 & C1). destruct (g_flat _ _ _ B k1 H1) as (k2 & H2 & C2). exists k2. split; [exact H2 |].
    rewrite C2, C1, located_app, app_assoc, (g_z _ _ _ A). reflexivity.
  - intros H. apply (g_null _ _ _ B), (g_null _ _ _ A), H.
Qed.

Lemma place_inv s m s' : place s m = Fin s' -> grows s s' [m] /\ mom s' = mom s /\ fstack s' = fstack s /\ frames s' = frames s /\
  exists k k' f i subs rest, mc s = Live k /\ mc s' = Live k' /\ stack k = (i, subs) :: rest /\ stack k' = (i, subs ++ [FComp f]) :: rest /\
  fcomp f = Some (located1 (zpos s) m).
Proof.
  unfold place. destruct (mc s) as [| k] eqn:M; [discriminate |]. cbv zeta. intros H. apply liftl_fin in H as (k' & A & H).
  unfold append_component in A. rewrite fequal_00 in A. cbn [bind] in A. apply append_frame_inv in A as (f' & i & subs & rest & K1 & K2 & F & _ & FL & _). cbn [fcomp] in F.
  apply (f_equal (fun o => match o with Fin x => x | _ => s end)) in H. cbn in H. subst s'. cbn. split.
  - constructor; cbn; auto.
    + repeat split.
    + ring.
    + exists []. now rewrite app_nil_r.
    + intros k0 E. exists k'. split; [reflexivity |]. assert (k0 = k) by congruence. subst k0. rewrite FL, components_app. f_equal. unfold components. cbn. rewrite F. reflexivity.
    + congruence.
  - repeat (split; [reflexivity |]). exists k, k', f', i, subs, rest. repeat (split; auto).
Qed.
Lemma place_all_inv ms : forall s s', place_all s ms = Fin s' -> grows s s' ms /\ mom s' = mom s /\ fstack s' = fstack s /\ frames s' = frames s /\
  (forall k i subs rest, mc s = Live k -> stack k = (i, subs) :: rest -> exists k' fs, mc s' = Live k' /\ stack k' = (i, subs ++ map FComp fs) :: rest /\
     map fcomp fs = map Some (located (zpos s) ms)).
Proof.
  induction ms as [| m ms IH]; intros s s' H; cbn [place_all] in H.
  - injection H as <-. split; [apply grows_refl |]. repeat (split; [reflexivity |]). intros k i subs rest M K. exists k, []. cbn. rewrite app_nil_r. auto.
  - apply omap_fin in H as (s1 & P & H). apply place_inv in P as (G1 & P1 & P2 & P3 & k & k1 & f & i & subs & rest & M & M1 & K & K1 & F).
    apply IH in H as (G2 & Q1 & Q2 & Q3 & T). split; [apply (grows_trans s s1 s' [m] ms G1 G2) |].
    split; [congruence |]. split; [congruence |]. split; [congruence |].
    intros k0 i0 subs0 rest0 M0 K0. assert (k0 = k) by congruence. subst k0. rewrite K0 in K. assert (i0 = i) by congruence. assert (subs0 = subs) by congruence. assert (rest0 = rest) by congruence. subst.
    destruct (T k1 _ _ _ M1 K1) as (k' & fs & M' & K' & FS). exists k', (f :: fs). split; [exact M' |]. split.
    + rewrite K'. cbn [map]. rewrite <- app_assoc. reflexivity.
    + cbn [map located]. rewrite F, FS, (g_z _ _ _ G1). cbn [map total fold_right]. rewrite Rplus_0_r. reflexivity.
Qed.
Lemma patch_inv s name s' : place_patch s name = Fin s' -> grows s s' [] /\ mom s' = mom s /\ fstack s' = fstack s /\ frames s' = frames s /\
  exists k k' f i subs rest, mc s = Live k /\ mc s' = Live k' /\ stack k = (i, subs) :: rest /\ stack k' = (i, subs ++ [FComp f]) :: rest /\
  fcomp f = None /\ fname f = name.
Proof.
  unfold place_patch. destruct (mc s) as [| k] eqn:M; [discriminate |]. intros H. apply liftl_fin in H as (k' & A & H).
  apply append_frame_inv in A as (f' & i & subs & rest & K1 & K2 & F & FN & FL & _). cbn [fcomp fname] in F, FN.
  apply (f_equal (fun o => match o with Fin x => x | _ => s end)) in H. cbn in H. subst s'. cbn. split.
  - constructor; cbn; auto.
    + repeat split.
    + ring.
    + now rewrite app_nil_r.
    + exists []. now rewrite app_nil_r.
    + intros k0 E. exists k'. split; [reflexivity |]. assert (k0 = k) by congruence. subst k0. rewrite FL, components_app. f_equal. unfold components. cbn. rewrite F. reflexivity.
    + congruence.
  - repeat (split; [reflexivity |]). exists k, k', f', i, subs, rest. repeat (split; auto).
Qed.
Lemma open_inv s name s' : open_frame s name = Fin s' -> grows s s' [] /\ mom s' = mom s /\ fstack s' = fstack s /\
  ((shown false (honour s) name = None /\ s' = s) \/
   exists k n id c c', shown false (honour s) name = Some (k, n) /\ frames s' = frames s ++ [(id, k, n)] /\ mc s = Live c /\ mc s' = Live c' /\ stack c' = (id, []) :: stack c).
Proof.
  unfold open_frame. intros H. apply omap_fin in H as (o & FK & H).
  assert (SH : shown false (honour s) name = o).
  { revert FK. unfold frame_kind, shown. destruct name as [| a [| b rest]]; [discriminate | |].
    - destruct (honour s); intros E; injection E as <-; reflexivity.
    - destruct (Ascii.eqb b "_"); [| destruct (honour s); intros E; injection E as <-; reflexivity].
      destruct (Ascii.eqb a "F"); [intros E; injection E as <-; reflexivity |]. destruct (Ascii.eqb a "S"); [intros E; injection E as <-; reflexivity |].
      destruct (Ascii.eqb a "G"); [intros E; injection E as <-; reflexivity |]. destruct (Ascii.eqb a "M"); [intros E; injection E as <-; reflexivity |]. discriminate. }
  destruct o as [[k n] |].
  - destruct (mc s) as [| c] eqn:M; [discriminate |]. apply liftl_fin in H as (c' & N & H).
    apply (f_equal (fun o => match o with Fin x => x | _ => s end)) in H. cbn in H. subst s'. cbn.
    unfold new_frame in N. destruct (live c); [| discriminate]. cbn in N. injection N as <-. split.
    + constructor; cbn; auto.
      * repeat split.
      * ring.
      * now rewrite app_nil_r.
      * eauto.
      * intros k0 E. assert (k0 = c) by congruence. subst k0. eexists. split; [reflexivity |]. cbn. now rewrite app_nil_r.
      * congruence.
    + split; [reflexivity |]. split; [reflexivity |]. right. exists k, n, (next s), c. eexists. split; [exact SH |]. split; [reflexivity |]. split; [reflexivity |]. split; reflexivity.
  - injection H as <-. split; [apply grows_refl |]. split; [reflexivity |]. split; [reflexivity |]. left. auto.
Qed.
Lemma end_grows s c c' : mc s = Live c -> end_frame c = Ok c' -> grows s (with_mc s c') [].
Proof.
  intros M E. constructor; cbn; auto.
  - repeat split.
  - ring.
  - now rewrite app_nil_r.
  - exists []. now rewrite app_nil_r.
  - intros k0 E0. exists c'. split; [reflexivity |]. assert (k0 = c) by congruence. subst k0. unfold end_frame in E. destruct (stack c) as [| [i subs] st]; [discriminate |].
    apply bind_ok in E as (st' & _ & E). injection E as <-. cbn. now rewrite app_nil_r.
  - congruence.
Qed.
Lemma close_inv s name s' : close_frame s name = Fin s' -> grows s s' [] /\ mom s' = mom s /\ fstack s' = fstack s /\ frames s' = frames s /\
  ((shown false (honour s) name = None /\ s' = s) \/
   exists c c' i subs j subs' rest, mc s = Live c /\ mc s' = Live c' /\ stack c = (i, subs) :: (j, subs') :: rest /\ stack c' = (j, subs' ++ [FSeq i subs]) :: rest).
Proof.
  intros H.
  assert (R : (match mc s with Null => Bad | Live c => liftl (end_frame c) (fun c' => Fin (with_mc s c')) end = Fin s' \/ (shown false (honour s) name = None /\ s' = s))).
  { revert H. unfold close_frame. destruct name as [| a rest]; [destruct (honour s); [auto | discriminate] |].
    destruct (honour s) eqn:HO; cbn [negb andb]; [auto |]. destruct rest as [| b rest]; cbn [negb].
    - intros E. injection E as <-. right. split; reflexivity.
    - destruct (Ascii.eqb b "_") eqn:B; cbn [negb]; [auto |]. intros E. injection E as <-. right. cbn. rewrite B. split; reflexivity. }
  destruct R as [R | (SH & ->)].
  - destruct (mc s) as [| c] eqn:M; [discriminate |]. apply liftl_fin in R as (c' & E & R). injection R as <-.
    split; [apply (end_grows s c c' M E) |]. cbn. repeat (split; [reflexivity |]). right.
    unfold end_frame in E. destruct (stack c) as [| [i subs] st] eqn:K; [discriminate |]. apply bind_ok in E as (st' & A & E). injection E as <-.
    unfold append_top in A. destruct st as [| [j subs'] rest]; [discriminate |]. injection A as <-. exists c. eexists. exists i, subs, j, subs', rest. split; [reflexivity |]. split; [reflexivity |]. split; [exact K |]. reflexivity.
  - split; [apply grows_refl |]. repeat (split; [reflexivity |]). left. auto.
Qed.

Lemma with_stack_grows s st : grows s (with_stack s st) [].
Proof.
  constructor; cbn; auto.
  - repeat split.
  - ring.
  - now rewrite app_nil_r.
  - exists []. now rewrite app_nil_r.
  - intros k E. exists k. split; [exact E |]. now rewrite app_nil_r.
Qed.
Lemma with_mom_grows s p : grows s (with_mom s p) [].
Proof.
  constructor; cbn; auto.
  - repeat split.
  - ring.
  - now rewrite app_nil_r.
  - exists []. now rewrite app_nil_r.
  - intros k E. exists k. split; [exact E |]. now rewrite app_nil_r.
Qed.
Lemma line_grows s name s' : line_step s name = Fin s' -> grows s s' [].
Proof.
  unfold line_step. intros H. assert (X : forall st, open_frame (with_stack s st) name = Fin s' -> grows s s' []).
  { intros st O. apply open_inv in O as (G & _). exact (grows_trans _ _ _ [] [] (with_stack_grows s st) G). }
  destruct (fstack s) as [| top st]; [exact (X _ H) |]. destruct (str_eqb name top); [| exact (X _ H)].
  apply close_inv in H as (G & _). exact (grows_trans _ _ _ [] [] (with_stack_grows s st) G).
Qed.
(* the components a row gives *)
Definition gives (s : mad) (r : row) (ms : list made) : Prop :=
  ms = [] \/ exists r', overrides (drift_types s) (single_cell s) r = Ok r' /\ get_instance r' (rigidity (mom s)) = Ok ms.
Lemma step_grows s r s' : step s r = Fin s' -> exists ms, grows s s' ms /\ gives s r ms.
Proof.
  intros H. apply step_cases in H as (type & len & T & L & [(-> & Z & ->) | (r' & O & Z & [(-> & F & ->) | [(-> & F & name & N & H) | [(-> & name & N & H) | (NL & NS & ms & p & I & P & H)]]])]).
  - exists []. split; [apply grows_refl | left; reflexivity].
  - exists []. split; [apply grows_refl | left; reflexivity].
  - exists []. split; [exact (line_grows s name s' H) | left; reflexivity].
  - exists []. apply patch_inv in H as (G & _). split; [exact G | left; reflexivity].
  - exists ms. apply place_all_inv in H as (G & _). split; [exact (grows_trans _ _ _ [] ms (with_mom_grows s p) G) |]. right. eauto.
Qed.
Lemma steps_grows rs : forall s s', steps s rs = Fin s' -> exists ms, grows s s' ms.
Proof.
  induction rs as [| r rs IH]; intros s s' H; cbn [steps] in H; [injection H as <-; exists []; apply grows_refl |].
  apply omap_fin in H as (s1 & E & H). apply step_grows in E as (m1 & G1 & _). apply IH in H as (m2 & G2). exists (m1 ++ m2). exact (grows_trans _ _ _ _ _ G1 G2).
Qed.
Lemma steps_app a b s s' : steps s (a ++ b) = Fin s' -> exists s1, steps s a = Fin s1 /\ steps s1 b = Fin s'.
Proof.
  revert s. induction a as [| r a IH]; intros s H; cbn [app steps] in *; [eauto |]. apply omap_fin in H as (s0 & E & H). apply IH in H as (s1 & H1 & H2). exists s1. rewrite E. cbn [omap]. auto.
Qed.

(* lengths *)
Lemma lookup_factory kw k : lookup kw factory = Some k -> In (kw, k) factory.
Proof.
  generalize factory. intros l. induction l as [| [m a] l IH]; cbn [lookup]; [discriminate |]. destruct (str_eqb_spec m kw) as [-> | N]; [intros E; injection E as ->; left; reflexivity | intros E; right; auto].
Qed.
Lemma Rltb_t a b : a < b -> Rltb a b = true. Proof. intros H. destruct (Rltb_spec a b); [reflexivity | contradiction]. Qed.
Lemma Rltb_f a b : ~ a < b -> Rltb a b = false. Proof. intros H. destruct (Rltb_spec a b); [contradiction | reflexivity]. Qed.
Lemma round_half n : Int_part (IZR n + 1 / 2) = n.
Proof.
  pose proof (base_Int_part (IZR n + 1 / 2)) as [A B]. assert (X : IZR (Int_part (IZR n + 1 / 2)) < IZR (n + 1)) by (rewrite plus_IZR; lra).
  assert (Y : IZR (n - 1) < IZR (Int_part (IZR n + 1 / 2))) by (rewrite minus_IZR; lra). apply lt_IZR in X, Y. lia.
Qed.
Lemma round_IZR n : round (IZR n) = n.
Proof. unfold round. destruct (Rltb_spec (IZR n) 0); [rewrite <- opp_IZR, round_half; lia | apply round_half]. Qed.
Lemma quot_ok x y z : quot x y = Ok z -> y <> 0 /\ z = x / y.
Proof. unfold quot. destruct (Reqb_spec y 0); [discriminate |]. intros E. injection E as <-. auto. Qed.
Ltac peel H := repeat (let a := fresh "v" in let E := fresh "E" in apply bind_ok in H as (a & E & H)).
Ltac uniq_len := repeat match goal with A : get_d ?c ?q = Ok ?x, B : get_d ?c ?q = Ok ?y |- _ => lazymatch x with y => fail | _ => assert (x = y) by congruence; subst x end end.
Lemma half_nz f : f <> 0 -> light / f / 2 <> 0.
Proof. intros F. unfold light, Rdiv. apply Rmult_integral_contrapositive_currified; [apply Rmult_integral_contrapositive_currified; [lra | now apply Rinv_neq_0_compat] | lra]. Qed.
Lemma instance_length kw k r b ms : In (kw, k) factory -> instance k r b = Ok ms ->
  (kw = $"MARKER" -> len_of r = 0) -> (kw = $"MONITOR" -> firstn 2 (name_of r) = $"WS" -> len_of r = 0) ->
  (kw = $"RFCAVITY" -> exists n : Z, len_of r = IZR n * half_wave r) -> (forall len, get_d $"L" r = Ok len -> total (map mlen ms) = len).
Proof.
  intros IN H HM HW HC len L. unfold len_of, name_of, half_wave in *. rewrite L in *.
  unfold factory in IN. repeat (destruct IN as [IN | IN]; [apply (f_equal (fun q => (fst q, snd q))) in IN; cbn [fst snd] in IN; assert (K : k = snd (kw, k)) by reflexivity; rewrite <- IN in K; cbn [snd] in K; assert (W : kw = fst (kw, k)) by reflexivity; rewrite <- IN in W; cbn [fst] in W; clear IN; subst k |]); [.. | contradiction];
  cbn [instance] in H; unfold bend, thick, kicker, plain, cavity, cavity1, monitor in H; cbv zeta in H.
  all: peel H; try (injection H as <-).
  all: uniq_len.
  all: try (cbn [map total fold_right mlen rect]; unfold total; cbn [fold_right]; ring).
  - destruct (Reqb_spec len 0) as [-> |]; cbn; unfold total; cbn; ring.
  - (* cavity *) destruct (HC W) as (n & Hn). repeat match goal with E : quot _ _ = Ok _ |- _ => apply quot_ok in E as [? ->] end.
    rewrite E1 in Hn. cbn [map total fold_right mlen].
    assert (F : v1 * MHz <> 0) by assumption. assert (P := half_nz _ F).
    set (h := light / (v1 * MHz) / 2) in *. rewrite Hn. replace (IZR n * h / h) with (IZR n) by (field; exact P).
    rewrite round_IZR. unfold h, total, Rdiv. cbn [fold_right]. ring.
  - repeat match goal with E : quot _ _ = Ok _ |- _ => apply quot_ok in E as [? ->] end.
    cbn [map total fold_right mlen]. assert (P : light / (v1 * MHz) / 2 <> 0) by assumption.
    set (h := light / (v1 * MHz) / 2) in *. replace (h / h) with (IZR 1) by (field; exact P).
    rewrite round_IZR. unfold h, total, Rdiv. cbn [fold_right]. ring.
  - match goal with |- context [if ?q then _ else _] => destruct q eqn:X end; unfold total; cbn [map fold_right mlen]; [| ring].
    apply str_eqb_eq in X. rewrite E in HW. rewrite (HW W X). ring.
  - rewrite (HM W). unfold total. cbn [map fold_right mlen]. ring.
Qed.
