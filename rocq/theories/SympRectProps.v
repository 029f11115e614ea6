(* C181-C185, C187: multipoles and cavities of the symplectic integrator set *)
From Coq Require Import ZArith Lia Psatz.
From Verif Require Import RBase Rot Cplx CplxFacts Field FieldProps Cov Bunch BunchSpec BunchProofs Optics OpticsSpec OpticsProofs Chromatic ChromaticProps BeamMatProps SympInt SympIntSpec SympIntProofs SympIntProps.
Local Open Scope R_scope.

Lemma kick_ok f ds P0 q phi v : P0 <> 0 -> exists B, field2d f (vx v) (vy v) (-1) = Ok B /\
  multipole_kick f ds P0 q phi v = Ok (let F := cmul (cscale (q * ds * eVc / P0) (mkCx (cos phi) (sin phi))) B in V6 (vx v) (vxp v - re F) (vy v) (vyp v + im F) (vct v) (vdp v)).
Proof. intros N. unfold multipole_kick. rewrite Reqb_false by exact N. rewrite field_eval. eexists. split; reflexivity. Qed.
Lemma grow_nth n l k : nth k (grow n l) c0 = nth k l c0.
Proof. unfold grow. destruct (Nat.lt_ge_cases k (length l)) as [H|H]; [now rewrite app_nth1|]. rewrite app_nth2 by exact H. rewrite (nth_overflow l) by exact H. apply nth_repeat0. Qed.
(* ---- fields with the same coefficients ---- *)
Definition same_field (f g : field) : Prop := b0 f = b0 g /\ forall n, coef f n = coef g n.
Lemma peval_same l : forall m z, (forall n, nth n l c0 = nth n m c0) -> peval l z = peval m z.
Proof.
  induction l as [|x l IH]; intros m z H.
  - cbn [peval]. induction m as [|y m IHm]; [reflexivity|]. cbn [peval]. rewrite <- IHm by (intros n; specialize (H (S n)); destruct n; exact H). specialize (H 0%nat). cbn in H. rewrite <- H. ring.
  - destruct m as [|y m].
    + cbn [peval]. rewrite (IH [] z) by (intros n; specialize (H (S n)); destruct n; exact H). specialize (H 0%nat). cbn in H. rewrite H. cbn. ring.
    + cbn [peval]. rewrite (IH m z) by (intros n; exact (H (S n))). specialize (H 0%nat). cbn in H. now rewrite H.
Qed.
Lemma same_field2d f g x y : same_field f g -> field2d f x y (-1) = field2d g x y (-1).
Proof. intros (B & H). rewrite !field_eval. unfold is_null. rewrite B. now rewrite (peval_same (ex f) (ex g)). Qed.
Lemma same_kick f g ds P0 q phi v : same_field f g -> multipole_kick f ds P0 q phi v = multipole_kick g ds P0 q phi v.
Proof. intros H. unfold multipole_kick. now rewrite (same_field2d f g). Qed.
Lemma same_refl f : same_field f f.
Proof. split; auto. Qed.
Lemma same_trans f g h : same_field f g -> same_field g h -> same_field f h.
Proof. intros (A & B) (C & D). split; [congruence|]. intros n. now rewrite B. Qed.
Lemma same_sym f g : same_field f g -> same_field g f.
Proof. intros (A & B). split; auto. Qed.
Lemma same_read n f : same_field (fst (get_coefficient n 1 f)) f.
Proof. split; [reflexivity|]. intros k. unfold coef, get_coefficient. cbn [fst ex]. apply grow_nth. Qed.
Lemma put_coef n c l k : nth k (Field.put (grow (n + 1) l) n c) c0 = if Nat.eqb k n then c else nth k l c0.
Proof. rewrite FieldProps.put_nth by (unfold grow; rewrite app_length, repeat_length; lia). destruct (Nat.eqb k n); [reflexivity|apply grow_nth]. Qed.
Lemma set_coef n c f k : coef (set_coefficient n c 1 f) k = if Nat.eqb k n then c else coef f k.
Proof.
  unfold coef, set_coefficient. cbn [ex]. rewrite put_coef. destruct (Nat.eqb k n); [|reflexivity]. rewrite pow1. destruct c as [a b]. apply cx_eq; cbn; field.
Qed.
Lemma get_coef n f : snd (get_coefficient n 1 f) = coef f n.
Proof. unfold get_coefficient. cbn [snd]. rewrite grow_nth, pow1. unfold coef. destruct (nth n (ex f) c0). apply cx_eq; cbn; ring. Qed.
Lemma b0_set n c f : b0 (set_coefficient n c 1 f) = b0 f.
Proof. reflexivity. Qed.
Lemma same_set n c f g : same_field f g -> same_field (set_coefficient n c 1 f) (set_coefficient n c 1 g).
Proof. intros (A & B). split; [exact A|]. intros k. rewrite !set_coef. destruct (Nat.eqb k n); auto. Qed.
Lemma same_kn f g rig : same_field f g -> get_kn f 1 rig = get_kn g 1 rig.
Proof.
  intros (A & B). unfold get_kn. destruct (Reqb rig 0); [reflexivity|]. f_equal. specialize (B 1%nat). unfold coef in B. rewrite A.
  assert (Z : forall k, cscale k c0 = c0) by (intros k; apply cx_eq; cbn; ring).
  destruct (Nat.ltb_spec 1 (length (ex f))); destruct (Nat.ltb_spec 1 (length (ex g))); try reflexivity.
  - now rewrite B.
  - rewrite B, (nth_overflow (ex g)) by lia. apply Z.
  - rewrite <- B, (nth_overflow (ex f)) by lia. now rewrite Z.
Qed.
Lemma nth_lenput n c l : length (Field.put (grow (n + 1) l) n c) = length (grow (n + 1) l).
Proof. apply FieldProps.put_length. Qed.
Lemma grow_length n l : length (grow n l) = Nat.max n (length l).
Proof. unfold grow. rewrite app_length, repeat_length. lia. Qed.
Lemma high_get n f : highest (fst (get_coefficient n 1 f)) = Z.max (Z.of_nat n) (highest f).
Proof. unfold highest, get_coefficient. cbn [fst ex]. rewrite grow_length. lia. Qed.
Lemma high_set n c f : highest (set_coefficient n c 1 f) = Z.max (Z.of_nat n) (highest f).
Proof. unfold highest, set_coefficient. cbn [ex]. rewrite FieldProps.put_length, grow_length. lia. Qed.

(* ================= C183: the field is left as it was ================= *)
Lemma restored f n c : c = coef f n -> forall g, same_field (set_coefficient n g 1 f) (set_coefficient n g 1 f) -> same_field (set_coefficient n c 1 (set_coefficient n g 1 f)) f.
Proof. intros -> g _. split; [reflexivity|]. intros k. rewrite !set_coef. destruct (Nat.eqb_spec k n) as [->|]; reflexivity. Qed.
Theorem C183_bend ef P0 q ds b v v' f' : sbend_step ef P0 q ds b v = Ok (v', f') -> same_field f' (sfield b).
Proof.
  unfold sbend_step. cbv zeta. set (f1 := fst (get_coefficient 0 1 (sfield b))). assert (S1 : same_field f1 (sfield b)) by apply same_read. clearbody f1. rewrite !get_coef.
  destruct (rolled (stilt b) v) as [v1| |]; try discriminate. cbn [bind]. destruct (negb _); [discriminate|].
  destruct (if Z.ltb 0 (highest f1) then _ else _) as [K1| |]; try discriminate. cbn [bind].
  set (sp := nonzero _ || _ || _). set (len := if sp then _ else _). destruct (straight_part ef (sh b) (re K1) len v1) as [v2| |]; try discriminate. cbn [bind]. destruct sp.
  - set (f2 := fst (get_coefficient 1 1 f1)). assert (S2 : same_field f2 f1) by apply same_read. clearbody f2.
    destruct (over ds _ v2) as [v3| |]; try discriminate. cbn [bind]. destruct (straight_part ef (sh b) (re K1) len v3) as [v4| |]; try discriminate. cbn [bind fst snd].
    destruct (rolled (- stilt b) v4) as [v5| |]; try discriminate. cbn [bind]. intros H. injection H as _ <-.
    apply (same_trans _ f1); [|exact S1]. apply (same_trans _ f2); [|exact S2]. split; [reflexivity|]. intros k. rewrite !set_coef. destruct S2 as (_ & S2).
    destruct (Nat.eqb_spec k 1) as [->|]; [now rewrite S2|]. destruct (Nat.eqb_spec k 0) as [->|]; [now rewrite S2 | reflexivity].
  - cbn [bind fst snd]. destruct (rolled (- stilt b) v2) as [v5| |]; try discriminate. cbn [bind]. intros H. injection H as _ <-. exact S1.
Qed.
Print Assumptions C183_bend.
Lemma gradient_back f1 : same_field (set_coefficient 1 (coef f1 1) 1 (without_gradient f1)) f1.
Proof.
  unfold without_gradient. pose proof (same_read 1 f1) as (_ & S2). split; [reflexivity|]. intros k. rewrite !set_coef. destruct (Nat.eqb_spec k 1) as [->|]; [reflexivity|apply S2].
Qed.
Theorem C183_multipole P0 q L ds f v v' f' : rect_step P0 q L ds f v = Ok (v', f') -> same_field f' f.
Proof.
  unfold rect_step. destruct (Reqb L 0 && Reqb ds 0 && negb (is_null f)).
  { destruct (multipole_kick f 1 P0 q 0 v); try discriminate. cbn [bind]. intros H. injection H as _ <-. apply same_refl. }
  destruct (Reqb ds 0). { intros H. injection H as _ <-. apply same_refl. }
  destruct (lift_u (get_kn f 1 (P0 / eVc))) as [k| |]; try discriminate. cbn [bind]. cbv zeta. set (f1 := fst (get_coefficient 0 1 f)). assert (S1 : same_field f1 f) by apply same_read. clearbody f1. rewrite !get_coef.
  set (sp := cnonzero _ || _). set (len := if sp then _ else _). set (r := if cnonzero (cscale q k) then _ else _).
  assert (R : forall w g, r = Ok (w, g) -> same_field g f1).
  { intros w g. unfold r. destruct (cnonzero (cscale q k)).
    - destruct (quad_matrices len (cscale q k)) as [[M T]| |]; try discriminate. cbn [bind fst snd]. destruct sp.
      + destruct (multipole_kick (without_gradient f1) ds P0 q _ _); try discriminate. cbn [bind]. intros H. injection H as _ <-. apply gradient_back.
      + intros H. injection H as _ <-. apply same_refl.
    - destruct (over len drift_map v); try discriminate. cbn [bind]. intros H. injection H as _ <-. apply same_refl. }
  clearbody r. destruct r as [[w g]| |]; try discriminate. cbn [bind fst snd]. specialize (R w g eq_refl). destruct sp.
  - rewrite get_coef. destruct (multipole_kick (without_gradient g) ds P0 q 0 w); try discriminate. cbn [bind]. destruct (over len drift_map _); try discriminate. cbn [bind]. intros H. injection H as _ <-.
    apply (same_trans _ g); [apply gradient_back|]. now apply (same_trans _ f1).
  - intros H. injection H as <- <-. now apply (same_trans _ f1).
Qed.
Print Assumptions C183_multipole.
(* ... so that a later bunch is tracked as the first one *)
Definition particle_of {E} (r : res E (vec6 * field)) : res E vec6 := do x <- r; Ok (fst x).
Definition alike (f g : field) : Prop := same_field f g /\ Z.ltb 1 (highest f) = Z.ltb 1 (highest g).
Lemma alike_get n f : (n <= 1)%nat -> alike (fst (get_coefficient n 1 f)) f.
Proof. intros H. split; [apply same_read|]. rewrite high_get. destruct (Z.ltb_spec 1 (highest f)), (Z.ltb_spec 1 (Z.max (Z.of_nat n) (highest f))); try reflexivity; lia. Qed.
Lemma alike_high_set n c f : (n <= 1)%nat -> Z.ltb 1 (highest (set_coefficient n c 1 f)) = Z.ltb 1 (highest f).
Proof. intros H. rewrite high_set. destruct (Z.ltb_spec 1 (highest f)), (Z.ltb_spec 1 (Z.max (Z.of_nat n) (highest f))); try reflexivity; lia. Qed.
Lemma alike_trans f g h : alike f g -> alike g h -> alike f h.
Proof. intros (A & B) (C & D). split; [eapply same_trans; eassumption | congruence]. Qed.
Lemma alike_sym f g : alike f g -> alike g f.
Proof. intros (A & B). split; [now apply same_sym | congruence]. Qed.
Lemma same_without f g : same_field f g -> same_field (without_gradient f) (without_gradient g).
Proof. intros H. unfold without_gradient. apply same_set. eapply same_trans; [apply same_read|]. eapply same_trans; [exact H|]. apply same_sym, same_read. Qed.
Lemma alike_back f : alike (set_coefficient 1 (coef f 1) 1 (without_gradient f)) f.
Proof. split; [apply gradient_back|]. unfold without_gradient. rewrite !alike_high_set by lia. apply (alike_get 1 f). lia. Qed.
Lemma alike_out P0 q L ds f v v' f' : rect_step P0 q L ds f v = Ok (v', f') -> alike f' f.
Proof.
  unfold rect_step. assert (R0 : alike f f) by (split; [apply same_refl | reflexivity]). destruct (Reqb L 0 && Reqb ds 0 && negb (is_null f)).
  { destruct (multipole_kick f 1 P0 q 0 v); try discriminate. cbn [bind]. intros H. injection H as _ <-. exact R0. }
  destruct (Reqb ds 0). { intros H. injection H as _ <-. exact R0. }
  destruct (lift_u (get_kn f 1 (P0 / eVc))) as [k| |]; try discriminate. cbn [bind]. cbv zeta. set (f1 := fst (get_coefficient 0 1 f)). assert (S1 : alike f1 f) by (apply alike_get; lia). clearbody f1. rewrite !get_coef.
  set (sp := cnonzero _ || _). set (len := if sp then _ else _). set (r := if cnonzero (cscale q k) then _ else _).
  assert (R : forall w g, r = Ok (w, g) -> alike g f1).
  { intros w g. unfold r. assert (R1 : alike f1 f1) by (split; [apply same_refl | reflexivity]). destruct (cnonzero (cscale q k)).
    - destruct (quad_matrices len (cscale q k)) as [[M T]| |]; try discriminate. cbn [bind fst snd]. destruct sp.
      + destruct (multipole_kick (without_gradient f1) ds P0 q _ _); try discriminate. cbn [bind]. intros H. injection H as _ <-. apply alike_back.
      + intros H. injection H as _ <-. exact R1.
    - destruct (over len drift_map v); try discriminate. cbn [bind]. intros H. injection H as _ <-. exact R1. }
  clearbody r. destruct r as [[w g]| |]; try discriminate. cbn [bind fst snd]. specialize (R w g eq_refl). destruct sp.
  - rewrite get_coef. destruct (multipole_kick (without_gradient g) ds P0 q 0 w); try discriminate. cbn [bind]. destruct (over len drift_map _); try discriminate. cbn [bind]. intros H. injection H as _ <-.
    apply (alike_trans _ g); [apply alike_back|]. now apply (alike_trans _ f1).
  - intros H. injection H as <- <-. now apply (alike_trans _ f1).
Qed.
Lemma rect_alike P0 q L ds f g v : alike f g -> particle_of (rect_step P0 q L ds f v) = particle_of (rect_step P0 q L ds g v).
Proof.
  intros A. unfold rect_step. assert (N : is_null f = is_null g) by (unfold is_null; now rewrite (proj1 (proj1 A))). rewrite N. rewrite (same_kick f g) by apply A.
  destruct (Reqb L 0 && Reqb ds 0 && negb (is_null g)); [destruct (multipole_kick g 1 P0 q 0 v); reflexivity|]. destruct (Reqb ds 0); [reflexivity|].
  rewrite (same_kn f g) by apply A. destruct (lift_u (get_kn g 1 (P0 / eVc))) as [k| |]; try reflexivity. cbn [bind]. cbv zeta.
  set (f1 := fst (get_coefficient 0 1 f)). set (g1 := fst (get_coefficient 0 1 g)).
  assert (A1 : alike f1 g1). { eapply alike_trans; [apply alike_get; lia|]. eapply alike_trans; [exact A|]. apply alike_sym, alike_get. lia. }
  rewrite !get_coef. rewrite (proj2 (proj1 A) 0%nat), (proj2 A1). clearbody f1 g1. set (sp := cnonzero (coef g 0) || _). set (len := if sp then _ else _).
  destruct (cnonzero (cscale q k)).
  - destruct (quad_matrices len (cscale q k)) as [[M T]| |]; try reflexivity. cbn [bind fst snd]. destruct sp; [|reflexivity].
    rewrite (same_kick (without_gradient f1) (without_gradient g1)) by (apply same_without, A1). destruct (multipole_kick (without_gradient g1) ds P0 q _ _) as [w| |]; try reflexivity. cbn [bind fst snd].
    rewrite (proj2 (proj1 A1) 1%nat). set (f2 := set_coefficient 1 (coef g1 1) 1 (without_gradient f1)). set (g2 := set_coefficient 1 (coef g1 1) 1 (without_gradient g1)).
    rewrite (same_kick (without_gradient f2) (without_gradient g2)) by (apply same_without, same_set, same_without, A1). destruct (multipole_kick (without_gradient g2) ds P0 q 0 _) as [w2| |]; try reflexivity. cbn [bind]. destruct (over len drift_map w2); reflexivity.
  - destruct (over len drift_map v) as [w| |]; try reflexivity. cbn [bind fst snd]. destruct sp; [|reflexivity].
    rewrite (same_kick (without_gradient f1) (without_gradient g1)) by (apply same_without, A1). destruct (multipole_kick (without_gradient g1) ds P0 q 0 w) as [w2| |]; try reflexivity. cbn [bind]. destruct (over len drift_map w2); reflexivity.
Qed.
Theorem C183_next_bunch P0 q L ds f v v' f' P0' q' ds' w : rect_step P0 q L ds f v = Ok (v', f') -> particle_of (rect_step P0' q' L ds' f' w) = particle_of (rect_step P0' q' L ds' f w).
Proof. intros H. apply rect_alike. exact (alike_out _ _ _ _ _ _ _ _ H). Qed.
Print Assumptions C183_next_bunch.

(* ================= C187: what a multipole does ================= *)
(* a thin magnet kicks once *)
Theorem C187_thin P0 q f v : P0 <> 0 -> is_null f = false -> exists B, field2d f (vx v) (vy v) (-1) = Ok B /\
  rect_step P0 q 0 0 f v = Ok (V6 (vx v) (vxp v - q * eVc / P0 * re B) (vy v) (vyp v + q * eVc / P0 * im B) (vct v) (vdp v), f).
Proof.
  intros N Z. destruct (kick_ok f 1 P0 q 0 v N) as (B & EB & EK). exists B. split; [exact EB|]. unfold rect_step. rewrite !(Reqb_true 0 0), Z by reflexivity. cbn [andb negb]. rewrite EK. cbn [bind]. cbv zeta. rewrite cos_0, sin_0. do 2 f_equal. apply v6_eq; cbn; try reflexivity; field; exact N.
Qed.
Print Assumptions C187_thin.
Definition strength (P0 q : R) (f : field) : cx := cscale (q * (b0 f * eVc / P0)) (coef f 1).
Lemma strength_kn P0 q f : P0 <> 0 -> exists k, get_kn f 1 (P0 / eVc) = Ok k /\ cscale q k = strength P0 q f.
Proof.
  intros N. assert (V : 0 < eVc) by (unfold eVc; lra). assert (NR : P0 / eVc <> 0) by (intros Z; apply N; apply (Rmult_eq_compat_r eVc) in Z; unfold Rdiv in Z; rewrite Rmult_assoc, Rinv_l in Z by lra; lra).
  unfold get_kn. rewrite Reqb_false by exact NR. eexists. split; [reflexivity|]. unfold strength, coef. assert (F1 : factorial 1 = 1) by (unfold factorial; cbn; destruct (Reqb_spec 1 0); lra). rewrite F1.
  destruct (Nat.ltb_spec 1 (length (ex f))); [apply cx_eq; cbn; field; split; lra|]. rewrite (nth_overflow (ex f)) by lia. apply cx_eq; cbn; ring.
Qed.
Definition short_field (f : field) : bool := negb (cnonzero (coef f 0)) && Z.leb (highest f) 1.
Lemma split_short f : cnonzero (snd (get_coefficient 0 1 f)) || Z.ltb 1 (highest (fst (get_coefficient 0 1 f))) = negb (short_field f).
Proof. rewrite get_coef. rewrite (proj2 (alike_get 0 f ltac:(lia))). unfold short_field. rewrite negb_andb, negb_involutive. f_equal. destruct (Z.leb_spec (highest f) 1), (Z.ltb_spec 1 (highest f)); try reflexivity; lia. Qed.
Lemma cnonzero_0 : cnonzero c0 = false.
Proof. unfold cnonzero, nonzero. cbn. now rewrite Reqb_true. Qed.
(* no gradient: half a drift, the kick, half a drift *)
Theorem C187_kicked P0 q L ds f v : P0 <> 0 -> ds <> 0 -> coef f 1 = c0 -> short_field f = false ->
  particle_of (rect_step P0 q L ds f v) = (do v1 <- drift_map (ds / 2) v; do v2 <- multipole_kick f ds P0 q 0 v1; drift_map (ds / 2) v2).
Proof.
  intros N D G Sh. unfold rect_step. rewrite (Reqb_false ds 0) by exact D. rewrite andb_false_r. cbn [andb]. destruct (strength_kn P0 q f N) as (k & -> & EK). cbn [lift_u bind]. cbv zeta. rewrite EK.
  assert (Z : strength P0 q f = c0) by (unfold strength; rewrite G; apply cx_eq; cbn; ring). rewrite Z, cnonzero_0. rewrite split_short, Sh. cbn [negb]. unfold over. rewrite (Reqb_false (ds / 2) 0) by lra.
  destruct (drift_map (ds / 2) v) as [v1| |]; try reflexivity. cbn [bind fst snd].
  set (f1 := fst (get_coefficient 0 1 f)). assert (S1 : same_field (without_gradient f1) f).
  { unfold without_gradient. assert (A : same_field (fst (get_coefficient 1 1 f1)) f) by (eapply same_trans; apply same_read). split; [exact (proj1 A)|]. intros n. rewrite set_coef. destruct (Nat.eqb_spec n 1) as [->|]; [now rewrite G | apply A]. }
  rewrite (same_kick _ f _ _ _ _ _ S1). destruct (multipole_kick f ds P0 q 0 v1) as [v2| |]; try reflexivity. cbn [bind]. destruct (drift_map (ds / 2) v2); reflexivity.
Qed.
Print Assumptions C187_kicked.
Theorem C187_kicked_symplectic P0 q L ds f v r : P0 <> 0 -> ds <> 0 -> coef f 1 = c0 -> short_field f = false -> particle_of (rect_step P0 q L ds f v) = Ok r -> symplectic_at (fun w => particle_of (rect_step P0 q L ds f w)) v.
Proof.
  intros N D G Sh H. apply (symplectic_ext (fun v => do v1 <- drift_map (ds / 2) v; do v2 <- multipole_kick f ds P0 q 0 v1; drift_map (ds / 2) v2)); [intros w; symmetry; now apply C187_kicked|].
  rewrite C187_kicked in H by assumption. destruct C177_domain as (D1 & _).
  destruct (drift_map (ds / 2) v) as [v1| |] eqn:E1; try discriminate. cbn [bind] in H. destruct (multipole_kick f ds P0 q 0 v1) as [v2| |] eqn:E2; try discriminate. cbn [bind] in H.
  apply (symplectic_then _ _ _ _ E1); [apply C179_drift, (D1 (ds / 2)); eauto|]. apply (symplectic_then _ _ _ _ E2); [now apply C179_kick|]. apply C179_drift, (D1 (ds / 2)); eauto.
Qed.
Print Assumptions C187_kicked_symplectic.
Example C187_kicked_ex : short_field (mkF 1 [c0; c0; c1]) = false /\ coef (mkF 1 [c0; c0; c1]) 1 = c0 /\ short_field (mkF 1 [c1]) = false /\ coef (mkF 1 [c1]) 1 = c0.
Proof. unfold short_field, cnonzero, nonzero, coef, highest. cbn. rewrite (Reqb_true 0 0), (Reqb_false 1 0) by lra. auto. Qed.
(* an upright quadrupole: one matrix, linear in dp *)
Definition quad_apply (l K : R) (v : vec6) : vec6 :=
  let d := vdp v in
  V6 ((Cf K l + ta K l * d) * vx v + (Sf K l + tb K l * d) * vxp v) ((- K * Sf K l + tc K l * d) * vx v + (Cf K l + ta K l * d) * vxp v)
     ((Cf (- K) l + ta (- K) l * d) * vy v + (Sf (- K) l + tb (- K) l * d) * vyp v) ((K * Sf (- K) l + tc (- K) l * d) * vy v + (Cf (- K) l + ta (- K) l * d) * vyp v) (vct v) d.
Lemma quad_matrices_apply l K : l <> 0 -> K <> 0 -> exists M T, quad_matrices l (mkCx K 0) = Ok (M, T) /\ forall v, apply_dp 4 M T v = quad_apply l K v.
Proof.
  intros NL NK. unfold quad_matrices. cbn [re im]. rewrite (Reqb_true 0 0) by reflexivity. unfold quadrupole. destruct (sbr_form 4 l 0 K (or_introl eq_refl)) as (M & -> & EM). destruct (quad_t_ok 4 l K ltac:(lia) NL NK) as (T & -> & ET). cbn [lift bind].
  exists M, T. split; [reflexivity|]. intros v. unfold apply_dp, vof, msum. cbn [Nat.ltb Nat.leb fold_right seq map coord]. unfold quad_apply. cbv zeta.
  assert (K0 : K + 0 * 0 = K) by ring.
  rewrite !EM, !ET by lia. unfold bend_form, quad_t_form, tbl. cbv zeta. rewrite K0. cbn [nth]. apply v6_eq; try reflexivity; ring.
Qed.
Theorem C187_quadrupole P0 q L ds f v K : P0 <> 0 -> ds <> 0 -> short_field f = true -> strength P0 q f = mkCx K 0 -> K <> 0 -> particle_of (rect_step P0 q L ds f v) = Ok (quad_apply ds K v).
Proof.
  intros N D Sh EK NK. unfold rect_step. rewrite (Reqb_false ds 0) by exact D. rewrite andb_false_r. cbn [andb]. destruct (strength_kn P0 q f N) as (k & -> & E). cbn [lift_u bind]. cbv zeta. rewrite E, EK.
  assert (C : cnonzero (mkCx K 0) = true) by (unfold cnonzero, nonzero; cbn; now rewrite Reqb_false). rewrite C. rewrite split_short, Sh. cbn [negb].
  destruct (quad_matrices_apply ds K D NK) as (M & T & -> & H). cbn [bind fst snd]. rewrite H. reflexivity.
Qed.
Print Assumptions C187_quadrupole.
(* ... the linear motion of a particle with the reference momentum: the same as the second-order map *)
Theorem C187_on_momentum l K v v' : l <> 0 -> K <> 0 -> vdp v = 0 -> quad_map K l v = Ok v' -> quad_apply l K v = V6 (vx v') (vxp v') (vy v') (vyp v') (vct v) 0.
Proof.
  intros NL NK D H. assert (D1 : 0 < 1 + vdp v) by lra. rewrite quad_is_flow in H by assumption. injection H as <-. unfold quad_apply, flow. cbv zeta. cbn [vx vxp vy vyp]. rewrite D.
  assert (E1 : K + 0 * 0 = K) by ring. assert (E2 : K / (1 + 0) = K) by field. rewrite !E1, !E2. replace (- K / (1 + 0)) with (- K) by field. apply v6_eq; try reflexivity; try ring; field; lra.
Qed.
Print Assumptions C187_on_momentum.
(* no field at all is a drift *)
Theorem C187_empty P0 q L ds f v : P0 <> 0 -> ds <> 0 -> short_field f = true -> coef f 1 = c0 -> particle_of (rect_step P0 q L ds f v) = drift_map ds v.
Proof.
  intros N D Sh G. unfold rect_step. rewrite (Reqb_false ds 0) by exact D. rewrite andb_false_r. cbn [andb]. destruct (strength_kn P0 q f N) as (k & -> & EK). cbn [lift_u bind]. cbv zeta. rewrite EK.
  assert (Z : strength P0 q f = c0) by (unfold strength; rewrite G; apply cx_eq; cbn; ring). rewrite Z, cnonzero_0. rewrite split_short, Sh. cbn [negb]. unfold over. rewrite (Reqb_false ds 0) by exact D.
  destruct (drift_map ds v); reflexivity.
Qed.
Print Assumptions C187_empty.

(* ================= C182: area ================= *)
Definition det2 (F : vec6 -> vec6) (d : R) : R :=
  let ex := F (V6 1 0 0 0 0 d) in let ep := F (V6 0 1 0 0 0 d) in vx ex * vxp ep - vxp ex * vx ep.
Lemma quad_det l K d : det2 (quad_apply l K) d = 1 + d * d * (K * (l * l - Sf K l * Sf K l) / 4).
Proof.
  unfold det2, quad_apply. cbv zeta. cbn [vx vxp vy vyp vct vdp]. unfold ta, tb, tc. assert (P : Cf K l * Cf K l = 1 - K * (Sf K l * Sf K l)) by (pose proof (pyth K l); lra). set (c := Cf K l) in *. set (s := Sf K l) in *. clearbody c s. field_simplify_eq. ring [P].
Qed.
Lemma excess_pos K l : l <> 0 -> K <> 0 -> 0 < K * (l * l - Sf K l * Sf K l).
Proof.
  intros NL NK. assert (G : forall m, 0 < m -> 0 < K * (m * m - Sf K m * Sf K m)).
  { intros m M. destruct (Rlt_le_dec 0 K) as [P|P].
    - rewrite Sf_pos by exact P. destruct (sqrt_pos_sq _ P) as (Q & QQ). set (k := sqrt K) in *. set (ph := k * m). assert (HP : 0 < ph) by (unfold ph; nra).
      replace (K * (m * m - sin ph / k * (sin ph / k))) with (ph * ph - sin ph * sin ph) by (rewrite <- QQ; unfold ph; field; lra).
      assert (U : sin ph < ph) by now apply sin_lt_x. assert (W : - ph < sin ph). { destruct (Rlt_le_dec ph PI) as [Z|Z]; [pose proof (sin_gt_0 ph HP Z); lra|]. pose proof (SIN_bound ph). pose proof PI2_1. lra. } nra.
    - assert (P' : K < 0) by lra. rewrite Sf_neg by exact P'. destruct (sqrt_pos_sq (- K) ltac:(lra)) as (Q & QQ). set (k := sqrt (- K)) in *. set (ph := k * m). assert (HP : 0 < ph) by (unfold ph; nra).
      replace (K * (m * m - sinh ph / k * (sinh ph / k))) with (sinh ph * sinh ph - ph * ph) by (replace K with (- (k * k)) by lra; unfold ph; field; lra).
      assert (W : ph < sinh ph). { destruct (MVT_cor2 sinh cosh 0 ph HP) as (c & E & C1 & C2); [intros; apply derivable_pt_lim_sinh|]. rewrite sinh_0, !Rminus_0_r in E. rewrite E. pose proof (cosh_gt c C1). nra. } nra. }
  destruct (Rlt_le_dec 0 l) as [P|P]; [now apply G|]. specialize (G (- l) ltac:(lra)). assert (E : Sf K (- l) = - Sf K l).
  { unfold Sf. destruct (Reqb K 0); [reflexivity|]. destruct (Rltb 0 K); rewrite Ropp_mult_distr_r_reverse; [rewrite sin_neg | unfold sinh; rewrite Ropp_involutive]; unfold Rdiv; ring. }
  rewrite E in G. nra.
Qed.
(* off momentum every quadrupole enlarges the area in the phase plane *)
Theorem C182_area_refuted P0 q L ds f K d : P0 <> 0 -> ds <> 0 -> short_field f = true -> strength P0 q f = mkCx K 0 -> K <> 0 -> d <> 0 ->
  exists a b c e, (forall x px, exists w, particle_of (rect_step P0 q L ds f (V6 x px 0 0 0 d)) = Ok w /\ vx w = a * x + b * px /\ vxp w = c * x + e * px) /\ 1 < a * e - b * c.
Proof.
  intros N D Sh E NK Nd. exists (Cf K ds + ta K ds * d), (Sf K ds + tb K ds * d), (- K * Sf K ds + tc K ds * d), (Cf K ds + ta K ds * d). split.
  - intros x px. exists (quad_apply ds K (V6 x px 0 0 0 d)). split; [now apply C187_quadrupole|]. split; reflexivity.
  - pose proof (quad_det ds K d) as H. unfold det2, quad_apply in H. cbn [vx vxp vy vyp vct vdp] in H. pose proof (excess_pos K ds D NK). assert (0 < d * d) by nra. nra.
Qed.
Print Assumptions C182_area_refuted.
(* ... while on momentum it is kept *)
Theorem C187_area P0 q L ds f K : P0 <> 0 -> ds <> 0 -> short_field f = true -> strength P0 q f = mkCx K 0 -> K <> 0 ->
  exists a b c e, (forall x px, exists w, particle_of (rect_step P0 q L ds f (V6 x px 0 0 0 0)) = Ok w /\ vx w = a * x + b * px /\ vxp w = c * x + e * px) /\ a * e - b * c = 1.
Proof.
  intros N D Sh E NK. exists (Cf K ds + ta K ds * 0), (Sf K ds + tb K ds * 0), (- K * Sf K ds + tc K ds * 0), (Cf K ds + ta K ds * 0). split.
  - intros x px. exists (quad_apply ds K (V6 x px 0 0 0 0)). split; [now apply C187_quadrupole|]. split; reflexivity.
  - pose proof (quad_det ds K 0) as H. unfold det2, quad_apply in H. cbn [vx vxp vy vyp vct vdp] in H. lra.
Qed.
Print Assumptions C187_area.
Example C182_ex : let f := mkF 1 [c0; c1] in short_field f = true /\ strength eVc 1 f = mkCx 1 0.
Proof.
  intros f. assert (V : 0 < eVc) by (unfold eVc; lra). split; [unfold short_field, cnonzero, nonzero, f, highest; cbn; now rewrite (Reqb_true 0 0) | unfold strength; apply cx_eq; cbn; field; lra].
Qed.

(* ================= C181: steering ================= *)
(* the motion on the axis of a magnet with a dipole field b and a gradient g, unit length *)
Definition steered (b g px1 : R) : Prop := exists x px : R -> R, x 0 = 0 /\ px 0 = 0 /\ px 1 = px1 /\ forall s, derivable_pt_lim x s (px s) /\ derivable_pt_lim px s (- b - g * x s).
Lemma steered_is b g : g <> 0 -> steered b g (- b * Sf g 1).
Proof.
  intros N. exists (fun s => - b / g * (1 - Cf g s)), (fun s => - b * Sf g s). rewrite Cf_0, Sf_0. split; [ring|]. split; [ring|]. split; [reflexivity|]. intros s. split.
  - eapply dlim_eq; [|refine (dlim_mult (fun _ => - b / g) (fun s => 1 - Cf g s) s _ _ (dcst _ s) (dlim_minus (fun _ => 1) (Cf g) s _ _ (dcst 1 s) (Cf_deriv g s)))]. cbv beta. field. exact N.
  - eapply dlim_eq; [|refine (dlim_mult (fun _ => - b) (Sf g) s _ _ (dcst _ s) (Sf_deriv g s))]. cbv beta. field. exact N.
Qed.
Lemma atan2_pos x : 0 < x -> atan2 0 x = 0.
Proof. intros H. unfold atan2. rewrite Rltb_true by exact H. unfold Rdiv. rewrite Rmult_0_l. apply atan_0. Qed.
Theorem C181_steering_refuted b g : 0 < Rabs b < 1/2 -> 0 < g <= 1 -> exists v' f' px1,
  rect_step eVc 1 1 1 (mkF 1 [creal b; creal g]) (V6 0 0 0 0 0 0) = Ok (v', f') /\ vxp v' = - b * (1 + Cf g (1/2)) /\ steered b g px1 /\ Rabs px1 <= Rabs b /\ 3/2 * Rabs b < Rabs (vxp v').
Proof.
  intros B G. assert (V : 0 < eVc) by (unfold eVc; lra). set (f := mkF 1 [creal b; creal g]).
  assert (NB : b <> 0) by (intros ->; rewrite Rabs_R0 in B; lra).
  assert (EC : Cf g (1/2) = cos (sqrt g * (1/2))) by (apply Cf_pos; lra).
  destruct (sqrt_pos_sq g ltac:(lra)) as (Q & QQ). assert (Q1 : sqrt g <= 1) by nra.
  assert (C1 : 1/2 < Cf g (1/2)). { rewrite EC. apply Rle_lt_trans with (cos (PI / 3)); [rewrite cos_PI3; lra|]. pose proof PI2_1. pose proof PI2_3_2. apply cos_decreasing_1; lra. }
  assert (C2 : Cf g (1/2) < 1). { rewrite EC. apply Rlt_le_trans with (cos 0); [|rewrite cos_0; lra]. pose proof PI2_1. apply cos_decreasing_1; lra. }
  assert (KN : lift_u (get_kn f 1 (eVc / eVc)) = Ok (E := ierr) (creal g)). { unfold get_kn. replace (eVc / eVc) with 1 by (field; lra). rewrite Reqb_false by lra. cbn [f ex b0 length]. change (Nat.ltb 1 2) with true. cbn [nth lift_u]. f_equal. unfold factorial. cbn. destruct (Reqb_spec 1 0); [lra|]. apply cx_eq; cbn; field. }
  assert (EK : cscale 1 (creal g) = mkCx g 0) by (apply cx_eq; cbn; ring).
  assert (SP : cnonzero (snd (get_coefficient 0 1 f)) || Z.ltb 1 (highest (fst (get_coefficient 0 1 f))) = true). { rewrite get_coef. unfold coef, cnonzero, nonzero. cbn. now rewrite (Reqb_false b 0). }
  destruct (quad_matrices_apply (1/2) g ltac:(lra) ltac:(lra)) as (M & T & EM & HM).
  (* the uniform field kicks the same everywhere *)
  set (f1 := fst (get_coefficient 0 1 f)) in *. assert (S1 : same_field f1 f) by apply same_read.
  assert (KICK : forall h w, same_field h f -> multipole_kick (without_gradient h) 1 eVc 1 0 w = Ok (V6 (vx w) (vxp w - b) (vy w) (vyp w) (vct w) (vdp w))).
  { intros h w Sh. rewrite (same_kick _ (mkF 1 [creal b])).
    - unfold multipole_kick. rewrite Reqb_false by lra. rewrite field_eval. assert (NN : is_null (mkF 1 [creal b]) = false) by (unfold is_null, fequal, fequal_tol; cbn [b0]; rewrite Rleb_false; [reflexivity|]; rewrite Rabs_pos_eq by lra; pose proof eps_small; lra).
      rewrite NN. cbn [lift_u bind b0 ex peval]. rewrite cos_0, sin_0. f_equal. apply v6_eq; cbn; try reflexivity; field; lra.
    - apply (same_trans _ (without_gradient f)); [now apply same_without|]. split; [reflexivity|]. intros [|[|n]]; unfold without_gradient; rewrite set_coef; cbn [Nat.eqb]; unfold coef, get_coefficient, f; cbn; try reflexivity. destruct n; reflexivity. }
  assert (CA : carg (mkCx g 0) = 0) by (unfold carg; cbn; apply atan2_pos; lra).
  set (v3 := V6 (- b * Sf g (1/2)) (- b * (1 + Cf g (1/2))) 0 0 0 0).
  assert (PZ : 0 < pz2 v3). { unfold pz2, v3. cbn [vx vxp vy vyp vct vdp]. destruct B as (B1 & B2). assert (b * b < 1/4) by (pose proof (Rabs_pos b); assert (b * b = Rabs b * Rabs b) by (rewrite <- Rabs_mult, Rabs_pos_eq; [reflexivity | nra]); nra). set (c := Cf g (1/2)) in *. nra. }
  exists (free (1/2) v3), (set_coefficient 1 (coef (set_coefficient 1 (coef f1 1) 1 (without_gradient f1)) 1) 1 (without_gradient (set_coefficient 1 (coef f1 1) 1 (without_gradient f1)))), (- b * Sf g 1).
  split; [|split; [reflexivity|split; [apply steered_is; lra|split]]].
  - unfold rect_step. rewrite (Reqb_false 1 0) by lra. cbn [andb]. rewrite KN. cbn [bind]. cbv zeta. rewrite EK. fold f1. rewrite SP.
    assert (CN : cnonzero (mkCx g 0) = true) by (unfold cnonzero, nonzero; cbn; now rewrite (Reqb_false g 0) by lra). rewrite CN, EM. cbn [bind fst snd]. rewrite !get_coef, CA. replace (- (0 / 2)) with 0 by field.
    assert (Z : apply_dp 4 M T (V6 0 0 0 0 0 0) = V6 0 0 0 0 0 0) by (rewrite HM; unfold quad_apply; cbn; apply v6_eq; ring). rewrite Z. rewrite KICK by exact S1. cbn [bind fst snd vx vxp vy vyp vct vdp].
    assert (AP : apply_dp 4 M T (V6 0 (0 - b) 0 0 0 0) = V6 (- b * Sf g (1/2)) (- b * Cf g (1/2)) 0 0 0 0) by (rewrite HM; unfold quad_apply; cbn [vx vxp vy vyp vct vdp]; apply v6_eq; ring). rewrite AP.
    rewrite KICK by (eapply same_trans; [apply gradient_back | exact S1]). cbn [bind fst snd vx vxp vy vyp vct vdp]. unfold over. rewrite (Reqb_false (1/2) 0) by lra.
    replace (V6 (- b * Sf g (1/2)) (- b * Cf g (1/2) - b) 0 0 0 0) with v3 by (unfold v3; apply v6_eq; ring). rewrite drift_is_free by exact PZ. cbn [bind]. rewrite get_coef. reflexivity.
  - rewrite Rabs_mult, Rabs_Ropp. rewrite <- (Rmult_1_r (Rabs b)) at 2. apply Rmult_le_compat_l; [apply Rabs_pos|]. rewrite Sf_pos by lra. apply Rabs_le. assert (HS : - sqrt g <= sin (sqrt g * 1) <= sqrt g).
    { rewrite Rmult_1_r. pose proof (sin_lt_x _ Q). split; [|lra]. pose proof (sin_gt_0 (sqrt g) Q). pose proof PI2_1. lra. }
    split; [apply Rmult_le_reg_r with (sqrt g); [exact Q|]; unfold Rdiv; rewrite Rmult_assoc, Rinv_l by lra; lra | apply Rmult_le_reg_r with (sqrt g); [exact Q|]; unfold Rdiv; rewrite Rmult_assoc, Rinv_l by lra; lra].
  - unfold free, v3. cbn [vx vxp vy vyp vct vdp]. rewrite Rabs_mult, Rabs_Ropp. rewrite (Rabs_pos_eq (1 + Cf g (1/2))) by lra. nra.
Qed.
Print Assumptions C181_steering_refuted.
Example C181_ex : 0 < Rabs (1/4) < 1/2 /\ 0 < 1/2 <= 1.
Proof. rewrite Rabs_pos_eq; lra. Qed.

(* ================= C184: energy gain in cavities ================= *)
Definition wave_number (f : R) : R := 2 * PI * f / 299792458.
Theorem C184_standing P0 g f phi ds v v' P1 : g <> 0 -> sw_step P0 g f phi ds v = Ok (v', P1) ->
  P1 = P0 + g * ds * cos phi /\ P1 * (1 + vdp v') = P0 * (1 + vdp v) + g * ds * cos (phi - wave_number f * vct v) /\ vct v' = vct v /\ exists n : Z, ds = IZR n * (299792458 / f / 2).
Proof.
  intros G H. unfold sw_step in H. rewrite Reqb_false in H by exact G. destruct (Reqb_spec f 0); [discriminate|]. cbn [orb] in H. destruct (Reqb_spec P0 0) as [|NP]; [discriminate|]. cbv zeta in H.
  destruct (Reqb_spec (IZR (truncate (ds / (299792458 / f / 2))) * (299792458 / f / 2)) ds) as [E|]; [|discriminate]. cbn [negb] in H. fold (wave_number f) in H.
  destruct (sw_map (g * ds / P0) 0 (wave_number f) phi 0 ds v) as [w| |] eqn:W; try discriminate. cbn [bind] in H. injection H as <- <-. split; [reflexivity|].
  unfold sw_map in W. destruct (Rleb_spec (1 + g * ds / P0 * cos phi) 0) as [|A]; [discriminate|]. destruct (Reqb (cos phi) 0); [discriminate|]. destruct (Reqb _ 0); [discriminate|]. destruct (Reqb ds 0); [discriminate|]. destruct (Rleb (pz2 v) 0); [discriminate|]. cbn [orb] in W. cbv zeta in W.
  set (dp := (vdp v + _ - _) / _) in W. destruct (Rltb _ 0) in W; [discriminate|]. injection W as <-. cbn [vct vdp].
  split; [|split; [reflexivity | now exists (truncate (ds / (299792458 / f / 2)))]].
  unfold dp. replace (phi + 0 - wave_number f * vct v) with (phi - wave_number f * vct v) by ring. set (c := cos phi) in *. set (cc := cos (phi - _)). clearbody c cc. field. split; [exact NP|]. intros Z. assert (1 + g * ds / P0 * c = 0) by (replace (1 + g * ds / P0 * c) with ((P0 + g * ds * c) / P0) by (field; exact NP); rewrite Z; field; exact NP). lra.
Qed.
Print Assumptions C184_standing.
Theorem C184_cells P0 g f phi ds v : g <> 0 -> f <> 0 -> P0 <> 0 -> (forall n : Z, ds <> IZR n * (299792458 / f / 2)) -> sw_step P0 g f phi ds v = Throw Assertion.
Proof. intros G F P H. unfold sw_step. rewrite !Reqb_false by assumption. cbn [orb]. cbv zeta. rewrite Reqb_false; [reflexivity|]. intros E. exact (H _ (eq_sym E)). Qed.
Print Assumptions C184_cells.
Lemma unit_drift v : apply_m 4 (drift 4 0) v = v.
Proof. unfold apply_m, vof, msum, drift, mset, mid. destruct v as [a b c d e f]. cbn. apply v6_eq; ring. Qed.
Theorem C184_travelling P0 g k phi ds v v' : g <> 0 -> tw_step P0 g k phi ds v = Ok v' -> exists v1, over (ds / 2) drift_map v = Ok v1 /\
  P0 * (1 + vdp v') = P0 * (1 + vdp v) + g * ds * cos (phi - k * vct v1) /\ vxp v' = vxp v /\ vyp v' = vyp v.
Proof.
  intros G H. unfold tw_step in H. rewrite Reqb_false in H by exact G. destruct (Reqb_spec P0 0) as [|NP]; [discriminate|]. destruct (over (ds / 2) drift_map v) as [v1| |] eqn:E1; try discriminate. cbn [bind] in H. rewrite unit_drift in H. exists v1. split; [reflexivity|].
  assert (K : forall w w', over (ds / 2) drift_map w = Ok w' -> vxp w' = vxp w /\ vyp w' = vyp w /\ vdp w' = vdp w).
  { intros w w'. unfold over. destruct (Reqb (ds / 2) 0); [intros E; injection E as <-; auto|]. unfold drift_map. destruct (Rleb _ 0); [discriminate|]. intros E. injection E as <-. auto. }
  destruct (K _ _ E1) as (A1 & A2 & A3). destruct (K _ _ H) as (B1 & B2 & B3). unfold rf_kick in *. cbn [vxp vyp vdp] in *. split; [|split; congruence]. rewrite B3, A3. replace (phi + 0 - k * vct v1) with (phi - k * vct v1) by ring. field. exact NP.
Qed.
Print Assumptions C184_travelling.
Theorem C184_off P0 g f k phi ds v : g = 0 -> tw_step P0 g k phi ds v = over ds drift_map v /\ sw_step P0 g f phi ds v = (do w <- over ds drift_map v; Ok (w, P0)).
Proof. intros ->. unfold tw_step, sw_step. rewrite !(Reqb_true 0 0) by reflexivity. split; reflexivity. Qed.
Print Assumptions C184_off.
Lemma rf_kick_symplectic vn k phi v : symplectic_at (fun w => Ok (E := ierr) (rf_kick vn 0 k phi 0 w)) v.
Proof.
  exists (rows (V6 1 0 0 0 0 0) (V6 0 1 0 0 0 0) (V6 0 0 1 0 0 0) (V6 0 0 0 1 0 0) (V6 0 0 0 0 1 0) (V6 0 0 0 0 (vn * k * sin (phi - k * vct v)) 1)). split.
  - apply rows_tangent. intros c u Pc. exists 1, (fun t => rf_kick vn 0 k phi 0 (c t)). split; [lra|]. split; [reflexivity|]. split; [reflexivity|]. destruct (passes_parts c v u Pc) as (x & qx & y & qy & z & d & Hc & Hv & Dx & Dpx & Dy & Dpy & Dz & Dd). subst v.
    six i; (eapply dlim_ext; [intros t; rewrite Hc; unfold rf_kick; cbn [vx vxp vy vyp vct vdp]; reflexivity|]); (eapply dlim_eq; [|dt]); cbv beta; unfold dotv; cbn [vx vxp vy vyp vct vdp]; try ring.
    replace (phi + 0 - k * z 0) with (phi - k * z 0) by ring. ring.
  - apply bracket_symplectic. unfold bracket. cbn [coord vx vxp vy vyp vct vdp]. repeat split; ring.
Qed.
Lemma over_drift_symplectic s v v' : over s drift_map v = Ok v' -> symplectic_at (over s drift_map) v.
Proof. unfold over. intros H. destruct C177_domain as (D1 & _). destruct (Reqb s 0); [apply symplectic_same|]. apply C179_drift, (D1 s v). eauto. Qed.
Theorem C179_cavity P0 g k phi ds v v' : tw_step P0 g k phi ds v = Ok v' -> symplectic_at (tw_step P0 g k phi ds) v.
Proof.
  unfold tw_step. intros H. destruct (Reqb g 0); [eapply over_drift_symplectic; exact H|]. destruct (Reqb P0 0); [discriminate|]. destruct (over (ds / 2) drift_map v) as [v1| |] eqn:E1; try discriminate. cbn [bind] in H. rewrite unit_drift in H.
  apply (symplectic_ext (fun w => do v1 <- over (ds / 2) drift_map w; (do v2 <- Ok (rf_kick (g * ds / P0) 0 k phi 0 v1); over (ds / 2) drift_map v2))).
  { intros w. destruct (over (ds / 2) drift_map w); try reflexivity. cbn [bind]. cbv zeta. now rewrite unit_drift. }
  apply (symplectic_then _ _ _ _ E1); [eapply over_drift_symplectic; exact E1|]. eapply symplectic_then; [reflexivity | apply rf_kick_symplectic | eapply over_drift_symplectic; exact H].
Qed.
Print Assumptions C179_cavity.

(* ================= C185: the standing-wave matrix ================= *)
Definition alpha (vn phi : R) : R := ln (1 + vn * cos phi) / cos phi / (2 * sqrt 2).
Lemma sw_det vn phi len : 0 < 1 + vn * cos phi -> cos phi <> 0 -> vn <> 0 -> len <> 0 -> let M := sw_matrix vn phi len in
  (M 0%nat 0%nat * M 1%nat 1%nat - M 0%nat 1%nat * M 1%nat 0%nat) * (1 + vn * cos phi) = 1 + 2 * (sin (alpha vn phi) * sin (alpha vn phi)) * (cos phi * (sin phi - cos phi)).
Proof.
  intros D C N L. unfold sw_matrix. cbv zeta. fold (alpha vn phi). pose proof (sin2_cos2 (alpha vn phi)) as CS. unfold Rsqr in CS. pose proof (sqrt_sqrt 2 ltac:(lra)) as R2. assert (P2 : 0 < sqrt 2) by (apply sqrt_lt_R0; lra).
  set (ca := cos (alpha vn phi)) in *. set (sa := sin (alpha vn phi)) in *. set (c := cos phi) in *. set (s := sin phi). set (r := sqrt 2) in *. clearbody ca sa c s r.
  assert (CC : ca * ca = 1 - sa * sa) by lra. field_simplify_eq; [|repeat split; try assumption; lra]. ring [CC R2].
Qed.
(* conservation of the normalised area: the determinant is the ratio of the momenta *)
Theorem C185_determinant_refuted : exists vn phi len, let M := sw_matrix vn phi len in 0 < 1 + vn * cos phi /\ len <> 0 /\
  (M 0%nat 0%nat * M 1%nat 1%nat - M 0%nat 1%nat * M 1%nat 0%nat) * (1 + vn * cos phi) < 1.
Proof.
  exists 1, 0, 1. cbv zeta. split; [rewrite cos_0; lra|]. split; [lra|]. rewrite sw_det by (rewrite ?cos_0; lra). rewrite sin_0, cos_0. unfold alpha. rewrite cos_0. replace (1 + 1 * 1) with 2 by ring.
  assert (A : 0 < ln 2 / 1 / (2 * sqrt 2) < 1).
  { assert (P2 : 1 < sqrt 2) by (rewrite <- sqrt_1 at 1; apply sqrt_lt_1; lra). pose proof ln_lt_2. assert (L1 : ln 2 < 1). { rewrite <- (ln_exp 1). apply ln_increasing; [lra|]. pose proof (exp_ineq1 1 ltac:(lra)). lra. }
    replace (ln 2 / 1) with (ln 2) by field. split; [apply Rdiv_lt_0_compat; lra|]. apply Rmult_lt_reg_r with (2 * sqrt 2); [lra|]. unfold Rdiv. rewrite Rmult_assoc, Rinv_l by lra. lra. }
  set (a := ln 2 / 1 / (2 * sqrt 2)) in *. assert (S1 : 0 < sin a) by (apply sin_gt_0; pose proof PI2_1; lra). nra.
Qed.
Print Assumptions C185_determinant_refuted.
(* exactly when it is right *)
Theorem C185_determinant_partial vn phi len : 0 < 1 + vn * cos phi -> cos phi <> 0 -> vn <> 0 -> len <> 0 -> let M := sw_matrix vn phi len in
  (M 0%nat 0%nat * M 1%nat 1%nat - M 0%nat 1%nat * M 1%nat 0%nat) * (1 + vn * cos phi) = 1 <-> sin (alpha vn phi) = 0 \/ sin phi = cos phi.
Proof.
  intros D C N L. cbv zeta. rewrite sw_det by assumption. set (sa := sin (alpha vn phi)). set (c := cos phi) in *. set (s := sin phi). split.
  - intros H. assert (Z : sa * sa * (c * (s - c)) = 0) by lra. apply Rmult_integral in Z. destruct Z as [Z|Z]; [left; nra|]. apply Rmult_integral in Z. destruct Z; [contradiction | right; lra].
  - intros [Z|Z]; rewrite Z; ring.
Qed.
Print Assumptions C185_determinant_partial.
(* the matrix is what the particles see *)
Theorem C185_particles vn ve k phi dphi len v v' : sw_map vn ve k phi dphi len v = Ok v' -> let M := sw_matrix vn phi len in let p := vxp v / sqrt (pz2 v) in let q := vyp v / sqrt (pz2 v) in
  vx v' = M 0%nat 0%nat * vx v + M 0%nat 1%nat * p /\ vy v' = M 0%nat 0%nat * vy v + M 0%nat 1%nat * q /\
  exists z, 0 <= z /\ vxp v' = (M 1%nat 0%nat * vx v + M 1%nat 1%nat * p) * z /\ vyp v' = (M 1%nat 0%nat * vy v + M 1%nat 1%nat * q) * z /\
    z * z = (1 + vdp v') * (1 + vdp v') - (M 1%nat 0%nat * vx v + M 1%nat 1%nat * p) * (M 1%nat 0%nat * vx v + M 1%nat 1%nat * p) - (M 1%nat 0%nat * vy v + M 1%nat 1%nat * q) * (M 1%nat 0%nat * vy v + M 1%nat 1%nat * q).
Proof.
  unfold sw_map. destruct (_ || _); [discriminate|]. cbv zeta. set (a := (1 + _) * (1 + _) - _ - _). destruct (Rltb_spec a 0) as [|A]; [discriminate|]. intros H. injection H as <-. cbn [vx vxp vy vyp vct vdp]. split; [reflexivity|]. split; [reflexivity|].
  exists (sqrt a). split; [apply sqrt_pos|]. split; [reflexivity|]. split; [reflexivity|]. apply sqrt_sqrt. fold a. apply Rnot_lt_le, A.
Qed.
Print Assumptions C185_particles.
Example C184_ex : exists v' P1, sw_step 1 (1/10) (299792458 / 2) 0 1 (V6 0 0 0 0 0 0) = Ok (v', P1) /\ 1/10 <> 0.
Proof.
  unfold sw_step. rewrite (Reqb_false (1/10) 0), (Reqb_false (299792458 / 2) 0), (Reqb_false 1 0) by lra. cbn [orb]. cbv zeta. replace (299792458 / (299792458 / 2) / 2) with 1 by field. replace (1 / 1) with 1 by field.
  assert (T : truncate 1 = 1%Z). { unfold truncate. rewrite Rltb_false by lra. unfold Int_part. rewrite <- (tech_up 1 2); [reflexivity | lra | lra]. } rewrite T. rewrite (Reqb_true (1 * 1) 1) by ring. cbn [negb].
  unfold sw_map. assert (Z : pz2 (V6 0 0 0 0 0 0) = 1) by (unfold pz2; cbn; ring). rewrite Z, cos_0. cbn [vx vxp vy vyp vct vdp]. rewrite Rleb_false, (Reqb_false 1 0), Reqb_false, Rleb_false by lra. cbn [orb]. cbv zeta.
  assert (Y : 0 / sqrt 1 = 0) by (unfold Rdiv; ring). rewrite Y. rewrite Rltb_false; [cbn [bind]; eexists _, _; split; [reflexivity | lra]|].
  match goal with |- 0 <= ?a * ?a - ?b * ?b - ?c * ?c => replace b with 0 by ring; pose proof (Rle_0_sqr a); unfold Rsqr in *; lra end.
Qed.
