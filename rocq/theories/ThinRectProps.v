(* C209, C210: straight magnets in the thin lens integrators *)
From Coq Require Import ZArith.
From Verif Require Import RBase Rot Cplx CplxFacts Field FieldProps Cov Bunch BunchSpec Optics OpticsSpec OpticsProofs OpticsProps Chromatic ChromaticProps RFMap SympInt SympIntSpec SympIntProofs SympIntProps SympRectProps SympStepProps TransInt TransSpec TransIntProps TransBendProps ThinInt ThinSpec ThinIntProps.
Local Open Scope R_scope.

(* the step with the strengths read *)
Lemma th_rect_eq P0 q ds f v : P0 <> 0 -> ds <> 0 -> let K := kn P0 q f 1 in let sp := negb (short_field f) in let len := if sp then ds / 2 else ds in
  particle_of (th_rect_step P0 q ds f v) =
  (do MT <- (if cnonzero K then quad_matrices len K else Ok (zeros, zeros));
   let v1 := if cnonzero K then apply_dp 4 (fst MT) (snd MT) v else straight_on len v in
   if sp then do v2 <- th_kick (without 1 f) ds P0 q v1; Ok (if cnonzero (coef f 1) then apply_dp 4 (fst MT) (snd MT) v2 else straight_on len v2)
   else Ok v1).
Proof.
  intros N D K sp len. unfold th_rect_step. rewrite (Reqb_false ds 0) by exact D. destruct (kn_ok P0 q f 1 N) as (k & -> & E). cbn [lift_u bind]. cbv zeta. rewrite E. fold K. rewrite split_short. fold sp. fold len.
  rewrite !th_drift_ok. match goal with |- context [bind ?X _] => destruct X as [MT| |] end; try reflexivity. cbn [bind]. destruct sp; [|reflexivity].
  assert (S : same_field (without_gradient (fst (get_coefficient 0 1 f))) (without 1 f)) by (apply (same_without (fst (get_coefficient 0 1 f)) f), same_read).
  rewrite (th_kick_same _ _ _ _ _ _ S). rewrite !get_coef. destruct (same_read 0 f) as [_ ->]. destruct (th_kick _ _ _ _ _) as [v2| |]; try reflexivity. cbn [bind particle_of fst]. now rewrite th_drift_ok.
Qed.
Lemma kn_zero P0 q f n : coef f n = c0 -> kn P0 q f n = c0.
Proof. intros E. unfold kn. rewrite E. apply cx_eq; cbn; ring. Qed.
Lemma kn_none P0 q f n : kn P0 q f n <> c0 -> coef f n <> c0.
Proof. intros H E. apply H. now apply kn_zero. Qed.
Lemma lacks_same n f g : lacks n f g -> same_field (without n f) g.
Proof. apply without_lacks. Qed.

(* no field: a drift *)
Theorem C209_empty P0 q ds f v : P0 <> 0 -> (forall n, coef f n = c0) -> (highest f <= 1)%Z -> particle_of (th_rect_step P0 q ds f v) = Ok (straight_on ds v).
Proof.
  intros N E H. destruct (Reqb_spec ds 0) as [->|D].
  { unfold th_rect_step. rewrite (Reqb_true 0 0) by reflexivity. cbn. f_equal. destruct v. unfold straight_on. cbn. f_equal; ring. }
  rewrite th_rect_eq by assumption. cbv zeta. unfold short_field. rewrite (kn_zero _ _ _ _ (E 1%nat)), (E 0%nat), !cnonzero_0. destruct (Z.leb_spec (highest f) 1); [|lia]. cbn [negb andb bind]. reflexivity.
Qed.
Print Assumptions C209_empty.
(* a field without gradient: drift, one kick half way, drift *)
Theorem C209_kicked P0 q ds f v : P0 <> 0 -> ds <> 0 -> coef f 1 = c0 -> short_field f = false -> 1 + vdp v <> 0 ->
  particle_of (th_rect_step P0 q ds f v) =
  let u := straight_on (ds / 2) v in Ok (straight_on (ds / 2) (pushed (deflection P0 q ds u (field_at f (place u))) u)).
Proof.
  intros N D E Sh V1. rewrite th_rect_eq by assumption. cbv zeta. rewrite (kn_zero _ _ _ _ E), E, cnonzero_0, Sh. cbn [negb bind].
  assert (S : same_field (without 1 f) f) by (apply lacks_same; repeat split; auto). rewrite (th_kick_same _ _ _ _ _ _ S).
  rewrite th_kick_ok by assumption. reflexivity.
Qed.
Print Assumptions C209_kicked.
(* an upright quadrupole: the solution of the equations of motion for the reference momentum and
   its derivative with respect to the deviation *)
Definition chromatic (M T : mtx) (v : vec6) : vec6 := carried 4 (fun i j => M i j + T i j * vdp v) v.
Definition by_momentum (K : R) (F T : R -> mtx) : Prop :=
  solves 4 (bend_motion 0 K) F /\
  exists G, (forall d, -1 < d -> solves 4 (bend_motion 0 (K / (1 + d))) (G d)) /\ (forall s i j, (i < 4)%nat -> (j < 4)%nat -> G 0 s i j = F s i j /\ derivable_pt_lim (fun d => G d s i j) 0 (T s i j)).
Lemma quad_maps K : K <> 0 -> exists F T, by_momentum K F T /\ forall l, l <> 0 -> exists M N, quad_matrices l (mkCx K 0) = Ok (M, N) /\ forall v, apply_dp 4 M N v = chromatic (F l) (T l) v.
Proof.
  intros NK. exists (fun l => bend_form l 0 K), (fun l => quad_t_form l K). split; [split; [apply bend_form_solves; auto|]|].
  - exists (fun d l => bend_form l 0 (K / (1 + d))). split; [intros d _; apply bend_form_solves; auto|]. intros s i j Hi Hj. rewrite scaled_0. split; [reflexivity|].
    destruct (Reqb_spec s 0) as [->|NS].
    + apply (dlim_local (fun _ => unit_matrix i j) _ 0 _ 1 ltac:(lra)); [|].
      * intros d _. symmetry. destruct (bend_form_solves 4 0 (K / (1 + d)) (or_introl eq_refl)) as [I _]. now apply I.
      * assert (Z : quad_t_form 0 K i j = 0) by (unfold quad_t_form, tbl, ta, tb, tc; rewrite ?Sf_0, ?Cf_0; destruct i as [|[|[|[|i]]]]; try lia; destruct j as [|[|[|[|j]]]]; try lia; cbn; lra). rewrite Z. apply dconst.
    + destruct (C73_quadrupole s K NS NK) as (T & ET & H). destruct (quad_t_ok 4 s K ltac:(lia) NS NK) as (T' & ET' & M). rewrite ET in ET'. injection ET' as <-. specialize (H i j Hi Hj). unfold chromatic_at in H. rewrite <- M by assumption.
      apply (dlim_local _ _ 0 _ 1 ltac:(lra) (fun y _ => quad_entry 4 s (K / (1 + y)) i j (or_introl eq_refl) Hi Hj)). exact H.
  - intros l NL. destruct (quad_matrices_apply l K NL NK) as (M & T & E & A). exists M, T. split; [exact E|]. intros v. rewrite A. unfold quad_apply, chromatic, carried, bend_form, quad_t_form, tbl. cbv zeta. replace (K + 0 * 0) with K by ring. unfold sum. cbn. destruct v as [x px y py z d]. cbn. apply v6_eq; try reflexivity; ring.
Qed.
Lemma chromatic_dp M T v : vdp (chromatic M T v) = vdp v.
Proof. reflexivity. Qed.
Theorem C209_quadrupole P0 q f K : P0 <> 0 -> kn P0 q f 1 = mkCx K 0 -> K <> 0 -> exists F T, by_momentum K F T /\ forall ds v, ds <> 0 ->
  (short_field f = true -> particle_of (th_rect_step P0 q ds f v) = Ok (chromatic (F ds) (T ds) v)) /\
  (short_field f = false -> forall g, lacks 1 f g -> 1 + vdp v <> 0 -> particle_of (th_rect_step P0 q ds f v) =
     let half := chromatic (F (ds / 2)) (T (ds / 2)) in let u := half v in Ok (half (pushed (deflection P0 q ds u (field_at g (place u))) u))).
Proof.
  intros N E NK. destruct (quad_maps K NK) as (F & T & B & A). exists F, T. split; [exact B|]. intros ds v D.
  assert (C : cnonzero (mkCx K 0) = true) by (unfold cnonzero, nonzero; cbn; now rewrite Reqb_false).
  assert (C1 : cnonzero (coef f 1) = true) by (apply cnz; apply (kn_none P0 q); rewrite E; intros Q; injection Q; congruence).
  rewrite th_rect_eq by assumption. cbv zeta. rewrite E, C, C1. split; intros S; rewrite S; cbn [negb].
  - destruct (A ds D) as (M & M' & -> & H). cbn [bind fst snd]. now rewrite H.
  - intros g L V1. destruct (A (ds / 2) ltac:(lra)) as (M & M' & -> & H). cbn [bind fst snd]. rewrite (th_kick_same _ _ _ _ _ _ (lacks_same 1 f g L)). rewrite !H. rewrite th_kick_ok by assumption. cbn [bind]. now rewrite H.
Qed.
Print Assumptions C209_quadrupole.
Theorem C209_field_kept P0 q ds f v v' f' : th_rect_step P0 q ds f v = Ok (v', f') -> b0 f' = b0 f /\ forall n, coef f' n = coef f n.
Proof.
  intros H. change (same_field f' f). revert H. unfold th_rect_step. destruct (Reqb ds 0); [intros Q; injection Q as _ <-; apply same_refl|]. destruct (lift_u _); try discriminate. cbn [bind]. cbv zeta.
  match goal with |- context [bind ?X _] => destruct X as [MT| |]; try discriminate end. cbn [bind]. set (f1 := fst (get_coefficient 0 1 f)). assert (S1 : same_field f1 f) by apply same_read. clearbody f1. rewrite !get_coef. destruct (_ || _).
  - destruct (th_kick _ _ _ _ _); try discriminate. cbn [bind]. intros Q. injection Q as _ <-. eapply same_trans; [apply gradient_back | exact S1].
  - intros Q. injection Q as _ <-. exact S1.
Qed.
Print Assumptions C209_field_kept.
Theorem C209_charge P0 q ds f v : th_rect_step P0 (- q) ds (reversed f) v = (do r <- th_rect_step P0 q ds f v; Ok (fst r, reversed (snd r))).
Proof.
  unfold th_rect_step. destruct (Reqb ds 0); [reflexivity|]. cbv zeta.
  assert (GF : forall n g, fst (get_coefficient n 1 (reversed g)) = reversed (fst (get_coefficient n 1 g))) by reflexivity.
  assert (GS : forall n g, snd (get_coefficient n 1 (reversed g)) = snd (get_coefficient n 1 g)) by reflexivity.
  assert (ST : forall n c g, set_coefficient n c 1 (reversed g) = reversed (set_coefficient n c 1 g)) by reflexivity.
  assert (HI : forall g, highest (reversed g) = highest g) by reflexivity.
  assert (WG : forall g, without_gradient (reversed g) = reversed (without_gradient g)) by reflexivity.
  rewrite !GF, !HI, !GS, WG. 
  assert (KK : (do k <- lift_u (get_kn (reversed f) 1 (P0 / eVc)); Ok (cscale (- q) k)) = (do k <- lift_u (get_kn f 1 (P0 / eVc)); Ok (cscale q k))).
  { unfold get_kn. destruct (Reqb _ _); [reflexivity|]. cbn [reversed ex b0]. destruct (Nat.ltb _ _); cbn [lift_u bind]; f_equal; apply cx_eq; cbn; unfold Rdiv; ring. }
  destruct (lift_u (get_kn (reversed f) 1 (P0 / eVc))) as [k| |], (lift_u (get_kn f 1 (P0 / eVc))) as [k'| |]; cbn [bind] in *; try discriminate; try (injection KK as <-); try reflexivity.
  injection KK as KK1 KK2. assert (KK : cscale (- q) k = cscale q k') by (apply cx_eq; assumption). rewrite KK. 
  match goal with |- (do K1 <- ?X; _) = _ => destruct X as [MT| |] end; try reflexivity. cbn [bind]. destruct (_ || _); [|reflexivity].
  rewrite th_kick_reversed. destruct (th_kick _ _ _ _ _) as [v2| |]; reflexivity.
Qed.
Print Assumptions C209_charge.

(* ---- C210 ---- *)
(* thin magnets do nothing at all, whatever their field; the other sets kick *)
Theorem C210_thin_refuted P0 q f v : th_rect_step P0 q 0 f v = Ok (v, f) /\
  (P0 <> 0 -> 1 + vdp v <> 0 -> is_null f = false -> q <> 0 -> field_at f (place v) <> c0 -> exists w, particle_of (tr_rect_step P0 q 0 0 f v) = Ok w /\ w <> v).
Proof.
  split; [unfold th_rect_step; now rewrite (Reqb_true 0 0)|]. intros N D Z Q B. rewrite C198_thin by assumption. eexists. split; [reflexivity|]. intros E. apply B.
  assert (EX := f_equal vxp E). assert (EY := f_equal vyp E). unfold pushed, deflection in EX, EY. cbn in EX, EY.
  set (s := q * 1 * (299792458 / 1000000000) / (P0 * (1 + vdp v))) in *. assert (NS : s <> 0).
  { unfold s, Rdiv. repeat apply Rmult_integral_contrapositive_currified; try assumption; try lra. apply Rinv_neq_0_compat. now apply Rmult_integral_contrapositive_currified. }
  destruct (field_at f (place v)) as [a b]. cbn in EX, EY. apply cx_eq; cbn; apply (Rmult_eq_reg_l s); try exact NS; lra.
Qed.
Print Assumptions C210_thin_refuted.
(* a magnet switched off by its field scale, with a gradient and other multipoles set, puts
   every particle on the axis *)
Theorem C210_off_refuted P0 q ds f v : P0 <> 0 -> ds <> 0 -> b0 f = 0 -> coef f 1 <> c0 -> short_field f = false -> 1 + vdp v <> 0 ->
  particle_of (th_rect_step P0 q ds f v) = Ok (V6 0 0 0 0 (vct v) (vdp v)).
Proof.
  intros N D B C S V1. assert (K : kn P0 q f 1 = c0) by (unfold kn; rewrite B; apply cx_eq; cbn; unfold Rdiv; ring).
  rewrite th_rect_eq by assumption. cbv zeta. rewrite K, cnonzero_0, S. cbn [negb bind]. assert (C' : cnonzero (coef f 1) = true) by now apply cnz. rewrite C'.
  rewrite th_kick_ok by assumption. cbn [bind fst snd]. f_equal. unfold apply_dp, vof, zeros, msum. cbn. apply v6_eq; try reflexivity; ring.
Qed.
Print Assumptions C210_off_refuted.
(* so does a bunch of neutral particles *)
Theorem C210_neutral_refuted P0 ds f v : P0 <> 0 -> ds <> 0 -> coef f 1 <> c0 -> short_field f = false -> 1 + vdp v <> 0 ->
  particle_of (th_rect_step P0 0 ds f v) = Ok (V6 0 0 0 0 (vct v) (vdp v)).
Proof.
  intros N D C S V1. assert (K : kn P0 0 f 1 = c0) by (unfold kn; apply cx_eq; cbn; unfold Rdiv; ring).
  rewrite th_rect_eq by assumption. cbv zeta. rewrite K, cnonzero_0, S. cbn [negb bind]. assert (C' : cnonzero (coef f 1) = true) by now apply cnz. rewrite C'.
  rewrite th_kick_ok by assumption. cbn [bind fst snd]. f_equal. unfold apply_dp, vof, zeros, msum. cbn. apply v6_eq; try reflexivity; ring.
Qed.
Print Assumptions C210_neutral_refuted.
(* a magnet with nothing but a gradient, upright or not, acts as in the symplectic integrators *)
Theorem C209_like_symplectic P0 q L ds f v : P0 <> 0 -> ds <> 0 -> kn P0 q f 1 <> c0 -> short_field f = true -> particle_of (th_rect_step P0 q ds f v) = particle_of (rect_step P0 q L ds f v).
Proof.
  intros N D K S. rewrite th_rect_eq by assumption. cbv zeta. rewrite S. cbn [negb]. apply cnz in K. rewrite K.
  unfold rect_step. rewrite (Reqb_false ds 0) by exact D. rewrite andb_false_r. cbn [andb]. destruct (kn_ok P0 q f 1 N) as (k & -> & E). cbn [lift_u bind]. cbv zeta. rewrite E, K, split_short, S. cbn [negb].
  destruct (quad_matrices ds (kn P0 q f 1)) as [MT| |]; reflexivity.
Qed.
Print Assumptions C209_like_symplectic.
