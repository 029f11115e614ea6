(* C208-C210: bends and straight magnets in the thin lens integrators *)
From Coq Require Import ZArith.
From Verif Require Import RBase Rot Cplx CplxFacts Field FieldProps Cov Bunch BunchSpec Optics OpticsSpec OpticsProofs OpticsProps Chromatic RFMap SympInt SympIntSpec SympIntProofs SympIntProps SympRectProps SympStepProps TransInt TransSpec TransIntProps TransBendProps ThinInt ThinSpec.
Local Open Scope R_scope.

Lemma th_drift_ok l v : th_drift l v = straight_on l v.
Proof. unfold th_drift, psdrift, straight_on. destruct (Reqb_spec l 0) as [->|]; destruct v; cbn; f_equal; ring. Qed.
Lemma th_kick_ok f l P0 q v : P0 <> 0 -> 1 + vdp v <> 0 -> th_kick f l P0 q v = Ok (pushed (deflection P0 q l v (field_at f (place v))) v).
Proof.
  intros N D. unfold th_kick. rewrite (Reqb_false P0 0), (Reqb_false (1 + vdp v) 0) by assumption. cbn [orb]. rewrite field_at_ok. cbn [lift_u bind]. cbv zeta. f_equal. unfold pushed, deflection, place. rewrite eVc_val.
  apply v6_eq; cbn; try reflexivity; field; auto.
Qed.
Lemma th_kick_same f g l P0 q v : same_field f g -> th_kick f l P0 q v = th_kick g l P0 q v.
Proof. intros S. unfold th_kick. now rewrite (same_field2d f g). Qed.
Lemma th_kick_eq f l P0 q v : th_kick f l P0 q v = kick_dp f l P0 q 0 v.
Proof.
  unfold th_kick, kick_dp. destruct (_ || _); [reflexivity|]. destruct (lift_u _) as [B| |]; try reflexivity. cbn [bind]. cbv zeta. rewrite cos_0, sin_0. f_equal. apply v6_eq; try reflexivity; cbn; ring.
Qed.
Lemma carried_ok n M F v : (n = 4 \/ n = 6)%nat -> meq n M F -> apply_m n M v = carried n F v.
Proof.
  intros Hn E. unfold apply_m, carried, vof.
  assert (S : forall i, (if Nat.ltb i n then msum (fun j => M i j * coord j v) n else coord i v) = (if Nat.ltb i n then sum (fun j => F i j * coord j v) (seq 0 n) else coord i v)).
  { intros i. destruct (Nat.ltb_spec i n) as [L|L]; [|reflexivity].
    destruct Hn as [-> | ->]; cbn [msum seq sum map fold_right]; rewrite ?E by lia; unfold sum; cbn; ring. }
  cbv zeta. now rewrite !S.
Qed.
Lemma carried_meq n M F v : (n = 4 \/ n = 6)%nat -> meq n M F -> carried n M v = carried n F v.
Proof. intros Hn E. rewrite <- (carried_ok n M M) by (try assumption; intros i j _ _; reflexivity). now apply carried_ok. Qed.

(* ---- drifts ---- *)
Theorem C208_drift ds v : th_drift_step ds v = straight_on ds v.
Proof. unfold th_drift_step. destruct (Reqb_spec ds 0) as [->|]; [|apply th_drift_ok]. destruct v; cbn. unfold straight_on. cbn. f_equal; ring. Qed.
Print Assumptions C208_drift.
Theorem C208_drift_steps s t v : th_drift_step t (th_drift_step s v) = th_drift_step (s + t) v.
Proof. rewrite !C208_drift. unfold straight_on. cbn. f_equal; ring. Qed.
Print Assumptions C208_drift_steps.

(* ---- bends ---- *)
(* the frame of a magnet turned about the beam *)
Definition in_frame (t : R) (G : vec6 -> vec6) (v : vec6) : vec6 := if Reqb t 0 then G v else turn (- t) (G (turn t v)).
Lemma scaled_some M F P P0 v : eps < P -> meq 6 M F -> scaled_apply M (Some P) P0 v = about_design P0 P F v.
Proof.
  intros L E. unfold scaled_apply, apply_p. destruct (fequal P 0) eqn:Z.
  { apply fequal_0 in Z. pose proof eps_pos. rewrite Rabs_pos_eq in Z by lra. lra. }
  unfold about_design, scaledp. rewrite (carried_ok 6 M F) by auto. reflexivity.
Qed.
Lemma scaled_none M l K P0 v : meq 6 M (bend_form l 0 K) -> scaled_apply M None P0 v = carried 4 (bend_form l 0 K) v.
Proof.
  intros E. unfold scaled_apply. rewrite (carried_ok 6 M _ _ (or_intror eq_refl) E). assert (G : gh 0 K = 0) by (unfold gh; destruct (Reqb _ _); reflexivity).
  unfold carried, bend_form, with_dp. rewrite G. cbv zeta. unfold sum, tbl. destruct v as [x px y py z d]. cbn. apply v6_eq; try reflexivity; unfold Rdiv; ring.
Qed.
Lemma roll_frame t (G : vec6 -> vec6) v : t = 0 \/ eps < Rabs t -> (do w <- rolled t v; rolled (- t) (G w)) = Ok (in_frame t G v).
Proof.
  intros H. unfold in_frame. destruct (Reqb_spec t 0) as [->|N].
  - unfold rolled. rewrite Ropp_0, (Reqb_true 0 0) by reflexivity. reflexivity.
  - destruct H as [|H]; [contradiction|]. rewrite rolled_turn by exact H. cbn [bind]. apply rolled_turn. now rewrite Rabs_Ropp.
Qed.
(* a bend step in its frame *)
Lemma bend_core P0 q ds b v (G : vec6 -> vec6) M : let f := sfield b in let sp := simple_bend P0 q f in
  P0 <> 0 -> ds <> 0 -> matched (sh b) q f = true -> stilt b = 0 \/ eps < Rabs (stilt b) ->
  sector_bend 6 (if sp then ds else ds / 2) (sh b) (re (strength P0 q f)) = Ok M -> (forall w, scaled_apply M (momentum_of (sh b) q (fst (get_coefficient 0 1 f))) P0 w = G w) ->
  (sp = true -> particle_of (th_bend_step P0 q ds b v) = Ok (in_frame (stilt b) G v)) /\
  (sp = false -> forall g, remainder f g -> (forall w, vdp (G w) = vdp w) -> 1 + vdp v <> 0 ->
     particle_of (th_bend_step P0 q ds b v) = Ok (in_frame (stilt b) (fun w => let u := G w in G (pushed (deflection P0 q ds u (field_at g (place u))) u)) v)).
Proof.
  intros f sp N D Ma T E A.
  assert (ST : forall X, particle_of (th_bend_step P0 q ds b v) = X <->
     particle_of (do v1 <- rolled (stilt b) v;
       let f1 := fst (get_coefficient 0 1 f) in let bz := snd (get_coefficient 0 1 f1) in
       do r <- (if negb sp then
          let f2 := fst (get_coefficient 1 1 f1) in let b1 := snd (get_coefficient 1 1 f1) in
          let f3 := set_coefficient 1 (mkCx 0 (im b1)) 1 (set_coefficient 0 (mkCx 0 (im bz)) 1 f2) in
          do v3 <- th_kick f3 ds P0 q (G v1);
          Ok (G v3, set_coefficient 1 b1 1 (set_coefficient 0 bz 1 f3))
        else Ok (G v1, f1)); do v5 <- rolled (- stilt b) (fst r); Ok (v5, snd r)) = X).
  { intros X. unfold th_bend_step. rewrite (Reqb_false ds 0) by exact D. fold f. destruct (rolled (stilt b) v) as [v1| |]; [|reflexivity|reflexivity]. cbn [bind]. cbv zeta.
    rewrite matched_read, Ma. cbn [negb]. rewrite bend_strength by exact N. cbn [bind]. rewrite split_bend. fold sp.
    replace (if negb sp then ds / 2 else ds) with (if sp then ds else ds / 2) by (destruct sp; reflexivity). rewrite E. cbn [lift bind]. rewrite !A.
    destruct (negb sp); [|reflexivity]. destruct (th_kick _ ds P0 q (G v1)) as [v3| |]; try reflexivity. cbn [bind]. rewrite A. reflexivity. }
  split.
  - intros Q. rewrite Q in ST. apply ST. cbn [negb]. pose proof (roll_frame (stilt b) G v T) as RF. destruct (rolled (stilt b) v) as [v1| |]; try discriminate. cbn [bind] in *. cbv zeta. cbn [fst snd]. rewrite RF. reflexivity.
  - intros Q g Gr VD V1. rewrite Q in ST. apply ST. cbn [negb]. cbv zeta.
    set (f1 := fst (get_coefficient 0 1 f)). set (f2 := fst (get_coefficient 1 1 f1)). set (f3 := set_coefficient 1 _ 1 (set_coefficient 0 _ 1 f2)).
    assert (S1 : same_field f1 f) by apply same_read. assert (S2 : same_field f2 f) by (eapply same_trans; [apply same_read | exact S1]).
    assert (SG : same_field f3 g).
    { destruct Gr as (G0 & G1 & G2 & G3), S2 as [S20 S2], S1 as [S10 S1]. unfold f3. split; [rewrite !b0_set; congruence|]. intros n. rewrite !set_coef, !get_coef. destruct n as [|[|n]]; cbn [Nat.eqb]; [rewrite S1; congruence | rewrite S1; congruence | rewrite S2; symmetry; apply G3; lia]. }
    pose proof (roll_frame (stilt b) (fun w => let u := G w in G (pushed (deflection P0 q ds u (field_at g (place u))) u)) v T) as RF.
    destruct (rolled (stilt b) v) as [v1| |] eqn:ER; try discriminate. cbn [bind] in *.
    assert (D1 : vdp v1 = vdp v).
    { destruct T as [T|T]; [|rewrite rolled_turn in ER by exact T; injection ER as <-; reflexivity]. unfold rolled in ER. rewrite T, (Reqb_true 0 0) in ER by reflexivity. now injection ER as <-. }
    rewrite (th_kick_same f3 g) by exact SG. rewrite th_kick_ok by (try assumption; rewrite VD, D1; exact V1). cbn [bind fst snd]. cbv zeta in RF. rewrite RF. reflexivity.
Qed.
Lemma momentum_some h q f : h <> 0 -> momentum_of h q (fst (get_coefficient 0 1 f)) = Some (design_momentum h q f).
Proof. intros H. unfold momentum_of. rewrite (Reqb_false h 0) by exact H. now rewrite matched_momentum_read. Qed.

(* A bend is the solution of the linear equations of motion, written for the momentum the
   magnet is made for; the multipoles beyond dipole and quadrupole and the skew parts are one
   kick half way. *)
Theorem C208_bend P0 q b : let f := sfield b in let h := sh b in let K := re (kn P0 q f 1) in let Pd := design_momentum h q f in
  P0 <> 0 -> h <> 0 -> matched h q f = true -> eps < Pd -> stilt b = 0 \/ eps < Rabs (stilt b) ->
  exists F, solves 4 (bend_motion h K) F /\ (K + h * h <> 0 -> solves 6 (bend_motion h K) F) /\
  forall ds v, ds <> 0 ->
    (simple_bend P0 q f = true -> particle_of (th_bend_step P0 q ds b v) = Ok (in_frame (stilt b) (about_design P0 Pd (F ds)) v)) /\
    (simple_bend P0 q f = false -> forall g, remainder f g -> 1 + vdp v <> 0 ->
       particle_of (th_bend_step P0 q ds b v) = Ok (in_frame (stilt b) (fun w => let u := about_design P0 Pd (F (ds / 2)) w in
         about_design P0 Pd (F (ds / 2)) (pushed (deflection P0 q ds u (field_at g (place u))) u)) v)).
Proof.
  intros f h K Pd N H Ma L T. exists (fun l => bend_form l h K). split; [apply bend_form_solves; auto|]. split; [intros X; apply bend_form_solves; auto|].
  intros ds v D. unfold K. rewrite kn_strength. split; intros Q.
  - destruct (sbr_form 6 ds h (re (strength P0 q f)) (or_intror eq_refl)) as (M & E & F).
    destruct (bend_core P0 q ds b v (about_design P0 Pd (bend_form ds h (re (strength P0 q f)))) M) as [X _]; try assumption.
    + fold f. rewrite Q. exact E.
    + intros w. fold f h. rewrite momentum_some by exact H. now apply scaled_some.
    + now apply X.
  - intros g Gr V1. destruct (sbr_form 6 (ds / 2) h (re (strength P0 q f)) (or_intror eq_refl)) as (M & E & F).
    destruct (bend_core P0 q ds b v (about_design P0 Pd (bend_form (ds / 2) h (re (strength P0 q f)))) M) as [_ X]; try assumption.
    + fold f. rewrite Q. exact E.
    + intros w. fold f h. rewrite momentum_some by exact H. now apply scaled_some.
    + apply X; auto.
Qed.
Print Assumptions C208_bend.
(* without curvature a bend is a quadrupole for every momentum *)
Theorem C208_straight P0 q b : let f := sfield b in let K := re (kn P0 q f 1) in
  P0 <> 0 -> sh b = 0 -> matched 0 q f = true -> stilt b = 0 \/ eps < Rabs (stilt b) ->
  exists F, solves 4 (bend_motion 0 K) F /\
  forall ds v, ds <> 0 ->
    (simple_bend P0 q f = true -> particle_of (th_bend_step P0 q ds b v) = Ok (in_frame (stilt b) (carried 4 (F ds)) v)) /\
    (simple_bend P0 q f = false -> forall g, remainder f g -> 1 + vdp v <> 0 ->
       particle_of (th_bend_step P0 q ds b v) = Ok (in_frame (stilt b) (fun w => let u := carried 4 (F (ds / 2)) w in
         carried 4 (F (ds / 2)) (pushed (deflection P0 q ds u (field_at g (place u))) u)) v)).
Proof.
  intros f K N H Ma T. exists (fun l => bend_form l 0 K). split; [apply bend_form_solves; auto|].
  assert (MN : momentum_of (sh b) q (fst (get_coefficient 0 1 f)) = None) by (unfold momentum_of; now rewrite Reqb_true).
  intros ds v D. unfold K. rewrite kn_strength. split; intros Q.
  - destruct (sbr_form 6 ds (sh b) (re (strength P0 q f)) (or_intror eq_refl)) as (M & E & F).
    destruct (bend_core P0 q ds b v (carried 4 (bend_form ds 0 (re (strength P0 q f)))) M) as [X _]; try assumption.
    + fold f. now rewrite H.
    + fold f. rewrite Q. exact E.
    + intros w. fold f. rewrite MN. apply scaled_none. now rewrite <- H.
    + now apply X.
  - intros g Gr V1. destruct (sbr_form 6 (ds / 2) (sh b) (re (strength P0 q f)) (or_intror eq_refl)) as (M & E & F).
    destruct (bend_core P0 q ds b v (carried 4 (bend_form (ds / 2) 0 (re (strength P0 q f)))) M) as [_ X]; try assumption.
    + fold f. now rewrite H.
    + fold f. rewrite Q. exact E.
    + intros w. fold f. rewrite MN. apply scaled_none. now rewrite <- H.
    + apply X; auto.
Qed.
Print Assumptions C208_straight.
Theorem C208_no_step P0 q b v : th_bend_step P0 q 0 b v = Ok (v, sfield b).
Proof. unfold th_bend_step. now rewrite (Reqb_true 0 0). Qed.
Print Assumptions C208_no_step.
Theorem C208_wrong_way P0 q ds b v : ds <> 0 -> sh b <> 0 -> q <> 0 -> stilt b = 0 \/ eps < Rabs (stilt b) -> b0 (sfield b) * re (coef (sfield b) 0) * sh b * q <= 0 -> th_bend_step P0 q ds b v = Throw Assertion.
Proof.
  intros D H Q T L. unfold th_bend_step. rewrite (Reqb_false ds 0) by exact D. pose proof (roll_frame (stilt b) (fun w => w) v T) as RF. destruct (rolled (stilt b) v) as [v1| |]; try discriminate. cbn [bind]. cbv zeta.
  rewrite matched_read. pose proof (C190_matched (sh b) q (sfield b) H Q) as M. destruct (matched (sh b) q (sfield b)); [|reflexivity]. exfalso. assert (0 < b0 (sfield b) * re (coef (sfield b) 0) * sh b * q) by now apply M. lra.
Qed.
Print Assumptions C208_wrong_way.
Theorem C208_field_kept P0 q ds b v v' f' : th_bend_step P0 q ds b v = Ok (v', f') -> b0 f' = b0 (sfield b) /\ forall n, coef f' n = coef (sfield b) n.
Proof.
  intros H. change (same_field f' (sfield b)). revert H. unfold th_bend_step. destruct (Reqb ds 0); [intros Q; injection Q as _ <-; apply same_refl|]. destruct (rolled (stilt b) v) as [v1| |]; try discriminate. cbn [bind]. cbv zeta.
  set (f1 := fst (get_coefficient 0 1 (sfield b))). assert (S1 : same_field f1 (sfield b)) by apply same_read. clearbody f1. rewrite !get_coef. destruct (negb _); [discriminate|].
  match goal with |- context [bind ?X _] => destruct X as [K1| |]; try discriminate end. cbn [bind]. destruct (lift _) as [M| |]; try discriminate. cbn [bind].
  destruct (_ || _ || _).
  - destruct (th_kick _ _ _ _ _); try discriminate. cbn [bind fst snd]. destruct (rolled _ _); try discriminate. cbn [bind]. intros Q. injection Q as _ <-.
    eapply same_trans; [|exact S1]. split; [reflexivity|]. intros k. rewrite !set_coef. destruct (same_read 1 f1) as [_ R]. destruct (Nat.eqb_spec k 1) as [->|]; [reflexivity|]. destruct (Nat.eqb_spec k 0) as [->|]; [reflexivity|]. apply R.
  - cbn [bind fst snd]. destruct (rolled _ _); try discriminate. cbn [bind]. intros Q. injection Q as _ <-. exact S1.
Qed.
Print Assumptions C208_field_kept.
Lemma th_kick_reversed f l P0 q v : th_kick (reversed f) l P0 (- q) v = th_kick f l P0 q v.
Proof. rewrite !th_kick_eq. apply kick_reversed. Qed.
(* the opposite charge in the opposite field *)
Theorem C208_charge P0 q ds b v : th_bend_step P0 (- q) ds (mkSB (sh b) (stilt b) (reversed (sfield b)) (face_in b) (face_out b)) v = (do r <- th_bend_step P0 q ds b v; Ok (fst r, reversed (snd r))).
Proof.
  unfold th_bend_step. cbn [sfield sh stilt]. destruct (Reqb ds 0); [reflexivity|]. destruct (rolled (stilt b) v) as [v1| |]; try reflexivity. cbn [bind]. cbv zeta.
  assert (GF : forall n g, fst (get_coefficient n 1 (reversed g)) = reversed (fst (get_coefficient n 1 g))) by reflexivity.
  assert (GS : forall n g, snd (get_coefficient n 1 (reversed g)) = snd (get_coefficient n 1 g)) by reflexivity.
  assert (ST : forall n c g, set_coefficient n c 1 (reversed g) = reversed (set_coefficient n c 1 g)) by reflexivity.
  assert (HI : forall g, highest (reversed g) = highest g) by reflexivity.
  rewrite GF, HI, !GS. set (f1 := fst (get_coefficient 0 1 (sfield b))). rewrite ?GF, ?GS, ?ST.
  assert (MQ : matched (sh b) (- q) (reversed f1) = matched (sh b) q f1).
  { unfold matched. rewrite GS. cbn [reversed b0]. set (u := re _). assert (X : forall a, u * - b0 f1 / a / - q = u * b0 f1 / a / q) by (intros a; unfold Rdiv; rewrite Rinv_opp; ring). rewrite X. replace (u * - b0 f1 / - q) with (u * b0 f1 / q) by (unfold Rdiv; rewrite Rinv_opp; ring). reflexivity. }
  assert (MM : momentum_of (sh b) (- q) (reversed f1) = momentum_of (sh b) q f1).
  { unfold momentum_of. destruct (Reqb _ _); [reflexivity|]. f_equal. unfold matched_momentum. rewrite GS. cbn [reversed b0]. unfold Rdiv. rewrite Rinv_opp. ring. }
  rewrite MQ, MM. destruct (negb _); [reflexivity|].
  assert (KK : (if Z.ltb 0 (highest f1) then do k <- lift_u (get_kn (reversed f1) 1 (P0 / eVc)); Ok (cscale (- q) k) else Ok Cplx.c0) = (if Z.ltb 0 (highest f1) then do k <- lift_u (get_kn f1 1 (P0 / eVc)); Ok (cscale q k) else Ok (E := ierr) Cplx.c0)).
  { destruct (Z.ltb 0 _); [|reflexivity]. unfold get_kn. destruct (Reqb _ _); [reflexivity|]. cbn [reversed ex b0]. destruct (Nat.ltb _ _); cbn [lift_u bind]; f_equal; apply cx_eq; cbn; unfold Rdiv; ring. }
  rewrite KK. clear KK. match goal with |- (do K1 <- ?X; _) = _ => destruct X as [K| |] end; try reflexivity. cbn [bind]. destruct (lift _) as [M| |]; try reflexivity. cbn [bind].
  destruct (_ || _ || _).
  - rewrite th_kick_reversed. destruct (th_kick _ ds P0 q _) as [v3| |]; try reflexivity. cbn [bind fst snd]. destruct (rolled (- stilt b) _); reflexivity.
  - cbn [bind fst snd]. destruct (rolled (- stilt b) _); reflexivity.
Qed.
Print Assumptions C208_charge.
(* for a bend without gradient only the momentum of the particle counts, not how it is split
   into reference and deviation *)
Theorem C208_same_momentum P0 P0' q ds b v v' : let f := sfield b in let Pd := design_momentum (sh b) q f in
  P0 <> 0 -> P0' <> 0 -> ds <> 0 -> sh b <> 0 -> matched (sh b) q f = true -> eps < Pd -> stilt b = 0 \/ eps < Rabs (stilt b) -> highest f = 0%Z -> im (coef f 0) = 0 ->
  with_dp 0 v = with_dp 0 v' -> P0 * (1 + vdp v) = P0' * (1 + vdp v') ->
  exists w w', particle_of (th_bend_step P0 q ds b v) = Ok w /\ particle_of (th_bend_step P0' q ds b v') = Ok w' /\ with_dp 0 w = with_dp 0 w' /\ vdp w = vdp v /\ vdp w' = vdp v'.
Proof.
  intros f Pd N N' D H M L T Hi I0 Q E.
  assert (Z1 : coef f 1 = c0) by (unfold coef, highest in *; apply nth_overflow; lia).
  assert (K0 : forall P, kn P q f 1 = c0) by (intros P; unfold kn; rewrite Z1; apply cx_eq; cbn; ring).
  assert (SB : forall P, simple_bend P q f = true) by (intros P; unfold simple_bend; rewrite <- kn_strength, K0, I0, Hi; cbn; now rewrite (Reqb_true 0 0)).
  assert (PL : forall P w, P <> 0 -> particle_of (th_bend_step P q ds b w) = Ok (in_frame (stilt b) (about_design P Pd (bend_form ds (sh b) 0)) w)).
  { intros P w NP. destruct (sbr_form 6 ds (sh b) 0 (or_intror eq_refl)) as (A & EA & FA).
    destruct (bend_core P q ds b w (about_design P Pd (bend_form ds (sh b) 0)) A) as [X _]; try assumption.
    - fold f. rewrite SB, <- kn_strength, K0. exact EA.
    - intros x. fold f. rewrite momentum_some by exact H. now apply scaled_some.
    - apply X. apply SB. }
  do 2 eexists. split; [now apply PL|]. split; [now apply PL|].
  assert (U : forall P w, vdp (in_frame (stilt b) (about_design P Pd (bend_form ds (sh b) 0)) w) = vdp w).
  { intros P w. unfold in_frame. destruct (Reqb _ _); reflexivity. }
  rewrite !U. split; [|auto]. destruct v as [x px y py z d], v' as [x' px' y' py' z' d']. unfold with_dp in Q. cbn [vx vxp vy vyp vct vdp] in Q, E. injection Q as <- <- <- <- <-.
  unfold in_frame, about_design. destruct (Reqb _ _).
  - cbn [vdp with_deviation vx vxp vy vyp vct]. unfold with_deviation at 2 4. cbn [vdp vx vxp vy vyp vct]. rewrite E. reflexivity.
  - unfold turn at 2 4. cbn [vdp vx vxp vy vyp vct]. unfold with_deviation at 2 4. cbn [vdp vx vxp vy vyp vct]. unfold turn at 2 4. cbn [vdp vx vxp vy vyp vct]. rewrite E. reflexivity.
Qed.
Print Assumptions C208_same_momentum.
(* pole faces: thin lenses; a missing face does nothing *)
Theorem C208_face h p v : let phi := 2 * fint p * hgap p * h * (1 + sin (frot p) * sin (frot p)) / cos (frot p) in
  th_face h (Some p) v = Ok (V6 (vx v) (vxp v + h * tan (frot p) * vx v) (vy v) (vyp v - h * tan (frot p - phi) * vy v) (vct v) (vdp v)).
Proof. intros phi. unfold th_face, pole_face. cbn [Nat.leb lift bind]. f_equal. unfold apply_m, vof, mset, mid, phi. cbn. destruct v as [x px y py z d]. cbn. apply v6_eq; ring. Qed.
Print Assumptions C208_face.
Theorem C208_no_face h v : th_face h None v = Ok v.
Proof. reflexivity. Qed.
(* the same faces as in the symplectic integrators *)
Theorem C208_same_faces h pf v : th_face h pf v = Ok (at_face h pf v).
Proof. destruct pf as [p|]; [|reflexivity]. rewrite C208_face. cbn [at_face]. unfold pole_face_map. cbv zeta. f_equal. apply v6_eq; ring. Qed.
Print Assumptions C208_same_faces.
