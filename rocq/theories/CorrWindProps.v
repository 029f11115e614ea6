(* C448-C451: corrector windings *)
From Coq Require Import List Psatz.
From Verif Require Import RBase Rot Cplx CplxFacts Field FieldProps CorrWind.
Import ListNotations.
Local Open Scope R_scope.

(* specification: the integrated field of the dipole part, and the other parts *)
Definition dipole (m : magnet) : cx := cscale (b0 (mg_f m) * mg_len m) (coef (mg_f m) 0).
Definition same_poles (m m' : magnet) : Prop := mg_len m' = mg_len m /\ b0 (mg_f m') = b0 (mg_f m) /\ forall k, k <> 0%nat -> coef (mg_f m') k = coef (mg_f m) k.

Lemma set_any bn an m : b0 (mg_f m) <> 0 -> mg_len m <> 0 -> exists f, set_component 0 (bn / mg_len m) (an / mg_len m) 1 (mg_f m) = Ok f /\ same_poles m (mkMag f (mg_len m)) /\ dipole (mkMag f (mg_len m)) = mkCx bn an.
Proof.
  intros B L. destruct (C47_component 0 (bn / mg_len m) (an / mg_len m) 1 (mg_f m) B R1_neq_R0) as (f & E & G & S & _ & K). exists f. split; [exact E|]. split; [split; [reflexivity|]; split; assumption|].
  destruct (C47_reading 0 1 f) as (Rd & _). rewrite Rd in G. cbn [snd] in G. unfold dipole. cbn [mg_f mg_len]. assert (G1 := f_equal re G). assert (G2 := f_equal im G). cbn [cscale re im pow] in G1, G2. rewrite Rmult_1_r in G1, G2. apply cx_eq; cbn [cscale re im].
  - replace (b0 f * mg_len m * re (coef f 0)) with (b0 f * re (coef f 0) * mg_len m) by ring. rewrite G1. field. exact L.
  - replace (b0 f * mg_len m * im (coef f 0)) with (b0 f * im (coef f 0) * mg_len m) by ring. rewrite G2. field. exact L.
Qed.
Lemma get_dipole m : get_bx m = im (dipole m) /\ get_by m = re (dipole m).
Proof. unfold get_bx, get_by, dipole. destruct (C47_reading 0 1 (mg_f m)) as (Rd & _). rewrite Rd. cbn [snd cscale re im pow]. split; ring. Qed.
(* C448: what is set is the field and is read back, other poles stay *)
Theorem C448_set : forall v m, b0 (mg_f m) <> 0 -> mg_len m <> 0 ->
  (exists m', set_bx v m = Ok m' /\ get_bx m' = v /\ im (dipole m') = v /\ same_poles m m') /\ (exists m', set_by v m = Ok m' /\ get_by m' = v /\ re (dipole m') = v /\ same_poles m m').
Proof.
  intros v m B L. unfold set_bx, set_by. rewrite !(Reqb_false _ _ B), !(Reqb_false _ _ L). split.
  - destruct (set_any 0 v m B L) as (f & E & S & D). replace (0 / mg_len m) with 0 in E by (unfold Rdiv; ring). rewrite E. cbn [bind]. eexists. split; [reflexivity|]. rewrite (proj1 (get_dipole _)), D. auto.
  - destruct (set_any v 0 m B L) as (f & E & S & D). replace (0 / mg_len m) with 0 in E by (unfold Rdiv; ring). rewrite E. cbn [bind]. eexists. split; [reflexivity|]. rewrite (proj2 (get_dipole _)), D. auto.
Qed.
Print Assumptions C448_set.
Theorem C448_get : forall m, get_bx m = im (dipole m) /\ get_by m = re (dipole m).
Proof. exact get_dipole. Qed.
Print Assumptions C448_get.
Example C448_ex : exists m, set_bx 3 (mkMag (single_n 1 2 false) 4) = Ok m /\ get_bx m = 3.
Proof. destruct (C448_set 3 (mkMag (single_n 1 2 false) 4)) as ((m & E & G & _) & _); [cbn; unfold factorial; cbn; rewrite Reqb_false by lra; lra|cbn; lra|]. eauto. Qed.
(* C449: setting one plane clears the other *)
Theorem C449_planes_refuted : forall v m m', b0 (mg_f m) <> 0 -> (set_bx v m = Ok m' -> get_by m' = 0) /\ (set_by v m = Ok m' -> get_bx m' = 0).
Proof.
  intros v m m' B. unfold set_bx, set_by. rewrite !(Reqb_false _ _ B). destruct (Reqb_spec (mg_len m) 0) as [|L]; [split; discriminate|]. split.
  - destruct (set_any 0 v m B L) as (f & E & S & D). replace (0 / mg_len m) with 0 in E by (unfold Rdiv; ring). rewrite E. cbn [bind]. intros Q. injection Q as <-. now rewrite (proj2 (get_dipole _)), D.
  - destruct (set_any v 0 m B L) as (f & E & S & D). replace (0 / mg_len m) with 0 in E by (unfold Rdiv; ring). rewrite E. cbn [bind]. intros Q. injection Q as <-. now rewrite (proj1 (get_dipole _)), D.
Qed.
Print Assumptions C449_planes_refuted.
(* C450: windings on a magnet that is off, or without length *)
Theorem C450_off_refuted : forall v m, b0 (mg_f m) = 0 -> set_bx v m = Ok m /\ set_by v m = Ok m /\ get_bx m = 0 /\ get_by m = 0.
Proof.
  intros v m B. unfold set_bx, set_by. rewrite !(Reqb_true _ _ B). do 2 (split; [reflexivity|]). destruct (get_dipole m) as (X & Y). rewrite X, Y. unfold dipole. cbn [cscale re im]. rewrite B. split; ring.
Qed.
Print Assumptions C450_off_refuted.
Theorem C450_thin_refuted : forall v m, b0 (mg_f m) <> 0 -> mg_len m = 0 -> set_bx v m = Throw tt /\ set_by v m = Throw tt.
Proof. intros v m B L. unfold set_bx, set_by. rewrite !(Reqb_false _ _ B), !(Reqb_true _ _ L). auto. Qed.
Print Assumptions C450_thin_refuted.
(* C451: the field of the winding follows the strength of the magnet *)
Theorem C451_strength_refuted : forall v s m m', b0 (mg_f m) <> 0 -> (set_bx v m = Ok m' -> get_bx (set_strength s m') = v * (s / b0 (mg_f m))) /\ (set_by v m = Ok m' -> get_by (set_strength s m') = v * (s / b0 (mg_f m))).
Proof.
  intros v s m m' B. assert (Q : forall x y, b0 (mg_f x) <> 0 -> dipole x = y -> dipole (set_strength s x) = cscale (s / b0 (mg_f x)) y).
  { intros x y N <-. unfold dipole, set_strength, set_scale, coef. cbn [mg_f mg_len b0 ex]. apply cx_eq; cbn [cscale re im]; field; exact N. }
  destruct (Req_dec (mg_len m) 0) as [L|L]; [destruct (C450_thin_refuted v m B L) as (X & Y); rewrite X, Y; split; discriminate|]. destruct (C448_set v m B L) as ((a & A1 & _ & A2 & A3) & (b & B1 & _ & B2 & B3)). rewrite A1, B1. destruct A3 as (_ & A3 & _), B3 as (_ & B3 & _). split; intros E; injection E as <-.
  - rewrite (proj1 (get_dipole _)), (Q a _ ltac:(congruence) eq_refl). cbn [cscale im]. rewrite A2, A3. ring.
  - rewrite (proj2 (get_dipole _)), (Q b _ ltac:(congruence) eq_refl). cbn [cscale re]. rewrite B2, B3. ring.
Qed.
Print Assumptions C451_strength_refuted.
Example C451_ex : exists m, set_by 3 (mkMag (single_n 1 2 false) 4) = Ok m /\ get_by (set_strength 4 m) = 6.
Proof.
  assert (F : factorial 1 = 1) by (unfold factorial; cbn; now rewrite Reqb_false by lra). assert (B : b0 (mg_f (mkMag (single_n 1 2 false) 4)) = 2) by (cbn [mg_f single_n b0]; rewrite F; field).
  destruct (C448_set 3 (mkMag (single_n 1 2 false) 4)) as (_ & (m & E & _)); [lra|cbn; lra|]. exists m. split; [exact E|]. destruct (C451_strength_refuted 3 4 (mkMag (single_n 1 2 false) 4) m) as (_ & G); [lra|]. rewrite (G E), B. lra.
Qed.
