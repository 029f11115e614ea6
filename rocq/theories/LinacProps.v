(* C380-C389: linac structures and transverse RF structures. *)
From Coq Require Import ZArith Lia Lra List.
From Verif Require Import RBase Base Rot RotProofs HollowLensProofs Bunch Linac LinacSpec.
Import ListNotations.
Local Open Scope R_scope.

Lemma each_Forall2 f (P : particle -> particle -> Prop) : forall l m, each f l = Ok m -> (forall p v, In p l -> f (pv p) = Ok v -> P p (mkP v (pid p))) -> Forall2 P l m.
Proof.
  induction l as [|p l IH]; intros m E H; cbn [each] in E; [injection E as <-; constructor|].
  destruct (f (pv p)) as [v| |] eqn:V; cbn [bind] in E; try discriminate. destruct (each f l) as [r| |] eqn:F; cbn [bind] in E; try discriminate. injection E as <-. constructor; [apply H; [now left|exact V]|]. apply IH; [reflexivity|]. intros q w I. apply H. now right.
Qed.
Lemma apply_each_ok f b b' : apply_each f b = Ok b' -> exists l, each f (parts b) = Ok l /\ b' = mkB (p0 b) (ct0 b) (qmp b) l.
Proof. unfold apply_each. destruct (each f (parts b)) as [l| |]; cbn [bind]; try discriminate. intros [= <-]. eauto. Qed.
Lemma each_all f : forall l, (forall p, In p l -> exists v, f (pv p) = Ok v) -> exists m, each f l = Ok m.
Proof.
  induction l as [|p l IH]; intros H; cbn [each]; [eauto|]. destruct (H p (or_introl eq_refl)) as (v & ->). cbn [bind]. destruct IH as (m & ->); [intros q I; apply H; now right|]. cbn [bind]. eauto.
Qed.
Lemma Forall2_trans2 {A} (P Q S : A -> A -> Prop) : (forall a b c, P a b -> Q b c -> S a c) -> forall l m n, Forall2 P l m -> Forall2 Q m n -> Forall2 S l n.
Proof. intros H. induction l as [|a l IH]; intros m n F G; inversion F; subst; inversion G; subst; constructor; eauto. Qed.

(* one step of full acceleration *)
Lemma full_step r ds b b' : r_full r = true -> lcav_step r ds b = Ok b' -> p0 b <> 0 ->
  p0 b' = p0 b + r_amp r * ds * cos (r_phi r) /\ p0 b' <> 0 /\ ct0 b' = ct0 b /\ qmp b' = qmp b /\
  Forall2 (fun p q => energy b' q = energy b p + r_amp r * ds * seen (get_k r) (r_phi r) p /\ px b' q = px b p /\ py b' q = py b p /\ vct (pv q) = vct (pv p) /\ pid q = pid p) (parts b) (parts b').
Proof.
  intros FU E N. unfold lcav_step in E. rewrite FU in E. destruct (Reqb_spec ds 0) as [->|ND].
  - injection E as <-. split; [ring|]. do 3 (split; [reflexivity || exact N|]). induction (parts b); constructor; [|assumption]. repeat split; ring.
  - destruct (Reqb_spec (r_amp r) 0) as [Z|NA].
    + apply apply_each_ok in E. destruct E as (l & E & ->). cbn [p0 ct0 qmp parts]. rewrite Z. split; [ring|]. do 3 (split; [reflexivity || exact N|]). apply (each_Forall2 _ _ _ _ E). intros p v I [= <-]. unfold px, py, energy. cbn. repeat split; ring.
    + destruct (apply_each _ b) as [c| |] eqn:C; cbn [bind] in E; try discriminate. destruct (Rltb_spec 0 (p0 b + r_amp r * ds * cos (r_phi r))) as [L|L]; [|discriminate]. injection E as <-. apply apply_each_ok in C. destruct C as (l & C & ->). cbn [p0 ct0 qmp parts].
      split; [reflexivity|]. split; [lra|]. do 2 (split; [reflexivity|]). apply (each_Forall2 _ _ _ _ C). intros p v I V. unfold lcav_map in V. cbv zeta in V.
      destruct (Reqb_spec (p0 b * (1 + vdp (pv p))) 0) as [|N1]; cbn [orb] in V; [discriminate|]. destruct (Reqb_spec (p0 b * (1 + vdp (pv p)) + r_amp r * ds * cos (r_phi r - get_k r * vct (pv p))) 0) as [|N2]; cbn [orb] in V; [discriminate|]. destruct (Reqb_spec (p0 b + r_amp r * ds * cos (r_phi r)) 0) as [|N3]; [discriminate|].
      injection V as <-. unfold px, py, energy, seen. cbn [p0 pv pid vx vxp vy vyp vct vdp]. repeat split; field; auto.
Qed.
(* C380: the energy gained is the field times the whole length, whatever the steps; transverse momenta, times and identities stay; the reference momentum gains the field seen by a particle at the reference time *)
Theorem C380_acceleration : forall r l b b', r_full r = true -> steps (lcav_step r) l b = Ok b' -> p0 b <> 0 ->
  p0 b' = p0 b + r_amp r * total l * cos (r_phi r) /\ ct0 b' = ct0 b /\ qmp b' = qmp b /\
  Forall2 (fun p q => energy b' q = energy b p + r_amp r * total l * seen (get_k r) (r_phi r) p /\ px b' q = px b p /\ py b' q = py b p /\ vct (pv q) = vct (pv p) /\ pid q = pid p) (parts b) (parts b').
Proof.
  intros r l. induction l as [|ds l IH]; intros b b' FU E N; cbn [steps total] in *.
  - injection E as <-. split; [ring|]. do 2 (split; [reflexivity|]). induction (parts b); constructor; [|assumption]. repeat split; ring.
  - destruct (lcav_step r ds b) as [c| |] eqn:C; cbn [bind] in E; try discriminate. destruct (full_step r ds b c FU C N) as (P & NP & T & Q & F). destruct (IH c b' FU E NP) as (P' & T' & Q' & F'). rewrite P', P, T', T, Q', Q. split; [ring|]. do 2 (split; [reflexivity|]).
    eapply Forall2_trans2; [|exact F|exact F']. intros p q s (A1 & A2 & A3 & A4 & A5) (B1 & B2 & B3 & B4 & B5). rewrite B1, A1, B2, A2, B3, A3, B4, A4, B5, A5. unfold seen. rewrite A4. repeat split; ring.
Qed.
Print Assumptions C380_acceleration.
(* C381: a step succeeds when the momenta before and after it are positive, and stops the program when the reference momentum would not be *)
Theorem C381_defined : forall r ds b, ds <> 0 -> r_amp r <> 0 -> r_full r = true -> 0 < p0 b -> (forall p, In p (parts b) -> 0 < energy b p /\ 0 < energy b p + r_amp r * ds * seen (get_k r) (r_phi r) p) ->
  (0 < p0 b + r_amp r * ds * cos (r_phi r) -> exists b', lcav_step r ds b = Ok b') /\ (p0 b + r_amp r * ds * cos (r_phi r) < 0 -> lcav_step r ds b = Throw LAssert).
Proof.
  intros r ds b D G FU P H. unfold lcav_step. rewrite (Reqb_false ds), (Reqb_false (r_amp r)), FU by assumption.
  assert (A : p0 b + r_amp r * ds * cos (r_phi r) <> 0 -> exists m, each (lcav_map (r_amp r) ds (get_k r) (r_phi r) (p0 b)) (parts b) = Ok m).
  { intros N. apply each_all. intros p I. destruct (H p I) as (H1 & H2). unfold energy, seen in *. unfold lcav_map. cbv zeta. rewrite !Reqb_false by lra. cbn [orb]. eauto. }
  unfold apply_each. split; intros S.
  - destruct A as (m & ->); [lra|]. cbn [bind]. rewrite (Rltb_true _ _ S). eauto.
  - destruct A as (m & ->); [lra|]. cbn [bind]. rewrite Rltb_false by lra. reflexivity.
Qed.
Print Assumptions C381_defined.
Example C381_ex : let r := mkRf 1 0 1 0 0 true in let b := mkB 1 0 1 [mkP (V6 0 1 0 0 0 0) 7%Z] in exists b', steps (lcav_step r) [1 / 2; 1 / 2] b = Ok b' /\ p0 b' = 2.
Proof.
  cbv zeta. cbn [steps]. unfold lcav_step, apply_each, get_k. cbn [r_amp r_full r_phi r_w p0 parts]. rewrite !(Reqb_false (1 / 2)), !(Reqb_false 1) by lra. cbn [each pv pid]. unfold lcav_map. cbn [vdp vct vx vxp vy vyp]. cbv zeta. replace (0 - 0 / lightspeed * 0) with 0 by (unfold Rdiv; ring). rewrite !cos_0.
  rewrite !Reqb_false by lra. cbn [orb bind p0 ct0 qmp parts each pv pid vdp vct vx vxp vy vyp]. rewrite !Rltb_true by lra. cbn [bind p0 ct0 qmp parts each pv pid vdp vct vx vxp vy vyp].
  replace (0 - 0 / lightspeed * 0) with 0 by (unfold Rdiv; ring). rewrite !cos_0. rewrite !Reqb_false by lra. cbn [orb bind p0 ct0 qmp parts each pv pid vdp vct vx vxp vy vyp]. rewrite !Rltb_true by lra. eexists. split; [reflexivity|]. cbn [p0]. field.
Qed.
(* C382: the positions depend on the steps taken *)
Theorem C382_steps_refuted : exists r b b1 b2, r_full r = true /\ steps (lcav_step r) [1] b = Ok b1 /\ steps (lcav_step r) [1 / 2; 1 / 2] b = Ok b2 /\ map (fun p => vx (pv p)) (parts b1) = [1 / 2] /\ map (fun p => vx (pv p)) (parts b2) = [47 / 72].
Proof.
  exists (mkRf 1 0 1 0 0 true), (mkB 1 0 1 [mkP (V6 0 1 0 0 0 0) 7%Z]). do 2 eexists. split; [reflexivity|]. cbn [steps]. unfold lcav_step, apply_each, get_k. cbn [r_amp r_full r_phi r_w p0 parts]. rewrite !(Reqb_false (1 / 2)), !(Reqb_false 1) by lra. cbn [each pv pid]. unfold lcav_map. cbn [vdp vct vx vxp vy vyp]. cbv zeta. replace (0 - 0 / lightspeed * 0) with 0 by (unfold Rdiv; ring). rewrite !cos_0.
  rewrite !Reqb_false by lra. cbn [orb bind p0 ct0 qmp parts each pv pid vdp vct vx vxp vy vyp]. rewrite !Rltb_true by lra. cbn [bind p0 ct0 qmp parts each pv pid vdp vct vx vxp vy vyp].
  replace (0 - 0 / lightspeed * 0) with 0 by (unfold Rdiv; ring). rewrite !cos_0. rewrite !Reqb_false by lra. cbn [orb bind p0 ct0 qmp parts each pv pid vdp vct vx vxp vy vyp]. rewrite !Rltb_true by lra.
  split; [reflexivity|]. split; [reflexivity|]. cbn [parts map pv vx]. split; f_equal; field.
Qed.
Print Assumptions C382_steps_refuted.
(* C383: the fields at the ends change the transverse momenta by half the field times the position, inwards at the entrance and outwards at the exit *)
Theorem C383_ends : forall r b b' (front : bool), p0 b <> 0 -> (if front then entrance r b else exit_ r b) = Ok b' -> p0 b' = p0 b /\ ct0 b' = ct0 b /\ qmp b' = qmp b /\
  Forall2 (fun p q => let k := (if front then - (1 / 2) else 1 / 2) * r_amp r * seen (get_k r) (r_phi r) p in
     px b' q = px b p + k * vx (pv p) /\ py b' q = py b p + k * vy (pv p) /\ vx (pv q) = vx (pv p) /\ vy (pv q) = vy (pv p) /\ vct (pv q) = vct (pv p) /\ vdp (pv q) = vdp (pv p) /\ pid q = pid p) (parts b) (parts b').
Proof.
  intros r b b' front N E. assert (E' : end_field (if front then 1 else -1) r b = Ok b') by (destruct front; exact E). clear E. unfold end_field in E'. destruct (Reqb_spec (r_amp r) 0) as [Z|NA].
  - injection E' as <-. do 3 (split; [reflexivity|]). induction (parts b); constructor; [|assumption]. cbv zeta. rewrite Z. repeat split; ring.
  - destruct (Reqb_spec (p0 b) 0); [contradiction|]. apply apply_each_ok in E'. destruct E' as (l & E & ->). cbn [p0 ct0 qmp parts]. do 3 (split; [reflexivity|]). apply (each_Forall2 _ _ _ _ E). intros p v I V. unfold end_map in V. destruct (Reqb_spec (1 + vdp (pv p)) 0) as [|ND]; [discriminate|]. injection V as <-.
    unfold px, py, energy, seen. cbn [p0 pv pid vx vxp vy vyp vct vdp]. destruct front; repeat split; field; auto.
Qed.
Print Assumptions C383_ends.
Theorem C383_undo : forall r b b' b'', p0 b <> 0 -> entrance r b = Ok b' -> exit_ r b' = Ok b'' -> b'' = b.
Proof.
  intros r b b' b'' N E F. unfold entrance, exit_, end_field in *. destruct (Reqb_spec (r_amp r) 0) as [Z|NA]; [congruence|]. destruct (Reqb_spec (p0 b) 0); [contradiction|].
  apply apply_each_ok in E. destruct E as (l & E & ->). cbn [p0] in F. destruct (Reqb_spec (p0 b) 0); [contradiction|]. apply apply_each_ok in F. destruct F as (m & F & ->). cbn [p0 ct0 qmp parts] in *. destruct b as [q0 c0 qm ps]. cbn [p0 ct0 qmp parts] in *. f_equal.
  revert l m E F. induction ps as [|p ps IH]; intros l m E F; cbn [each] in E.
  - injection E as <-. cbn [each] in F. now injection F as <-.
  - unfold end_map in E at 1. destruct (Reqb_spec (1 + vdp (pv p)) 0) as [|ND]; [discriminate|]. cbn [bind] in E. destruct (each _ ps) as [l'| |] eqn:EL; cbn [bind] in E; try discriminate. injection E as <-. cbn [each pv pid] in F. unfold end_map in F at 1. cbn [vdp vct vx vxp vy vyp] in F. destruct (Reqb_spec (1 + vdp (pv p)) 0) as [|_]; [contradiction|]. cbn [bind] in F.
    destruct (each _ l') as [m'| |] eqn:EM; cbn [bind] in F; try discriminate. injection F as <-. rewrite (IH l' m' eq_refl EM). f_equal. destruct p as [[x xp y yp ct dp] id]. cbn [pv pid vx vxp vy vyp vct vdp] in *. do 2 f_equal; field; auto.
Qed.
Print Assumptions C383_undo.
(* C384: without full acceleration the reference momentum stays and the energies of the particles grow, but the angles stay, so that the transverse momenta grow too *)
Theorem C384_not_full_refuted : forall r ds b b', r_full r = false -> ds <> 0 -> r_amp r <> 0 -> p0 b <> 0 -> lcav_step r ds b = Ok b' -> p0 b' = p0 b /\
  Forall2 (fun p q => energy b' q = energy b p + r_amp r * ds * seen (get_k r) (r_phi r) p /\ px b' q = px b p + r_amp r * ds * seen (get_k r) (r_phi r) p * vxp (pv p) /\ py b' q = py b p + r_amp r * ds * seen (get_k r) (r_phi r) p * vyp (pv p) /\
     vx (pv q) = vx (pv p) + ds * vxp (pv p) /\ vy (pv q) = vy (pv p) + ds * vyp (pv p) /\ vct (pv q) = vct (pv p) /\ pid q = pid p) (parts b) (parts b').
Proof.
  intros r ds b b' FU ND NA N E. unfold lcav_step in E. rewrite (Reqb_false ds), (Reqb_false (r_amp r)), FU, (Reqb_false (p0 b)) in E by assumption. apply apply_each_ok in E. destruct E as (l & E & ->). cbn [p0 parts]. split; [reflexivity|]. apply (each_Forall2 _ _ _ _ E). intros p v I [= <-].
  unfold px, py, energy, seen. cbn [p0 pv pid vx vxp vy vyp vct vdp]. repeat split; field; exact N.
Qed.
Print Assumptions C384_not_full_refuted.
(* C385: switched off, a linac structure is a drift without change of the time, a transverse one a drift with the path length; switched on, the path length is not taken into account in either *)
Theorem C385_off_refuted : forall r ds b, r_amp r = 0 -> ds <> 0 ->
  lcav_step r ds b = Ok (mkB (p0 b) (ct0 b) (qmp b) (map (fun p => let v := pv p in mkP (V6 (vx v + ds * vxp v) (vxp v) (vy v + ds * vyp v) (vyp v) (vct v) (vdp v)) (pid p)) (parts b))) /\
  trf_step r ds b = Ok (mkB (p0 b) (ct0 b) (qmp b) (map (fun p => let v := pv p in mkP (V6 (vx v + ds * vxp v) (vxp v) (vy v + ds * vyp v) (vyp v) (vct v - ds * (vxp v ^ 2 + vyp v ^ 2) / 2) (vdp v)) (pid p)) (parts b))).
Proof.
  intros r ds b Z ND. unfold lcav_step, trf_step. rewrite Z, !(Reqb_false ds), !(Reqb_true 0) by (assumption || reflexivity). unfold apply_each. split.
  - assert (H : forall l, each (drift_map ds) l = Ok (map (fun p => let v := pv p in mkP (V6 (vx v + ds * vxp v) (vxp v) (vy v + ds * vyp v) (vyp v) (vct v) (vdp v)) (pid p)) l)). { induction l as [|p l IH]; cbn [each map drift_map bind]; [reflexivity|]. rewrite IH. cbn [bind]. do 2 f_equal. cbv zeta. now rewrite !(Rmult_comm _ ds). }
    now rewrite H.
  - assert (H : forall l, each (path_drift ds) l = Ok (map (fun p => let v := pv p in mkP (V6 (vx v + ds * vxp v) (vxp v) (vy v + ds * vyp v) (vyp v) (vct v - ds * (vxp v ^ 2 + vyp v ^ 2) / 2) (vdp v)) (pid p)) l)). { induction l as [|p l IH]; cbn [each map path_drift bind]; [reflexivity|]. rewrite IH. cbn [bind]. do 2 f_equal. cbv zeta. f_equal. f_equal. field. }
    now rewrite H.
Qed.
Print Assumptions C385_off_refuted.
(* C386, C387: transverse structures *)
Lemma trf_ok r ds b b' : ds <> 0 -> r_amp r <> 0 -> p0 b <> 0 -> trf_step r ds b = Ok b' -> p0 b' = p0 b /\ ct0 b' = ct0 b /\ qmp b' = qmp b /\
  Forall2 (fun p q => let dx := vxp (pv q) - vxp (pv p) in let dy := vyp (pv q) - vyp (pv p) in px b' q = px b p + r_amp r * ds * cos (r_theta r) * seen (get_k r) (r_phi r) p /\ py b' q = py b p + r_amp r * ds * sin (r_theta r) * seen (get_k r) (r_phi r) p /\
     vx (pv q) = vx (pv p) + ds * vxp (pv p) + 3 / 2 * ds * dx /\ vy (pv q) = vy (pv p) + ds * vyp (pv p) + 3 / 2 * ds * dy /\ vct (pv q) = vct (pv p) /\ vdp (pv q) = vdp (pv p) /\ pid q = pid p) (parts b) (parts b').
Proof.
  intros ND NA N E. unfold trf_step in E. rewrite (Reqb_false ds), (Reqb_false (r_amp r)), (Reqb_false (p0 b)) in E by assumption. apply apply_each_ok in E. destruct E as (l & E & ->). cbn [p0 ct0 qmp parts]. do 3 (split; [reflexivity|]). apply (each_Forall2 _ _ _ _ E). intros p v I V.
  unfold trf_map in V. destruct (Reqb_spec (1 + vdp (pv p)) 0) as [|N1]; [discriminate|]. cbv zeta in V. injection V as <-. cbv zeta. unfold px, py, energy, seen. cbn [p0 pv pid vx vxp vy vyp vct vdp]. repeat split; field; auto.
Qed.
(* C386: a uniform force over ds displaces by half the change of angle times ds; here it is three halves *)
Theorem C386_displacement_refuted : forall r ds b b', ds <> 0 -> r_amp r <> 0 -> p0 b <> 0 -> trf_step r ds b = Ok b' ->
  Forall2 (fun p q => vx (pv q) - (vx (pv p) + ds * vxp (pv p)) = 3 * (1 / 2 * ds * (vxp (pv q) - vxp (pv p))) /\ vy (pv q) - (vy (pv p) + ds * vyp (pv p)) = 3 * (1 / 2 * ds * (vyp (pv q) - vyp (pv p)))) (parts b) (parts b').
Proof.
  intros r ds b b' ND NA N E. destruct (trf_ok r ds b b' ND NA N E) as (_ & _ & _ & F). eapply Forall2_impl; [|exact F]. intros p q (_ & _ & X & Y & _). rewrite X, Y. split; field.
Qed.
Print Assumptions C386_displacement_refuted.
(* C387: the transverse momentum gained is the field times the whole length in the direction of the field, whatever the steps *)
Theorem C387_kick : forall r l b b', r_amp r <> 0 -> p0 b <> 0 -> steps (trf_step r) l b = Ok b' -> p0 b' = p0 b /\ ct0 b' = ct0 b /\ qmp b' = qmp b /\
  Forall2 (fun p q => px b' q = px b p + r_amp r * total l * cos (r_theta r) * seen (get_k r) (r_phi r) p /\ py b' q = py b p + r_amp r * total l * sin (r_theta r) * seen (get_k r) (r_phi r) p /\ vct (pv q) = vct (pv p) /\ vdp (pv q) = vdp (pv p) /\ pid q = pid p) (parts b) (parts b').
Proof.
  intros r l. induction l as [|ds l IH]; intros b b' NA N E; cbn [steps total] in *.
  - injection E as <-. do 3 (split; [reflexivity|]). induction (parts b); constructor; [|assumption]. repeat split; ring.
  - destruct (trf_step r ds b) as [c| |] eqn:C; cbn [bind] in E; try discriminate.
    assert (ST : p0 c = p0 b /\ ct0 c = ct0 b /\ qmp c = qmp b /\ Forall2 (fun p q => px c q = px b p + r_amp r * ds * cos (r_theta r) * seen (get_k r) (r_phi r) p /\ py c q = py b p + r_amp r * ds * sin (r_theta r) * seen (get_k r) (r_phi r) p /\ vct (pv q) = vct (pv p) /\ vdp (pv q) = vdp (pv p) /\ pid q = pid p) (parts b) (parts c)).
    { destruct (Req_dec ds 0) as [->|ND].
      - unfold trf_step in C. rewrite (Reqb_true 0) in C by reflexivity. injection C as <-. do 3 (split; [reflexivity|]). induction (parts b); constructor; [|assumption]. repeat split; ring.
      - destruct (trf_ok r ds b c ND NA N C) as (P & T & Q & F). do 3 (split; [assumption|]). eapply Forall2_impl; [|exact F]. cbv zeta beta. intros p q HH. tauto. }
    destruct ST as (P & T & Q & F). assert (NC : p0 c <> 0) by congruence. destruct (IH c b' NA NC E) as (P' & T' & Q' & F'). do 3 (split; [congruence|]).
    eapply Forall2_trans2; [|exact F|exact F']. intros p q s (A1 & A2 & A3 & A4 & A5) (B1 & B2 & B3 & B4 & B5). rewrite B1, A1, B2, A2, B3, A3, B4, A4, B5, A5. unfold seen. rewrite A3. repeat split; ring.
Qed.
Print Assumptions C387_kick.
Example C387_ex : let r := mkRf 1 0 2 0 0 true in exists b', trf_step r 1 (mkB 1 0 1 [mkP (V6 0 0 0 0 0 0) 7%Z]) = Ok b' /\ map (fun p => (vxp (pv p), vx (pv p))) (parts b') = [(2, 3)].
Proof.
  cbv zeta. unfold trf_step, apply_each, get_k. cbn [r_amp r_phi r_w r_theta p0 parts each pv pid]. rewrite !(Reqb_false 1), !(Reqb_false 2) by lra. unfold trf_map. cbn [vdp vct vx vxp vy vyp]. cbv zeta. rewrite Reqb_false by lra. replace (0 - 0 / lightspeed * 0) with 0 by (unfold Rdiv; ring). rewrite !cos_0. cbn [bind]. eexists. split; [reflexivity|]. cbn [parts map pv vxp vx]. do 2 f_equal; field.
Qed.
(* C388: a structure turned around: the horizontal kick is reversed, the vertical stays; turning twice restores *)
Theorem C388_turned : forall r, turn_trf (turn_trf r) = r /\ turn_rf (turn_rf r) = r /\ r_amp (turn_trf r) * cos (r_theta (turn_trf r)) = - (r_amp r * cos (r_theta r)) /\ r_amp (turn_trf r) * sin (r_theta (turn_trf r)) = r_amp r * sin (r_theta r) /\ beam_voltage (turn_rf r) = - beam_voltage r /\
  r_len (turn_trf r) = r_len r /\ r_w (turn_trf r) = r_w r /\ r_phi (turn_trf r) = r_phi r /\ r_full (turn_trf r) = r_full r.
Proof.
  intros [le w a ph th fu]. unfold turn_trf, turn_rf, set_theta, set_amp, beam_voltage. cbn [r_len r_w r_amp r_phi r_theta r_full]. rewrite !Ropp_involutive, cos_neg, sin_neg. repeat split; ring.
Qed.
Print Assumptions C388_turned.
(* C389: voltages, phasors, wavelengths and wave numbers are read back as set *)
Theorem C389_phasor : forall r re im, r_len r <> 0 -> exists r', set_phasor re im r = Ok r' /\ phasor r' = (re, im) /\ beam_voltage r' = re /\ voltage r' = sqrt (re ^ 2 + im ^ 2) /\ r_len r' = r_len r /\ r_w r' = r_w r /\ r_theta r' = r_theta r /\ r_full r' = r_full r.
Proof.
  intros r re im N. unfold set_phasor, set_voltage. rewrite Reqb_false by exact N. cbn [bind]. eexists. split; [reflexivity|]. destruct (atan2_direction re im) as (X & Y). unfold phasor, voltage, beam_voltage, set_phase, set_amp. cbn [r_len r_w r_amp r_phi r_theta r_full].
  replace (re ^ 2 + im ^ 2) with (re * re + im * im) by ring. set (d := sqrt (re * re + im * im)) in *. replace (d / r_len r * r_len r) with d by (field; exact N). split; [f_equal; congruence|]. split; [rewrite X at 2; field; exact N|]. repeat split.
Qed.
Print Assumptions C389_phasor.
Theorem C389_settings : forall r, (forall v, r_len r <> 0 -> exists r', set_voltage v r = Ok r' /\ voltage r' = v /\ r_phi r' = r_phi r) /\ (forall v, r_len r = 0 -> set_voltage v r = Throw LNaN) /\ (forall k, get_k (set_k k r) = k) /\ (forall f, get_freq (set_freq f r) = f) /\
  (forall l, l <> 0 -> exists r', set_wavelength l r = Ok r' /\ get_wavelength r' = Ok l /\ get_k r' = 2 * PI / l).
Proof.
  intros r. assert (PN : PI <> 0) by (pose proof PI_RGT_0; lra). assert (CN : lightspeed <> 0) by (unfold lightspeed; lra). split; [|split; [|split; [|split]]].
  - intros v N. unfold set_voltage. rewrite Reqb_false by exact N. eexists. split; [reflexivity|]. unfold voltage, set_amp. cbn. split; [field; exact N|reflexivity].
  - intros v Z. unfold set_voltage. now rewrite Reqb_true.
  - intros k. unfold get_k, set_k, set_freq. cbn [r_w]. field. auto.
  - intros f. unfold get_freq, set_freq. cbn [r_w]. field. auto.
  - intros l N. unfold set_wavelength. rewrite Reqb_false by exact N. eexists. split; [reflexivity|]. unfold get_wavelength, set_freq, get_k. cbn [r_w]. assert (Q : lightspeed / l <> 0) by (apply Rmult_integral_contrapositive_currified; [exact CN|now apply Rinv_neq_0_compat]). rewrite Reqb_false by (apply Rmult_integral_contrapositive_currified; [nra|exact Q]). split; [f_equal; field; auto|field; auto].
Qed.
Print Assumptions C389_settings.
(* C390: the position after one step of full acceleration, against the integral of the angle xp Ein / (Ein + dE s / ds) over the step *)
Theorem C390_position : forall r ds b b', r_full r = true -> lcav_step r ds b = Ok b' -> p0 b <> 0 -> ds <> 0 -> r_amp r <> 0 ->
  Forall2 (fun p q => let dE := r_amp r * ds * seen (get_k r) (r_phi r) p in vx (pv q) = vx (pv p) + ds * vxp (pv p) * (1 - dE / (2 * energy b p)) /\ vy (pv q) = vy (pv p) + ds * vyp (pv p) * (1 - dE / (2 * energy b p))) (parts b) (parts b').
Proof.
  intros r ds b b' FU E N ND NA. unfold lcav_step in E. rewrite FU, (Reqb_false ds), (Reqb_false (r_amp r)) in E by assumption. destruct (apply_each _ b) as [c| |] eqn:C; cbn [bind] in E; try discriminate. destruct (Rltb_spec 0 (p0 b + r_amp r * ds * cos (r_phi r))) as [L|L]; [|discriminate]. injection E as <-. apply apply_each_ok in C. destruct C as (l & C & ->). cbn [p0 ct0 qmp parts].
  apply (each_Forall2 _ _ _ _ C). intros p v I V. unfold lcav_map in V. cbv zeta in V.
  destruct (Reqb_spec (p0 b * (1 + vdp (pv p))) 0) as [|N1]; cbn [orb] in V; [discriminate|]. destruct (Reqb _ 0); cbn [orb] in V; [discriminate|]. destruct (Reqb _ 0); [discriminate|].
  injection V as <-. unfold energy, seen. cbv zeta. cbn [p0 pv pid vx vxp vy vyp vct vdp]. assert (1 + vdp (pv p) <> 0) by (intros Z; apply N1; rewrite Z; ring). split; field; auto.
Qed.
Print Assumptions C390_position.
Lemma dl_shift c : derivable_pt_lim (fun x => 1 + x) c 1.
Proof. assert (H : derivable_pt_lim (fun x => 1 + x) c (0 + 1)) by exact (derivable_pt_lim_plus (fun _ => 1) (fun x => x) c 0 1 (derivable_pt_lim_const 1 c) (derivable_pt_lim_id c)). now rewrite Rplus_0_l in H. Qed.
Lemma dl_half c : derivable_pt_lim (fun x => x ^ 2 / 2) c c.
Proof. pose proof (derivable_pt_lim_mult (fun x => x ^ 2) (fun _ => / 2) c _ _ (derivable_pt_lim_pow c 2) (derivable_pt_lim_const (/ 2) c)) as H. cbv beta in H. replace (INR 2 * c ^ Init.Nat.pred 2 * / 2 + c ^ 2 * 0) with c in H by (cbn [INR pred]; field). exact H. Qed.
Lemma dl_third c : derivable_pt_lim (fun x => x ^ 3 / 3) c (c ^ 2).
Proof. pose proof (derivable_pt_lim_mult (fun x => x ^ 3) (fun _ => / 3) c _ _ (derivable_pt_lim_pow c 3) (derivable_pt_lim_const (/ 3) c)) as H. cbv beta in H. replace (INR 3 * c ^ Init.Nat.pred 3 * / 3 + c ^ 3 * 0) with (c ^ 2) in H by (cbn [INR pred]; field). exact H. Qed.
Lemma ln_cubic u : 0 < u -> u - u ^ 2 / 2 <= ln (1 + u) <= u - u ^ 2 / 2 + u ^ 3 / 3.
Proof.
  intros U. split.
  - destruct (MVT_cor2 (fun x => ln (1 + x) - (x - x ^ 2 / 2)) (fun x => / (1 + x) * 1 - (1 - x)) 0 u U) as (c & E & HC).
    { intros c HC. apply derivable_pt_lim_minus.
      - apply (derivable_pt_lim_comp (fun x => 1 + x) ln).
        + apply dl_shift.
        + apply derivable_pt_lim_ln. lra.
      - apply derivable_pt_lim_minus; [apply derivable_pt_lim_id|].
        apply dl_half. }
    cbv beta in E. rewrite Rplus_0_r, ln_1 in E. assert (0 <= / (1 + c) * 1 - (1 - c)). { replace (/ (1 + c) * 1 - (1 - c)) with (c ^ 2 / (1 + c)) by (field; lra). apply Rmult_le_pos; [apply pow2_ge_0|apply Rlt_le, Rinv_0_lt_compat; lra]. } nra.
  - destruct (MVT_cor2 (fun x => (x - x ^ 2 / 2 + x ^ 3 / 3) - ln (1 + x)) (fun x => (1 - x + x ^ 2) - / (1 + x) * 1) 0 u U) as (c & E & HC).
    { intros c HC. apply derivable_pt_lim_minus.
      - apply derivable_pt_lim_plus.
        + apply derivable_pt_lim_minus; [apply derivable_pt_lim_id|].
          apply dl_half.
        + apply dl_third.
      - apply (derivable_pt_lim_comp (fun x => 1 + x) ln).
        + apply dl_shift.
        + apply derivable_pt_lim_ln. lra. }
    cbv beta in E. rewrite Rplus_0_r, ln_1 in E. assert (0 <= (1 - c + c ^ 2) - / (1 + c) * 1). { replace ((1 - c + c ^ 2) - / (1 + c) * 1) with (c ^ 3 / (1 + c)) by (field; lra). apply Rmult_le_pos; [apply pow_le; lra|apply Rlt_le, Rinv_0_lt_compat; lra]. } nra.
Qed.
(* the exact displacement per unit angle is ds ln (1 + u) / u with u = dE / Ein; the error is at most ds u^2 / 3 *)
Theorem C390_error : forall ds u, 0 < ds -> 0 < u -> Rabs (ds * (ln (1 + u) / u) - ds * (1 - u / 2)) <= ds * u ^ 2 / 3.
Proof.
  intros ds u D U. destruct (ln_cubic u U) as (A & B). replace (ds * (ln (1 + u) / u) - ds * (1 - u / 2)) with (ds * ((ln (1 + u) - (u - u ^ 2 / 2)) / u)) by (field; lra). assert (IU : 0 < / u) by now apply Rinv_0_lt_compat.
  rewrite Rabs_pos_eq by (apply Rmult_le_pos; [lra|apply Rmult_le_pos; lra]). replace (ds * u ^ 2 / 3) with (ds * (u ^ 3 / 3 / u)) by (field; lra). apply Rmult_le_compat_l; [lra|]. apply Rmult_le_compat_r; lra.
Qed.
Print Assumptions C390_error.
