(* Scattering of protons: the way through a collimator, multiple scattering and the full
   energy loss.  Properties C310-C315. *)
From Verif Require Import RBase Bunch Material MaterialSpec MaterialProps Scatter ScatterSpec ScatterProps.
From Coq Require Import Reals Lra Lia List ZArith.
Import ListNotations.
Local Open Scope R_scope.

(* a medium without energy loss and multiple scattering *)
Definition quiet {X} (P : physics X) : Prop :=
  (forall x p s, exists x', ph_loss P x p s = Ok (x', p)) /\ (forall x p s a b, exists x', ph_strag P x p s a b = Ok (x', p)).
Definition slope2 (p : particle) : R := 1 - vxp (pv p) * vxp (pv p) - vyp (pv p) * vyp (pv p).
Definition far (P0 : R) (p : particle) : Prop :=
  let E := sqrt (P0 * P0 + mp * mp) in 1 < energy E p /\ E / 100 <= energy E p /\ -0.95 <= vdp (pv p).

Ltac start P Q l1 l2 Hp := unfold do_scatter; cbn [run d_go]; rewrite Rltb_true by lra; cbn [negb]; unfold turn; cbn [d_p d_x d_go d_z d_log]; rewrite Hp; cbn [bind fst snd].

(** ** C310: a proton which is back inside the aperture leaves the collimator where its
    straight way leads.  Refuted: it is moved by the length which was left before the
    last step once more *)
Theorem C310_refuted {X} (P : physics X) P0 int_s s p x x1 l n : quiet P -> int_s < s -> ph_path P x = Ok (x1, l) -> 0 <= slope2 p -> far P0 p ->
  let st := Rmin l (s - int_s) in
  let z := int_s + st * sqrt (slope2 p) in
  ph_inside P (vx (pv p) + st * vxp (pv p)) (vy (pv p) + st * vyp (pv p)) z = true ->
  ph_inside P (vx (pv p) + (st + (s - int_s)) * vxp (pv p)) (vy (pv p) + (st + (s - int_s)) * vyp (pv p)) (z + (s - int_s)) = true ->
  exists r, do_scatter P P0 int_s s p x (S n) = Some (Ok (r, Survived)) /\ d_log r = [] /\
    vx (pv (d_p r)) = vx (pv p) + (s - int_s) * vxp (pv p) + st * vxp (pv p) /\ vy (pv (d_p r)) = vy (pv p) + (s - int_s) * vyp (pv p) + st * vyp (pv p) /\
    vxp (pv (d_p r)) = vxp (pv p) /\ vyp (pv (d_p r)) = vyp (pv p) /\ vdp (pv (d_p r)) = vdp (pv p) /\ vct (pv (d_p r)) = vct (pv p) /\ pid (d_p r) = pid p.
Proof.
  intros (QL & QS) HL HP C (F1 & F2 & F3) st z I1 I2.
  start P Q l1 l2 HP.
  replace (if Rltb l (s - int_s) then l else s - int_s) with st.
  2:{ unfold st, Rmin. destruct (Rle_dec l (s - int_s)) as [A|A]; destruct (Rltb_spec l (s - int_s)); lra. }
  fold (slope2 p). rewrite Rltb_false by exact C.
  match goal with |- context [ph_loss P x1 ?q st] => destruct (QL x1 q st) as (x2 & HL2) end. rewrite HL2. cbn [bind fst snd set_xy pv vdp vx vy vxp vyp].
  unfold energy in F1, F2. rewrite Rleb_false by lra.
  match goal with |- context [ph_strag P x2 ?q st ?a ?b] => destruct (QS x2 q st a b) as (x3 & HS2) end. rewrite HS2. cbn [bind fst snd set_xy pv vdp vx vy vxp vyp vct pid].
  rewrite Rltb_false by lra. fold z. rewrite I1.
  replace (vx (pv p) + st * vxp (pv p) + vxp (pv p) * (s - int_s)) with (vx (pv p) + (st + (s - int_s)) * vxp (pv p)) by ring.
  replace (vy (pv p) + st * vyp (pv p) + vyp (pv p) * (s - int_s)) with (vy (pv p) + (st + (s - int_s)) * vyp (pv p)) by ring.
  rewrite I2. cbn [andb]. eexists. split; [reflexivity|]. cbn [d_log d_p set_xy pv vx vy vxp vyp vct vdp pid]. repeat split; ring.
Qed.
Print Assumptions C310_refuted.

(** ** C311: a proton which stays in the jaw and meets nothing leaves the collimator at
    its end, on its straight way *)
Theorem C311_through {X} (P : physics X) P0 int_s s p x x1 l n : quiet P -> int_s < s -> ph_path P x = Ok (x1, l) -> s - int_s <= l -> 0 <= slope2 p -> far P0 p ->
  (forall a b c, ph_inside P a b c = false) ->
  exists r, do_scatter P P0 int_s s p x (S n) = Some (Ok (r, Survived)) /\ d_log r = [] /\
    d_p r = set_xy (vx (pv p) + (s - int_s) * vxp (pv p)) (vy (pv p) + (s - int_s) * vyp (pv p)) p.
Proof.
  intros (QL & QS) HL HP LL C (F1 & F2 & F3) OUT. start P Q l1 l2 HP. rewrite (Rltb_false l) by lra.
  fold (slope2 p). rewrite (Rltb_false (slope2 p)) by exact C.
  match goal with |- context [ph_loss P x1 ?q ?st] => destruct (QL x1 q st) as (x2 & HL2) end. rewrite HL2. cbn [bind fst snd set_xy pv vdp vx vy vxp vyp].
  unfold energy in F1, F2. rewrite Rleb_false by lra.
  match goal with |- context [ph_strag P x2 ?q ?st ?a ?b] => destruct (QS x2 q st a b) as (x3 & HS2) end. rewrite HS2. cbn [bind fst snd set_xy pv vdp vx vy vxp vyp vct pid].
  rewrite Rltb_false by lra. rewrite OUT. cbn [andb]. destruct (Rltb_spec (s - int_s) l) as [H|H].
  - eexists. split; [reflexivity|]. split; reflexivity.
  - cbn [bind negb fst snd pv vdp]. rewrite (Rltb_false (vdp (pv p)) (-0.95)) by lra. rewrite (Rltb_false (vdp (pv p)) (-1)) by lra. cbn [orb].
    destruct n; cbn [run d_go]; rewrite (Rltb_false 0 (s - int_s - (s - int_s))) by lra; cbn [negb]; eexists; split; try reflexivity; split; reflexivity.
Qed.
Print Assumptions C311_through.
Definition idle (l : R) (ins : R -> R -> R -> bool) : physics unit :=
  mkPh unit (fun _ => Ok (tt, l)) (fun _ p _ => Ok (tt, p)) (fun _ p _ _ _ => Ok (tt, p)) (fun _ p _ => Ok (tt, (p, false))) ins.
Lemma far_pr P0 xp : 10 <= P0 -> far P0 (pr xp 0).
Proof.
  intros H. unfold far, energy. cbn [pr pv vdp]. assert (G : 10 <= sqrt (P0 * P0 + mp * mp)).
  { rewrite <- (sqrt_square 10) by lra. apply sqrt_le_1_alt. unfold mp. nra. }
  lra.
Qed.
(* a proton at 1 mm with the angle 0.1 mrad in a collimator of 1 m, out at 1.2 and not 1.1 mm *)
Example C310_example : exists r, do_scatter (idle 2 (fun _ _ _ => true)) 7000 0 1 (pr 0.0001 0) tt 1 = Some (Ok (r, Survived)) /\ vx (pv (d_p r)) = 0.0012.
Proof.
  destruct (C310_refuted (idle 2 (fun _ _ _ => true)) 7000 0 1 (pr 0.0001 0) tt tt 2 0) as (r & H & _ & E & _); try reflexivity.
  - split; intros; eexists; reflexivity.
  - lra.
  - unfold slope2. cbn. lra.
  - apply far_pr. lra.
  - exists r. split; [exact H|]. rewrite E. rewrite Rmin_right by lra. cbn. lra.
Qed.
Example C311_example : exists r, do_scatter (idle 2 (fun _ _ _ => false)) 7000 0 1 (pr 0.0001 0) tt 1 = Some (Ok (r, Survived)) /\ vx (pv (d_p r)) = 0.0011.
Proof.
  destruct (C311_through (idle 2 (fun _ _ _ => false)) 7000 0 1 (pr 0.0001 0) tt tt 2 0) as (r & H & _ & E); try reflexivity.
  - split; intros; eexists; reflexivity.
  - lra.
  - lra.
  - unfold slope2. cbn. lra.
  - apply far_pr. lra.
  - exists r. split; [exact H|]. rewrite E. cbn. lra.
Qed.

(** ** C312: every absorbed proton is reported to the outputs, once, and no other one.
    Refuted: one with less than a hundredth of the beam energy, but more than 1 GeV, is
    not reported.  True: nobody is reported twice, and no survivor is *)
Ltac steps H := repeat match type of H with
  | bind ?e _ = Ok _ => let E := fresh "E" in destruct e eqn:E; cbn [bind] in H; [|discriminate H|discriminate H]
  | (if ?b then _ else _) = Ok _ => let E := fresh "B" in destruct b eqn:E; try discriminate H
  end.
Lemma turn_log {X} (P : physics X) E0 s s' out : turn P E0 s = Ok (s', out) ->
  match out with
  | None | Some Survived => d_log s' = d_log s
  | Some Absorbed => d_log s' = d_log s \/ exists z, d_log s' = d_log s ++ [(z, d_p s')]
  end.
Proof.
  unfold turn. intros H. steps H; injection H as <- <-; cbn [d_log d_p]; auto; right; eexists; reflexivity.
Qed.
Lemma run_log {X} (P : physics X) E0 n : forall s s' out, run P E0 n s = Some (Ok (s', out)) ->
  match out with
  | Survived => d_log s' = d_log s
  | Absorbed => d_log s' = d_log s \/ exists z, d_log s' = d_log s ++ [(z, d_p s')]
  end.
Proof.
  induction n as [|n IH]; intros s s' out H; cbn [run] in H.
  - destruct (negb (Rltb 0 (d_go s))); [|discriminate]. injection H as <- <-. reflexivity.
  - destruct (negb (Rltb 0 (d_go s))); [injection H as <- <-; reflexivity|].
    destruct (turn P E0 s) as [[s1 [o1|]]| |] eqn:T; try discriminate.
    + injection H as <- <-. apply turn_log in T. exact T.
    + apply turn_log in T. specialize (IH _ _ _ H). rewrite T in IH. exact IH.
Qed.
Theorem C312_once {X} (P : physics X) P0 int_s s p x n r out : do_scatter P P0 int_s s p x n = Some (Ok (r, out)) ->
  match out with Survived => d_log r = [] | Absorbed => d_log r = [] \/ exists z, d_log r = [(z, d_p r)] end.
Proof. intros H. apply run_log in H. exact H. Qed.
Print Assumptions C312_once.
Theorem C312_refuted {X} (P : physics X) P0 int_s s p x x1 x2 x3 l p1 p2 p3 n : int_s < s -> ph_path P x = Ok (x1, l) -> 0 <= slope2 p ->
  let E := sqrt (P0 * P0 + mp * mp) in let st := Rmin l (s - int_s) in
  p1 = set_xy (vx (pv p) + st * vxp (pv p)) (vy (pv p) + st * vyp (pv p)) p ->
  ph_loss P x1 p1 st = Ok (x2, p2) -> 1 < energy E p2 < E / 100 -> ph_strag P x2 p2 st (energy E p) (energy E p2) = Ok (x3, p3) ->
  exists r, do_scatter P P0 int_s s p x (S n) = Some (Ok (r, Absorbed)) /\ d_log r = [] /\ vct (pv (d_p r)) = vct (pv p3).
Proof.
  intros HL HP C E st P1 LO (E1 & E2) SG. start P Q l1 l2 HP. fold E.
  replace (if Rltb l (s - int_s) then l else s - int_s) with st.
  2:{ unfold st, Rmin. destruct (Rle_dec l (s - int_s)) as [A|A]; destruct (Rltb_spec l (s - int_s)); lra. }
  fold (slope2 p). rewrite Rltb_false by exact C. rewrite <- P1, LO. cbn [bind fst snd]. fold (energy E p) (energy E p2). rewrite Rleb_false by lra.
  rewrite SG. cbn [bind fst snd]. rewrite Rltb_true by lra. eexists. split; [reflexivity|]. cbn. auto.
Qed.
Print Assumptions C312_refuted.
(* a medium in which the proton loses the fraction d of the reference energy per step *)
Definition lossy (d l : R) : physics unit :=
  mkPh unit (fun _ => Ok (tt, l)) (fun _ p _ => Ok (tt, set_dp6 (vdp (pv p) - d) p)) (fun _ p _ _ _ => Ok (tt, p)) (fun _ p _ => Ok (tt, (p, false))) (fun _ _ _ => false).
Lemma E_bounds P0 : 0 <= P0 -> P0 <= sqrt (P0 * P0 + mp * mp) <= P0 + 1.
Proof.
  intros H. split.
  - rewrite <- (sqrt_square P0) at 1 by lra. apply sqrt_le_1_alt. unfold mp. nra.
  - rewrite <- (sqrt_square (P0 + 1)) by lra. apply sqrt_le_1_alt. unfold mp. nra.
Qed.
Example C312_example : exists r, do_scatter (lossy 0.995 2) 7000 0 1 (pr 0 0) tt 1 = Some (Ok (r, Absorbed)) /\ d_log r = [].
Proof.
  pose proof (E_bounds 7000 ltac:(lra)) as B. set (E := sqrt _) in B.
  destruct (C312_refuted (lossy 0.995 2) 7000 0 1 (pr 0 0) tt tt tt tt 2 _ (set_dp6 (0 - 0.995) (set_xy (0.001 + Rmin 2 (1 - 0) * 0) (0 + Rmin 2 (1 - 0) * 0) (pr 0 0)))
    (set_dp6 (0 - 0.995) (set_xy (0.001 + Rmin 2 (1 - 0) * 0) (0 + Rmin 2 (1 - 0) * 0) (pr 0 0))) 0 ltac:(lra) eq_refl ltac:(unfold slope2; cbn; lra) eq_refl) as (r & H & L & _); try reflexivity.
  - unfold energy. cbn [set_dp6 set_xy pr pv vdp]. fold E. lra.
  - exists r. auto.
Qed.

(** ** C313: the place of a loss lies where the proton was stopped.  Refuted: after a
    scattering the last step is counted twice, so that the place may be behind the end
    of the collimator; the time of flight has it once *)
Theorem C313_refuted {X} (P : physics X) P0 int_s s p x x1 x2 l q n : quiet P -> int_s < s -> ph_path P x = Ok (x1, l) -> l < s - int_s -> 0 <= slope2 p -> far P0 p ->
  (forall a b c, ph_inside P a b c = false) ->
  (forall y, ph_scat P y (set_xy (vx (pv p) + l * vxp (pv p)) (vy (pv p) + l * vyp (pv p)) p) (energy (sqrt (P0 * P0 + mp * mp)) p) = Ok (x2, (q, false))) ->
  exists r, do_scatter P P0 int_s s p x (S n) = Some (Ok (r, Absorbed)) /\ d_log r = [(int_s + 2 * (l * sqrt (slope2 p)), d_p r)] /\
    d_p r = set_ct6 (int_s + l * sqrt (slope2 p)) q.
Proof.
  intros (QL & QS) HL HP LL C (F1 & F2 & F3) OUT SC. start P Q l1 l2 HP. rewrite (Rltb_true l) by lra.
  fold (slope2 p). rewrite (Rltb_false (slope2 p)) by exact C.
  match goal with |- context [ph_loss P x1 ?q ?st] => destruct (QL x1 q st) as (x3 & HL2) end. rewrite HL2. cbn [bind fst snd].
  unfold energy in F1, F2, SC. cbn [set_xy pv vdp]. rewrite Rleb_false by lra. fold (set_xy (vx (pv p) + l * vxp (pv p)) (vy (pv p) + l * vyp (pv p)) p).
  match goal with |- context [ph_strag P x3 ?q ?st ?a ?b] => destruct (QS x3 q st a b) as (x4 & HS2) end. rewrite HS2. cbn [bind fst snd].
  rewrite Rltb_false by lra. rewrite OUT. cbn [andb]. rewrite (Rltb_false (s - int_s)) by lra. rewrite SC. cbn [bind fst snd negb].
  eexists. split; [reflexivity|]. cbn [d_log d_p app]. split; [do 2 f_equal; ring|reflexivity].
Qed.
Print Assumptions C313_refuted.
(* when the energy is lost on the way: the place is right, the time that before the step *)
Theorem C313_slow {X} (P : physics X) P0 int_s s p x x1 x2 l p2 n : int_s < s -> ph_path P x = Ok (x1, l) -> 0 <= slope2 p ->
  let E := sqrt (P0 * P0 + mp * mp) in let st := Rmin l (s - int_s) in
  ph_loss P x1 (set_xy (vx (pv p) + st * vxp (pv p)) (vy (pv p) + st * vyp (pv p)) p) st = Ok (x2, p2) -> energy E p2 <= 1 ->
  exists r, do_scatter P P0 int_s s p x (S n) = Some (Ok (r, Absorbed)) /\ d_log r = [(int_s + st * sqrt (slope2 p), d_p r)] /\ d_p r = set_ct6 int_s p2.
Proof.
  intros HL HP C E st LO E1. start P Q l1 l2 HP. fold E.
  replace (if Rltb l (s - int_s) then l else s - int_s) with st.
  2:{ unfold st, Rmin. destruct (Rle_dec l (s - int_s)) as [A|A]; destruct (Rltb_spec l (s - int_s)); lra. }
  fold (slope2 p). rewrite Rltb_false by exact C. rewrite LO. cbn [bind fst snd]. fold (energy E p2). rewrite Rleb_true by lra.
  eexists. split; [reflexivity|]. cbn [d_log d_p app]. auto.
Qed.
Print Assumptions C313_slow.
Example C313_example : exists r q, do_scatter (idle 0.75 (fun _ _ _ => false)) 7000 0 1 (pr 0 0) tt 1 = Some (Ok (r, Absorbed)) /\ d_log r = [(1.5, q)] /\ vct (pv q) = 0.75.
Proof.
  destruct (C313_refuted (idle 0.75 (fun _ _ _ => false)) 7000 0 1 (pr 0 0) tt tt tt 0.75 (set_xy (0.001 + 0.75 * 0) (0 + 0.75 * 0) (pr 0 0)) 0) as (r & H & L & D); try reflexivity.
  - split; intros; eexists; reflexivity.
  - lra.
  - lra.
  - unfold slope2. cbn. lra.
  - apply far_pr. lra.
  - assert (W : slope2 (pr 0 0) = 1) by (unfold slope2; cbn; lra). rewrite W, sqrt_1 in *. exists r, (d_p r). split; [exact H|]. split.
    + rewrite L. do 2 f_equal. lra.
    + rewrite D. cbn. lra.
Qed.

(** ** C314: with free paths above some length the way through ends, and it does not lead
    beyond the end of the collimator *)
Lemma turn_go {X} (P : physics X) E0 c s s' : (forall x x' l, ph_path P x = Ok (x', l) -> c <= l) -> turn P E0 s = Ok (s', None) -> d_go s' <= d_go s - c \/ d_go s' <= 0.
Proof.
  intros HP. unfold turn. intros H. steps H; try (injection H as <- H; discriminate). injection H as <-. cbn [d_go].
  destruct a as [x1 l]. specialize (HP _ _ _ E). cbn [snd] in *. destruct (Rltb_spec l (d_go s)); lra.
Qed.
Theorem C314_ends {X} (P : physics X) P0 int_s s p x c n : (forall x x' l, ph_path P x = Ok (x', l) -> c <= l) -> s - int_s <= INR n * c ->
  do_scatter P P0 int_s s p x n <> None.
Proof.
  intros HP. unfold do_scatter. set (E := sqrt _). set (d := mkD p int_s (s - int_s) [] x). change (s - int_s) with (d_go d). clearbody d. clear - HP. revert d.
  induction n as [|n IH]; intros d L; cbn [run].
  - cbn in L. rewrite Rltb_false by lra. discriminate.
  - destruct (negb (Rltb 0 (d_go d))); [discriminate|]. destruct (turn P E d) as [[d' [out|]]| |] eqn:T; try discriminate.
    destruct (turn_go P E c d d' HP T) as [G|G].
    + apply IH. rewrite S_INR in L. lra.
    + destruct n; cbn [run]; rewrite Rltb_false by lra; discriminate.
Qed.
Print Assumptions C314_ends.
Lemma slope_le a b : 0 <= sqrt (1 - a * a - b * b) <= 1.
Proof.
  split; [apply sqrt_pos|]. rewrite <- sqrt_1 at 2. apply sqrt_le_1_alt. pose proof (Rle_0_sqr a). pose proof (Rle_0_sqr b). unfold Rsqr in *. lra.
Qed.
Lemma turn_z {X} (P : physics X) E0 s s' out : (forall x x' l, ph_path P x = Ok (x', l) -> 0 <= l) -> 0 < d_go s -> turn P E0 s = Ok (s', out) ->
  d_z s <= d_z s' /\ (out <> None -> d_z s' <= d_z s + d_go s) /\ (out = None -> d_z s' + d_go s' <= d_z s + d_go s).
Proof.
  intros HP G. unfold turn. intros H. steps H; destruct a as [x1 l]; specialize (HP _ _ _ E); cbn [snd] in *;
    (assert (ST : 0 <= (if Rltb l (d_go s) then l else d_go s) <= d_go s) by (destruct (Rltb_spec l (d_go s)); lra));
    pose proof (slope_le (vxp (pv (d_p s))) (vyp (pv (d_p s)))) as SL; injection H as <- <-; cbn [d_z d_go];
    set (st := if Rltb l (d_go s) then l else d_go s) in *; set (q := sqrt _) in *; (split; [nra|]); split; intros; try discriminate; try congruence; nra.
Qed.
Theorem C314_inside {X} (P : physics X) P0 int_s s p x n r out : (forall x x' l, ph_path P x = Ok (x', l) -> 0 <= l) -> int_s <= s ->
  do_scatter P P0 int_s s p x n = Some (Ok (r, out)) -> int_s <= d_z r <= s.
Proof.
  intros HP HL. unfold do_scatter. set (E := sqrt _). cut (forall d, 0 <= d_go d -> run P E n d = Some (Ok (r, out)) -> d_z d <= d_z r <= d_z d + d_go d).
  { intros W H. specialize (W (mkD p int_s (s - int_s) [] x)). cbn [d_go d_z] in W. specialize (W ltac:(lra) H). lra. }
  clear - HP.
  induction n as [|n IH]; intros d N H; cbn [run] in H.
  - destruct (negb (Rltb 0 (d_go d))); [|discriminate]. injection H as <- <-. lra.
  - destruct (Rltb_spec 0 (d_go d)) as [G|G]; cbn [negb] in H; [|injection H as <- <-; lra].
    destruct (turn P E d) as [[d' [o1|]]| |] eqn:T; try discriminate.
    + injection H as <- <-. destruct (turn_z P E d _ _ HP G T) as (A & B & _). split; [auto|]. apply B. discriminate.
    + destruct (turn_z P E d _ _ HP G T) as (A & _ & C). specialize (C eq_refl).
      assert (N' : 0 <= d_go d').
      { clear - T HP G. unfold turn in T. steps T; try (injection T as _ T; discriminate). injection T as <-. cbn [d_go]. destruct (Rltb_spec (snd a) (d_go d)); lra. }
      specialize (IH _ N' H). lra.
Qed.
Print Assumptions C314_inside.
Example C314_example : do_scatter (idle 0.3 (fun _ _ _ => false)) 7000 0 1 (pr 0 0) tt 4 <> None.
Proof. apply (C314_ends _ _ _ _ _ _ 0.3); [intros x x' l H; injection H as _ <-; lra|]. cbn. lra. Qed.

(** ** C315: protons can be scattered in every material of the prepared table.  Refuted:
    a material with a negative mean free path gives steps backwards and a logarithm of
    a negative number in the first step *)
Lemma ln_neg u : 0 < u < 1 -> ln u < 0.
Proof. intros H. rewrite <- ln_1. apply ln_increasing; lra. Qed.
Theorem C315_refuted o c K T a P0 inside int_s s p w l e n : let E := sqrt (P0 * P0 + mp * mp) in
  w_model w = new_model -> w_fc w = None -> mlam (w_mat w) = Val l -> l < 0 -> mextra (w_mat w) = Some e -> 0 < mZ (w_mat w) -> 0 < mA (w_mat w) -> 0 < mrho (w_mat w) ->
  0 < k_xi1 c -> 0 < un o (w_k w) < 1 -> int_s < s ->
  do_scatter (proton o c K T a E inside) P0 int_s s p w (S n) = Some (Throw NotNumber).
Proof.
  intros E WM WF ML LN MX PZ PA PR PK U HL. unfold do_scatter. fold E. cbn [run d_go]. rewrite Rltb_true by lra. cbn [negb]. unfold turn. cbn [d_p d_x d_go d_z d_log].
  cbn [ph_path proton]. unfold path_length. rewrite ML. rewrite (Rleb_false (un o (w_k w))) by lra. cbn [bind fst snd].
  set (x := - l * ln (un o (w_k w))). assert (XN : x < 0). { unfold x. pose proof (ln_neg _ U). nra. }
  rewrite (Rltb_true x) by lra. destruct (Rltb (1 - _ - _) 0); [reflexivity|].
  cbn [ph_loss proton with_k w_model w_mat w_fc w_k w_sc]. rewrite WM. cbn [new_model sm_mode]. rewrite WF. unfold loss_full.
  destruct (setup_full c (w_mat w)) as [f| |] eqn:SF; cbn [bind].
  - destruct (Reqb E 0); cbn [bind]; [reflexivity|].
    assert (G : delta_full c f x (E * (1 + vdp (pv p)) / mp) = Throw NotNumber).
    { unfold delta_full. set (g := E * (1 + vdp (pv p)) / mp). destruct (Rleb_spec g 1) as [|G1]; [reflexivity|].
      set (beta := sqrt (1 - 1 / (g * g))).
      assert (B2 : 0 < beta * beta).
      { assert (0 < 1 - 1 / (g * g)). { assert (1 / (g * g) < 1); [|lra]. apply (Rmult_lt_reg_r (g * g)); [nra|]. replace (1 / (g * g) * (g * g)) with 1 by (field; nra). nra. }
        unfold beta. rewrite sqrt_sqrt; lra. }
      assert (XI : (f_xi0 f * x / (beta * beta)) / echarge * / 10 ^ 6 < 0).
      { assert (X0 : 0 < f_xi0 f).
        { unfold setup_full in SF. steps SF. injection SF as <-.
          assert (Y : 0 < k_xi1 c * (mZ (w_mat w) * (602214179 * 10 ^ 15) * mrho (w_mat w) / mA (w_mat w))).
          { apply Rmult_lt_0_compat; [auto|]. apply Rdiv_lt_0_compat; [|auto]. repeat apply Rmult_lt_0_compat; auto; lra. }
          repeat match goal with |- context [if ?b then _ else _] => destruct b end; exact Y. }
        assert (EC : 0 < echarge). { unfold echarge. apply Rmult_lt_0_compat; [lra|]. apply Rinv_0_lt_compat. apply pow_lt. lra. }
        assert (V : 0 < / 10 ^ 6) by (apply Rinv_0_lt_compat; apply pow_lt; lra).
        assert (Y : 0 < / (beta * beta)) by now apply Rinv_0_lt_compat. assert (Y2 : 0 < / echarge) by now apply Rinv_0_lt_compat. unfold Rdiv.
        assert (Y3 : f_xi0 f * x < 0) by nra. set (b' := / (beta * beta)) in *. set (e' := / echarge) in *. set (v := / 10 ^ 6) in *. clearbody b' e' v.
        assert (f_xi0 f * x * b' < 0) by nra. assert (f_xi0 f * x * b' * e' < 0) by nra. nra. }
      set (xi := (f_xi0 f * x / (beta * beta)) / echarge * / 10 ^ 6) in *. clearbody xi.
      match goal with |- context [Rleb ?z 0] => assert (ARG : z <= 0) end.
      { unfold Rdiv. assert (SQ : 0 <= / (f_I f * / 0.001) ^ 2).
        { destruct (Req_dec ((f_I f * / 0.001) ^ 2) 0) as [Z|Z]; [rewrite Z, Rinv_0; lra|]. left. apply Rinv_0_lt_compat. pose proof (pow2_ge_0 (f_I f * / 0.001)). lra. }
        set (i := / (f_I f * / 0.001) ^ 2) in *. clearbody i. assert (M : 0 < me) by (unfold me; lra).
        replace (2 * me * beta * beta * g * g * xi * i) with (2 * me * (beta * beta) * (g * g) * (xi * i)) by ring.
        assert (xi * i <= 0) by nra. assert (0 < 2 * me * (beta * beta) * (g * g)). { apply Rmult_lt_0_compat; [apply Rmult_lt_0_compat; [lra|exact B2]|nra]. } nra. }
      rewrite (Rleb_true _ 0 ARG). reflexivity. }
    cbn [set_xy pv vdp]. rewrite G. reflexivity.
  - unfold setup_full, have_extra, get_extra in SF. rewrite MX in SF. cbn [bind] in SF.
    destruct (assoc mee e) eqn:A; cbn [bind] in SF; repeat (match type of SF with context [if ?b then _ else _] => destruct b; cbn [bind] in SF end; try discriminate); try (injection SF as <-; reflexivity).
  - exfalso. unfold setup_full, have_extra, get_extra in SF. rewrite MX in SF. cbn [bind] in SF.
    destruct (assoc mee e) eqn:A; cbn [bind] in SF; repeat (match type of SF with context [if ?b then _ else _] => destruct b; cbn [bind] in SF end; try discriminate).
Qed.
Print Assumptions C315_refuted.
(* iron as in the table *)
Definition iron : material := new_material 55.845 (-1) (-1) (-1) (-1) (-1) 7879 26.
Example C315_example : exists l, mlam iron = Val l /\ l < 0.
Proof.
  unfold iron, new_material, update. cbn [mlam mST mSR mrho mA].
  assert (D : (-1 + -1) * 7879 * / 10 ^ 28 * (6022 * 10 ^ 20) < 0).
  { assert (0 < / 10 ^ 28) by (apply Rinv_0_lt_compat, pow_lt; lra). assert (0 < 6022 * 10 ^ 20) by (apply Rmult_lt_0_compat; [lra|apply pow_lt; lra]).
    set (i := / 10 ^ 28) in *. set (j := 6022 * 10 ^ 20) in *. clearbody i j. nra. }
  rewrite Reqb_false by lra. eexists. split; [reflexivity|]. unfold Rdiv. set (d := _ * _ * _ * _) in *.
  assert (/ d < 0) by now apply Rinv_lt_0_compat. clearbody d. nra.
Qed.
