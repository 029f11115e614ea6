(* C428-C433: wake fields for macro-particles. *)
From Coq Require Import ZArith Lia Lra List.
From Verif Require Import RBase Base Bunch SMPWake SMPWakeSpec.
Import ListNotations.
Local Open Scope R_scope.

Lemma total_app a b : total (a ++ b) = total a + total b.
Proof. induction a as [|p a IH]; cbn [app total]; [ring|rewrite IH; ring]. Qed.
Lemma timesum_app a b : timesum (a ++ b) = timesum a + timesum b.
Proof. induction a as [|p a IH]; cbn [app timesum]; [ring|rewrite IH; ring]. Qed.
Lemma total_rev a : total (rev a) = total a.
Proof. induction a as [|p a IH]; cbn [rev total]; [reflexivity|]. rewrite total_app, IH. cbn [total]. ring. Qed.
Lemma timesum_rev a : timesum (rev a) = timesum a.
Proof. induction a as [|p a IH]; cbn [rev timesum]; [reflexivity|]. rewrite timesum_app, IH. cbn [timesum]. ring. Qed.
Definition true_bin (b : bin) : Prop := b_q b = total (b_ps b) /\ b_z b * b_q b = timesum (b_ps b).
(* what the loop makes: first slice as begun, the others true *)
Lemma cut_shape dz : 0 < dz -> forall l f cur za qt bins, Forall (fun x => vct (mv x) < vct (mv f) + dz) cur -> cut dz (vct (mv f) + dz) (cur ++ [f]) za qt l = Ok bins ->
  exists t b rest, bins = b :: rest /\ b_ps b = f :: rev cur ++ t /\ b_q b = qt + total t /\ b_z b * b_q b = za + timesum t /\ b_q b <> 0 /\ Forall true_bin rest /\
    (f :: rev cur ++ t) ++ concat (map b_ps rest) = f :: rev cur ++ l /\ well_cut dz (map b_ps bins).
Proof.
  intros DZ. induction l as [|p l IH]; intros f cur za qt bins FC E; cbn [cut] in E.
  - destruct (Reqb_spec qt 0) as [|N]; [discriminate|]. injection E as <-. exists [], (mkBin (rev (cur ++ [f])) (za / qt) qt), []. rewrite rev_app_distr. cbn [rev app b_ps b_q b_z total timesum map concat]. rewrite !app_nil_r. split; [reflexivity|]. split; [reflexivity|]. split; [ring|]. split; [field; exact N|]. split; [exact N|]. split; [constructor|]. split; [reflexivity|]. cbn [well_cut]. split; [|trivial]. exists f, (rev cur). split; [reflexivity|]. split; [now apply Forall_rev|trivial].
  - destruct (Rleb_spec (vct (mv f) + dz) (vct (mv p))) as [L|L].
    + destruct (Reqb_spec qt 0) as [|N]; [discriminate|]. destruct (cut dz _ [p] _ _ l) as [r| |] eqn:C; cbn [bind] in E; try discriminate. injection E as <-. destruct (IH p [] _ _ _ ltac:(constructor) C) as (t & b & rest & -> & P & Q & Z & NZ & F & CC & WC). cbn [rev app] in P, CC.
      exists [], (mkBin (rev (cur ++ [f])) (za / qt) qt), (b :: rest). rewrite rev_app_distr. cbn [rev app b_ps b_q b_z total timesum]. rewrite !app_nil_r. split; [reflexivity|]. split; [reflexivity|]. split; [ring|]. split; [field; exact N|]. split; [exact N|]. split.
      { constructor; [|exact F]. split; rewrite P; cbn [total timesum]; [exact Q|exact Z]. }
      split. { cbn [map concat]. rewrite P. now rewrite <- CC. }
      cbn [map well_cut] in *. cbn [b_ps]. split; [|exact WC]. exists f, (rev cur). split; [reflexivity|]. split; [now apply Forall_rev|]. rewrite P. exact L.
    + change (p :: cur ++ [f]) with ((p :: cur) ++ [f]) in E. destruct (IH f (p :: cur) _ _ _ ltac:(constructor; [lra|exact FC]) E) as (t & b & rest & -> & P & Q & Z & NZ & F & CC & WC). exists (p :: t), b, rest. cbn [rev total timesum]. cbn [rev] in P, CC. rewrite <- !app_assoc in P, CC. cbn [app] in P, CC. split; [reflexivity|]. split; [exact P|]. split; [rewrite Q; ring|]. split; [rewrite Z; ring|]. split; [exact NZ|]. split; [exact F|]. split; [rewrite <- (app_assoc (rev cur) [p] l) in CC; exact CC|exact WC].
Qed.
Lemma prep_shape dz p l bins : 0 < dz -> prep_slices dz (p :: l) = Ok bins -> exists t b rest, bins = b :: rest /\ b_ps b = p :: t /\ b_q b = mq p + total (p :: t) /\ b_z b * b_q b = vct (mv p) * mq p + timesum (p :: t) /\ b_q b <> 0 /\ Forall true_bin rest /\ (p :: t) ++ concat (map b_ps rest) = p :: l /\ well_cut dz (map b_ps bins).
Proof.
  intros DZ E. unfold prep_slices in E. cbn [cut] in E. destruct (Rleb_spec (vct (mv p) + dz) (vct (mv p))) as [L|L]; [lra|]. destruct (cut_shape dz DZ l p [] _ _ bins ltac:(constructor) E) as (t & b & rest & -> & P & Q & Z & NZ & F & CC & WC). exists t, b, rest. cbn [rev app] in *. split; [reflexivity|]. split; [exact P|]. cbn [total timesum]. split; [rewrite Q; ring|]. split; [rewrite Z; ring|]. auto.
Qed.
(* C428: the slices are the bunch in order, each shorter than the width *)
Theorem C428_slices : forall dz l bins, 0 < dz -> prep_slices dz l = Ok bins -> concat (map b_ps bins) = l /\ well_cut dz (map b_ps bins).
Proof. intros dz [|p l] bins DZ E; [discriminate|]. destruct (prep_shape _ _ _ _ DZ E) as (t & b & rest & -> & P & _ & _ & _ & _ & CC & WC). cbn [map concat] in *. rewrite P in *. auto. Qed.
Print Assumptions C428_slices.
(* C429: all but the first slice have their charge and mean time; in the first, the first particle counts twice *)
Theorem C429_true_partial : forall dz l bins, 0 < dz -> prep_slices dz l = Ok bins -> Forall (fun b => b_q b = total (b_ps b) /\ b_z b * b_q b = timesum (b_ps b)) (tl bins).
Proof. intros dz [|p l] bins DZ E; [discriminate|]. destruct (prep_shape _ _ _ _ DZ E) as (t & b & rest & -> & _ & _ & _ & _ & F & _). exact F. Qed.
Print Assumptions C429_true_partial.
Theorem C429_twice_refuted : forall dz p l bins, 0 < dz -> prep_slices dz (p :: l) = Ok bins -> charge bins = total (p :: l) + mq p /\ exists b q, bins = b :: q /\ b_q b = total (b_ps b) + mq p /\ b_z b * b_q b = timesum (b_ps b) + vct (mv p) * mq p.
Proof.
  intros dz p l bins DZ E. destruct (prep_shape _ _ _ _ DZ E) as (t & b & rest & -> & P & Q & Z & _ & F & CC & _). split.
  - rewrite <- CC, total_app. cbn [charge]. rewrite Q. replace (charge rest) with (total (concat (map b_ps rest))); [ring|]. clear - F. induction F as [|c r (HQ & _) F IH]; cbn [map concat total charge]; [reflexivity|]. rewrite total_app, IH, HQ. reflexivity.
  - exists b, rest. rewrite P. split; [reflexivity|]. split; [rewrite Q; ring|rewrite Z; ring].
Qed.
Print Assumptions C429_twice_refuted.
(* C430: longitudinal momentum and transverse momenta of a macro-particle *)
Lemma awk_ok e0 de px py pz p p' : awk e0 de px py pz p = Ok p' -> let ei := e0 * (1 + vdp (mv p)) in let ef := (e0 + de) * (1 + vdp (mv p')) in
  ef = ei + pz /\ ef <> 0 /\ ef * vxp (mv p') = ei * vxp (mv p) + px /\ ef * vyp (mv p') = ei * vyp (mv p) + py /\ vx (mv p') = vx (mv p) /\ vy (mv p') = vy (mv p) /\ vct (mv p') = vct (mv p) /\ mq p' = mq p.
Proof.
  unfold awk. cbv zeta. set (ei := e0 * (1 + vdp (mv p))). destruct (Reqb_spec (ei + pz) 0) as [|N]; [discriminate|]. destruct (Reqb_spec (e0 + de) 0) as [|N1]; [discriminate|]. intros [= <-]. cbn [mv mq vx vxp vy vyp vct vdp]. assert (EF : (e0 + de) * (1 + ((ei + pz) / (e0 + de) - 1)) = ei + pz) by (field; exact N1). rewrite EF. split; [reflexivity|]. split; [exact N|]. split; [field; exact N|]. split; [field; exact N|]. auto.
Qed.
Fixpoint trans_sum (w : wakes) (f : vec6 -> R) (z : R) (l : list bin) : R :=
  match l with [] => 0 | b :: q => wt w (b_z b - z) * b_q b * (sumq f (b_ps b) / sumq (fun _ => 1) (b_ps b)) + trans_sum w f z q end.
Fixpoint long_sum (w : wakes) (z : R) (l : list bin) : R := match l with [] => 0 | b :: q => wl w (b_z b - z) * b_q b + long_sum w z q end.
Lemma kick_t_ok w f z : forall l k, kick_t w f z l = Ok k -> k = trans_sum w f z l.
Proof.
  induction l as [|b l IH]; intros k E; cbn [kick_t trans_sum] in *; [now injection E as <-|]. unfold centroid in E. cbv zeta in E. destruct (Reqb _ _); [discriminate|]. cbn [bind] in E. destruct (kick_t w f z l) as [r| |] eqn:K; cbn [bind] in E; try discriminate. injection E as <-. now rewrite (IH r).
Qed.
Lemma later_ok w z : forall l, later_l w z l = wconv w * long_sum w z l.
Proof. induction l as [|b l IH]; cbn [later_l long_sum]; [ring|rewrite IH; ring]. Qed.
Lemma awk_all_ok e0 de px py pz : forall l r, awk_all e0 de px py pz l = Ok r -> Forall2 (fun p p' => awk e0 de px py pz p = Ok p') l r.
Proof. induction l as [|p l IH]; intros r E; cbn [awk_all] in E; [injection E as <-; constructor|]. destruct (awk e0 de px py pz p) as [p'| |] eqn:A; cbn [bind] in E; try discriminate. destruct (awk_all e0 de px py pz l) as [q| |]; cbn [bind] in E; try discriminate. injection E as <-. constructor; [exact A|now apply IH]. Qed.
Lemma bins_ok w ds e0 de : forall l r, kick_bins w ds e0 de l = Ok r -> exists parts, r = concat parts /\ length parts = length l /\
  forall i b, nth_error l i = Some b -> exists s, nth_error parts i = Some s /\ let q := skipn (Datatypes.S i) l in
  Forall2 (fun p p' => awk e0 de (ds * wconv w * (if inc_tw w then trans_sum w vx (b_z b) q else 0)) (ds * wconv w * (if inc_tw w then trans_sum w vy (b_z b) q else 0)) (- ds * (wconv w * (wl w 0 * b_q b / 2 + long_sum w (b_z b) q))) p = Ok p') (b_ps b) s.
Proof.
  induction l as [|b l IH]; intros r E; cbn [kick_bins] in E; [injection E as <-; exists []; split; [reflexivity|]; split; [reflexivity|]; intros [|i] b H; discriminate|].
  match type of E with bind ?x _ = _ => destruct x as [kx| |] eqn:KX end; cbn [bind] in E; try discriminate. match type of E with bind ?x _ = _ => destruct x as [ky| |] eqn:KY end; cbn [bind] in E; try discriminate. destruct (awk_all _ _ _ _ _ (b_ps b)) as [s| |] eqn:A; cbn [bind] in E; try discriminate. destruct (kick_bins w ds e0 de l) as [r'| |]; cbn [bind] in E; try discriminate. injection E as <-. destruct (IH r' eq_refl) as (parts & -> & L & H). exists (s :: parts). split; [reflexivity|]. split; [cbn [length]; now rewrite L|]. intros [|i] b' N; cbn [nth_error skipn] in *; [|now apply H]. injection N as <-. exists s. split; [reflexivity|]. cbv zeta.
  assert (X : kx = if inc_tw w then trans_sum w vx (b_z b) l else 0) by (destruct (inc_tw w); [now apply kick_t_ok|now injection KX as <-]). assert (Y : ky = if inc_tw w then trans_sum w vy (b_z b) l else 0) by (destruct (inc_tw w); [now apply kick_t_ok|now injection KY as <-]). rewrite <- X, <- Y. apply awk_all_ok in A. unfold wake_z in A. rewrite later_ok, Rminus_diag_eq in A by reflexivity. replace (wconv w * (wl w 0 * b_q b / 2 + long_sum w (b_z b) l)) with (1 / 2 * wl w 0 * b_q b * wconv w + wconv w * long_sum w (b_z b) l) by field. exact A.
Qed.
(* wakes add up over the later slices, and half the own one; momenta change by them; places, times and charges stay *)
Theorem C430_momenta : forall w dz ds p0 l bins p1 l', prep_slices dz l = Ok bins -> apply w dz ds p0 l = Ok (p1, l') -> exists parts, l' = concat parts /\ length parts = length bins /\
  forall i b, nth_error bins i = Some b -> exists s, nth_error parts i = Some s /\ let q := skipn (Datatypes.S i) bins in
  Forall2 (fun p p' => let ei := p0 * (1 + vdp (mv p)) in let ef := p1 * (1 + vdp (mv p')) in
    ef = ei - ds * wconv w * (wl w 0 * b_q b / 2 + long_sum w (b_z b) q) /\
    ef * vxp (mv p') = ei * vxp (mv p) + (if inc_tw w then ds * wconv w * trans_sum w vx (b_z b) q else 0) /\
    ef * vyp (mv p') = ei * vyp (mv p) + (if inc_tw w then ds * wconv w * trans_sum w vy (b_z b) q else 0) /\
    vx (mv p') = vx (mv p) /\ vy (mv p') = vy (mv p) /\ vct (mv p') = vct (mv p) /\ mq p' = mq p) (b_ps b) s.
Proof.
  intros w dz ds p0 l bins p1 l' P E. unfold apply in E. rewrite P in E. cbn [bind] in E. destruct (bload w bins) as [bl| |]; cbn [bind] in E; try discriminate. cbv zeta in E. destruct (kick_bins _ _ _ _ _) as [r| |] eqn:K; cbn [bind] in E; try discriminate. injection E as <- <-. destruct (bins_ok _ _ _ _ _ _ K) as (parts & -> & L & H). exists parts. split; [reflexivity|]. split; [exact L|]. intros i b N. destruct (H i b N) as (s & NS & F). exists s. split; [exact NS|]. cbv zeta in *. revert F. apply Forall2_impl. intros p p' A. destruct (awk_ok _ _ _ _ _ _ _ A) as (E1 & _ & E2 & E3 & E4 & E5 & E6 & E7). split; [rewrite E1; ring|]. split; [rewrite E2; destruct (inc_tw w); ring|]. split; [rewrite E3; destruct (inc_tw w); ring|]. auto.
Qed.
Print Assumptions C430_momenta.
(* C431: the moments: all are damped with the angles but that of xp and y *)
Theorem C431_moments_refuted : forall e0 de px py pz p p', awk e0 de px py pz p = Ok p' -> let r := e0 * (1 + vdp (mv p)) / (e0 * (1 + vdp (mv p)) + pz) in
  mc p' = (let d := damped r (mc p) in mkC4 (c00 d) (c01 d) (c02 d) (c03 d) (c11 d) (c12 (mc p)) (c13 d) (c22 d) (c23 d) (c33 d)) /\ (mc p' = damped r (mc p) <-> pz * c12 (mc p) = 0).
Proof.
  intros e0 de px py pz p p' E. unfold awk in E. cbv zeta in *. set (ei := e0 * (1 + vdp (mv p))) in *. destruct (Reqb_spec (ei + pz) 0) as [|N]; [discriminate|]. destruct (Reqb_spec (e0 + de) 0) as [|N1]; [discriminate|]. injection E as <-. cbn [mc]. set (r := ei / (ei + pz)). unfold damped. cbn [c00 c01 c02 c03 c11 c12 c13 c22 c23 c33]. split; [f_equal; ring|].
  assert (RR : r * (ei + pz) = ei) by (unfold r; field; exact N). split.
  - intros H. assert (H12 : c12 (mc p) = r * c12 (mc p)) by exact (f_equal c12 H). assert (K : c12 (mc p) * (ei + pz) = r * (ei + pz) * c12 (mc p)) by (rewrite H12 at 1; ring). rewrite RR in K. lra.
  - intros H. assert (H12 : c12 (mc p) = r * c12 (mc p)) by (apply Rmult_eq_reg_r with (ei + pz); [|exact N]; replace (r * c12 (mc p) * (ei + pz)) with (r * (ei + pz) * c12 (mc p)) by ring; rewrite RR; lra). rewrite <- H12. f_equal; ring.
Qed.
Print Assumptions C431_moments_refuted.
(* C432: the momentum of the bunch follows the reference exactly when the first particle, counted twice, has no charge or loses as much as the mean *)
Lemma mom_app p0 a b : momentum p0 (a ++ b) = momentum p0 a + momentum p0 b.
Proof. induction a as [|p a IH]; cbn [app momentum]; [ring|rewrite IH; ring]. Qed.
Lemma gain e0 de px py pz : forall l r, awk_all e0 de px py pz l = Ok r -> momentum (e0 + de) r = momentum e0 l + pz * total l.
Proof.
  induction l as [|p l IH]; intros r E; cbn [awk_all] in E; [injection E as <-; cbn; ring|]. destruct (awk e0 de px py pz p) as [p'| |] eqn:A; cbn [bind] in E; try discriminate. destruct (awk_all e0 de px py pz l) as [q| |]; cbn [bind] in E; try discriminate. injection E as <-. cbn [momentum total]. rewrite (IH q eq_refl). destruct (awk_ok _ _ _ _ _ _ _ A) as (E1 & _ & _ & _ & _ & _ & _ & E7). rewrite E1, E7. ring.
Qed.
Fixpoint lost (w : wakes) (l : list bin) : R := match l with [] => 0 | b :: q => total (b_ps b) * wake_z w b q + lost w q end.
Lemma gains w ds e0 de : forall l r, kick_bins w ds e0 de l = Ok r -> momentum (e0 + de) r = momentum e0 (concat (map b_ps l)) - ds * lost w l.
Proof.
  induction l as [|b l IH]; intros r E; cbn [kick_bins] in E; [injection E as <-; cbn; ring|]. match type of E with bind ?x _ = _ => destruct x end; cbn [bind] in E; try discriminate. match type of E with bind ?x _ = _ => destruct x end; cbn [bind] in E; try discriminate. destruct (awk_all _ _ _ _ _ (b_ps b)) as [s| |] eqn:A; cbn [bind] in E; try discriminate. destruct (kick_bins w ds e0 de l) as [r'| |]; cbn [bind] in E; try discriminate. injection E as <-. cbn [map concat lost]. rewrite !mom_app, (gain _ _ _ _ _ _ _ A), (IH r' eq_refl). ring.
Qed.
Theorem C432_balance_refuted : forall w dz ds p0 p l p1 l', 0 < dz -> apply w dz ds p0 (p :: l) = Ok (p1, l') -> exists b q bins bl, prep_slices dz (p :: l) = Ok bins /\ bins = b :: q /\ bload w bins = Ok bl /\ p1 = p0 - bl * ds /\
  momentum p1 l' - momentum p0 (p :: l) = total (p :: l) * (p1 - p0) + mq p * ds * (wake_z w b q - bl).
Proof.
  intros w dz ds p0 p l p1 l' DZ E. unfold apply in E. destruct (prep_slices dz (p :: l)) as [bins| |] eqn:P; cbn [bind] in E; try discriminate. destruct (bload w bins) as [bl| |] eqn:BL; cbn [bind] in E; try discriminate. cbv zeta in E. destruct (kick_bins _ _ _ _ _) as [r| |] eqn:K; cbn [bind] in E; try discriminate. injection E as <- <-. destruct (C429_twice_refuted _ _ _ _ DZ P) as (CH & b & q & -> & BQ & _). pose proof (C429_true_partial _ _ _ DZ P) as F. cbn [tl] in F. destruct (C428_slices _ _ _ DZ P) as (CC & _). exists b, q, (b :: q), bl. split; [reflexivity|]. split; [reflexivity|]. split; [exact BL|]. split; [ring|].
  rewrite (gains _ _ _ _ _ _ K), CC. unfold bload in BL. destruct (Reqb_spec (charge (b :: q)) 0) as [|N]; [discriminate|]. assert (BL' : load w (b :: q) / charge (b :: q) = bl) by (now inversion BL). assert (BB : bl * (total (p :: l) + mq p) = load w (b :: q)) by (rewrite <- CH, <- BL'; unfold Rdiv; rewrite Rmult_assoc, Rinv_l by exact N; ring). assert (LL : load w (b :: q) = lost w (b :: q) + mq p * wake_z w b q). { cbn [load lost]. rewrite BQ. replace (load w q) with (lost w q); [ring|]. clear - F. induction F as [|c r (HQ & _) F IH]; cbn [load lost]; [reflexivity|]. now rewrite IH, HQ. }
  rewrite LL in BB. assert (X : lost w (b :: q) = bl * total (p :: l) + bl * mq p - mq p * wake_z w b q) by lra. rewrite X. ring.
Qed.
Print Assumptions C432_balance_refuted.
Theorem C433_empty_refuted : forall w dz ds p0, apply w dz ds p0 [] = UB.
Proof. reflexivity. Qed.
Print Assumptions C433_empty_refuted.
(* two particles of the same charge: the reference is moved by 3/2 but the mean loss is 5/4 *)
Example C432_ex : let c := mkC4 1 0 0 0 1 0 0 1 0 1 in let w := mkW (fun _ => 1) (fun _ => 1) 1 true in
  exists l', apply w 1 1 10 [mkMP (V6 0 0 0 0 0 0) c 1; mkMP (V6 1 0 0 0 5 0) c 1] = Ok (17 / 2, l') /\ momentum (17 / 2) l' = 35 / 2.
Proof.
  cbv zeta. set (c := mkC4 1 0 0 0 1 0 0 1 0 1). set (w := mkW (fun _ => 1) (fun _ => 1) 1 true).
  set (a := mkMP (V6 0 0 0 0 0 0) c 1). set (b := mkMP (V6 1 0 0 0 5 0) c 1).
  assert (P : prep_slices 1 [a; b] = Ok [mkBin [a] 0 2; mkBin [b] 5 1]).
  { unfold prep_slices, a, b. cbn [cut mv vct mq]. rewrite Rleb_false, Rleb_true by lra. cbn [cut]. rewrite (Reqb_false (1 + 1) 0), (Reqb_false 1 0) by lra. cbn [bind rev app]. repeat f_equal; lra. }
  destruct (apply w 1 1 10 [a; b]) as [(p1, l')| |] eqn:E.
  - destruct (C432_balance_refuted w 1 1 10 a [b] p1 l' ltac:(lra) E) as (x & q & bins & bl & P' & -> & BL & -> & M). rewrite P in P'. injection P' as <- <-. unfold bload in BL. cbn [charge load b_q] in BL. rewrite Reqb_false in BL by lra. unfold wake_z in *. cbn [later_l wl w b_z b_q wconv] in *. injection BL as BL. exists l'. assert (V : bl = 3 / 2) by (rewrite <- BL; field). rewrite V in *. replace (10 - 3 / 2 * 1) with (17 / 2) in * by field. split; [reflexivity|]. cbn [momentum total mq mv vdp a b] in M. lra.
  - exfalso. unfold apply in E. rewrite P in E. cbn [bind] in E. unfold bload in E. cbn [charge load b_q] in E. rewrite Reqb_false in E by lra. cbn [bind] in E. cbn [kick_bins kick_t awk_all b_ps b_z b_q inc_tw w] in E. unfold centroid in E. cbn [sumq mv mq b] in E. rewrite (Reqb_false (1 * 1 + 0) 0) in E by lra. cbn [bind] in E. unfold wake_z in E. cbn [later_l wl w b_z b_q wconv] in E. unfold awk in E. cbn [mv mc mq vdp a b] in E.
    do 2 (repeat (rewrite Reqb_false in E by lra); cbn [bind kick_bins kick_t awk_all b_ps b_z b_q inc_tw w] in E; unfold wake_z, awk in E; cbn [later_l wl w b_z b_q wconv mv mc mq vdp a b] in E); cbn [bind] in E; discriminate.
  - exfalso. unfold apply in E. rewrite P in E. cbn [bind] in E. unfold bload in E. cbn [charge load b_q] in E. rewrite Reqb_false in E by lra. cbn [bind] in E. cbn [kick_bins kick_t awk_all b_ps b_z b_q inc_tw w] in E. unfold centroid in E. cbn [sumq mv mq b] in E. rewrite (Reqb_false (1 * 1 + 0) 0) in E by lra. cbn [bind] in E. unfold awk in E. repeat (match type of E with context [if ?x then _ else _] => destruct x end; cbn [bind] in E; try discriminate).
Qed.
