(* C196-C197: second-order maps of pole faces *)
From Coq Require Import ZArith Lia.
From Verif Require Import RBase Cov Bunch BunchSpec BunchProofs Optics OpticsSpec OpticsProofs SparseMap SparseMapSpec SparseMapProofs SparseMapProps SympIntSpec BendMap BendMapSpec BendMapProofs.
Local Open Scope R_scope.

(* t = tan(beta), r = tangent of the angle less the fringe angle, e6 = 1/cos(beta) *)
Definition face_R (h t r : R) : mtx := tbl [[1]; [t * h; 1]; [0; 0; 1]; [0; 0; - (h * r); 1]; [0; 0; 0; 0; 1]; [0; 0; 0; 0; 0; 1]].
Definition face_T (h K1 c t e6 : R) (e : bool) (i : nat) : mtx :=
  let hh := (if e then 1 else -1) * / 2 * h in
  match i with
  | 0%nat => tbl [[- hh * t ^ 2]; []; [0; 0; hh * e6 ^ 2]]
  | 1%nat => tbl [[if e then h / 2 * c * e6 ^ 3 + K1 * t else h / 2 * c * e6 ^ 3 + K1 * t - (h * t) ^ 2 * t * / 2; hh * t ^ 2 * 2]; [];
                  [0; 0; if e then hh * h * t ^ 3 - h / 2 * c * e6 ^ 3 + K1 * t + (h * e6) ^ 2 * t * / 2 else hh * h * t ^ 3 - h / 2 * c * e6 ^ 3 + K1 * t; - hh * t ^ 2 * 2]]
  | 2%nat => tbl [[0; 0; hh * t ^ 2 * 2]]
  | 3%nat => tbl [[0; 0; if e then - (h / 2 * c * e6 ^ 3 + K1 * t) else - (h / 2 * c * e6 ^ 3 + K1 * t) + (h * e6) ^ 2 * t; - hh * t ^ 2 * 2]; [0; 0; - (hh * e6 ^ 2) * 2]]
  | _ => fun _ _ => 0
  end.
Definition face2 (h K1 beta c fint hgap : R) (e : bool) : vec6 -> vec6 :=
  quadmap (face_R h (tan beta) (tan (beta - fringe_angle h beta fint hgap))) (face_T h K1 c (tan beta) (1 / cos beta) e).
Lemma face_tm_ok w h K1 beta c fint hgap e p : cos beta <> 0 ->
  exists m, face_tm w h K1 beta c fint hgap e = Ok m /\ rt_apply m p = Ok (mkP (face2 h K1 beta c fint hgap e (pv p)) (pid p)).
Proof.
  intros NZ. unfold face_tm. destruct (Reqb_spec (cos beta) 0); [contradiction|].
  apply rt_result; [numbers|destruct e; unfold face_second; cbn [app]; numbers|]. intros i Hi. destruct i as [|i]; [lia|]. assert (Hi' : (i < 6)%nat) by lia.
  replace (S i - 1)%nat with i by lia. unfold face2, quadmap. rewrite coord_vof by exact Hi'. unfold face_R, face_T, face_second. cbn zeta.
  generalize (tan (beta - fringe_angle h beta fint hgap)) as r. generalize (tan beta) as t. generalize (1 / cos beta) as e6. clear - Hi'. intros.
  destruct e; six i; cbn -[pow]; ring.
Qed.
Lemma face_symplectic h K1 c t r e6 e : e6 ^ 2 = 1 + t * t ->
  (symplectic2 (quadmap (face_R h t r) (face_T h K1 c t e6 e)) <-> 3 * K1 * t - h / 2 * c * e6 ^ 3 + (if e then 1 else -1) * (h * h * (t * t) * (t - r)) = 0).
Proof.
  intros E. rewrite symplectic2_iff. replace (e6 ^ 3) with (e6 * (1 + t * t)) by (rewrite <- E; ring). unfold face_T. cbn zeta.
  rewrite !Rpow_mult_distr. rewrite !E. replace (e6 ^ 3) with (e6 * (1 + t * t)) by (rewrite <- E; ring). split.
  - intros [_ B]. specialize (B 0 2 2 ltac:(lia) ltac:(lia) ltac:(lia))%nat. unfold balance, face_R in B. destruct e; cbn in B; lra.
  - intros Z. split.
    + intros i j Hi Hj. six i; six j; cbn; ring.
    + intros i j m Hi Hj Hm. unfold balance, face_R. destruct e; six i; six j; six m; cbn; try (field; fail); lra.
Qed.
Lemma sec_tan beta : cos beta <> 0 -> (1 / cos beta) ^ 2 = 1 + tan beta * tan beta.
Proof. intros NZ. pose proof (cos_sin beta) as P. unfold tan. field_simplify_eq; [|assumption]. lra. Qed.

(* ---- C196 ---- *)
(* exactly when the map of a pole face is symplectic to second order; at the origin its
   derivative is the first-order matrix *)
Theorem C196_face h K1 beta c fint hgap e : cos beta <> 0 -> exists F,
  (forall w p, exists m, face_tm w h K1 beta c fint hgap e = Ok m /\ rt_apply m p = Ok (mkP (F (pv p)) (pid p))) /\
  (exists M, pole_face 6 h beta fint hgap = Ok M /\ tangent (fun v => @Ok unit vec6 (F v)) (V6 0 0 0 0 0 0) M) /\
  (symplectic2 F <-> 3 * K1 * tan beta - h * c / (2 * (cos beta * cos beta * cos beta))
    + (if e then 1 else -1) * (h * h * (tan beta * tan beta) * (tan beta - tan (beta - fringe_angle h beta fint hgap))) = 0).
Proof.
  intros NZ. exists (face2 h K1 beta c fint hgap e). split; [intros; now apply face_tm_ok|]. split.
  - eexists. split; [unfold pole_face; cbn [Nat.leb]; reflexivity|]. fold (fringe_angle h beta fint hgap).
    pose proof (@quadmap_tangent unit (face_R h (tan beta) (tan (beta - fringe_angle h beta fint hgap))) (face_T h K1 c (tan beta) (1 / cos beta) e) (V6 0 0 0 0 0 0)) as Q.
    fold (face2 h K1 beta c fint hgap e) in Q. intros g u P. destruct (Q g u P) as (r & c' & R0 & A & B). exists r, c'. split; [exact R0|]. split; [exact A|].
    match goal with |- passes _ _ (SympIntSpec.image ?M _) => set (MM := M) end.
    replace (SympIntSpec.image MM u) with (SympIntSpec.image (slope2 (face_R h (tan beta) (tan (beta - fringe_angle h beta fint hgap))) (face_T h K1 c (tan beta) (1 / cos beta) e) (V6 0 0 0 0 0 0)) u); [exact B|].
    assert (Z : forall i j, (i < 6)%nat -> (j < 6)%nat -> slope2 (face_R h (tan beta) (tan (beta - fringe_angle h beta fint hgap))) (face_T h K1 c (tan beta) (1 / cos beta) e) (V6 0 0 0 0 0 0) i j = MM i j).
    { intros i j Hi Hj. unfold slope2. rewrite (sum_ext _ (fun _ => 0)); [|intros m Hm; apply in_seq in Hm; six m; cbn -[face_T]; ring]. rewrite sum_const, Rmult_0_r, Rplus_0_r.
      unfold MM, mset, mid. six i; six j; cbn; ring. }
    apply vec6_eq. intros i Hi. assert (forall M, coord i (SympIntSpec.image M u) = sum (fun j => M i j * coord j u) (seq 0 6)) as V by (intros; six i; reflexivity).
    rewrite !V. apply sum_ext. intros j Hj. apply in_seq in Hj. rewrite Z by lia. reflexivity.
  - unfold face2. rewrite face_symplectic by (now apply sec_tan). replace (h / 2 * c * (1 / cos beta) ^ 3) with (h * c / (2 * (cos beta * cos beta * cos beta))) by (field; assumption). reflexivity.
Qed.
Print Assumptions C196_face.
(* so it is for a magnet without gradient, with flat faces and hard edges *)
Theorem C196_hard_edge h beta hgap e : cos beta <> 0 -> exists F,
  (forall w p, exists m, face_tm w h 0 beta 0 0 hgap e = Ok m /\ rt_apply m p = Ok (mkP (F (pv p)) (pid p))) /\ symplectic2 F.
Proof.
  intros NZ. destruct (C196_face h 0 beta 0 0 hgap e NZ) as (F & A & _ & B). exists F. split; [exact A|]. apply B.
  assert (Z : fringe_angle h beta 0 hgap = 0) by (unfold fringe_angle; unfold Rdiv; ring). rewrite Z, Rminus_0_r. unfold Rdiv. ring.
Qed.
Print Assumptions C196_hard_edge.
(* an upright face: a shift of x with y^2 and a kick py with px y, of opposite sense at the
   two ends, and the vertical focusing of the fringe field *)
Theorem C196_upright w h K1 hgap fint e p : exists m, face_tm w h K1 0 0 fint hgap e = Ok m /\
  rt_apply m p = Ok (mkP (V6 (vx (pv p) + (if e then h else - h) / 2 * (vy (pv p) * vy (pv p))) (vxp (pv p)) (vy (pv p))
     (vyp (pv p) + h * tan (2 * fint * hgap * h) * vy (pv p) - (if e then h else - h) * (vxp (pv p) * vy (pv p))) (vct (pv p)) (vdp (pv p))) (pid p)).
Proof.
  assert (NZ : cos 0 <> 0) by (rewrite cos_0; lra). destruct (face_tm_ok w h K1 0 0 fint hgap e p NZ) as (m & E & A). exists m. split; [exact E|]. rewrite A. do 2 f_equal.
  assert (Z : 0 - fringe_angle h 0 fint hgap = - (2 * fint * hgap * h)) by (unfold fringe_angle; rewrite sin_0, cos_0; field). unfold face2. rewrite Z, tan_neg, tan_0, cos_0.
  apply vec6_eq. intros i Hi. unfold quadmap. rewrite coord_vof by exact Hi. destruct e; six i; cbn; field.
Qed.
Print Assumptions C196_upright.
(* the map exists unless the face lies along the beam axis *)
Theorem C196_domain w h K1 beta c fint hgap e : face_tm w h K1 beta c fint hgap e = UB <-> cos beta = 0.
Proof.
  split; intros H.
  - destruct (Req_dec (cos beta) 0) as [Z|Z]; [exact Z|]. destruct (face_tm_ok w h K1 beta c fint hgap e (mkP vzero 0%Z) Z) as (m & E & _). congruence.
  - unfold face_tm. destruct (Reqb_spec (cos beta) 0); [reflexivity|contradiction].
Qed.
Print Assumptions C196_domain.

(* ---- C197: not with a gradient, nor with a fringe field ---- *)
Theorem C197_gradient_refuted h K1 beta hgap e F : cos beta <> 0 -> K1 <> 0 -> tan beta <> 0 ->
  (forall w p, exists m, face_tm w h K1 beta 0 0 hgap e = Ok m /\ rt_apply m p = Ok (mkP (F (pv p)) (pid p))) -> ~ symplectic2 F.
Proof.
  intros NZ K T HF Y. destruct (C196_face h K1 beta 0 0 hgap e NZ) as (F' & A & _ & B).
  assert (EF : F = F'). { apply FunctionalExtensionality.functional_extensionality. intros x. destruct (HF 0%nat (mkP x 0%Z)) as (m & E & P). destruct (A 0%nat (mkP x 0%Z)) as (m' & E' & P'). cbn [pv pid] in *. congruence. }
  subst F'. apply B in Y. assert (Z : fringe_angle h beta 0 hgap = 0) by (unfold fringe_angle; unfold Rdiv; ring). rewrite Z, Rminus_0_r in Y. unfold Rdiv in Y.
  assert (X : K1 * tan beta = 0) by lra. apply Rmult_integral in X. tauto.
Qed.
Print Assumptions C197_gradient_refuted.
Theorem C197_fringe_refuted h beta fint hgap e F : cos beta <> 0 -> h <> 0 -> tan beta <> 0 -> tan (beta - fringe_angle h beta fint hgap) <> tan beta ->
  (forall w p, exists m, face_tm w h 0 beta 0 fint hgap e = Ok m /\ rt_apply m p = Ok (mkP (F (pv p)) (pid p))) -> ~ symplectic2 F.
Proof.
  intros NZ H T Fr HF Y. destruct (C196_face h 0 beta 0 fint hgap e NZ) as (F' & A & _ & B).
  assert (EF : F = F'). { apply FunctionalExtensionality.functional_extensionality. intros x. destruct (HF 0%nat (mkP x 0%Z)) as (m & E & P). destruct (A 0%nat (mkP x 0%Z)) as (m' & E' & P'). cbn [pv pid] in *. congruence. }
  subst F'. apply B in Y. set (t := tan beta) in *. set (r := tan (beta - fringe_angle h beta fint hgap)) in *. unfold Rdiv in Y.
  assert (X : (h * h) * (t * t) * (t - r) = 0) by (destruct e; lra).
  apply Rmult_integral in X. destruct X as [X|X]; [|apply Fr; lra]. apply Rmult_integral in X. destruct X as [X|X]; apply Rmult_integral in X; tauto.
Qed.
Print Assumptions C197_fringe_refuted.
Example C196_ex : cos (PI / 4) <> 0 /\ tan (PI / 4) = 1 /\ (1 : R) <> 0 /\ fringe_angle 1 (PI / 4) 0 1 = 0 /\
  exists m, face_tm 0 2 5 0 0 0 1 true = Ok m /\ rt_apply m (mkP (V6 0 1 3 0 0 0) 4%Z) = Ok (mkP (V6 9 1 3 (-6) 0 0) 4%Z).
Proof.
  assert (0 < cos (PI / 4)) by (apply cos_gt_0; pose proof PI_RGT_0; lra). split; [lra|]. split; [apply tan_PI4|]. split; [lra|]. split; [unfold fringe_angle, Rdiv; ring|].
  destruct (C196_upright 0 2 5 1 0 true (mkP (V6 0 1 3 0 0 0) 4%Z)) as (m & E & A). exists m. split; [exact E|]. rewrite A. replace (2 * 0 * 1 * 2) with 0 by ring. rewrite tan_0. cbn. f_equal. f_equal. f_equal; lra.
Qed.
