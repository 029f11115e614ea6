From Verif Require Import Rot RotSpec RotProofs.
From Coq Require Import Lia.
Local Open Scope R_scope.

(* C30 *)
Theorem C30_rotations_are_matrices : forall e : rexp,
  (forall p i, (i < 3)%nat ->
     coord (rotate (rrun e) p) i = sum3 (fun j => rmean e i j * coord p j)) /\
  seq3 (entry (get_matrix (rrun e))) (rmean e) /\
  orthogonal (rmean e) /\ sdet (rmean e) = 1.
Proof.
  intros e. split; [exact (run_applies e) |]. split; [exact (run_means e) |].
  exact (mean_orthogonal e).
Qed.
Print Assumptions C30_rotations_are_matrices.

(* The type tests of a rotation mean what they say. *)
Theorem C30_type_tests : forall e : rexp,
  (ris_identity (rrun e) = true -> forall p, rotate (rrun e) p = p) /\
  (forall k, is_rot k (rrun e) = true -> rotate (rrun e) (unit_of k) = unit_of k).
Proof.
  intros e. split.
  - intros H p. exact (is_identity_moves_nothing _ p (wf_run e) H).
  - intros k H. exact (is_rot_fixes k _ (wf_run e) H).
Qed.
Print Assumptions C30_type_tests.

(* A quarter turn about x, then one about y, taken back by the inverse of the
   product: four representations meet, and the library notices the identity. *)
Example C30_case :
  let e := EMul (EMul (EAxis AY (PI / 2)) (EAxis AX (PI / 2)))
                (EInv (EMul (EAxis AY (PI / 2)) (EAxis AX (PI / 2)))) in
  ris_identity (rrun e) = true /\
  rotate (rrun (EMul (EAxis AY (PI / 2)) (EAxis AX (PI / 2)))) (mkv 1 2 3) = mkv 2 3 1.
Proof.
  assert (N : Reqb (PI / 2) 0 = false) by (apply Reqb_false; pose proof PI_RGT_0; lra).
  cbn [rrun rotation]. unfold rotation_x, rotation_y. rewrite N, cos_PI2, sin_PI2.
  cbn. split.
  - rewrite !Reqb_true by ring. reflexivity.
  - apply vec3_eq; cbn; ring.
Qed.

(* C31 *)
Theorem C144_group_of_motions : forall a b c : texp,
  (forall p, tr_pt (trun (TMul a b)) p = tr_pt (trun a) (tr_pt (trun b) p)) /\
  (forall v, tr_vec (trun (TMul a b)) v = tr_vec (trun a) (tr_vec (trun b) v)) /\
  (forall p, tr_pt (trun (TInv a)) (tr_pt (trun a) p) = p) /\
  (forall p, tr_pt (trun a) (tr_pt (trun (TInv a)) p) = p) /\
  (forall p, tr_pt (trun (TMul (TMul a b) c)) p = tr_pt (trun (TMul a (TMul b c))) p) /\
  (forall p, tr_pt (trun TId) p = p).
Proof.
  intros a b c. cbn [trun].
  assert (A := twf_run a). assert (B := twf_run b). assert (C := twf_run c).
  repeat split; intros.
  - exact (tr_mul_pt _ _ p A B).
  - exact (tr_mul_vec _ _ v A B).
  - exact (tr_inv_l _ p A).
  - exact (tr_inv_r _ p A).
  - assert (AB := twf_run (TMul a b)). assert (BC := twf_run (TMul b c)).
    cbn [trun] in AB, BC.
    rewrite (tr_mul_pt _ _ p AB C), (tr_mul_pt _ _ _ A B).
    rewrite (tr_mul_pt _ _ p A BC), (tr_mul_pt _ _ _ B C). reflexivity.
  - destruct p. unfold tr_pt. cbn. apply vec3_eq; cbn; ring.
Qed.
Print Assumptions C144_group_of_motions.

Theorem C144_rigid : forall (a : texp),
  (forall p q, dist2 (tr_pt (trun a) p) (tr_pt (trun a) q) = dist2 p q) /\
  (forall v w, vdot (tr_vec (trun a) v) (tr_vec (trun a) w) = vdot v w) /\
  (forall v w, vcross (tr_vec (trun a) v) (tr_vec (trun a) w) = tr_vec (trun a) (vcross v w)) /\
  (forall p q, tr_vec (trun a) (vsub p q) = vsub (tr_pt (trun a) p) (tr_pt (trun a) q)).
Proof.
  intros a. assert (A := twf_run a). repeat split; intros.
  - exact (tr_dist _ p q A).
  - exact (rotate_vdot _ v w A).
  - exact (rotate_cross _ v w A).
  - unfold tr_vec, tr_pt. rewrite <- rotate_sub. f_equal. apply vec3_eq; cbn; ring.
Qed.
Print Assumptions C144_rigid.

(* The elementary transformations: a transformation made from a position and
   a rotation re-expresses a point in the axes standing at that position. *)
Theorem C144_elementary : forall p,
  (forall x e, tr_pt (trun (TMake x e)) p = rotate (rrun e) (vsub p x)) /\
  (forall dx dy dz, tr_pt (trun (TMove dx dy dz)) p = vsub p (mkv dx dy dz)) /\
  (forall k a i, (i < 3)%nat -> coord (tr_pt (trun (TTurn k a)) p) i
     = sum3 (fun j => axis_mat (axn k) a i j * coord p j)) /\
  (forall k a, tr_pt (trun (TByPi k a)) p
     = tr_pt (trun (TTurn k PI)) (tr_pt (trun a) (tr_pt (trun (TTurn k PI)) p))).
Proof.
  assert (Turn : forall k a q, tr_pt (trun (TTurn k a)) q = rotate (rrun (EAxis k a)) q).
  { intros k a q. cbn [trun rrun]. destruct k; unfold tr_pt; cbn [tr_rot tr_rot_x tr_rot_y tr_rot_z x0 rr];
      unfold rotation; f_equal; apply vec3_eq; cbn; ring. }
  intros p. repeat split.
  - intros k a i Hi. rewrite Turn. exact (run_applies (EAxis k a) p i Hi).
  - intros k a. rewrite !Turn. cbn [trun]. rewrite tr_by_pi_pt.
    assert (P : forall q, vpi k q = rotate (rrun (EAxis k PI)) q).
    { intros q. unfold vpi. rewrite rotate_matrix. f_equal.
      pose proof (seq3_trans _ _ _ (entry_pim k) (seq3_sym _ _ (run_means (EAxis k PI)))) as E.
      apply mat3_eq;
        [ apply (E 0 0)%nat | apply (E 0 1)%nat | apply (E 0 2)%nat
        | apply (E 1 0)%nat | apply (E 1 1)%nat | apply (E 1 2)%nat
        | apply (E 2 0)%nat | apply (E 2 1)%nat | apply (E 2 2)%nat ]; lia. }
    rewrite !P. reflexivity.
Qed.
Print Assumptions C144_elementary.

Example C31_case :
  tr_pt (trun (TMul (TTurn AZ (PI / 2)) (TMove 1 2 3))) (mkv 5 5 5) = mkv 3 (-4) 2.
Proof.
  assert (N : Reqb (PI / 2) 0 = false) by (apply Reqb_false; pose proof PI_RGT_0; lra).
  cbn [trun tr_rot]. unfold tr_rot_z, rotation_z. rewrite N, cos_PI2, sin_PI2.
  apply vec3_eq; cbn; lra.
Qed.

(* The identity test accepts a small displacement. *)
Theorem C31_identity_test_refuted :
  exists (a : texp) p, tr_is_identity (trun a) = true /\ tr_pt (trun a) p <> p.
Proof.
  exists (TMove (eps / 2) 0 0), (mkv 0 0 0). split.
  - unfold tr_is_identity, vzero. cbn. rewrite fequal_refl.
    destruct (fequal_spec (eps / 2) 0) as [_ | N]; [reflexivity |].
    exfalso; apply N. pose proof eps_pos. rewrite Rminus_0_r, Rabs_pos_eq; lra.
  - intros H. apply (f_equal vx) in H. cbn in H. pose proof eps_pos. lra.
Qed.
Print Assumptions C31_identity_test_refuted.

(* What it does guarantee: no turn at all, and no coordinate moved by more
   than the tolerance. *)
Theorem C144_identity_test : forall (a : texp) p, tr_is_identity (trun a) = true ->
  (forall v, tr_vec (trun a) v = v) /\
  Rabs (vx (tr_pt (trun a) p) - vx p) <= eps /\
  Rabs (vy (tr_pt (trun a) p) - vy p) <= eps /\
  Rabs (vz (tr_pt (trun a) p) - vz p) <= eps.
Proof. intros a p. exact (identity_test_close _ p (twf_run a)). Qed.
Print Assumptions C144_identity_test.

(* C32 *)
Theorem C32_lift_refuted : exists dx dy dphi x y,
  let t := tr2_of dx dy dphi in
  tr_pt (tr3_of_tr2 t) (mkv x y 0) <> mkv (px (tr2_pt t (mkv2 x y))) (py (tr2_pt t (mkv2 x y))) 0.
Proof.
  exists 0, 0, (PI / 2), 1, 0. cbv zeta. rewrite lift_action by (cbn; rewrite cos_PI2, sin_PI2; ring).
  intros H. apply (f_equal vy) in H. cbn in H. rewrite cos_PI2, sin_PI2 in H. lra.
Qed.
Print Assumptions C32_lift_refuted.

(* The two actions agree on the whole plane exactly when there is no rotation,
   or half a turn about the origin. *)
Theorem C32_lift_agrees_partial : forall dx dy dphi,
  let t := tr2_of dx dy dphi in
  (forall x y, tr_pt (tr3_of_tr2 t) (mkv x y 0)
     = mkv (px (tr2_pt t (mkv2 x y))) (py (tr2_pt t (mkv2 x y))) 0)
  <-> (cos dphi = 1 \/ (cos dphi = -1 /\ dx = 0 /\ dy = 0)).
Proof.
  intros dx dy dphi t. pose proof (cs1 dphi) as C.
  assert (L : forall x y, tr_pt (tr3_of_tr2 t) (mkv x y 0) =
    mkv ((x - dx) * cos dphi + (y - dy) * sin dphi)
        ((y - dy) * cos dphi - (x - dx) * sin dphi) 0).
  { intros x y. rewrite lift_action by exact C. reflexivity. }
  split.
  - intros H.
    pose proof (H 0 0) as H0. pose proof (H 1 0) as H1. rewrite L in H0, H1.
    pose proof (f_equal vx H0) as X0. pose proof (f_equal vy H0) as Y0.
    pose proof (f_equal vx H1) as X1. pose proof (f_equal vy H1) as Y1.
    subst t. cbn in X0, Y0, X1, Y1.
    assert (S : sin dphi = 0) by lra. rewrite S in *.
    assert (K : (cos dphi - 1) * (cos dphi + 1) = 0) by lra.
    apply Rmult_integral in K as [K | K]; [left; lra | right].
    assert (E : cos dphi = -1) by lra. rewrite E in *. repeat split; lra.
  - intros [E | (E & -> & ->)] x y; rewrite L; rewrite E in C;
      assert (S : sin dphi = 0) by nra; subst t; apply vec3_eq; cbn; rewrite ?E, ?S; ring.
Qed.
Print Assumptions C32_lift_agrees_partial.

Example C32_case : tr_pt (tr3_of_tr2 (tr2_of 1 2 0)) (mkv 5 5 0) = mkv 4 3 0.
Proof.
  pose proof (proj2 (C32_lift_agrees_partial 1 2 0) (or_introl cos_0) 5 5) as H.
  cbv zeta in H. rewrite H. cbn. rewrite cos_0, sin_0. apply vec3_eq; cbn; lra.
Qed.

(* C33 *)
Theorem C33_particles_move_as_rays : forall I (a : texp) (p : ps I),
  vz (tr_vec (trun a) (mkv (psxp p) (psyp p) 1)) <> 0 ->
  let q := ps_apply (trun a) p in
  (exists u, tr_pt (trun a) (ray p u) = mkv (psx q) (psy q) 0) /\
  (exists k, tr_vec (trun a) (mkv (psxp p) (psyp p) 1) = vscale k (mkv (psxp q) (psyp q) 1)) /\
  psct q = psct p /\ psdp q = psdp p /\ psinfo q = psinfo p.
Proof. intros I a p. exact (ps_apply_ray I _ p (twf_run a)). Qed.
Print Assumptions C33_particles_move_as_rays.

(* The intersection point and the slopes are determined by the ray. *)
Theorem C33_ray_determines : forall I (a : texp) (p : ps I) x y xp yp,
  vz (tr_vec (trun a) (mkv (psxp p) (psyp p) 1)) <> 0 ->
  (exists u, tr_pt (trun a) (ray p u) = mkv x y 0) ->
  (exists k, tr_vec (trun a) (mkv (psxp p) (psyp p) 1) = vscale k (mkv xp yp 1)) ->
  ps_apply (trun a) p = mkps x xp y yp (psct p) (psdp p) (psinfo p).
Proof.
  intros I a p x y xp yp N U K.
  destruct (ps_apply_ray I _ p (twf_run a) N) as (U' & K' & C1 & C2 & C3).
  destruct (ray_unique I _ p _ _ _ _ _ _ _ _ (twf_run a) N U' K' U K) as (E1 & E2 & E3 & E4).
  destruct (ps_apply (trun a) p); cbn in *; subst; reflexivity.
Qed.
Print Assumptions C33_ray_determines.

Lemma compose_apply : forall I (a b : texp) (p : ps I),
  vz (tr_vec (trun b) (mkv (psxp p) (psyp p) 1)) <> 0 ->
  (let q := ps_apply (trun b) p in vz (tr_vec (trun a) (mkv (psxp q) (psyp q) 1)) <> 0) ->
  ps_apply (trun a) (ps_apply (trun b) p) = ps_apply (trun (TMul a b)) p.
Proof.
  intros I a b p N1 N2. cbv zeta in N2.
  destruct (ps_apply_ray I _ p (twf_run b) N1) as ([u U] & [k K] & C1 & C2 & C3).
  destruct (ps_apply_ray I _ _ (twf_run a) N2) as ([u' U'] & [k' K'] & C1' & C2' & C3').
  set (q := ps_apply (trun b) p) in *.
  assert (Kz : k <> 0).
  { intros ->. apply (f_equal vz) in K. cbn in K. apply N1. rewrite K. ring. }
  assert (VV : tr_vec (trun (TMul a b)) (mkv (psxp p) (psyp p) 1)
     = vscale k (tr_vec (trun a) (mkv (psxp q) (psyp q) 1))).
  { cbn [trun]. rewrite (tr_mul_vec _ _ _ (twf_run a) (twf_run b)), K.
    unfold tr_vec. apply rotate_scale. }
  symmetry. destruct (ps_apply (trun a) q) as [qx qxp qy qyp qct qdp qi] eqn:Q.
  cbn in C1', C2', C3'. subst qct qdp qi. cbn in U', K'. rewrite C1, C2, C3.
  apply C33_ray_determines.
  - rewrite VV. cbn. apply Rmult_integral_contrapositive_currified; assumption.
  - exists (u + u' / k). cbn [trun]. rewrite (tr_mul_pt _ _ _ (twf_run a) (twf_run b)).
    rewrite <- U'. f_equal.
    assert (R1 : tr_pt (trun b) (ray p (u + u' / k)) =
      vadd (tr_pt (trun b) (ray p u)) (vscale (u' / k) (tr_vec (trun b) (mkv (psxp p) (psyp p) 1)))).
    { unfold tr_pt, tr_vec. rewrite <- rotate_scale, <- rotate_add. f_equal.
      unfold ray. apply vec3_eq; cbn; ring. }
    rewrite R1, U, K. unfold ray. apply vec3_eq; cbn; field; assumption.
  - exists (k * k'). rewrite VV, K'. apply vec3_eq; cbn; ring.
Qed.

Theorem C33_successive_is_composed : forall I (a b : texp) (l : list (ps I)),
  (forall p, In p l -> vz (tr_vec (trun b) (mkv (psxp p) (psyp p) 1)) <> 0 /\
     let q := ps_apply (trun b) p in vz (tr_vec (trun a) (mkv (psxp q) (psyp q) 1)) <> 0) ->
  ps_apply_all (trun a) (ps_apply_all (trun b) l) = ps_apply_all (trun (TMul a b)) l.
Proof.
  intros I a b l H. unfold ps_apply_all. rewrite map_map. apply map_ext_in.
  intros p Hp. destruct (H p Hp) as [H1 H2]. exact (compose_apply I a b p H1 H2).
Qed.
Print Assumptions C33_successive_is_composed.

(* A particle with slope 1 seen from axes turned by 45 degrees and moved: it
   runs parallel to the new axis. *)
Example C33_case :
  let a := TMul (TTurn AY (PI / 4)) (TMove 0 0 1) in
  let p := mkps 2 1 0 0 7 (/ 10) tt in
  vz (tr_vec (trun a) (mkv (psxp p) (psyp p) 1)) <> 0 /\
  psxp (ps_apply (trun a) p) = 0 /\ psyp (ps_apply (trun a) p) = 0
  /\ psct (ps_apply (trun a) p) = 7.
Proof.
  assert (N : Reqb (PI / 4) 0 = false) by (apply Reqb_false; pose proof PI_RGT_0; lra).
  cbn [trun tr_rot]. unfold tr_rot_y, rotation_y. rewrite N.
  unfold ps_apply, tr_mul, tr_mul_by, tr_vec. cbn. rewrite cos_PI4, sin_PI4.
  assert (P : 0 < sqrt 2) by (apply sqrt_lt_R0; lra).
  assert (Q : 0 < 1 / sqrt 2).
  { unfold Rdiv. rewrite Rmult_1_l. apply Rinv_0_lt_compat; assumption. }
  repeat split; try lra; unfold Rdiv; ring.
Qed.

(* C63: comparison of points *)
Theorem C63_comparison_refuted : exists a b, veq a b = true /\ vne a b = true.
Proof.
  exists (mkv 0 0 0), (mkv (eps / 2) 0 0). pose proof eps_pos. split.
  - unfold veq. cbn. rewrite fequal_refl. destruct (fequal_spec 0 (eps / 2)) as [_ | N]; [reflexivity |].
    exfalso; apply N. rewrite Rabs_left1; lra.
  - unfold vne. cbn. rewrite (Reqb_false 0 (eps / 2)) by lra. reflexivity.
Qed.
Print Assumptions C63_comparison_refuted.

Theorem C63_comparison_partial : forall a b,
  (vne a b = false <-> a = b) /\
  (vne a b = false -> veq a b = true) /\
  (veq a b = true <-> Rabs (vx a - vx b) <= eps /\ Rabs (vy a - vy b) <= eps
                      /\ Rabs (vz a - vz b) <= eps).
Proof.
  intros a b.
  assert (N : vne a b = false <-> a = b).
  { unfold vne. destruct (Reqb_spec (vx a) (vx b)), (Reqb_spec (vy a) (vy b)),
      (Reqb_spec (vz a) (vz b)); cbn; split; intros H; try discriminate; try reflexivity;
      try (apply vec3_eq; assumption); subst; exfalso; auto. }
  split; [exact N | split].
  - intros H. apply N in H. subst. unfold veq. rewrite !fequal_refl. reflexivity.
  - unfold veq. destruct (fequal_spec (vx a) (vx b)), (fequal_spec (vy a) (vy b)),
      (fequal_spec (vz a) (vz b)); cbn; split; intros H; try discriminate; try reflexivity;
      try (repeat split; assumption); destruct H as (? & ? & ?); contradiction.
Qed.
Print Assumptions C63_comparison_partial.

(* C64: transformations of the plane *)
Inductive t2exp :=
| P2 (dx dy dphi : R)
| P2Mul (a b : t2exp)
| P2Inv (a : t2exp).
Fixpoint t2run (e : t2exp) : tr2 :=
  match e with
  | P2 dx dy dphi => tr2_of dx dy dphi
  | P2Mul a b => tr2_mul (t2run a) (t2run b)
  | P2Inv a => tr2_inv (t2run a)
  end.

Lemma t2_circle : forall e,
  cosa (r2 (t2run e)) * cosa (r2 (t2run e)) + sina (r2 (t2run e)) * sina (r2 (t2run e)) = 1.
Proof.
  induction e; cbn [t2run].
  - apply cs1.
  - cbn. rewrite <- (circle_mul _ _ _ _ IHe1 IHe2). ring.
  - cbn. lra.
Qed.

Theorem C155_plane_group : forall a b : t2exp,
  (forall dx dy dphi p, tr2_pt (t2run (P2 dx dy dphi)) p =
     mkv2 (cos dphi * px p - sin dphi * py p - dx) (sin dphi * px p + cos dphi * py p - dy)) /\
  (forall p, tr2_pt (t2run (P2Mul a b)) p = tr2_pt (t2run a) (tr2_pt (t2run b) p)) /\
  (forall p, tr2_pt (t2run (P2Inv a)) (tr2_pt (t2run a) p) = p) /\
  (forall p, tr2_pt (t2run a) (tr2_pt (t2run (P2Inv a)) p) = p).
Proof.
  intros a b. pose proof (t2_circle a) as C. cbn [t2run].
  destruct (t2run a) as [[c s] [x y]]. destruct (t2run b) as [[c' s'] [x' y']]. cbn in C.
  assert (F : forall u, (c * c + s * s) * u = u) by (intros u; rewrite C; ring).
  repeat split; intros; try (apply vec2_eq; cbn; ring).
  - destruct p as [u v]. apply vec2_eq; cbn;
      [ transitivity ((c * c + s * s) * u) | transitivity ((c * c + s * s) * v) ];
      try apply F; ring.
  - destruct p as [u v]. apply vec2_eq; cbn;
      [ transitivity ((c * c + s * s) * u + (c * c + s * s) * x - x)
      | transitivity ((c * c + s * s) * v + (c * c + s * s) * y - y) ];
      try ring; rewrite C; ring.
Qed.
Print Assumptions C155_plane_group.

Example C64_case : tr2_pt (t2run (P2Mul (P2 1 0 PI) (P2 0 1 0))) (mkv2 3 4) = mkv2 (-4) (-3).
Proof. apply vec2_eq; cbn; rewrite cos_PI, sin_PI, cos_0, sin_0; lra. Qed.

Theorem C64_identity_test_refuted :
  exists e p, tr2_is_identity (t2run e) = true /\ tr2_pt (t2run e) p <> p /\
    1 <= Rabs (px (tr2_pt (t2run e) p) - px p).
Proof.
  exists (P2 0 0 PI), (mkv2 1 0). cbn [t2run]. repeat split.
  - unfold tr2_is_identity, r2_is_identity, v2zero. cbn. rewrite sin_PI, !fequal_refl. cbn.
    destruct (fequal_tol_spec 0 0 0) as [_ | N]; [reflexivity |]. exfalso. apply N.
    rewrite Rminus_0_r, Rabs_R0. lra.
  - intros H. apply (f_equal px) in H. cbn in H. rewrite cos_PI, sin_PI in H. lra.
  - cbn. rewrite cos_PI, sin_PI.
    replace (-1 * 1 - 0 * 0 - 0 - 1) with (- (2)) by ring.
    rewrite Rabs_Ropp, Rabs_pos_eq; lra.
Qed.
Print Assumptions C64_identity_test_refuted.
