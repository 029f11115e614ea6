From Verif Require Import Rot RotSpec.
From Coq Require Import Lia.
Local Open Scope R_scope.

Lemma Reqb_eq : forall x y, Reqb x y = true -> x = y.
Proof. intros x y H. destruct (Reqb_spec x y); [assumption | discriminate]. Qed.

Lemma mat3_eq : forall a b : mat3,
  m00 a = m00 b -> m01 a = m01 b -> m02 a = m02 b ->
  m10 a = m10 b -> m11 a = m11 b -> m12 a = m12 b ->
  m20 a = m20 b -> m21 a = m21 b -> m22 a = m22 b -> a = b.
Proof. intros [] []; cbn; intros; subst; reflexivity. Qed.

Lemma vec3_eq : forall a b : vec3, vx a = vx b -> vy a = vy b -> vz a = vz b -> a = b.
Proof. intros [] []; cbn; intros; subst; reflexivity. Qed.

Definition mid : mat3 := mkm 1 0 0 0 1 0 0 0 1.
Definition mtr (m : mat3) : mat3 :=
  mkm (m00 m) (m10 m) (m20 m) (m01 m) (m11 m) (m21 m) (m02 m) (m12 m) (m22 m).
Definition mdet (m : mat3) : R :=
  m00 m * (m11 m * m22 m - m12 m * m21 m)
  + m01 m * (m12 m * m20 m - m10 m * m22 m)
  + m02 m * (m10 m * m21 m - m11 m * m20 m).
Definition mapp (m : mat3) (p : vec3) : vec3 :=
  mkv (m00 m * vx p + m01 m * vy p + m02 m * vz p)
      (m10 m * vx p + m11 m * vy p + m12 m * vz p)
      (m20 m * vx p + m21 m * vy p + m22 m * vz p).

Ltac meq := apply mat3_eq; cbn; ring.

Lemma mmul_assoc : forall a b c, mmul a (mmul b c) = mmul (mmul a b) c.
Proof. intros. meq. Qed.
Lemma mmul_id_l : forall a, mmul mid a = a.
Proof. intros. meq. Qed.
Lemma mmul_id_r : forall a, mmul a mid = a.
Proof. intros. meq. Qed.
Lemma mtr_mul : forall a b, mtr (mmul a b) = mmul (mtr b) (mtr a).
Proof. intros. meq. Qed.
Lemma mtr_mtr : forall a, mtr (mtr a) = a.
Proof. intros. meq. Qed.
Lemma mdet_mul : forall a b, mdet (mmul a b) = mdet a * mdet b.
Proof. intros. unfold mdet. cbn. ring. Qed.
Lemma mdet_tr : forall a, mdet (mtr a) = mdet a.
Proof. intros. unfold mdet. cbn. ring. Qed.
Lemma mapp_mul : forall a b p, mapp (mmul a b) p = mapp a (mapp b p).
Proof. intros. apply vec3_eq; cbn; ring. Qed.

Definition morth (m : mat3) : Prop :=
  mmul (mtr m) m = mid /\ mmul m (mtr m) = mid /\ mdet m = 1.

Lemma morth_id : morth mid.
Proof. repeat split; try meq. unfold mdet; cbn; ring. Qed.

Lemma morth_mul : forall a b, morth a -> morth b -> morth (mmul a b).
Proof.
  intros a b (A1 & A2 & A3) (B1 & B2 & B3). repeat split.
  - rewrite mtr_mul, mmul_assoc, <- (mmul_assoc (mtr b)), A1, mmul_id_r. exact B1.
  - rewrite mtr_mul, mmul_assoc, <- (mmul_assoc a), B2, mmul_id_r. exact A2.
  - rewrite mdet_mul, A3, B3. ring.
Qed.

Lemma morth_tr : forall a, morth a -> morth (mtr a).
Proof.
  intros a (A1 & A2 & A3). repeat split; rewrite ?mtr_mtr, ?mdet_tr; assumption.
Qed.

Ltac morth_axis H := repeat split;
  [ apply mat3_eq; cbn; try ring; lra
  | apply mat3_eq; cbn; try ring; lra
  | unfold mdet; cbn; lra ].

Lemma morth_x : forall c s, c * c + s * s = 1 -> morth (decl_xrot c s).
Proof. intros c s H. morth_axis H. Qed.
Lemma morth_y : forall c s, c * c + s * s = 1 -> morth (decl_yrot c s).
Proof. intros c s H. morth_axis H. Qed.
Lemma morth_z : forall c s, c * c + s * s = 1 -> morth (decl_zrot c s).
Proof. intros c s H. morth_axis H. Qed.

(* The representation invariant. *)
Definition wf (r : rot) : Prop :=
  match r with
  | RI => True
  | RX c s | RY c s | RZ c s => c * c + s * s = 1
  | RG m => morth m
  end.

Lemma wf_morth : forall r, wf r -> morth (get_matrix r).
Proof.
  intros [] H; cbn [get_matrix]; [apply morth_id | apply morth_x | apply morth_y
    | apply morth_z | ]; exact H.
Qed.

Lemma rotate_matrix : forall r p, rotate r p = mapp (get_matrix r) p.
Proof. intros [] p; apply vec3_eq; cbn; ring. Qed.

Lemma inv_matrix : forall r, get_matrix (rinv r) = mtr (get_matrix r).
Proof. intros []; cbn; try reflexivity; meq. Qed.

Lemma wf_inv : forall r, wf r -> wf (rinv r).
Proof.
  intros [| c s | c s | c s | m] H; cbn in *; try exact I; try lra.
  apply (morth_tr m H).
Qed.

Lemma circle_one : forall c s, c * c + s * s = 1 -> c = 1 -> s = 0.
Proof. intros c s H ->. nra. Qed.

Lemma circle_mul : forall c s c1 s1, c * c + s * s = 1 -> c1 * c1 + s1 * s1 = 1 ->
  (c * c1 - s * s1) * (c * c1 - s * s1) + (s * c1 + c * s1) * (s * c1 + c * s1) = 1.
Proof.
  intros c s c1 s1 H H1.
  replace 1 with ((c * c + s * s) * (c1 * c1 + s1 * s1)) by (rewrite H, H1; ring). ring.
Qed.

Lemma dot_matrix : forall a b, wf a -> wf b ->
  get_matrix (rdot a b) = mmul (get_matrix a) (get_matrix b).
Proof.
  intros a b Ha Hb.
  destruct a as [| ca sa | ca sa | ca sa | ma], b as [| c s | c s | c s | m];
    cbn [rdot get_matrix]; try meq; try reflexivity;
    unfold same_axis; destruct (Reqb_spec (c * ca - s * sa) 1) as [E | E];
    cbn [get_matrix]; try meq;
    pose proof (circle_one _ _ (circle_mul _ _ _ _ Hb Ha) E) as Z;
    apply mat3_eq; cbn; try ring; rewrite ?Rmult_0_l, ?Rmult_0_r; lra.
Qed.

Lemma wf_dot : forall a b, wf a -> wf b -> wf (rdot a b).
Proof.
  intros a b Ha Hb.
  pose proof (morth_mul _ _ (wf_morth a Ha) (wf_morth b Hb)) as M.
  rewrite <- dot_matrix in M by assumption.
  destruct a as [| ca sa | ca sa | ca sa | ma], b as [| c s | c s | c s | m];
    cbn [rdot] in *; try exact Ha; try exact Hb; try exact M;
    unfold same_axis in *; destruct (Reqb _ _); try exact I;
    apply circle_mul; assumption.
Qed.

Definition pim (k : axis) : mat3 :=
  match k with
  | AX => mkm 1 0 0 0 (-1) 0 0 0 (-1)
  | AY => mkm (-1) 0 0 0 1 0 0 0 (-1)
  | AZ => mkm (-1) 0 0 0 (-1) 0 0 0 1
  end.

Lemma morth_pim : forall k, morth (pim k).
Proof. intros []; repeat split; try meq; unfold mdet; cbn; ring. Qed.

Lemma by_pi_matrix : forall k r,
  get_matrix (by_pi k r) = mmul (pim k) (mmul (get_matrix r) (pim k)).
Proof. intros [] []; cbn; meq. Qed.

Lemma wf_by_pi : forall k r, wf r -> wf (by_pi k r).
Proof.
  intros k r H.
  pose proof (morth_mul _ _ (morth_pim k) (morth_mul _ _ (wf_morth r H) (morth_pim k))) as M.
  rewrite <- by_pi_matrix in M.
  destruct k, r; cbn in *; try exact I; try exact H; try exact M; lra.
Qed.

Lemma cs1 : forall a, cos a * cos a + sin a * sin a = 1.
Proof. intros a. pose proof (sin2_cos2 a) as H. unfold Rsqr in H. lra. Qed.

Lemma wf_rotation : forall k a, wf (rotation k a).
Proof.
  intros [] a; unfold rotation, rotation_x, rotation_y, rotation_z;
    destruct (Reqb a 0); try exact I; apply cs1.
Qed.

Lemma wf_run : forall e, wf (rrun e).
Proof.
  induction e; cbn [rrun].
  - exact I.
  - apply wf_rotation.
  - apply wf_dot; assumption.
  - apply wf_inv; assumption.
  - apply wf_by_pi; assumption.
Qed.

(* Reading a three-by-three array. *)
Ltac lt3 i Hi := destruct i as [| [| [| i]]]; [ | | | exfalso; lia ].

Lemma entry_mul : forall a b, seq3 (entry (mmul a b)) (sprod (entry a) (entry b)).
Proof. intros a b i j Hi Hj. lt3 i Hi; lt3 j Hj; reflexivity. Qed.
Lemma entry_tr : forall a, seq3 (entry (mtr a)) (stransp (entry a)).
Proof. intros a i j Hi Hj. lt3 i Hi; lt3 j Hj; reflexivity. Qed.
Lemma entry_id : seq3 (entry mid) skron.
Proof. intros i j Hi Hj. lt3 i Hi; lt3 j Hj; reflexivity. Qed.
Lemma entry_pim : forall k, seq3 (entry (pim k)) (axis_mat (axn k) PI).
Proof.
  intros k i j Hi Hj. destruct k; lt3 i Hi; lt3 j Hj; cbn;
    rewrite ?cos_PI, ?sin_PI; ring.
Qed.
Lemma entry_rotation : forall k a,
  seq3 (entry (get_matrix (rotation k a))) (axis_mat (axn k) a).
Proof.
  intros k a i j Hi Hj.
  destruct k; unfold rotation, rotation_x, rotation_y, rotation_z;
    destruct (Reqb_spec a 0) as [-> | N]; lt3 i Hi; lt3 j Hj; cbn;
    rewrite ?cos_0, ?sin_0; ring.
Qed.

Lemma seq3_sprod : forall a a' b b', seq3 a a' -> seq3 b b' ->
  seq3 (sprod a b) (sprod a' b').
Proof.
  intros a a' b b' A B i j Hi Hj. unfold sprod, sum3.
  rewrite !(A i), !(fun k H => B k j H Hj) by lia. reflexivity.
Qed.
Lemma seq3_trans : forall a b c, seq3 a b -> seq3 b c -> seq3 a c.
Proof. intros a b c A B i j Hi Hj. rewrite A, B by assumption. reflexivity. Qed.
Lemma seq3_sym : forall a b, seq3 a b -> seq3 b a.
Proof. intros a b A i j Hi Hj. symmetry. apply A; assumption. Qed.
Lemma seq3_transp : forall a b, seq3 a b -> seq3 (stransp a) (stransp b).
Proof. intros a b A i j Hi Hj. apply A; assumption. Qed.
Lemma seq3_sdet : forall a b, seq3 a b -> sdet a = sdet b.
Proof.
  intros a b A. unfold sdet, sum3.
  repeat match goal with |- context[a ?i ?j] =>
    rewrite (A i j) by (cbn; lia) end. reflexivity.
Qed.

Lemma run_means : forall e, seq3 (entry (get_matrix (rrun e))) (rmean e).
Proof.
  induction e; cbn [rrun rmean].
  - apply entry_id.
  - apply entry_rotation.
  - rewrite dot_matrix by apply wf_run.
    eapply seq3_trans; [apply entry_mul | apply seq3_sprod; assumption].
  - rewrite inv_matrix. eapply seq3_trans; [apply entry_tr | apply seq3_transp; assumption].
  - rewrite by_pi_matrix. eapply seq3_trans; [apply entry_mul |].
    apply seq3_sprod; [apply entry_pim |].
    eapply seq3_trans; [apply entry_mul |]. apply seq3_sprod; [assumption | apply entry_pim].
Qed.

Lemma mean_orthogonal : forall e, orthogonal (rmean e) /\ sdet (rmean e) = 1.
Proof.
  intros e. pose proof (run_means e) as M.
  destruct (wf_morth _ (wf_run e)) as (O1 & O2 & O3).
  split; [split |].
  - eapply seq3_trans.
    { apply seq3_sprod; [apply seq3_transp |]; apply seq3_sym, M. }
    eapply seq3_trans; [| apply entry_id]. rewrite <- O1.
    eapply seq3_trans; [| apply seq3_sym, entry_mul].
    apply seq3_sprod; [apply seq3_sym, entry_tr |]. intros i j _ _; reflexivity.
  - eapply seq3_trans.
    { apply seq3_sprod; [| apply seq3_transp]; apply seq3_sym, M. }
    eapply seq3_trans; [| apply entry_id]. rewrite <- O2.
    eapply seq3_trans; [| apply seq3_sym, entry_mul].
    apply seq3_sprod; [| apply seq3_sym, entry_tr]. intros i j _ _; reflexivity.
  - rewrite <- (seq3_sdet _ _ M). rewrite <- O3. unfold sdet, sum3, mdet. cbn. ring.
Qed.

Lemma run_applies : forall e p i, (i < 3)%nat ->
  coord (rotate (rrun e) p) i = sum3 (fun j => rmean e i j * coord p j).
Proof.
  intros e p i Hi. rewrite rotate_matrix. unfold sum3.
  rewrite <- !(run_means e i) by lia. lt3 i Hi; reflexivity.
Qed.

(* An orthogonal matrix with a unit diagonal is the identity. *)
Lemma morth_diag : forall m, morth m -> m00 m = 1 -> m11 m = 1 -> m22 m = 1 -> m = mid.
Proof.
  intros m (_ & H & _) A B C.
  pose proof (f_equal m00 H) as H0. pose proof (f_equal m11 H) as H1.
  pose proof (f_equal m22 H) as H2. cbn in H0, H1, H2. rewrite A, B, C in *.
  apply mat3_eq; cbn; try assumption; nra.
Qed.

Lemma is_identity_sound : forall r, wf r -> ris_identity r = true -> get_matrix r = mid.
Proof.
  intros [| c s | c s | c s | m] H E; cbn in E; try discriminate; [reflexivity |].
  apply andb_prop in E as [E E3]. apply andb_prop in E as [E1 E2].
  apply Reqb_eq in E1, E2, E3. apply (morth_diag m H E1 E2 E3).
Qed.

Lemma mapp_id : forall p, mapp mid p = p.
Proof. intros p. apply vec3_eq; cbn; ring. Qed.

Lemma is_identity_moves_nothing : forall r p, wf r -> ris_identity r = true -> rotate r p = p.
Proof.
  intros r p H E. rewrite rotate_matrix, (is_identity_sound r H E). apply mapp_id.
Qed.

Definition unit_of (k : axis) : vec3 :=
  match k with AX => mkv 1 0 0 | AY => mkv 0 1 0 | AZ => mkv 0 0 1 end.

Lemma is_rot_fixes : forall k r, wf r -> is_rot k r = true -> rotate r (unit_of k) = unit_of k.
Proof.
  intros k r H E. rewrite rotate_matrix.
  destruct k, r as [| c s | c s | c s | m]; cbn in E; try discriminate;
    try (apply vec3_eq; cbn; ring);
    destruct H as (H1 & H2 & _);
    apply andb_prop in E as [E E3]; apply andb_prop in E as [E1 E2];
    apply Reqb_eq in E1, E2, E3;
    [ pose proof (f_equal m00 H1) as P; cbn in P; rewrite E1 in P;
      assert (m10 m = 0) by nra; assert (m20 m = 0) by nra
    | pose proof (f_equal m11 H1) as P; cbn in P; rewrite E2 in P;
      assert (m01 m = 0) by nra; assert (m21 m = 0) by nra
    | pose proof (f_equal m22 H1) as P; cbn in P; rewrite E3 in P;
      assert (m02 m = 0) by nra; assert (m12 m = 0) by nra ];
    apply vec3_eq; cbn; rewrite ?E1, ?E2, ?E3; lra.
Qed.

(* Transformations. *)
Definition twf (t : tr3) := wf (rr t).

Lemma rotate_add : forall r a b, rotate r (vadd a b) = vadd (rotate r a) (rotate r b).
Proof. intros r a b. rewrite !rotate_matrix. apply vec3_eq; cbn; ring. Qed.
Lemma rotate_sub : forall r a b, rotate r (vsub a b) = vsub (rotate r a) (rotate r b).
Proof. intros r a b. rewrite !rotate_matrix. apply vec3_eq; cbn; ring. Qed.
Lemma rotate_opp : forall r a, rotate r (vopp a) = vopp (rotate r a).
Proof. intros r a. rewrite !rotate_matrix. apply vec3_eq; cbn; ring. Qed.
Lemma rotate_scale : forall r k a, rotate r (vscale k a) = vscale k (rotate r a).
Proof. intros r k a. rewrite !rotate_matrix. apply vec3_eq; cbn; ring. Qed.
Lemma rotate_dot : forall a b p, wf a -> wf b -> rotate (rdot a b) p = rotate a (rotate b p).
Proof. intros. rewrite !rotate_matrix, dot_matrix, mapp_mul by assumption. reflexivity. Qed.
Lemma rotate_inv_l : forall r p, wf r -> rotate (rinv r) (rotate r p) = p.
Proof.
  intros r p H. rewrite !rotate_matrix, inv_matrix, <- mapp_mul.
  destruct (wf_morth r H) as (-> & _). apply mapp_id.
Qed.
Lemma rotate_inv_r : forall r p, wf r -> rotate r (rotate (rinv r) p) = p.
Proof.
  intros r p H. rewrite !rotate_matrix, inv_matrix, <- mapp_mul.
  destruct (wf_morth r H) as (_ & -> & _). apply mapp_id.
Qed.

Lemma tr_mul_pt : forall s t p, twf s -> twf t ->
  tr_pt (tr_mul s t) p = tr_pt s (tr_pt t p).
Proof.
  intros [xs rs] [xt rt] p Hs Ht. unfold twf in *. cbn in Hs, Ht.
  unfold tr_pt, tr_mul, tr_mul_by. cbn [x0 rr].
  rewrite rotate_dot by assumption. f_equal.
  replace (vsub p (vadd xt (rotate (rinv rt) xs)))
    with (vsub (vsub p xt) (rotate (rinv rt) xs)) by (apply vec3_eq; cbn; ring).
  rewrite rotate_sub, rotate_inv_r by assumption. reflexivity.
Qed.
Lemma tr_mul_vec : forall s t p, twf s -> twf t ->
  tr_vec (tr_mul s t) p = tr_vec s (tr_vec t p).
Proof.
  intros [xs rs] [xt rt] p Hs Ht. unfold tr_vec, tr_mul, tr_mul_by. cbn [rr].
  apply rotate_dot; assumption.
Qed.
Lemma tr_inv_l : forall t p, twf t -> tr_pt (tr_inv t) (tr_pt t p) = p.
Proof.
  intros [x r] p H. unfold tr_pt, tr_inv. cbn [x0 rr].
  replace (vsub (rotate r (vsub p x)) (vopp (rotate r x))) with (rotate r p)
    by (rewrite rotate_sub; apply vec3_eq; cbn; ring).
  apply rotate_inv_l, H.
Qed.
Lemma tr_inv_r : forall t p, twf t -> tr_pt t (tr_pt (tr_inv t) p) = p.
Proof.
  intros [x r] p H. unfold tr_pt, tr_inv. cbn [x0 rr].
  replace (vsub p (vopp (rotate r x))) with (vadd p (rotate r x)) by (apply vec3_eq; cbn; ring).
  rewrite rotate_add, rotate_inv_l by apply H.
  replace (vsub (vadd (rotate (rinv r) p) x) x) with (rotate (rinv r) p)
    by (apply vec3_eq; cbn; ring).
  apply rotate_inv_r, H.
Qed.

Definition vpi (k : axis) (p : vec3) : vec3 := mapp (pim k) p.

Lemma tr_by_pi_pt : forall k t p, tr_pt (tr_by_pi k t) p = vpi k (tr_pt t (vpi k p)).
Proof.
  intros k [x r] p. unfold tr_pt, tr_by_pi.
  destruct k; cbn [x0 rr tr_x_pi tr_y_pi tr_z_pi]; rewrite !rotate_matrix;
    [ change (rot_x_pi r) with (by_pi AX r) | change (rot_y_pi r) with (by_pi AY r)
    | change (rot_z_pi r) with (by_pi AZ r) ]; rewrite by_pi_matrix, !mapp_mul;
    unfold vpi; f_equal; f_equal; apply vec3_eq; cbn; ring.
Qed.

Lemma twf_run : forall e, twf (trun e).
Proof.
  unfold twf. induction e; cbn [trun].
  - exact I.
  - apply wf_run.
  - exact I.
  - destruct k; [exact (wf_rotation AX a) | exact (wf_rotation AY a) | exact (wf_rotation AZ a)].
  - unfold tr_mul, tr_mul_by. cbn. apply wf_dot; assumption.
  - cbn. apply wf_inv; assumption.
  - destruct k; cbn; [apply (wf_by_pi AX) | apply (wf_by_pi AY) | apply (wf_by_pi AZ)]; assumption.
Qed.

Lemma rotate_vdot : forall r a b, wf r -> vdot (rotate r a) (rotate r b) = vdot a b.
Proof.
  intros r a b H. rewrite !rotate_matrix. destruct (wf_morth r H) as (M & _).
  set (m := get_matrix r) in *.
  transitivity (vdot a (mapp (mmul (mtr m) m) b)).
  - unfold vdot; cbn; ring.
  - rewrite M, mapp_id. reflexivity.
Qed.

Lemma tr_dist : forall t p q, twf t -> dist2 (tr_pt t p) (tr_pt t q) = dist2 p q.
Proof.
  intros t p q H.
  transitivity (vdot (vsub (tr_pt t p) (tr_pt t q)) (vsub (tr_pt t p) (tr_pt t q))).
  { unfold dist2, vdot; cbn; ring. }
  unfold tr_pt. rewrite <- rotate_sub, rotate_vdot by apply H.
  unfold dist2, vdot; cbn; ring.
Qed.

Lemma rotate_cross : forall r a b, wf r ->
  vcross (rotate r a) (rotate r b) = rotate r (vcross a b).
Proof.
  intros r a b H. rewrite !rotate_matrix. destruct (wf_morth r H) as (M1 & M & D).
  set (m := get_matrix r) in *.
  (* cofactor matrix of m equals m *)
  assert (C : forall u, mapp (mkm
      (m11 m * m22 m - m12 m * m21 m) (m12 m * m20 m - m10 m * m22 m) (m10 m * m21 m - m11 m * m20 m)
      (m02 m * m21 m - m01 m * m22 m) (m00 m * m22 m - m02 m * m20 m) (m01 m * m20 m - m00 m * m21 m)
      (m01 m * m12 m - m02 m * m11 m) (m02 m * m10 m - m00 m * m12 m) (m00 m * m11 m - m01 m * m10 m)) u
      = mapp m u).
  { intros u. set (cf := mkm _ _ _ _ _ _ _ _ _).
    assert (E : mmul cf (mtr m) = mkm (mdet m) 0 0 0 (mdet m) 0 0 0 (mdet m)).
    { unfold cf, mdet. meq. }
    assert (cf = m) as ->.
    { rewrite <- (mmul_id_r cf), <- M1, mmul_assoc, E, D. fold mid. apply mmul_id_l. }
    reflexivity. }
  rewrite <- (C (vcross a b)). apply vec3_eq; cbn; ring.
Qed.

Lemma identity_test_close : forall t p, twf t -> tr_is_identity t = true ->
  (forall v, tr_vec t v = v) /\
  Rabs (vx (tr_pt t p) - vx p) <= eps /\
  Rabs (vy (tr_pt t p) - vy p) <= eps /\
  Rabs (vz (tr_pt t p) - vz p) <= eps.
Proof.
  intros [x r] p H E. unfold tr_is_identity, vzero in E. cbn [x0 rr] in E.
  apply andb_prop in E as [E1 Er]. apply andb_prop in E1 as [E1 E3].
  apply andb_prop in E1 as [E1 E2].
  split. { intros v. apply is_identity_moves_nothing; assumption. }
  unfold tr_pt. cbn [x0 rr]. rewrite is_identity_moves_nothing by assumption. cbn.
  destruct (fequal_spec (vx x) 0), (fequal_spec (vy x) 0), (fequal_spec (vz x) 0);
    try discriminate.
  rewrite Rminus_0_r in *.
  repeat split; [replace (vx p - vx x - vx p) with (- vx x) by ring
    | replace (vy p - vy x - vy p) with (- vy x) by ring
    | replace (vz p - vz x - vz p) with (- vz x) by ring]; rewrite Rabs_Ropp; assumption.
Qed.

(* atan2 of a point of the unit circle *)
Lemma unit_div : forall c s, c * c + s * s = 1 -> c <> 0 -> 1 + (s / c)² = / c * / c.
Proof. intros c s H N. unfold Rsqr. rewrite <- Rinv_mult. field_simplify_eq; [nra | exact N]. Qed.

Lemma atan2_unit : forall c s, c * c + s * s = 1 ->
  cos (atan2 s c) = c /\ sin (atan2 s c) = s.
Proof.
  intros c s H. unfold atan2.
  destruct (Rltb_spec 0 c) as [P | P].
  - rewrite cos_atan, sin_atan, unit_div by (assumption || lra).
    assert (Hs : sqrt (/ c * / c) = / c)
      by (apply sqrt_square; left; apply Rinv_0_lt_compat; assumption).
    rewrite Hs. split; field; lra.
  - destruct (Rltb_spec c 0) as [Q | Q].
    + assert (Hs : sqrt (1 + (s / c)²) = / - c).
      { rewrite unit_div by (assumption || lra).
        replace (/ c * / c) with (/ - c * / - c) by (field; lra).
        apply sqrt_square. left. apply Rinv_0_lt_compat. lra. }
      assert (A : cos (atan (s / c) + PI) = c /\ sin (atan (s / c) + PI) = s).
      { rewrite neg_cos, neg_sin, cos_atan, sin_atan, Hs. split; field; lra. }
      destruct (Rleb 0 s); [exact A |].
      replace (atan (s / c) - PI) with (atan (s / c) + PI - 2 * PI) by ring.
      destruct A as [A1 A2].
      rewrite <- (cos_period (atan (s / c) + PI - 2 * PI) 1), <- (sin_period (atan (s / c) + PI - 2 * PI) 1).
      replace (atan (s / c) + PI - 2 * PI + 2 * INR 1 * PI) with (atan (s / c) + PI)
        by (cbn [INR]; ring).
      split; assumption.
    + assert (c = 0) as -> by lra.
      assert (K : s = 1 \/ s = -1).
      { assert (F : (s - 1) * (s + 1) = 0) by nra. apply Rmult_integral in F. lra. }
      destruct (Rltb_spec 0 s), (Rltb_spec s 0); destruct K; try lra; subst.
      * rewrite cos_PI2, sin_PI2. lra.
      * rewrite cos_neg, sin_neg, cos_PI2, sin_PI2. lra.
Qed.

(* 2-D *)
Lemma vec2_eq : forall a b : vec2, px a = px b -> py a = py b -> a = b.
Proof. intros [] []; cbn; intros; subst; reflexivity. Qed.

Lemma rotate_rotation_z : forall a p,
  rotate (rotation_z a) p =
  mkv (vx p * cos a + vy p * sin a) (vy p * cos a - vx p * sin a) (vz p).
Proof.
  intros a p. unfold rotation_z. destruct (Reqb_spec a 0) as [-> | N]; [| reflexivity].
  rewrite cos_0, sin_0. apply vec3_eq; cbn; ring.
Qed.

Lemma lift_action : forall t p, cosa (r2 t) * cosa (r2 t) + sina (r2 t) * sina (r2 t) = 1 ->
  tr_pt (tr3_of_tr2 t) p =
  mkv ((vx p - px (o2 t)) * cosa (r2 t) + (vy p - py (o2 t)) * sina (r2 t))
      ((vy p - py (o2 t)) * cosa (r2 t) - (vx p - px (o2 t)) * sina (r2 t)) (vz p).
Proof.
  intros t p H. unfold tr_pt, tr3_of_tr2. cbn [x0 rr]. rewrite rotate_rotation_z.
  unfold r2_angle. destruct (atan2_unit _ _ H) as [-> ->]. apply vec3_eq; cbn; ring.
Qed.

(* Particles *)
Lemma ps_apply_ray : forall I t (p : ps I), twf t ->
  vz (tr_vec t (mkv (psxp p) (psyp p) 1)) <> 0 ->
  let q := ps_apply t p in
  (exists u, tr_pt t (ray p u) = mkv (psx q) (psy q) 0) /\
  (exists k, tr_vec t (mkv (psxp p) (psyp p) 1) = vscale k (mkv (psxp q) (psyp q) 1)) /\
  psct q = psct p /\ psdp q = psdp p /\ psinfo q = psinfo p.
Proof.
  intros I t p H N q. subst q. unfold ps_apply.
  destruct (ris_identity (rr t)) eqn:E; cbn [psx psxp psy psyp psct psdp psinfo].
  - split; [| split; [| auto]].
    + exists (vz (x0 t)). unfold tr_pt. rewrite is_identity_moves_nothing by assumption.
      apply vec3_eq; cbn; ring.
    + exists 1. unfold tr_vec. rewrite is_identity_moves_nothing by assumption.
      apply vec3_eq; cbn; ring.
  - set (V := tr_vec t (mkv (psxp p) (psyp p) 1)) in *.
    set (X := tr_pt t (mkv (psx p) (psy p) 0)).
    split; [| split; [| auto]].
    + exists (- (vz X / vz V)).
      replace (tr_pt t (ray p (- (vz X / vz V)))) with (vadd X (vscale (- (vz X / vz V)) V)).
      * apply vec3_eq; cbn; field; assumption.
      * subst X V. unfold tr_pt, tr_vec, ray. rewrite <- rotate_scale, <- rotate_add.
        f_equal. apply vec3_eq; cbn; ring.
    + exists (vz V). apply vec3_eq; cbn; field; assumption.
Qed.

(* The ray condition determines the transverse coordinates. *)
Lemma ray_unique : forall I t (p : ps I) (x y xp yp x' y' xp' yp' : R), twf t ->
  vz (tr_vec t (mkv (psxp p) (psyp p) 1)) <> 0 ->
  (exists u, tr_pt t (ray p u) = mkv x y 0) ->
  (exists k, tr_vec t (mkv (psxp p) (psyp p) 1) = vscale k (mkv xp yp 1)) ->
  (exists u, tr_pt t (ray p u) = mkv x' y' 0) ->
  (exists k, tr_vec t (mkv (psxp p) (psyp p) 1) = vscale k (mkv xp' yp' 1)) ->
  x = x' /\ y = y' /\ xp = xp' /\ yp = yp'.
Proof.
  intros I t p x y xp yp x' y' xp' yp' H N [u U] [k K] [u' U'] [k' K'].
  set (V := tr_vec t (mkv (psxp p) (psyp p) 1)) in *.
  assert (R1 : forall w, tr_pt t (ray p w) =
     vadd (tr_pt t (mkv (psx p) (psy p) 0)) (vscale w V)).
  { intros w. subst V. unfold tr_pt, tr_vec, ray. rewrite <- rotate_scale, <- rotate_add.
    f_equal. apply vec3_eq; cbn; ring. }
  rewrite R1 in U, U'. set (X := tr_pt t (mkv (psx p) (psy p) 0)) in *.
  pose proof (f_equal vz U) as Uz. pose proof (f_equal vz U') as Uz'.
  pose proof (f_equal vx U) as Ux. pose proof (f_equal vx U') as Ux'.
  pose proof (f_equal vy U) as Uy. pose proof (f_equal vy U') as Uy'.
  pose proof (f_equal vz K) as Kz. pose proof (f_equal vz K') as Kz'.
  pose proof (f_equal vx K) as Kx. pose proof (f_equal vx K') as Kx'.
  pose proof (f_equal vy K) as Ky. pose proof (f_equal vy K') as Ky'.
  cbn in *. assert (u = u') as <- by nra.
  assert (k = vz V) as -> by lra. assert (k' = vz V) as -> by lra.
  repeat split; try lra; apply (Rmult_eq_reg_l (vz V)); lra.
Qed.
