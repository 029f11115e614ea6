(* Transformations between two places of a laid-out tree. *)
From Verif Require Import RBase Rot RotSpec RotProofs Frames FramesSpec FramesProofs.
From Coq Require Import Lia.
Local Open Scope R_scope.

Lemma sum_len_app : forall a b, sum_len (a ++ b) = sum_len a + sum_len b.
Proof. unfold sum_len. induction a as [| x a IH]; intros b; cbn; [ring | rewrite IH; ring]. Qed.

Lemma plain_thick : forall g, plain g -> thick (geom_length g).
Proof. intros [] H; cbn in *; try exact H; try apply H; left; reflexivity. Qed.

Lemma plain_len : forall g, plain g -> 0 <= geom_length g.
Proof. intros g H. destruct (plain_thick g H); pose proof eps_pos; lra. Qed.

Lemma sum_len_nonneg : forall l, Forall plain l -> 0 <= sum_len l.
Proof.
  induction 1; cbn; [lra |]. apply plain_len in H. unfold sum_len in IHForall. lra.
Qed.

Lemma leaf_walk_0 : forall g p, leaf_walk g 0 p = p.
Proof.
  intros [] p; cbn; try reflexivity.
  - apply vec3_eq; cbn; ring.
  - rewrite Rmult_0_l, cos_0, sin_0. apply vec3_eq; cbn; unfold Rdiv; ring.
Qed.

Lemma walk_0 : forall l p, Forall plain l -> walk l 0 p = p.
Proof.
  destruct l as [| g l]; intros p H; [reflexivity |]. inversion H; subst.
  cbn [walk]. rewrite Rleb_true by (apply plain_len; assumption). apply leaf_walk_0.
Qed.

Lemma walk_app : forall a b u p, Forall plain a -> Forall plain b -> 0 <= u ->
  walk (a ++ b) u p =
  if Rleb u (sum_len a) then walk a u p
  else walk b (u - sum_len a) (walk a (sum_len a) p).
Proof.
  induction a as [| g a IH]; intros b u p Ha Hb Hu.
  - cbn. destruct (Rleb_spec u 0).
    + replace u with 0 by lra. apply walk_0, Hb.
    + rewrite Rminus_0_r. reflexivity.
  - inversion Ha; subst. cbn [app walk sum_len fold_right]. fold (sum_len a).
    pose proof (plain_len _ H1). pose proof (sum_len_nonneg _ H2).
    destruct (Rleb_spec u (geom_length g)) as [L | L].
    + rewrite (Rleb_true u (geom_length g + sum_len a)) by lra. reflexivity.
    + rewrite IH by (assumption || lra).
      destruct (Rleb_spec (u - geom_length g) (sum_len a)).
      * rewrite Rleb_true by lra. reflexivity.
      * rewrite Rleb_false by lra.
        destruct (Rleb_spec (geom_length g + sum_len a) (geom_length g)).
        -- assert (Z : sum_len a = 0) by lra. rewrite Z in *.
           rewrite !Rplus_0_r, Rminus_0_r, (walk_0 a) by assumption. reflexivity.
        -- f_equal; [ring | f_equal; ring].
Qed.

(* With the first part passed over. *)
Lemma walk_past : forall a b u p, Forall plain a -> Forall plain b -> 0 <= u ->
  walk (a ++ b) (sum_len a + u) p = walk b u (walk a (sum_len a) p).
Proof.
  intros a b u p Ha Hb Hu. pose proof (sum_len_nonneg _ Ha).
  rewrite walk_app by (assumption || lra).
  destruct (Rleb_spec (sum_len a + u) (sum_len a)).
  - replace u with 0 by lra. rewrite Rplus_0_r, walk_0 by assumption. reflexivity.
  - f_equal. ring.
Qed.

Lemma walk_within : forall a b u p, Forall plain a -> Forall plain b -> 0 <= u <= sum_len a ->
  walk (a ++ b) u p = walk a u p.
Proof.
  intros a b u p Ha Hb Hu. rewrite walk_app by (assumption || lra).
  rewrite Rleb_true by lra. reflexivity.
Qed.

(* Leaves *)
Lemma make_transform_pt : forall phi h p, tr_pt (make_transform phi h) p =
  let x := vx p - (cos phi - 1) / h in
  let z := vz p - sin phi / h in
  mkv (x * cos phi + z * sin phi) (vy p) (z * cos phi - x * sin phi).
Proof.
  intros phi h p. unfold tr_pt, make_transform, rotation_y. cbn [x0 rr].
  destruct (Reqb_spec (- phi) 0) as [E | E].
  - assert (phi = 0) as -> by lra. rewrite cos_0, sin_0. apply vec3_eq; cbn; ring.
  - rewrite cos_neg, sin_neg. apply vec3_eq; cbn; ring.
Qed.

Lemma arc_add : forall a b h p, h <> 0 ->
  tr_pt (make_transform ((b - a) * h) h) (leaf_walk (GArc 0 h) a p) = leaf_walk (GArc 0 h) b p.
Proof.
  intros a b h p N. rewrite make_transform_pt. cbn.
  replace ((b - a) * h) with (b * h - a * h) by ring.
  rewrite cos_minus, sin_minus.
  pose proof (cs1 (a * h)) as C.
  set (ca := cos (a * h)) in *. set (sa := sin (a * h)) in *.
  set (cb := cos (b * h)). set (sb := sin (b * h)).
  assert (E : sa * sa = 1 - ca * ca) by lra.
  apply vec3_eq; cbn; [ | ring | ]; field_simplify_eq; try assumption.
  - ring_simplify. replace (sa ^ 3) with (sa * (1 - ca * ca)) by (rewrite <- E; ring).
    replace (sa ^ 2) with (1 - ca * ca) by (rewrite <- E; ring). ring.
  - ring_simplify. replace (sa ^ 3) with (sa * (1 - ca * ca)) by (rewrite <- E; ring).
    replace (sa ^ 2) with (1 - ca * ca) by (rewrite <- E; ring). ring.
Qed.

Lemma leaf_tr_ok : forall g a b, plain g -> 0 <= a <= geom_length g -> 0 <= b <= geom_length g ->
  exists t, leaf_tr g (fst (geom_extent g) + a) (fst (geom_extent g) + b) = Ok t /\ twf t /\
    forall p, tr_pt t (leaf_walk g a p) = leaf_walk g b p.
Proof.
  intros g a b H Ha Hb. destruct g as [l | l h | o |]; cbn in H, Ha, Hb.
  - cbn [leaf_tr geom_extent fst]. unfold in_bounds.
    rewrite !Rltb_false by (apply Rabs_le; lra). cbn [orb negb].
    eexists. split; [reflexivity |]. split; [exact I |].
    intros p. apply vec3_eq; cbn; ring.
  - cbn [leaf_tr geom_extent fst]. unfold in_bounds.
    rewrite !Rltb_false by (apply Rabs_le; lra). cbn [orb negb].
    eexists. split; [reflexivity |]. split; [exact (wf_rotation AY _) |].
    intros p. replace (- (l / 2) + b - (- (l / 2) + a)) with (b - a) by ring.
    apply (arc_add a b h p). apply H.
  - contradiction.
  - cbn [leaf_tr geom_extent fst]. rewrite Reqb_true by lra.
    eexists. split; [reflexivity |]. split; [exact I |].
    intros p. apply vec3_eq; cbn; ring.
Qed.

Lemma leaf_total_ok : forall g, plain g ->
  twf (leaf_total g) /\ forall p, tr_pt (leaf_total g) p = leaf_walk g (geom_length g) p.
Proof.
  intros [l | l h | o |] H; cbn in H; cbn [leaf_total geom_length].
  - split; [exact I |]. intros p. apply vec3_eq; cbn; ring.
  - split; [exact (wf_rotation AY _) |]. intros p. rewrite make_transform_pt. reflexivity.
  - contradiction.
  - split; [exact I |]. intros p. apply vec3_eq; cbn; ring.
Qed.

(* Trees *)
Definition plain_tree (f : frame) : Prop := Forall plain (leaves f).

(* rotations in the cache are proper *)
Fixpoint proper_cache (f : frame) : Prop :=
  match f with
  | Leaf _ _ _ _ => True
  | Seq _ _ _ _ _ c subs =>
      match c with None => True | Some (tin, tout) => twf tin /\ twf tout end /\
      (fix all (l : list frame) : Prop :=
         match l with [] => True | x :: l' => proper_cache x /\ all l' end) subs
  end.

Lemma all_Forall : forall (P : frame -> Prop) subs,
  (fix all (l : list frame) : Prop := match l with [] => True | x :: l' => P x /\ all l' end) subs
  <-> Forall P subs.
Proof.
  intros P. induction subs as [| x subs IH]; split; intros H.
  - constructor.
  - exact I.
  - destruct H as [H1 H2]. constructor; [exact H1 | apply IH, H2].
  - inversion H; subst. split; [assumption | apply IH; assumption].
Qed.

Lemma flat_map_plain : forall subs, Forall plain (flat_map leaves subs) ->
  Forall (fun x => plain_tree x) subs.
Proof.
  induction subs as [| x subs IH]; intros H; constructor; cbn in H;
    apply Forall_app in H as [H1 H2]; [exact H1 | apply IH, H2].
Qed.

Lemma flength_leaves : forall f, sized f -> flength f = sum_len (leaves f).
Proof.
  intros f H. rewrite sized_length by exact H. clear H.
  induction f as [i s t g | i s t om l c subs IH] using frame_ind2.
  - unfold total_length. cbn. ring.
  - induction subs as [| x subs IHs]; [reflexivity |].
    inversion IH; subst. rewrite total_length_seq. cbn [leaves flat_map].
    rewrite sum_len_app, H1, IHs by assumption. reflexivity.
Qed.

Definition fold_total (l : list frame) (t : tr3) : tr3 := finish l t.

Lemma total_seq_none : forall i s t om l subs,
  total (Seq i s t om l None subs) = finish subs tr_id.
Proof.
  intros. cbn [total]. unfold finish. generalize tr_id. 
  induction subs as [| x subs IH]; intros u; [reflexivity |]. apply IH.
Qed.

Lemma finish_ok : forall l t, Forall (fun x => plain_tree x) l -> twf t ->
  Forall (fun x => twf (total x) /\
     forall p, tr_pt (total x) p = walk (leaves x) (sum_len (leaves x)) p) l ->
  twf (finish l t) /\
  forall p, tr_pt (finish l t) p =
     walk (flat_map leaves l) (sum_len (flat_map leaves l)) (tr_pt t p).
Proof.
  induction l as [| x l IH]; intros t HP Ht H.
  - cbn. split; [exact Ht | reflexivity].
  - inversion HP; subst. inversion H; subst. destruct H4 as [W T].
    unfold finish. cbn [fold_left]. fold (finish l (tr_mul (total x) t)).
    assert (Wt : twf (tr_mul (total x) t)) by (unfold twf, tr_mul, tr_mul_by in *; cbn; apply wf_dot; assumption).
    destruct (IH (tr_mul (total x) t) H3 Wt H5) as [W2 A2]. split; [exact W2 |].
    intros p. rewrite A2, tr_mul_pt, T by assumption.
    cbn [flat_map]. rewrite sum_len_app.
    assert (PL : Forall plain (flat_map leaves l)).
    { clear - H3. induction H3; cbn; [constructor |]. apply Forall_app. split; assumption. }
    rewrite walk_past; [reflexivity | exact H2 | exact PL |].
    apply sum_len_nonneg, PL.
Qed.

Lemma total_ok : forall f, sized f -> plain_tree f -> proper_cache f -> good_totals f ->
  twf (total f) /\ forall p, tr_pt (total f) p = walk (leaves f) (sum_len (leaves f)) p.
Proof.
  induction f as [i s t g | i s t om l c subs IH] using frame_ind2; intros HS HP HC HG.
  - inversion HP; subst. destruct (leaf_total_ok g H1) as [W A].
    split; [exact W |]. intros p. cbn [leaves sum_len fold_right walk total].
    rewrite A, Rplus_0_r, Rleb_true by lra. reflexivity.
  - apply sized_seq in HS as [EL FS].
    cbn [proper_cache good_totals] in HC, HG. rewrite all_Forall in HC, HG.
    destruct HC as [HC1 HC2], HG as [HG1 HG2].
    destruct c as [[tin tout] |].
    + split.
      * cbn [total]. unfold twf, tr_mul, tr_mul_by, tr_inv. cbn.
        apply wf_dot; [apply HC1 | apply wf_inv, HC1].
      * exact HG1.
    + rewrite total_seq_none. cbn [leaves].
      destruct (finish_ok subs tr_id) as [W A].
      * apply flat_map_plain, HP.
      * exact I.
      * apply flat_map_plain in HP. clear EL HG1 HC1.
        induction subs as [| x subs IHs]; [constructor |].
        inversion IH; subst; inversion FS; subst; inversion HC2; subst;
          inversion HG2; subst; inversion HP; subst.
        constructor; [apply H1; assumption | apply IHs; assumption].
      * split; [exact W |]. intros p. rewrite A. f_equal. apply vec3_eq; cbn; ring.
Qed.

(* the two loops of GetGeometryTransform *)
Fixpoint gtr_rest (inv : bool) (l : list frame) (b : R) (t : tr3) : res gerr tr3 :=
  match l with
  | [] => Throw AssertFailed
  | y :: l' =>
      let n := flength y in
      if fequal b n || Rltb b n then
        do t' <- gtr y (fst (fextent y)) (fst (fextent y) + b);
        let r := tr_mul t' t in
        Ok (if inv then tr_inv r else r)
      else gtr_rest inv l' (b - n) (tr_mul (total y) t)
  end.
Fixpoint gtr_first (inv : bool) (l : list frame) (a b : R) : res gerr tr3 :=
  match l with
  | [] => Throw AssertFailed
  | x :: l' =>
      let n := flength x in
      if fequal a n || Rltb a n then
        if fequal b n || Rltb b n
        then gtr x (fst (fextent x) + a) (fst (fextent x) + b)
        else
          do t <- gtr x (fst (fextent x) + a) (snd (fextent x));
          gtr_rest inv l' (b - n) t
      else gtr_first inv l' (a - n) (b - n)
  end.

Lemma gtr_seq : forall i sp t om len c subs s0 s,
  gtr (Seq i sp t om len c subs) s0 s =
  if fequal s s0 then Ok tr_id else
  let u := seq_shift om len s in
  let u0 := seq_shift om len s0 in
  if Rltb u 0 || Rltb len u || Rltb u0 0 || Rltb len u0 then Throw BeyondExtent else
  if fequal u0 0 && fequal u len then Ok (total (Seq i sp t om len c subs)) else
  let inv := Rltb u u0 in
  gtr_first inv subs (if inv then u else u0) (if inv then u0 else u).
Proof.
  intros. cbn [gtr]. cbv zeta.
  destruct (fequal s s0); [reflexivity |].
  destruct (_ || _); [reflexivity |]. destruct (_ && _); [reflexivity |].
  set (inv := Rltb _ _). generalize (if inv then seq_shift om len s else seq_shift om len s0).
  generalize (if inv then seq_shift om len s0 else seq_shift om len s). clear.
  induction subs as [| x subs IH]; intros b a; [reflexivity |].
  cbn [gtr_first]. cbv zeta. destruct (_ || _); [| apply IH].
  destruct (_ || _); [reflexivity |]. destruct (gtr x _ _); [| reflexivity ..]. cbn [bind].
  generalize (b - flength x) a0. clear.
  induction subs as [| y subs IH]; intros b t; [reflexivity |].
  cbn [gtr_rest]. cbv zeta. destruct (_ || _); [reflexivity | apply IH].
Qed.

Lemma clear_eq : forall l u k, clear l u -> fequal u (sum_len (firstn k l)) = true ->
  u = sum_len (firstn k l).
Proof.
  intros l u k H E. destruct (H k) as [-> | N]; [reflexivity |].
  destruct (fequal_spec u (sum_len (firstn k l))); [lra | discriminate].
Qed.

Lemma clear_end : forall a b u, clear (a ++ b) u -> fequal u (sum_len a) = true -> u = sum_len a.
Proof.
  intros a b u H E. pose proof (clear_eq (a ++ b) u (length a) H) as K.
  rewrite firstn_app, Nat.sub_diag, firstn_all, app_nil_r in K. apply K, E.
Qed.

Lemma clear_tail : forall a b u, clear (a ++ b) u -> clear b (u - sum_len a).
Proof.
  intros a b u H k. specialize (H (length a + k)%nat).
  rewrite firstn_app in H.
  replace (length a + k - length a)%nat with k in H by lia.
  rewrite (firstn_all2 a) in H by lia. rewrite sum_len_app in H.
  replace (u - sum_len a - sum_len (firstn k b)) with (u - (sum_len a + sum_len (firstn k b))) by ring.
  destruct H as [H | H]; [left; lra | right; exact H].
Qed.

Lemma clear_front : forall a b u, clear (a ++ b) u -> clear a u.
Proof.
  intros a b u H k. destruct (Nat.le_ge_cases k (length a)) as [L | L].
  - specialize (H k). rewrite firstn_app in H. replace (k - length a)%nat with O in H by lia.
    rewrite firstn_O, app_nil_r in H. exact H.
  - specialize (H (length a)). rewrite firstn_app, Nat.sub_diag, firstn_O, app_nil_r in H.
    rewrite (firstn_all2 a (n := k)) by lia. rewrite firstn_all in H. exact H.
Qed.

Lemma clear_0 : forall l u, clear l u -> u = 0 \/ eps < Rabs u.
Proof. intros l u H. destruct (H O) as [E | E]; cbn in E; [left; lra | right; rewrite Rminus_0_r in E; exact E]. Qed.

Definition tree_ok (f : frame) : Prop :=
  sized f /\ plain_tree f /\ proper_cache f /\ good_totals f.

Lemma tree_ok_subs : forall i s t om l c subs, tree_ok (Seq i s t om l c subs) ->
  l = sum_len (flat_map leaves subs) /\ Forall tree_ok subs /\ Forall plain (flat_map leaves subs).
Proof.
  intros i s t om l c subs (HS & HP & HC & HG).
  pose proof (flength_leaves _ HS) as E. cbn [flength leaves] in E.
  apply sized_seq in HS as [EL FS].
  cbn [proper_cache good_totals] in HC, HG. rewrite all_Forall in HC, HG.
  destruct HC as [_ HC], HG as [_ HG]. split; [exact E |]. split; [| exact HP].
  apply flat_map_plain in HP. clear E EL.
  induction subs as [| x subs IH]; constructor;
    inversion FS; subst; inversion HC; subst; inversion HG; subst; inversion HP; subst.
  - repeat split; assumption.
  - apply IH; assumption.
Qed.

Definition gtr_ok (f : frame) : Prop :=
  forall a b, 0 <= a -> a <= b -> b <= sum_len (leaves f) ->
  clear (leaves f) a -> clear (leaves f) b -> (a = b \/ eps < b - a) ->
  exists t, gtr f (fst (fextent f) + a) (fst (fextent f) + b) = Ok t /\ twf t /\
    forall p, tr_pt t (walk (leaves f) a p) = walk (leaves f) b p.

Lemma tol_le : forall l r u, clear (l ++ r) u ->
  (fequal u (sum_len l) || Rltb u (sum_len l)) = Rleb u (sum_len l).
Proof.
  intros l r u C. destruct (fequal u (sum_len l)) eqn:E.
  - rewrite (clear_end l r u C E), Rleb_true by lra. reflexivity.
  - cbn [orb]. destruct (Rltb_spec u (sum_len l)), (Rleb_spec u (sum_len l)); try reflexivity; try lra.
    exfalso. assert (u = sum_len l) as -> by lra. rewrite fequal_refl in E. discriminate.
Qed.

Lemma plain_fm : forall l, Forall tree_ok l -> Forall plain (flat_map leaves l).
Proof.
  induction 1 as [| x l H _ IH]; cbn; [constructor |]. apply Forall_app.
  split; [apply H | exact IH].
Qed.

Lemma tr_inv_twf : forall t, twf t -> twf (tr_inv t).
Proof. intros t H. unfold twf, tr_inv in *. cbn. apply wf_inv, H. Qed.
Lemma tr_mul_twf : forall s t, twf s -> twf t -> twf (tr_mul s t).
Proof. intros s t H1 H2. unfold twf, tr_mul, tr_mul_by in *. cbn. apply wf_dot; assumption. Qed.


Lemma step_thick : forall l, Forall plain l -> forall k, sum_len (firstn k l) = 0 \/
  eps < sum_len (firstn k l).
Proof.
  induction 1 as [| g l Hg Hl IH]; intros [| k]; cbn; try (left; reflexivity).
  fold (sum_len (firstn k l)). destruct (IH k), (plain_thick g Hg); pose proof eps_pos;
    [left | right | right | right]; lra.
Qed.

Lemma bound_clear : forall l, Forall plain l -> forall j, clear l (sum_len (firstn j l)).
Proof.
  induction 1 as [| g l Hg Hl IH]; intros j k.
  - left. rewrite !firstn_nil. reflexivity.
  - destruct j as [| j], k as [| k].
    + left. reflexivity.
    + pose proof (step_thick (g :: l) (Forall_cons _ Hg Hl) (S k)) as S.
      cbn [firstn] in *. destruct S as [S | S]; [left; cbn; cbn in S; lra | right].
      change (sum_len []) with 0. rewrite Rabs_minus_sym, Rminus_0_r.
      rewrite Rabs_pos_eq; pose proof eps_pos; lra.
    + pose proof (step_thick (g :: l) (Forall_cons _ Hg Hl) (S j)) as S.
      cbn [firstn] in *. destruct S as [S | S]; [left; cbn; cbn in S; lra | right].
      change (sum_len []) with 0. rewrite Rminus_0_r.
      rewrite Rabs_pos_eq; pose proof eps_pos; lra.
    + cbn [firstn sum_len fold_right]. fold (sum_len (firstn j l)) (sum_len (firstn k l)).
      destruct (IH j k) as [E | E]; [left; lra | right].
      replace (geom_length g + sum_len (firstn j l) - (geom_length g + sum_len (firstn k l)))
        with (sum_len (firstn j l) - sum_len (firstn k l)) by ring. exact E.
Qed.

Lemma zero_clear : forall l, Forall plain l -> clear l 0.
Proof. intros l H. apply (bound_clear l H 0). Qed.
Lemma full_clear : forall l, Forall plain l -> clear l (sum_len l).
Proof. intros l H. pose proof (bound_clear l H (length l)) as K. rewrite firstn_all in K. exact K. Qed.

(* the result of the second loop, run from what lies before *)
Lemma rest_ok : forall inv l b t (from mid : vec3 -> vec3),
  Forall tree_ok l -> Forall gtr_ok l -> twf t ->
  (forall p, tr_pt t (from p) = mid p) ->
  0 < b -> b <= sum_len (flat_map leaves l) -> clear (flat_map leaves l) b ->
  exists r, gtr_rest inv l b t = Ok (if inv then tr_inv r else r) /\ twf r /\
    forall p, tr_pt r (from p) = walk (flat_map leaves l) b (mid p).
Proof.
  intros inv. induction l as [| y l IH]; intros b t from mid HT HG Ht Hm Hb Hle HC.
  - cbn in Hle. lra.
  - inversion HT; subst. inversion HG; subst. cbn [flat_map] in *.
    pose proof (plain_fm _ H2) as PL. pose proof H1 as (SY & PY & CY & GY).
    cbn [gtr_rest]. cbv zeta. rewrite (flength_leaves y SY), (tol_le _ _ _ HC).
    destruct (Rleb_spec b (sum_len (leaves y))) as [L | L].
    + destruct (H3 0 b) as (t' & E & W & A); try lra.
      * apply zero_clear, PY.
      * apply (clear_front _ _ _ HC).
      * right. rewrite Rminus_0_r. destruct (clear_0 _ _ HC) as [Z | Z]; [lra |].
        rewrite Rabs_pos_eq in Z by lra. exact Z.
      * rewrite Rplus_0_r in E. rewrite E. cbn [bind]. eexists. split; [reflexivity |].
        split; [apply tr_mul_twf; assumption |]. intros p.
        rewrite tr_mul_pt, Hm by assumption.
        rewrite walk_within by (assumption || lra).
        rewrite <- (walk_0 (leaves y) (mid p)) at 1 by assumption. apply A.
    + destruct (total_ok y SY PY CY GY) as [WT AT].
      rewrite sum_len_app in Hle.
      destruct (IH (b - sum_len (leaves y)) (tr_mul (total y) t) from
        (fun p => walk (leaves y) (sum_len (leaves y)) (mid p))) as (r & E & W & A);
        try assumption; try lra.
      * apply tr_mul_twf; assumption.
      * intros p. rewrite tr_mul_pt, Hm, AT by assumption. reflexivity.
      * apply clear_tail, HC.
      * exists r. split; [exact E |]. split; [exact W |]. intros p. rewrite A.
        rewrite (walk_app (leaves y)) by (assumption || lra).
        rewrite Rleb_false by lra. reflexivity.
Qed.

(* the first loop: [same] tells whether both places lie in one sub-frame *)
Fixpoint same_sub (l : list frame) (a b : R) : bool :=
  match l with
  | [] => false
  | x :: l' => let n := flength x in
      if Rleb a n then Rleb b n else same_sub l' (a - n) (b - n)
  end.

Lemma first_ok : forall inv l a b (q : vec3 -> vec3),
  Forall tree_ok l -> Forall gtr_ok l ->
  0 <= a -> eps < b - a -> b <= sum_len (flat_map leaves l) ->
  clear (flat_map leaves l) a -> clear (flat_map leaves l) b ->
  exists r, gtr_first inv l a b =
      Ok (if same_sub l a b then r else if inv then tr_inv r else r) /\ twf r /\
    forall p, tr_pt r (walk (flat_map leaves l) a p) = walk (flat_map leaves l) b p.
Proof.
  intros inv. pose proof eps_pos as EP.
  induction l as [| x l IH]; intros a b q HT HG Ha Hab Hle CA CB.
  - cbn in Hle. lra.
  - inversion HT; subst. inversion HG; subst. cbn [flat_map] in *.
    pose proof (plain_fm _ H2) as PL. pose proof H1 as (SX & PX & CX & GX).
    cbn [gtr_first same_sub]. cbv zeta. rewrite (flength_leaves x SX), (tol_le _ _ _ CA), (tol_le _ _ _ CB).
    destruct (Rleb_spec a (sum_len (leaves x))) as [L | L].
    + destruct (Rleb_spec b (sum_len (leaves x))) as [M | M].
      * destruct (H3 a b) as (r & E & W & A); try lra;
          [apply (clear_front _ _ _ CA) | apply (clear_front _ _ _ CB) |].
        exists r. split; [exact E |]. split; [exact W |]. intros p.
        rewrite !walk_within by (assumption || lra). apply A.
      * destruct (H3 a (sum_len (leaves x))) as (t & E & W & A); try lra.
        { apply (clear_front _ _ _ CA). }
        { apply full_clear, PX. }
        { pose proof (clear_front _ _ _ CA (length (leaves x))) as K. rewrite firstn_all in K.
          destruct K as [K | K]; [left; exact K | right].
          rewrite Rabs_minus_sym, Rabs_pos_eq in K by lra. exact K. }
        replace (fst (fextent x) + sum_len (leaves x)) with (snd (fextent x)) in E
          by (pose proof (extent_length x); rewrite (flength_leaves x SX) in *; lra).
        rewrite E. cbn [bind]. rewrite sum_len_app in Hle.
        destruct (rest_ok inv l (b - sum_len (leaves x)) t
          (fun p => walk (leaves x) a p) (fun p => walk (leaves x) (sum_len (leaves x)) p))
          as (r & E2 & W2 & A2); try assumption; try lra.
        { apply clear_tail, CB. }
        exists r. split; [exact E2 |]. split; [exact W2 |]. intros p.
        rewrite walk_within by (assumption || lra).
        rewrite A2. rewrite (walk_app (leaves x)) by (assumption || lra).
        rewrite Rleb_false by lra. reflexivity.
    + rewrite sum_len_app in Hle.
      pose proof (sum_len_nonneg _ PX) as PX0.
      destruct (IH (a - sum_len (leaves x)) (b - sum_len (leaves x)) q) as (r & E & W & A);
        try assumption; try lra; [apply clear_tail, CA | apply clear_tail, CB |].
      exists r. split; [exact E |]. split; [exact W |]. intros p.
      rewrite (walk_app (leaves x) _ a), (walk_app (leaves x) _ b) by (assumption || lra).
      rewrite !Rleb_false by lra. apply A.
Qed.

Lemma shift_ext : forall om len u, seq_shift om len (fst (seq_extent om len) + u) = u.
Proof. intros [] len u; cbn; field. Qed.

Lemma gtr_all_ok : forall f, tree_ok f -> gtr_ok f.
Proof.
  pose proof eps_pos as EP.
  induction f as [i s t g | i s t om l c subs IH] using frame_ind2; intros HT a b Ha Hab Hb CA CB D.
  - destruct HT as (_ & HP & _). inversion HP; subst. cbn [leaves sum_len fold_right] in Hb.
    destruct (leaf_tr_ok g a b H1) as (r & E & W & A); try lra.
    exists r. split; [exact E |]. split; [exact W |]. intros p. cbn [leaves walk].
    rewrite !Rleb_true by lra. apply A.
  - pose proof (tree_ok_subs _ _ _ _ _ _ _ HT) as (EL & HS & HP).
    cbn [leaves] in *. cbn [fextent]. rewrite gtr_seq.
    destruct D as [-> | D].
    + rewrite fequal_refl. exists tr_id. split; [reflexivity |]. split; [exact I |].
      intros p. apply vec3_eq; cbn; ring.
    + destruct (fequal_spec (fst (seq_extent om l) + b) (fst (seq_extent om l) + a)) as [F | _].
      { replace (fst (seq_extent om l) + b - (fst (seq_extent om l) + a)) with (b - a) in F by ring.
        rewrite Rabs_pos_eq in F by lra. lra. }
      cbv zeta. rewrite !shift_ext.
      rewrite !Rltb_false by lra. cbn [orb].
      destruct (fequal a 0 && fequal b l) eqn:Q.
      * apply andb_prop in Q as [Q1 Q2].
        assert (a = 0) as ->.
        { apply (clear_eq (flat_map leaves subs) a 0 CA). exact Q1. }
        assert (b = l) as ->.
        { rewrite EL in *. apply (clear_end (flat_map leaves subs) [] b); [rewrite app_nil_r; exact CB | exact Q2]. }
        destruct HT as (S1 & S2 & S3 & S4).
        destruct (total_ok _ S1 S2 S3 S4) as [W A].
        exists (total (Seq i s t om l c subs)). split; [reflexivity |]. split; [exact W |].
        intros p. rewrite walk_0 by assumption. rewrite A. cbn [leaves]. rewrite <- EL. reflexivity.
      * assert (HG : Forall gtr_ok subs).
        { rewrite Forall_forall in *. intros x Hx. apply IH; [exact Hx | apply HS, Hx]. }
        destruct (first_ok false subs a b (fun p => p)) as (r & E & W & A); try assumption; try lra.
        exists r. split; [| auto]. rewrite E. destruct (same_sub subs a b); reflexivity.
Qed.

(* A sequence asked for the way back. *)
Lemma gtr_back : forall i s t om l c subs, tree_ok (Seq i s t om l c subs) ->
  forall a b, 0 <= a -> eps < b - a -> b <= sum_len (flat_map leaves subs) ->
  clear (flat_map leaves subs) a -> clear (flat_map leaves subs) b ->
  let f := Seq i s t om l c subs in
  exists r, gtr f (fst (fextent f) + b) (fst (fextent f) + a)
       = Ok (if same_sub subs a b then r else tr_inv r) /\ twf r /\
    forall p, tr_pt r (walk (flat_map leaves subs) a p) = walk (flat_map leaves subs) b p.
Proof.
  intros i s t om l c subs HT a b Ha Hab Hb CA CB f. pose proof eps_pos as EP. subst f.
  pose proof (tree_ok_subs _ _ _ _ _ _ _ HT) as (EL & HS & HP).
  cbn [fextent]. rewrite gtr_seq.
  destruct (fequal_spec (fst (seq_extent om l) + a) (fst (seq_extent om l) + b)) as [F | _].
  { replace (fst (seq_extent om l) + a - (fst (seq_extent om l) + b)) with (- (b - a)) in F by ring.
    rewrite Rabs_Ropp, Rabs_pos_eq in F by lra. lra. }
  cbv zeta. rewrite !shift_ext.
  rewrite !Rltb_false by lra. cbn [orb].
  assert (Q : fequal b 0 = false).
  { destruct (fequal_spec b 0) as [K | K]; [| reflexivity].
    rewrite Rminus_0_r, Rabs_pos_eq in K by lra. lra. }
  rewrite Q. cbn [andb]. rewrite Rltb_true by lra.
  assert (HG : Forall gtr_ok subs).
  { rewrite Forall_forall in *. intros x Hx. apply gtr_all_ok, HS, Hx. }
  destruct (first_ok true subs a b (fun p => p)) as (r & E & W & A); try assumption; try lra.
  exists r. rewrite E. auto.
Qed.

(* Layout of a flat, centred sequence gives it the right total. *)
Definition plain_leaf (x : frame) : Prop := exists i q o g, x = Leaf i q o g /\ plain g.

Lemma plain_leaf_ok : forall x, plain_leaf x -> tree_ok x.
Proof.
  intros x (i & q & o & g & -> & P). repeat split; try exact I.
  constructor; [exact P | constructor].
Qed.

Lemma tr_pt_inj_inv : forall t p, twf t -> tr_pt (tr_inv (tr_inv t)) p = tr_pt t p.
Proof.
  intros t p H. pose proof (tr_inv_twf t H) as H1.
  rewrite <- (tr_inv_l t p H) at 1. apply (tr_inv_l (tr_inv t)), H1.
Qed.

Lemma centre_flat : forall l mid s t, Forall plain_leaf l ->
  s <= mid -> mid <= s + sum_len (flat_map leaves l) -> l <> [] -> twf t ->
  exists tin tout, centre_ct l mid s t = Ok (tin, tout) /\ twf tin /\ twf tout /\
    forall p, tr_pt (tr_mul tout (tr_inv tin)) p
      = walk (flat_map leaves l) (sum_len (flat_map leaves l)) (tr_pt t p).
Proof.
  induction l as [| x l IH]; intros mid s t HL Hs Hm NE Ht; [congruence |].
  inversion HL; subst. pose proof (plain_leaf_ok x H1) as TX.
  assert (TL : Forall tree_ok l).
  { rewrite Forall_forall in *. intros y Hy. apply plain_leaf_ok, H2, Hy. }
  pose proof (plain_fm _ TL) as PL. destruct TX as (SX & PX & CX & GX).
  destruct (total_ok x SX PX CX GX) as [WX AX].
  assert (FT : Forall (fun y => twf (total y) /\
      forall p, tr_pt (total y) p = walk (leaves y) (sum_len (leaves y)) p) l).
  { rewrite Forall_forall in *. intros y Hy. destruct (TL y Hy) as (? & ? & ? & ?).
    apply total_ok; assumption. }
  assert (FP : Forall (fun y => plain_tree y) l).
  { rewrite Forall_forall in *. intros y Hy. apply (TL y Hy). }
  pose proof (sum_len_nonneg _ PL) as SL.
  cbn [centre_ct]. cbv zeta. cbn [flat_map] in Hm |- *. rewrite sum_len_app in Hm |- *.
  pose proof (sum_len_nonneg _ PX) as SX0.
  rewrite (flength_leaves x SX). set (n := sum_len (leaves x)) in *.
  destruct (fequal (s + n) mid) eqn:E.
  - cbn [orb]. destruct (finish_ok l tr_id FP I FT) as [WF AF].
    assert (WT : twf (tr_mul (total x) t)) by (apply tr_mul_twf; assumption).
    eexists _, _. split; [reflexivity |].
    split; [apply tr_inv_twf, WT |]. split; [exact WF |]. intros p.
    rewrite tr_mul_pt by (exact WF || apply tr_inv_twf, tr_inv_twf, WT).
    rewrite AF, tr_pt_inj_inv by exact WT.
    replace (tr_pt tr_id (tr_pt (tr_mul (total x) t) p)) with (tr_pt (tr_mul (total x) t) p)
      by (apply vec3_eq; cbn; ring).
    rewrite tr_mul_pt, AX by assumption. fold n.
    unfold n. rewrite walk_past by assumption. reflexivity.
  - cbn [orb]. destruct (Rltb_spec mid (s + n)) as [G | G].
    + rewrite Rltb_false by lra.
      destruct H1 as (i & q & o & g & -> & P). cbn [fextent]. cbn in n. subst n.
      rewrite Rplus_0_r in *.
      destruct (leaf_tr_ok g 0 (s + geom_length g - mid) P) as (u & EU & WU & AU); try lra.
      destruct (leaf_tr_ok g (s + geom_length g - mid) (geom_length g) P) as (w & EW & WW & AW); try lra.
      cbn [gtr].
      rewrite Rplus_0_r in EU.
      replace (fst (geom_extent g) + (s + geom_length g) - mid)
        with (fst (geom_extent g) + (s + geom_length g - mid)) by ring.
      replace (fst (geom_extent g) + geom_length g) with (snd (geom_extent g)) in EW
        by (pose proof (extent_length (Leaf i q o g)) as X; cbn in X; lra).
      rewrite EU. cbn [bind]. rewrite EW. cbn [bind].
      assert (WT : twf (tr_mul u t)) by (apply tr_mul_twf; assumption).
      destruct (finish_ok l w FP WW FT) as [WF AF].
      eexists _, _. split; [reflexivity |].
      split; [apply tr_inv_twf, WT |]. split; [exact WF |]. intros p.
      rewrite tr_mul_pt by (exact WF || apply tr_inv_twf, tr_inv_twf, WT).
      rewrite AF, tr_pt_inj_inv, tr_mul_pt by assumption.
      rewrite <- (leaf_walk_0 g (tr_pt t p)) at 1. rewrite AU, AW.
      cbn [leaves].
      replace (geom_length g + sum_len (flat_map leaves l))
        with (sum_len [g] + sum_len (flat_map leaves l)) by (cbn; ring).
      rewrite walk_past; [| exact PX | exact PL | exact SL].
      f_equal. cbn. rewrite Rplus_0_r, Rleb_true by lra. reflexivity.
    + assert (G' : s + n < mid).
      { destruct (fequal_spec (s + n) mid) as [K | K]; [discriminate |].
        destruct (Req_dec (s + n) mid) as [R1 | R1]; [| lra]. exfalso. apply K.
        rewrite R1, Rminus_diag_eq, Rabs_R0 by reflexivity. pose proof eps_pos. lra. }
      rewrite Rltb_true by lra.
      destruct (IH mid (s + n) (tr_mul (total x) t)) as (tin & tout & EC & W1 & W2 & A); try assumption; try lra.
      * intros ->. cbn in Hm. lra.
      * apply tr_mul_twf; assumption.
      * exists tin, tout. split; [exact EC |]. split; [exact W1 |]. split; [exact W2 |].
        intros p. rewrite A, tr_mul_pt, AX by assumption. unfold n.
        rewrite walk_past by assumption. reflexivity.
Qed.

(* A tree that has not been laid out has no caches. *)
Fixpoint uncached (f : frame) : Prop :=
  match f with
  | Leaf _ _ _ _ => True
  | Seq _ _ _ _ _ c subs =>
      c = None /\
      (fix all (l : list frame) : Prop :=
         match l with [] => True | x :: l' => uncached x /\ all l' end) subs
  end.

Lemma uncached_seq : forall i s t om l c subs,
  uncached (Seq i s t om l c subs) <-> c = None /\ Forall uncached subs.
Proof. intros. cbn [uncached]. rewrite all_Forall. reflexivity. Qed.

Lemma built_uncached : forall f, built f -> uncached f.
Proof.
  induction 1.
  - exact I.
  - split; [reflexivity | exact I].
  - apply uncached_seq in IHbuilt1 as [-> F]. apply uncached_seq. split; [reflexivity |].
    apply Forall_app. split; [exact F | constructor; [assumption | constructor]].
Qed.

Lemma uncached_ok : forall f, uncached f -> proper_cache f /\ good_totals f.
Proof.
  induction f as [i s t g | i s t om l c subs IH] using frame_ind2; intros H.
  - split; exact I.
  - apply uncached_seq in H as [-> F]. cbn [proper_cache good_totals].
    rewrite !all_Forall. rewrite Forall_forall in IH, F.
    assert (G : forall x, In x subs -> proper_cache x /\ good_totals x) by (intros x Hx; apply IH; auto).
    split; (split; [exact I |]); apply Forall_forall; intros x Hx; apply G, Hx.
Qed.

Lemma built_ok : forall f, built f -> Forall plain (leaves f) -> tree_ok f.
Proof.
  intros f B P. destruct (uncached_ok f (built_uncached f B)) as [A C].
  repeat split; try assumption. apply built_sized, B.
Qed.

(* Laying out a sequence of components. *)
Definition appended (q : frame) (gs : list (nat * geom)) : frame :=
  fold_left (fun q x => append_frame q (new_leaf (fst x) (snd x))) gs q.

Lemma appended_seq : forall gs i s t om l c subs,
  appended (Seq i s t om l c subs) gs =
  Seq i s t om (l + sum_len (map snd gs)) c (subs ++ map (fun x => new_leaf (fst x) (snd x)) gs).
Proof.
  unfold sum_len. induction gs as [| [k g] gs IH]; intros; cbn.
  - rewrite app_nil_r. f_equal. ring.
  - unfold appended in IH |- *. rewrite IH, <- app_assoc. cbn. f_equal. ring.
Qed.

Lemma place_leaves : forall gs l' s, place (map (fun x => new_leaf (fst x) (snd x)) gs) l' s ->
  Forall plain (map snd gs) ->
  Forall plain_leaf l' /\ flat_map leaves l' = map snd gs /\ Forall sized l' /\
  sumlen l' = sum_len (map snd gs) /\ length l' = length gs.
Proof.
  unfold sumlen, sum_len.
  induction gs as [| [k g] gs IH]; intros [| x' l'] s H P; cbn [map place] in H; try contradiction.
  - repeat split; constructor.
  - destruct H as ((x1 & E1 & ->) & H). cbn in E1. injection E1 as <-.
    inversion P; subst. destruct (IH _ _ H H3) as (A & B & C & D & E).
    cbn. rewrite B, D, E. repeat split; try constructor; auto; try exact I.
    eexists _, _, _, _. split; [reflexivity | assumption].
Qed.

Lemma place_leaves_ex : forall gs s,
  exists l', place (map (fun x => new_leaf (fst x) (snd x)) gs) l' s.
Proof.
  induction gs as [| [k g] gs IH]; intros s.
  - exists []. exact I.
  - destruct (IH (s - fst (geom_extent g) + snd (geom_extent g))) as [l' H].
    eexists (_ :: l'). split; [| exact H]. eexists. split; reflexivity.
Qed.

Lemma place_consolidate : forall i s t om len c subs subs' c',
  place subs subs' (seq_start om len) -> calc_cache om len c subs' = Ok c' ->
  consolidate (Seq i s t om len c subs) = Ok (Seq i s t om len (Some c') subs').
Proof.
  intros i s t om len c subs subs' c' H K. cbn [consolidate].
  set (go := fix go (l : list frame) (s : R) : res gerr (list frame) := _).
  assert (G : go subs (seq_start om len) = Ok subs').
  { clear K. revert subs' H. generalize (seq_start om len).
    induction subs as [| x subs IH]; intros a [| x' subs'] H; cbn [place] in H; try contradiction.
    - reflexivity.
    - destruct H as ((y & E & ->) & H). cbn [go]. cbv zeta. rewrite E. cbn [bind]. fold go.
      rewrite (IH _ _ H). reflexivity. }
  rewrite G. cbn [bind]. rewrite K. reflexivity.
Qed.

Lemma centred_ok : forall id gs, gs <> [] -> Forall plain (map snd gs) ->
  exists f', consolidate (appended (new_seq id AtCenter) gs) = Ok f' /\ tree_ok f' /\
    leaves f' = map snd gs /\ fextent f' = (- sum_len (map snd gs) / 2, sum_len (map snd gs) / 2).
Proof.
  intros id gs NE P. unfold new_seq. rewrite appended_seq. cbn [app].
  rewrite Rplus_0_l.
  destruct (place_leaves_ex gs (seq_start AtCenter (sum_len (map snd gs)))) as [l' H].
  destruct (place_leaves _ _ _ H P) as (A & B & C & D & E).
  pose proof (sum_len_nonneg _ P) as SN.
  destruct (centre_flat l' (sum_len (map snd gs) / 2) 0 tr_id) as (tin & tout & EC & W1 & W2 & AC).
  - exact A.
  - lra.
  - rewrite B. lra.
  - intros ->. destruct gs; [congruence | discriminate].
  - exact I.
  - exists (Seq id 0 None AtCenter (sum_len (map snd gs)) (Some (tin, tout)) l').
    split; [apply place_consolidate; [exact H | exact EC] |].
    assert (TL : Forall tree_ok l').
    { rewrite Forall_forall in *. intros y Hy. apply plain_leaf_ok, A, Hy. }
    split; [| split; [exact B | reflexivity]].
    split; [| split; [| split]].
    + apply sized_seq. split; [symmetry; exact D | exact C].
    + unfold plain_tree. cbn [leaves]. rewrite B. exact P.
    + cbn [proper_cache]. rewrite all_Forall. split; [split; assumption |].
      rewrite Forall_forall in *. intros y Hy. apply (TL y Hy).
    + cbn [good_totals leaves]. rewrite all_Forall. split.
      * intros p. rewrite AC. f_equal. apply vec3_eq; cbn; ring.
      * rewrite Forall_forall in *. intros y Hy. apply (TL y Hy).
Qed.
