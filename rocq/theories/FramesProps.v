(* C18, C65, C66: layout and geometry of the tree of frames. *)
From Verif Require Import RBase Rot RotSpec RotProofs Frames FramesSpec FramesProofs FramesGeom.
Local Open Scope R_scope.

Definition origin_start (f : frame) (L : R) : R :=
  match f with
  | Leaf _ _ _ (GRect _) | Leaf _ _ _ (GArc _ _) => - L / 2
  | Leaf _ _ _ _ => 0
  | Seq _ _ _ AtEntrance _ _ _ => 0
  | Seq _ _ _ AtCenter _ _ _ => - L / 2
  | Seq _ _ _ AtExit _ _ _ => - L
  end.

(* Every frame of a tree that was built bottom-up and laid out spans exactly
   its components, one after the other, starting where the convention of the
   outermost frame puts its entrance. *)
Theorem C136_contiguous : forall f f', built f -> consolidate f = Ok f' ->
  reported f' [] = map Ok (expected (origin_start f (total_length f)) f) /\
  flength f' = total_length f /\
  fextent f' = (origin_start f (total_length f), origin_start f (total_length f) + total_length f).
Proof.
  intros f f' B C. pose proof (built_sized f B) as S.
  pose proof (sized_length f S) as L. destruct (consolidate_keeps f f' C) as (_ & P & _ & L' & X).
  assert (O : fst (fextent f) = origin_start f (total_length f)).
  { rewrite <- L. destruct f as [i s t [] | i s t [] l c subs]; cbn; try lra; reflexivity. }
  split; [| split].
  - rewrite <- O. rewrite (built_fresh f B) in P.
    assert (E : set_pos 0 f' = f') by (destruct f'; cbn in P |- *; rewrite P; reflexivity).
    rewrite <- E. apply (layout f f' S C [] 0 0); [reflexivity | ring].
  - rewrite L'. exact L.
  - rewrite X. pose proof (extent_length f) as Y. rewrite L in Y.
    destruct (fextent f) as [u v]. cbn in O, Y. subst u. f_equal. lra.
Qed.
Print Assumptions C136_contiguous.

(* The position with respect to an enclosing frame is the sum of the local
   positions on the way up to it. *)
Theorem C136_position_sum : forall pre j sj up, pre <> [] -> ~ In j (map fst pre) ->
  get_position (pre ++ (j, sj) :: up) (Some j) = Ok (fold_right (fun x a => snd x + a) 0 pre).
Proof.
  intros pre j sj up H1 H2. destruct (position_sum pre j sj up H1 H2) as (p & E & ->). exact E.
Qed.
Print Assumptions C136_position_sum.

Definition demo : frame :=
  append_frame
    (append_frame (new_seq 1 AtEntrance) (new_leaf 2 (GRect 1)))
    (append_frame (append_frame (new_seq 3 AtExit) (new_leaf 4 (GArc 2 (1/2)))) (new_leaf 5 (GRect 3))).
Lemma demo_built : built demo.
Proof. repeat constructor. Qed.
Example C18_case : exists f', consolidate demo = Ok f' /\
  reported f' [] = map Ok [(1%nat, 0, 6); (2%nat, 0, 1); (3%nat, 1, 6); (4%nat, 1, 3); (5%nat, 3, 6)].
Proof.
  eexists. split; [reflexivity |].
  destruct (C136_contiguous demo _ demo_built eq_refl) as (E & _). rewrite E.
  unfold demo, total_length. cbn.
  repeat (f_equal; [first [ do 2 f_equal; try f_equal; lra | idtac ] |]).
  all: repeat f_equal; lra.
Qed.
Example C18_position_case :
  get_position [(5%nat, 1/2); (3%nat, 7); (1%nat, 0)] (Some 1%nat) = Ok (15/2).
Proof.
  change [(5%nat, 1/2); (3%nat, 7); (1%nat, 0)] with ([(5%nat, 1/2); (3%nat, 7)] ++ (1%nat, 0) :: []).
  rewrite C136_position_sum; [cbn; f_equal; lra | discriminate |].
  cbn. intros [H | [H | []]]; discriminate.
Qed.

(* A frame appended to a sequence that already stands in another one, or put in
   the place of another frame, does not reach the lengths kept above it. *)
Theorem C18_late_append_refuted :
  exists q f', q = append_inside 2 (new_leaf 3 (GRect 2))
                     (append_frame (new_seq 1 AtEntrance) (new_seq 2 AtEntrance)) /\
    consolidate q = Ok f' /\ total_length f' = 2 /\
    reported f' [] = map Ok [(1%nat, 0, 0); (2%nat, 0, 2); (3%nat, 0, 2)].
Proof.
  eexists _, _. split; [reflexivity |]. split; [cbn; reflexivity |].
  split; [unfold total_length; cbn; lra |].
  cbn. repeat (f_equal; try lra).
Qed.
Print Assumptions C18_late_append_refuted.

Theorem C18_replace_refuted :
  exists q, replace_sub 2 (new_leaf 3 (GRect 5)) (append_frame (new_seq 1 AtEntrance) (new_leaf 2 (GRect 2)))
            = (q, true) /\ flength q = 2 /\ total_length q = 5.
Proof.
  eexists. split; [reflexivity |]. split; [cbn; lra | unfold total_length; cbn; lra].
Qed.
Print Assumptions C18_replace_refuted.

(* C65: laying out a finished tree of frames never fails. *)
Theorem C65_layout_refuted :
  consolidate (new_seq 1 AtCenter) = Throw AssertFailed /\
  built (append_frame (append_frame (new_seq 1 AtEntrance) (new_seq 2 AtCenter)) (new_leaf 3 (GRect 1))) /\
  consolidate (append_frame (append_frame (new_seq 1 AtEntrance) (new_seq 2 AtCenter)) (new_leaf 3 (GRect 1)))
    = Throw AssertFailed.
Proof. split; [reflexivity |]. split; [repeat constructor | reflexivity]. Qed.
Print Assumptions C65_layout_refuted.

(* Trees in which a centred sequence holds components only, and at least one. *)
Inductive calm : frame -> Prop :=
| calm_leaf : forall id g, calm (new_leaf id g)
| calm_centre : forall id gs, gs <> [] -> Forall plain (map snd gs) ->
    calm (appended (new_seq id AtCenter) gs)
| calm_end : forall i s t om l subs, om <> AtCenter -> Forall calm subs ->
    calm (Seq i s t om l None subs).

Lemma calm_ind2 (P : frame -> Prop) :
  (forall id g, P (new_leaf id g)) ->
  (forall id gs, gs <> [] -> Forall plain (map snd gs) -> P (appended (new_seq id AtCenter) gs)) ->
  (forall i s t om l subs, om <> AtCenter -> Forall calm subs -> Forall P subs ->
     P (Seq i s t om l None subs)) ->
  forall f, calm f -> P f.
Proof.
  intros H1 H2 H3. fix F 2. intros f H. destruct H as [id g | id gs NE PL | i s t om l subs NC FA].
  - apply H1.
  - apply H2; assumption.
  - apply H3; [assumption | assumption |].
    induction FA as [| x subs HX HL IH]; constructor; [apply F, HX | exact IH].
Qed.

Theorem C65_layout_partial : forall f, calm f -> exists f', consolidate f = Ok f'.
Proof.
  apply (calm_ind2 (fun f => exists f', consolidate f = Ok f')).
  - intros id g. eexists. reflexivity.
  - intros id gs NE PL. destruct (centred_ok id gs NE PL) as (f' & E & _). exists f'. exact E.
  - intros i s t om l subs NC FA IH. assert (X : forall a, exists subs', place subs subs' a).
    { clear FA. induction IH as [| x subs [x' HX] HL IH]; intros a.
      - exists []. exact I.
      - destruct (IH (a - fst (fextent x) + snd (fextent x))) as [r Hr].
        eexists (_ :: r). split; [| exact Hr]. exists x'. split; [exact HX | reflexivity]. }
    destruct (X (seq_start om l)) as [subs' Hs].
    destruct om; [| contradiction |]; eexists; (eapply place_consolidate; [exact Hs | reflexivity]).
Qed.
Print Assumptions C65_layout_partial.
Example C65_case : calm (append_frame (append_frame (new_seq 1 AtEntrance)
    (append_frame (append_frame (new_seq 2 AtCenter) (new_leaf 4 (GRect 1))) (new_leaf 5 (GRect 3))))
    (new_leaf 3 (GRect 1))).
Proof.
  unfold append_frame, new_seq. apply calm_end; [discriminate |].
  constructor; [| constructor; [apply calm_leaf | constructor]].
  apply (calm_centre 2 [(4%nat, GRect 1); (5%nat, GRect 3)]); [discriminate |].
  pose proof eps_small. constructor; [right; lra |]. constructor; [right; lra | constructor].
Qed.

(* C66: the transformation from the axes at one place of a frame to those at
   another. *)
Definition moves (f : frame) (a b : R) (t : tr3) : Prop :=
  forall p, tr_pt t (walk (leaves f) a p) = walk (leaves f) b p.

(* Forwards, for any tree before it is laid out ... *)
Theorem C156_forward : forall f, built f -> Forall plain (leaves f) ->
  forall a b, 0 <= a <= b -> b <= sum_len (leaves f) ->
  clear (leaves f) a -> clear (leaves f) b -> (a = b \/ eps < b - a) ->
  exists t, gtr f (fst (fextent f) + a) (fst (fextent f) + b) = Ok t /\ moves f a b t.
Proof.
  intros f B P a b H1 H2 CA CB D.
  destruct (gtr_all_ok f (built_ok f B P) a b) as (t & E & _ & A); try assumption; try lra.
  exists t. split; assumption.
Qed.
Print Assumptions C156_forward.

(* ... and for a centred sequence of components after it is laid out, with the
   way back when the two places are in different components. *)
Theorem C156_centred : forall id gs, gs <> [] -> Forall plain (map snd gs) ->
  let L := sum_len (map snd gs) in
  exists f', consolidate (appended (new_seq id AtCenter) gs) = Ok f' /\
    leaves f' = map snd gs /\
    moves f' 0 L (total f') /\
    forall a b, 0 <= a -> a <= b -> b <= L -> clear (map snd gs) a -> clear (map snd gs) b ->
      (a = b \/ eps < b - a) ->
      exists t, gtr f' (- L / 2 + a) (- L / 2 + b) = Ok t /\ moves f' a b t /\
        (forall pre g post, map snd gs = pre ++ g :: post ->
           sum_len pre < a -> a <= sum_len (pre ++ [g]) -> sum_len (pre ++ [g]) < b -> a < b ->
           exists r, gtr f' (- L / 2 + b) (- L / 2 + a) = Ok r /\ moves f' b a r).
Proof.
  intros id gs NE P L. destruct (centred_ok id gs NE P) as (f' & E & T & LV & X).
  exists f'. split; [exact E |]. split; [exact LV |].
  assert (P' : Forall plain (leaves f')) by (rewrite LV; exact P).
  split.
  { destruct T as (T1 & T2 & T3 & T4). destruct (total_ok f' T1 T2 T3 T4) as [_ A].
    intros p. rewrite A, walk_0 by exact P'. unfold L. rewrite LV. reflexivity. }
  intros a b Ha Hab Hb CA CB D.
  destruct (gtr_all_ok f' T a b) as (t & E1 & _ & A); try (rewrite LV); try assumption.
  rewrite X in E1. cbn [fst] in E1. exists t. split; [exact E1 |]. split; [exact A |].
  intros pre g post EG H1 H2 H3 H4.
  assert (D' : eps < b - a) by (destruct D; lra).
  pose proof E as E0. unfold new_seq in E0. rewrite appended_seq in E0.
  apply consolidate_seq in E0 as (subs' & c' & -> & PL & _).
  destruct (place_leaves _ _ _ PL P) as (FL & LS & _).
  cbn [leaves] in LV, P', T.
  destruct (gtr_back _ _ _ _ _ _ _ T a b) as (r & E2 & W & A2); try (rewrite LV); try assumption.
  rewrite X in E2. cbn [fst] in E2.
  assert (S : same_sub subs' a b = false).
  { clear - FL LS EG H1 H2 H3 Ha P. rewrite EG in LS, P. clear gs EG.
    revert pre a b Ha LS P H1 H2 H3. induction subs' as [| x subs' IH]; intros pre a b Ha LS P H1 H2 H3; [reflexivity |].
    inversion FL; subst. destruct H4 as (i & q & o & g0 & -> & PG).
    cbn [flat_map leaves app] in LS. destruct pre as [| g1 pre].
    - cbn [app] in LS. injection LS as -> LS. cbn in H2, H3 |- *.
      rewrite Rplus_0_r in *. rewrite Rleb_true by lra. rewrite Rleb_false by lra. reflexivity.
    - cbn [app] in LS. injection LS as -> LS. cbn [same_sub flength]. cbv zeta.
      cbn in H1, H2, H3. inversion P as [| ? ? PG1 PP]; subst.
      assert (0 <= sum_len pre).
      { apply sum_len_nonneg. apply Forall_app in PP as [PP _]. exact PP. }
      fold (sum_len pre) in H1. fold (sum_len (pre ++ [g])) in H2, H3.
      rewrite Rleb_false by lra.
      apply (IH H5 pre); try assumption; lra. }
  rewrite S in E2. exists (tr_inv r). split; [exact E2 |].
  intros p. cbn [leaves]. rewrite <- A2. apply tr_inv_l, W.
Qed.
Print Assumptions C156_centred.

Definition bend_row : list (nat * geom) := [(2%nat, GRect 1); (3%nat, GArc 2 (1/4)); (4%nat, GRect 3)].
Lemma bend_plain : Forall plain (map snd bend_row).
Proof.
  pose proof eps_small. constructor; [right; lra |].
  constructor; [split; [right; lra | lra] |]. constructor; [right; lra | constructor].
Qed.
Lemma bend_clear : forall u, u = 1/2 \/ u = 5 -> clear (map snd bend_row) u.
Proof.
  intros u H k. right. pose proof eps_small as ES.
  assert (eps < 1/4) by lra.
  destruct k as [| [| [| [| k]]]]; cbn; destruct H as [-> | ->];
    rewrite ?firstn_nil; cbn; unfold Rabs; destruct (Rcase_abs _); lra.
Qed.
Example C66_case :
  bend_row <> [] /\ Forall plain (map snd bend_row) /\
  clear (map snd bend_row) (1/2) /\ clear (map snd bend_row) 5 /\
  (exists pre g post, map snd bend_row = pre ++ g :: post /\
     sum_len pre < 1/2 <= sum_len (pre ++ [g]) /\ sum_len (pre ++ [g]) < 5).
Proof.
  split; [discriminate |]. split; [apply bend_plain |].
  split; [apply bend_clear; auto |]. split; [apply bend_clear; auto |].
  exists [], (GRect 1), [GArc 2 (1/4); GRect 3]. cbn. repeat split; lra.
Qed.

(* Within one component of a sequence the way back is the way there. *)
Theorem C66_back_refuted :
  exists f, f = append_frame (new_seq 1 AtEntrance) (new_leaf 2 (GRect 2)) /\
  exists t, gtr f (1/2) (3/2) = Ok t /\ gtr f (3/2) (1/2) = Ok t /\
    tr_pt t (mkv 0 0 0) = mkv 0 0 (-1).
Proof.
  eexists. split; [reflexivity |]. pose proof eps_small as ES. pose proof eps_pos as EP.
  assert (F : forall u v, eps < Rabs (u - v) -> fequal u v = false).
  { intros u v H. destruct (fequal_spec u v); [lra | reflexivity]. }
  assert (A : forall u, Rabs u = u \/ Rabs u = - u).
  { intros u. unfold Rabs. destruct (Rcase_abs u); auto. }
  assert (S : forall u v, 1/2 <= u - v \/ 1/2 <= v - u -> fequal u v = false).
  { intros u v H. apply F. unfold Rabs. destruct (Rcase_abs (u - v)); lra. }
  exists (tr_translation 0 0 1).
  split; [| split].
  - cbn. rewrite !S by lra. cbn. rewrite !Rltb_false by lra. cbn.
    rewrite !(Rltb_true (1/2)), (Rltb_true (3/2)) by lra. cbn.
    unfold in_bounds. rewrite !Rltb_false by (unfold Rabs; destruct (Rcase_abs _); lra). cbn. rewrite ?orb_true_r. cbn.
    do 2 f_equal. lra.
  - cbn. rewrite !S by lra. cbn. rewrite !(Rltb_false _ 0), !(Rltb_false (0 + 2)) by lra. cbn.
    rewrite !(Rltb_true (1/2)) by lra. rewrite !(Rltb_true (3/2)) by lra. cbn.
    unfold in_bounds. rewrite !Rltb_false by (unfold Rabs; destruct (Rcase_abs _); lra). cbn. rewrite ?orb_true_r. cbn.
    do 2 f_equal. lra.
  - apply vec3_eq; cbn; lra.
Qed.
Print Assumptions C66_back_refuted.

(* With the origin at the entrance or the exit, laying out destroys the total
   transformation. *)
Theorem C66_total_refuted : forall om, om = AtEntrance \/ om = AtExit ->
  exists f', consolidate (append_frame (new_seq 1 om) (new_leaf 2 (GRect 2))) = Ok f' /\
    tr_pt (total f') (mkv 0 0 2) = mkv 0 0 2 /\
    walk (leaves f') (sum_len (leaves f')) (mkv 0 0 2) = mkv 0 0 0.
Proof.
  intros om [-> | ->]; (eexists; split; [reflexivity |]; split; [apply vec3_eq; cbn; ring |]);
    cbn; rewrite Rleb_true by lra; apply vec3_eq; cbn; ring.
Qed.
Print Assumptions C66_total_refuted.

(* The entrance plane of a centred sequence, seen from its centre: a metre off
   when the centre is inside a component that is not in the middle. *)
Theorem C66_plane_refuted :
  exists f' t, consolidate (appended (new_seq 1 AtCenter) [(2%nat, GRect 1); (3%nat, GRect 3)]) = Ok f' /\
    fextent f' = (- 2, 2) /\ plane_tr f' Entrance = Ok t /\
    tr_pt t (mkv 0 0 0) = mkv 0 0 3.
Proof.
  pose proof eps_small as ES. pose proof eps_pos as EP.
  assert (S : forall u v, 1/2 <= u - v \/ 1/2 <= v - u -> fequal u v = false).
  { intros u v H. destruct (fequal_spec u v) as [K | K]; [| reflexivity].
    unfold Rabs in K; destruct (Rcase_abs (u - v)); lra. }
  eexists _, _. split.
  - unfold appended. cbn [fold_left append_frame new_seq fst snd app flength new_leaf geom_length].
    apply place_consolidate with (subs' := [Leaf 2 (-3/2) None (GRect 1); Leaf 3 (1/2) None (GRect 3)])
       (c' := (tr_inv (tr_mul (tr_translation 0 0 2) (tr_mul (tr_translation 0 0 1) tr_id)),
               tr_translation 0 0 1)).
    + split; [eexists; split; [reflexivity |]; cbn; f_equal; lra |].
      split; [eexists; split; [reflexivity |]; cbn; f_equal; lra | exact I].
    + cbn. rewrite !S by lra. cbn.
      rewrite (Rltb_true (0 + 1)), (Rltb_false (0 + 1 + 3)) by lra.
      rewrite (Rltb_false _ (0 + 1)), (Rltb_true _ (0 + 1 + 3)) by lra.
      unfold in_bounds. rewrite !Rltb_false by (unfold Rabs; destruct (Rcase_abs _); lra). cbn. rewrite ?orb_true_r. cbn.
      do 2 f_equal; [do 2 f_equal |]; f_equal; lra.
  - split; [cbn; f_equal; lra |]. split; [reflexivity |].
    apply vec3_eq; cbn; lra.
Qed.
Print Assumptions C66_plane_refuted.

(* C67: what a displaced frame does to something that moves along its axis: the
   entrance transformation, the geometry, the exit transformation (the inverse
   of the one at the exit plane) together are the geometry alone. *)
Definition no_tiny_shift (f : frame) : Prop :=
  forall t, floc f = Some t -> tr_is_identity t = true -> t = tr_id.

Theorem C157_displacement_undone : forall f pin pout a b,
  no_tiny_shift f -> (forall t, floc f = Some t -> twf t) ->
  plane_tr f Entrance = Ok pin -> plane_tr f Exit = Ok pout -> twf pin -> twf pout ->
  local_plane f Entrance = Ok a -> local_plane f Exit = Ok b ->
  let g := tr_mul pout (tr_inv pin) in
  forall p, tr_pt (tr_inv b) (tr_pt g (tr_pt a p)) = tr_pt g p.
Proof.
  intros f pin pout a b NT WT E1 E2 W1 W2 A B g p.
  unfold local_plane in A, B. rewrite E1 in A. rewrite E2 in B. cbn [bind] in A, B.
  assert (WL : twf (opt_tr (floc f))).
  { destruct (floc f) as [t |] eqn:L; [apply WT; reflexivity | exact I]. }
  assert (ID : tr_is_identity (opt_tr (floc f)) = true -> opt_tr (floc f) = tr_id).
  { intros H. destruct (floc f) as [t |] eqn:L; [apply NT; [exact L | exact H] | reflexivity]. }
  set (t0 := opt_tr (floc f)) in *.
  destruct (tr_is_identity t0) eqn:T.
  - rewrite ID in A, B by reflexivity. injection A as <-. injection B as <-.
    assert (I1 : forall q, tr_pt tr_id q = q) by (intros q; apply vec3_eq; cbn; ring).
    rewrite I1. rewrite <- (I1 (tr_pt g p)) at 1. apply (tr_inv_l tr_id). exact I.
  - assert (A' : a = tr_mul (tr_mul pin t0) (tr_inv pin)) by congruence.
    assert (B' : b = tr_mul (tr_mul pout t0) (tr_inv pout)) by congruence.
    assert (HA : twf a) by (subst a; repeat apply tr_mul_twf; try apply tr_inv_twf; assumption).
    assert (HB : twf b) by (subst b; repeat apply tr_mul_twf; try apply tr_inv_twf; assumption).
    assert (K : tr_pt g (tr_pt a p) = tr_pt b (tr_pt g p)).
    { unfold g. subst a b.
      rewrite !tr_mul_pt by (repeat apply tr_mul_twf; try apply tr_inv_twf; assumption).
      rewrite !tr_inv_l by assumption. reflexivity. }
    rewrite K. apply tr_inv_l, HB.
Qed.
Print Assumptions C157_displacement_undone.

(* A frame moved by less than the tolerance is treated by the displacement of
   its centre, at both planes: a bend then leaves a residue. *)
Theorem C67_tiny_shift_refuted : exists f a b pin pout p,
  plane_tr f Entrance = Ok pin /\ plane_tr f Exit = Ok pout /\
  local_plane f Entrance = Ok a /\ local_plane f Exit = Ok b /\
  tr_pt (tr_inv b) (tr_pt (tr_mul pout (tr_inv pin)) (tr_pt a p)) <>
  tr_pt (tr_mul pout (tr_inv pin)) p.
Proof.
  pose proof eps_pos as EP.
  exists (Leaf 1 0 (Some (tr_translation 0 0 (eps / 2))) (GArc PI 1)).
  assert (T : tr_is_identity (tr_translation 0 0 (eps / 2)) = true).
  { unfold tr_is_identity, tr_translation, vzero. cbn.
    rewrite !fequal_refl. cbn.
    destruct (fequal_spec (eps / 2) 0) as [K | K]; [reflexivity |].
    exfalso. apply K. rewrite Rminus_0_r, Rabs_pos_eq; lra. }
  eexists _, _, _, _, (mkv 0 0 0).
  split; [reflexivity |]. split; [reflexivity |].
  unfold local_plane. cbn [floc opt_tr]. rewrite T.
  split; [reflexivity |]. split; [reflexivity |].
  cbn [leaf_plane]. intros H. apply (f_equal vz) in H. revert H.
  assert (WP : forall u, twf (make_transform u 1)) by (intros u; exact (wf_rotation AY _)).
  rewrite !tr_mul_pt by (try apply tr_inv_twf; apply WP).
  replace (- (PI * 1) / 2) with (- (PI / 2)) by lra. replace (PI * 1 / 2) with (PI / 2) by lra.
  assert (INV : forall q, tr_pt (tr_inv (make_transform (- (PI / 2)) 1)) q
            = mkv (vz q - 1) (vy q) (- vx q - 1)).
  { intros q.
    assert (E : tr_pt (make_transform (- (PI / 2)) 1) (mkv (vz q - 1) (vy q) (- vx q - 1)) = q).
    { rewrite make_transform_pt. cbv zeta. rewrite cos_neg, sin_neg, cos_PI2, sin_PI2.
      apply vec3_eq; cbn; field. }
    rewrite <- E at 1. apply tr_inv_l, WP. }
  rewrite !INV, !make_transform_pt. cbv zeta. rewrite cos_PI2, sin_PI2. cbn. lra.
Qed.
Print Assumptions C67_tiny_shift_refuted.

Example C67_case :
  let f := Leaf 1 0 (Some (tr_translation (1/2) 0 0)) (GArc 1 (1/2)) in
  no_tiny_shift f /\ exists a b, local_plane f Entrance = Ok a /\ local_plane f Exit = Ok b.
Proof.
  split.
  - intros t H. injection H as <-. unfold tr_is_identity, vzero. cbn.
    destruct (fequal_spec (1/2) 0) as [K | K]; [| discriminate].
    pose proof eps_small. unfold Rabs in K. destruct (Rcase_abs _); lra.
  - unfold local_plane. cbn [floc opt_tr plane_tr bind].
    destruct (tr_is_identity _); eexists _, _; split; reflexivity.
Qed.

(* Without displacements nothing happens at the planes. *)
Theorem C157_aligned : forall f up p, Forall (fun x => floc x = None) (f :: up) ->
  exists t, boundary_tr f up p = Ok t /\ forall q, tr_pt t q = q.
Proof.
  assert (I1 : forall q, tr_pt tr_id q = q) by (intros q; apply vec3_eq; cbn; ring).
  intros f up p. revert f. induction up as [| x up IH]; intros f H; cbn [boundary_tr].
  - exists tr_id. split; [reflexivity | exact I1].
  - inversion H; subst. unfold local_plane. rewrite H2. cbn [opt_tr].
    assert (T : tr_is_identity tr_id = true).
    { unfold tr_is_identity, vzero. cbn. rewrite !fequal_refl. reflexivity. }
    rewrite T. cbn [bind].
    destruct (is_boundary x p (fident f)).
    + destruct (IH x H3) as (t & E & A). rewrite E. cbn [bind]. eexists. split; [reflexivity |].
      intros q. replace (tr_mul tr_id t) with t; [apply A |].
      destruct t as [v r]. unfold tr_mul, tr_mul_by. cbn. f_equal.
      destruct r; apply vec3_eq; cbn; ring.
    + eexists. split; [reflexivity | exact I1].
Qed.
Print Assumptions C157_aligned.
Example C67_aligned_case : forall p,
  boundary_tr (new_leaf 2 (GRect 1)) [append_frame (new_seq 1 AtCenter) (new_leaf 2 (GRect 1)); new_seq 0 AtCenter] p
   <> UB.
Proof.
  intros p.
  destruct (C157_aligned (new_leaf 2 (GRect 1))
     [append_frame (new_seq 1 AtCenter) (new_leaf 2 (GRect 1)); new_seq 0 AtCenter] p) as (t & E & _).
  - repeat constructor.
  - rewrite E. discriminate.
Qed.

(* A noticeably displaced frame: at each of its planes its displacement is seen
   from that plane. *)
Theorem C157_displacement_at_plane : forall f p t pl,
  floc f = Some t -> tr_is_identity t = false -> twf t -> plane_tr f p = Ok pl -> twf pl ->
  exists a, local_plane f p = Ok a /\ twf a /\
    forall q, tr_pt a (tr_pt pl q) = tr_pt pl (tr_pt t q).
Proof.
  intros f p t pl L N W E W'. unfold local_plane. rewrite L. cbn [opt_tr]. rewrite N, E. cbn [bind].
  eexists. split; [reflexivity|]. split; [repeat apply tr_mul_twf; try apply tr_inv_twf; assumption|].
  intros q. rewrite !tr_mul_pt by (repeat apply tr_mul_twf; try apply tr_inv_twf; assumption).
  now rewrite tr_inv_l.
Qed.
Print Assumptions C157_displacement_at_plane.

Lemma last_rev {A} : forall (l : list A) x, hd_error (rev (x :: l)) = Some (last l x).
Proof.
  induction l as [|y l IH] using rev_ind; intros x; [reflexivity|].
  rewrite last_last. cbn [rev]. rewrite rev_app_distr. reflexivity.
Qed.
Lemma is_boundary_edge : forall q p k, is_boundary q p k = true <-> edge_of q p k.
Proof.
  intros [i s t g|i s t om l c subs] p k; cbn [is_boundary edge_of]; [split; [discriminate|contradiction]|].
  destruct p, subs as [|x subs]; try (cbn; split; discriminate).
  - cbn. rewrite Nat.eqb_eq. split; congruence.
  - rewrite last_rev. cbn [option_map]. rewrite Nat.eqb_eq. split; congruence.
Qed.

(* The transformation at a plane of a frame is that of all frames that begin
   (end) there, the innermost last. *)
Theorem C157_coinciding_planes : forall p f up l ts, coinciding p f up l ->
  Forall2 (fun x t => local_plane x p = Ok t /\ twf t) l ts ->
  exists t, boundary_tr f up p = Ok t /\ forall q, tr_pt t q = fold_right tr_pt q ts.
Proof.
  intros p f up l ts H. revert ts.
  assert (I1 : forall q, tr_pt tr_id q = q) by (intros q; apply vec3_eq; cbn; ring).
  assert (G : forall ts, Forall2 (fun x t => local_plane x p = Ok t /\ twf t) l ts ->
     exists t, boundary_tr f up p = Ok t /\ twf t /\ forall q, tr_pt t q = fold_right tr_pt q ts).
  { induction H as [f|f q up N|f q up l N H IH]; intros ts F.
    - inversion F; subst. exists tr_id. repeat split; auto.
    - inversion F as [|? t ? ts' [F1 F2] F3]; subst. inversion F3; subst. cbn [boundary_tr]. rewrite F1. cbn [bind].
      destruct (is_boundary q p (fident f)) eqn:E; [apply is_boundary_edge in E; contradiction|].
      exists t. repeat split; auto.
    - inversion F as [|? t ? ts' [F1 F2] F3]; subst. cbn [boundary_tr]. rewrite F1. cbn [bind].
      rewrite (proj2 (is_boundary_edge q p (fident f)) N).
      destruct (IH ts' F3) as (t' & T1 & T2 & T3). rewrite T1. cbn [bind].
      eexists. split; [reflexivity|]. split; [now apply tr_mul_twf|].
      intros x. rewrite tr_mul_pt by assumption. cbn [fold_right]. now rewrite T3. }
  intros ts F. destruct (G ts F) as (t & T1 & _ & T2). eauto.
Qed.
Print Assumptions C157_coinciding_planes.
Definition moved_leaf : frame := Leaf 3 0 (Some (tr_translation 1 0 0)) (GRect 2).
Definition moved_seq : frame := Seq 2 0 (Some (tr_translation 0 1 0)) AtEntrance 2 (Some (tr_id, tr_translation 0 0 2)) [moved_leaf].
Example C67_coinciding_ex :
  exists ts, coinciding Exit moved_leaf [moved_seq; new_seq 0 AtCenter] [moved_leaf; moved_seq] /\
    Forall2 (fun x t => local_plane x Exit = Ok t /\ twf t) [moved_leaf; moved_seq] ts /\
    fold_right tr_pt (mkv 0 0 0) ts = mkv (-1) (-1) 0.
Proof.
  assert (T1 : tr_is_identity (tr_translation 1 0 0) = false /\ tr_is_identity (tr_translation 0 1 0) = false).
  { pose proof eps_small. assert (K : fequal 1 0 = false).
    { destruct (fequal_spec 1 0) as [K|K]; [|reflexivity]. exfalso. rewrite Rminus_0_r, Rabs_pos_eq in K; lra. }
    unfold tr_is_identity, vzero. cbn. rewrite K. rewrite !andb_false_r. auto. }
  destruct T1 as [T1 T2].
  eexists. split; [|split].
  - apply co_edge; [reflexivity|]. apply co_inner. discriminate.
  - constructor; [|constructor; [|constructor]].
    + unfold local_plane, moved_leaf. cbn [floc opt_tr]. rewrite T1. cbn [plane_tr bind]. split; [reflexivity|exact I].
    + unfold local_plane, moved_seq. cbn [floc opt_tr]. rewrite T2. cbn [plane_tr bind]. split; [reflexivity|exact I].
  - cbn. apply vec3_eq; cbn; lra.
Qed.

(* The place of a frame in the hall: its displacement, then the way through the
   geometry to the origin of the enclosing frame, then that frame's place. *)
Inductive placed : frame -> list frame -> (vec3 -> vec3) -> Prop :=
| pl_root f : placed f [] (tr_pt (opt_tr (floc f)))
| pl_in f q up t h : gtr q 0 (fpos f) = Ok t -> twf t -> placed q up h ->
    placed f (q :: up) (fun p => tr_pt (opt_tr (floc f)) (tr_pt t (h p))).
Theorem C156_physical : forall f up h, placed f up h ->
  Forall (fun x => twf (opt_tr (floc x))) (f :: up) ->
  exists t, physical_tr f up = Ok t /\ forall p, tr_pt t p = h p.
Proof.
  intros f up h H F.
  assert (G : exists t, physical_tr f up = Ok t /\ twf t /\ forall p, tr_pt t p = h p).
  { induction H as [f|f q up t h E W H IH]; cbn [physical_tr].
    - inversion F; subst. eexists. split; [reflexivity|]. auto.
    - inversion F; subst. destruct (IH H3) as (t' & T1 & T2 & T3). rewrite E. cbn [bind]. rewrite T1. cbn [bind].
      eexists. split; [reflexivity|]. split; [repeat apply tr_mul_twf; assumption|].
      intros p. rewrite !tr_mul_pt by (repeat apply tr_mul_twf; assumption). now rewrite T3. }
  destruct G as (t & T1 & _ & T3). eauto.
Qed.
Print Assumptions C156_physical.
Example C66_physical_ex : exists h,
  placed (Leaf 3 1 (Some (tr_translation 1 0 0)) (GRect 2)) [append_frame (new_seq 1 AtEntrance) (new_leaf 3 (GRect 2))] h /\
  h (mkv 0 0 0) = mkv (-1) 0 (-1).
Proof.
  pose proof eps_small as ES. pose proof eps_pos as EP.
  set (q := append_frame (new_seq 1 AtEntrance) (new_leaf 3 (GRect 2))).
  assert (B : built q) by (apply (built_append 1 0 None AtEntrance 0 None []); constructor).
  assert (P : Forall plain (leaves q)) by (constructor; [right; lra|constructor]).
  assert (CL : clear (leaves q) 1 /\ clear (leaves q) 0).
  { split; intros [|k]; cbn; rewrite ?firstn_nil; cbn.
    - right. rewrite Rminus_0_r, Rabs_pos_eq; lra.
    - right. rewrite Rabs_left; lra.
    - now left.
    - right. rewrite Rabs_left; lra. }
  destruct CL as [C1 C0].
  destruct (gtr_all_ok q (built_ok q B P) 0 1) as (t & E & W & M); try lra; try assumption.
  { cbn. lra. }
  change (fst (fextent q)) with 0 in E. rewrite !Rplus_0_l in E.
  eexists. split.
  - apply pl_in with (t := t); [exact E|exact W|apply pl_root].
  - cbv beta. cbn [floc opt_tr].
    assert (I1 : forall x, tr_pt tr_id x = x) by (intros x; apply vec3_eq; cbn; ring).
    change (floc q) with (@None tr3). cbn [opt_tr]. rewrite I1.
    specialize (M (mkv 0 0 0)). cbn [leaves q append_frame new_seq new_leaf flat_map app walk geom_length] in M.
    rewrite !Rleb_true in M by lra. cbn [leaf_walk] in M.
    replace (mkv 0 0 0) with (mkv 0 0 (0 - 0)) at 1 by (f_equal; ring).
    cbn in M |- *.
    match type of M with tr_pt t ?a = ?b => replace a with (mkv 0 0 (0 - 0)) in M; [rewrite M|] end;
      apply vec3_eq; cbn; lra.
Qed.

(* A component answers for positions inside its extent and refuses all others. *)
Definition inside_extent (g : geom) (s : R) : Prop := fst (geom_extent g) <= s <= snd (geom_extent g).
Theorem C156_extent : forall g s0 s, g <> GNone -> (forall t, g <> GPatch t) ->
  (inside_extent g s0 /\ inside_extent g s -> exists t, leaf_tr g s0 s = Ok t) /\
  (~ (inside_extent g s0 /\ inside_extent g s) -> leaf_tr g s0 s = Throw BeyondExtent).
Proof.
  intros g s0 s N1 N2. unfold inside_extent.
  assert (B : forall len, (in_bounds len s s0 = true /\ (- (len / 2) <= s0 <= len / 2 /\ - (len / 2) <= s <= len / 2)) \/
                     (in_bounds len s s0 = false /\ ~ (- (len / 2) <= s0 <= len / 2 /\ - (len / 2) <= s <= len / 2))).
  { intros len. unfold in_bounds. destruct (Rltb_spec (len / 2) (Rabs s)) as [A|A], (Rltb_spec (len / 2) (Rabs s0)) as [A'|A'];
      cbn; unfold Rabs in *; destruct (Rcase_abs s), (Rcase_abs s0); [right..|left|left|left|left]; (split; [reflexivity|lra]). }
  destruct g as [l|l h|t|]; [| |now elim (N2 t)|now elim N1]; cbn [geom_extent fst snd leaf_tr];
    destruct (B l) as [[-> D] | [-> D]]; split; intros H; eauto; try tauto.
Qed.
Print Assumptions C156_extent.
Example C66_extent_ex : (exists t, leaf_tr (GRect 2) (-1) (1/2) = Ok t) /\ leaf_tr (GRect 2) (-1) (3/2) = Throw BeyondExtent /\
  leaf_tr (GRect 2) (3/2) 0 = Throw BeyondExtent.
Proof.
  split; [|split].
  - apply C156_extent; try easy; unfold inside_extent; cbn; lra.
  - apply C156_extent; try easy; unfold inside_extent; cbn; lra.
  - apply C156_extent; try easy; unfold inside_extent; cbn; lra.
Qed.
