(* Apertures of drifts from a table along the machine.  Properties C330-C337. *)
From Verif Require Import RBase Aper AperSpec AperProps ApConf ApConfSpec ApConfProps.
From Coq Require Import String List Lia Lra.
Import ListNotations.
Local Open Scope string_scope.
Local Open Scope list_scope.
Local Open Scope R_scope.

(** ** the rows taken for a drift *)
Lemma gather_inner t0 b m n v : (forall q, In q m -> a_s q <= b) -> b < a_s n -> gather t0 b (m ++ n :: v) = m ++ [n].
Proof.
  induction m as [|r m IH]; intros M N; cbn [app gather].
  - now rewrite Rleb_false by lra.
  - rewrite Rleb_true by (apply M; now left). rewrite IH; auto. intros q Q. apply M. now right.
Qed.
Lemma gather_end t0 b m : (forall q, In q m -> a_s q <= b) -> gather t0 b m = m ++ [t0].
Proof.
  induction m as [|r m IH]; intros M; cbn [app gather]; [reflexivity|].
  rewrite Rleb_true by (apply M; now left). rewrite IH; auto. intros q Q. apply M. now right.
Qed.
Lemma skipn_len {A} (u v : list A) : skipn (List.length u) (u ++ v) = v.
Proof. induction u; cbn; auto. Qed.
Lemma nth_len {A} (u : list A) x v : nth_error (u ++ x :: v) (List.length u) = Some x.
Proof. induction u; cbn; auto. Qed.
Lemma collected t p len b m n : ordered t -> around t p len b m n -> collect t p len = Ok (b :: m ++ [n]).
Proof.
  intros O ((u & v & ->) & B & M & N & L). unfold collect.
  assert (LB : lower_bound p (u ++ b :: m ++ n :: v) = Ok (List.length (u ++ [b]))).
  { pose proof O as O'. apply ordered_app in O'. destruct O' as (_ & O1 & O2). inversion O1 as [|x l O3 O4]; subst.
    assert (U : forall q, In q (u ++ [b]) -> a_s q < p). { intros q Q. apply in_app_or in Q. destruct Q as [Q|[<-|[]]]; [|exact B]. specialize (O2 q b Q (or_introl eq_refl)). lra. }
    assert (V : forall q, In q (m ++ n :: v) -> p <= a_s q).
    { apply ordered_app in O4. destruct O4 as (_ & O5 & _). inversion O5 as [|x l O6 O7]; subst. intros q Q. apply in_app_or in Q. destruct Q as [Q|[<-|Q]]; [apply M in Q; lra|lra|apply O6 in Q; lra]. }
    replace (u ++ b :: m ++ n :: v) with ((u ++ [b]) ++ m ++ n :: v) by (now rewrite <- app_assoc). destruct m as [|c m]; cbn [app]; apply lower_found; auto.
    - lra.
    - intros q Q. apply V. now right.
    - apply V. now left.
    - intros q Q. apply V. now right. }
  rewrite LB. cbn [bind]. replace (Nat.eqb (List.length (u ++ [b])) (List.length (u ++ b :: m ++ n :: v))) with false.
  2: { symmetry. apply PeanoNat.Nat.eqb_neq. rewrite !app_length. cbn [List.length]. rewrite app_length. cbn [List.length]. lia. }
  assert (T0 : exists t0, row_at (u ++ b :: m ++ n :: v) 0 = Ok t0) by (destruct u; cbn; eauto). destruct T0 as (t0 & ->). cbn [bind].
  rewrite app_length. cbn [List.length]. rewrite PeanoNat.Nat.add_1_r. unfold row_at at 1. rewrite nth_len. cbn [bind].
  replace (skipn (Datatypes.S (List.length u)) (u ++ b :: m ++ n :: v)) with (m ++ n :: v).
  - rewrite gather_inner; [reflexivity| |exact N]. intros q Q. apply M in Q. lra.
  - replace (u ++ b :: m ++ n :: v) with ((u ++ [b]) ++ m ++ n :: v) by (now rewrite <- app_assoc). replace (Datatypes.S (List.length u)) with (List.length (u ++ [b])) by (rewrite app_length; cbn; lia). now rewrite skipn_len.
Qed.
Lemma tol_small : 0 < / 10 ^ 7.
Proof. apply Rinv_0_lt_compat. apply pow_lt. lra. Qed.
Lemma near_apart tol p r : 0 < tol -> tol <= 5 * / 10 ^ 7 -> apart p r -> near tol p r = true <-> a_s r = p.
Proof.
  intros T0 T A. unfold near. rewrite rleb_iff. replace (a_s r - p - 0) with (a_s r - p) by ring. destruct A as [A|A]; split; intros H; auto; try lra.
  - rewrite A, Rminus_diag_eq by reflexivity. rewrite Rabs_R0. lra.
  - rewrite H, Rminus_diag_eq in A by reflexivity. rewrite Rabs_R0 in A. pose proof tol_small. lra.
Qed.
Lemma snap_apart tol p r : 0 < tol -> tol <= 5 * / 10 ^ 7 -> apart p r -> snap tol p r = r.
Proof.
  intros T0 T A. unfold snap. destruct (near tol p r) eqn:N; [|reflexivity]. apply near_apart in N; auto. destruct r. cbn in *. unfold at_s. cbn. congruence.
Qed.
Lemma snap_all p l : (forall q, In q l -> apart p q) -> map (snap (/ 10 ^ 7) p) l = l.
Proof.
  pose proof tol_small. induction l as [|r l IH]; intros A; cbn [map]; [reflexivity|]. rewrite snap_apart; [|lra|lra|apply A; now left]. rewrite IH; auto. intros q Q. apply A. now right.
Qed.
Lemma neg_none p l : (forall q, In q l -> p <= a_s q) -> neg_count p l = O.
Proof. induction l as [|r l IH]; intros H; cbn [neg_count]; [reflexivity|]. rewrite Rltb_false by (specialize (H r (or_introl eq_refl)); lra). apply IH. intros q Q. apply H. now right. Qed.
Lemma exists_at p l : (forall q, In q l -> apart p q) -> existsb (near (/ 10 ^ 7) p) l = true <-> exists q, In q l /\ a_s q = p.
Proof.
  intros A. rewrite existsb_exists. pose proof tol_small. split; intros (q & Q & E); exists q; (split; [exact Q|]); apply (near_apart (/ 10 ^ 7) p q); auto; lra.
Qed.
Lemma cleaned p len b m n : a_s b < p -> (forall q, In q m -> p <= a_s q <= p + len) -> p + len < a_s n -> 0 <= len -> (forall q, In q (b :: m ++ [n]) -> apart p q) ->
  exists l, clean p (b :: m ++ [n]) = Ok l /\ kept p b m n l.
Proof.
  intros B M N L A. pose proof tol_small as TS. unfold clean, clean_rows. rewrite snap_all by exact A. cbn [neg_count]. rewrite Rltb_true by lra.
  rewrite neg_none. 2: { intros q Q. apply in_app_or in Q. destruct Q as [Q|[<-|[]]]; [apply M in Q; lra|lra]. }
  destruct (existsb (near (/ 10 ^ 7) p) (b :: m ++ [n])) eqn:E; cbn [skipn Nat.pred].
  - apply exists_at in E; auto. destruct E as (q & [<-|Q] & QS); [lra|]. apply in_app_or in Q. destruct Q as [Q|[<-|[]]]; [|lra]. exists (m ++ [n]). split; [|left; eauto].
    destruct m as [|c m]; [destruct Q|]. cbn [app]. rewrite snap_apart; [reflexivity|lra|lra|apply A; right; now left].
  - exists (b :: m ++ [n]). split; [rewrite snap_apart; [reflexivity|lra|lra|apply A; now left]|]. right. split; [|reflexivity]. intros q Q QS.
    assert (X : existsb (near (/ 10 ^ 7) p) (b :: m ++ [n]) = true) by (apply exists_at; auto; exists q; split; auto; right; apply in_or_app; now left). congruence.
Qed.
Lemma drift_found t e b m n : ordered t -> c_type e = "Drift" -> around t (c_pos e) (c_len e) b m n -> (forall q, In q (b :: m ++ [n]) -> apart (c_pos e) q) ->
  exists l, kept (c_pos e) b m n l /\ find_ap t e = build (c_pos e) l.
Proof.
  intros O D AR A. unfold find_ap. rewrite D. cbn [String.eqb Ascii.eqb Bool.eqb negb]. rewrite (collected _ _ _ _ _ _ O AR). cbn [bind]. destruct AR as (_ & B & M & N & L).
  destruct (cleaned _ _ _ _ _ B M N L A) as (l & -> & K). cbn [bind]. eauto.
Qed.

(** ** C330: a drift with the same entries before, along and behind it gets that aperture *)
Lemma same_dims_iff r q : same_dims r q = true <-> alike r q.
Proof.
  unfold same_dims, alike. rewrite !andb_true_iff. destruct (Reqb_spec (a_1 r) (a_1 q)), (Reqb_spec (a_2 r) (a_2 q)), (Reqb_spec (a_3 r) (a_3 q)), (Reqb_spec (a_4 r) (a_4 q));
    split; intros H; try (decompose [and] H; try discriminate; congruence); repeat split; auto.
Qed.
Lemma kept_in p b m n l : kept p b m n l -> (forall q, In q l -> In q (b :: m ++ [n])) /\ l <> [].
Proof. intros [((q & Q & _) & ->)|(_ & ->)]; (split; [|try discriminate]); auto. - intros x X. now right. - destruct m; discriminate. Qed.
Theorem C330_uniform t e b m n : ordered t -> c_type e = "Drift" -> around t (c_pos e) (c_len e) b m n -> (forall q, In q (b :: m ++ [n]) -> apart (c_pos e) q) ->
  (forall q, In q (m ++ [n]) -> alike b q /\ a_t q = a_t b) -> exists a, find_ap t e = Ok a /\ describes b a.
Proof.
  intros O D AR A U. destruct (drift_found t e b m n O D AR A) as (l & K & ->). apply kept_in in K. destruct K as (K & NE). destruct l as [|r l]; [contradiction|]. unfold build.
  assert (UB : forall q, In q (r :: l) -> alike b q /\ a_t q = a_t b). { intros q Q. destruct (K q Q) as [<-|X]; [unfold alike; auto|auto]. }
  replace (forallb (same_dims r) (r :: l)) with true.
  - exists (plain_of r). split; [reflexivity|]. destruct (UB r (or_introl eq_refl)) as ((E1 & E2 & E3 & E4) & E). unfold describes, plain_of. now rewrite E, E1, E2, E3, E4.
  - symmetry. apply forallb_forall. intros q Q. apply same_dims_iff. destruct (UB q Q) as ((E1 & E2 & E3 & E4) & _). destruct (UB r (or_introl eq_refl)) as ((F1 & F2 & F3 & F4) & _). unfold alike. repeat split; congruence.
Qed.
Print Assumptions C330_uniform.
Definition drift (p l : R) : elem := mkE "Drift" l p None.
Ltac all_in := let q := fresh "q" in let Q := fresh "Q" in intros q Q; cbn [In app] in Q; repeat (destruct Q as [<-|Q]; [|]); [..|destruct Q].
Lemma apart_gap p r : 0.001 <= Rabs (a_s r - p) -> apart p r.
Proof. intros H. right. eapply Rlt_le_trans; [|exact H]. apply (Rmult_lt_reg_r (10 ^ 7)); [apply pow_lt; lra|]. rewrite Rmult_assoc, Rinv_l by (apply pow_nonzero; lra). lra. Qed.
Lemma apart_below p r : a_s r <= p - 0.001 -> apart p r.
Proof. intros H. apply apart_gap. rewrite Rabs_left; lra. Qed.
Lemma apart_above p r : p + 0.001 <= a_s r -> apart p r.
Proof. intros H. apply apart_gap. rewrite Rabs_right; lra. Qed.
Example C330_example : let t := [circ 0 0.1; circ 1 0.1; circ 3 0.1; circ 4 0.1] in
  ordered t /\ around t 1 2 (circ 0 0.1) [circ 1 0.1; circ 3 0.1] (circ 4 0.1) /\ (forall q, In q t -> apart 1 q).
Proof.
  split; [|split].
  - repeat (constructor; [intros q Q; cbn in Q; repeat (destruct Q as [<-|Q]; [cbn; lra|]); destruct Q|]). constructor.
  - split; [exists [], []; reflexivity|]. cbn. repeat split; try lra; destruct H as [<-|[<-|[]]]; cbn; lra.
  - all_in; [apply apart_below; cbn; lra|left; reflexivity|apply apart_above; cbn; lra|apply apart_above; cbn; lra].
Qed.

(** ** C331: a drift between entries of changing size is interpolated: the entries are the last
    one before it (when there is none at its beginning), those along it and the next one *)
Theorem C331_entries t e b m n k : ordered t -> c_type e = "Drift" -> around t (c_pos e) (c_len e) b m n -> (forall q, In q (b :: m ++ [n]) -> apart (c_pos e) q) ->
  (forall q, In q (m ++ [n]) -> a_t q = a_t b) -> itype_of (a_t b) = Some k ->
  exists l, kept (c_pos e) b m n l /\ ((exists r q, In r l /\ In q l /\ ~ alike r q) ->
    find_ap t e = Ok (Some (Interp k (map (fun q => AE (a_s q - c_pos e) (a_1 q) (a_2 q) (a_3 q) (a_4 q)) l)))).
Proof.
  intros O D AR A U IT. destruct (drift_found t e b m n O D AR A) as (l & K & ->). exists l. split; [exact K|]. intros (x & y & X & Y & DF). pose proof K as K'. apply kept_in in K'. destruct K' as (KI & NE).
  destruct l as [|r l]; [contradiction|]. unfold build. assert (TY : forall q, In q (r :: l) -> a_t q = a_t b). { intros q Q. destruct (KI q Q) as [<-|Z]; auto. }
  replace (forallb (same_dims r) (r :: l)) with false.
  - replace (forallb (fun q => String.eqb (a_t r) (a_t q)) (r :: l)) with true.
    + unfold interp_of. cbn [map]. cbn [at_s a_t]. rewrite (TY r (or_introl eq_refl)), IT. cbn [option_map]. do 4 f_equal. rewrite map_map. reflexivity.
    + symmetry. apply forallb_forall. intros q Q. rewrite (TY q Q), (TY r (or_introl eq_refl)). apply String.eqb_refl.
  - symmetry. destruct (forallb (same_dims r) (r :: l)) eqn:F; [|reflexivity]. exfalso. rewrite forallb_forall in F. apply DF. apply F, same_dims_iff in X. apply F, same_dims_iff in Y.
    destruct X as (? & ? & ? & ?), Y as (? & ? & ? & ?). unfold alike. repeat split; congruence.
Qed.
Print Assumptions C331_entries.

(** ** C332: inside a drift between round entries the pipe is a disc whose radius is the linear
    interpolation between the two entries around the place *)
Lemma locate_ordered z l : forall back, (exists e, In e l /\ z <= es e) -> es back < z ->
  exists u b f v, back :: l = u ++ b :: f :: v /\ locate z back l = Some (b, f) /\ es b < z <= es f.
Proof.
  induction l as [|f l IH]; intros back (e & E & Z) B; [destruct E|]. cbn [locate]. destruct (Rleb_spec z (es f)) as [L|L].
  - exists [], back, f, l. repeat split; auto; lra.
  - destruct (IH f) as (u & b & g & v & -> & LO & BZ); [destruct E as [<-|E]; [lra|eauto]|lra|]. exists (back :: u), b, g, v. auto.
Qed.
Definition shifted (p : R) (q : arow) : entry := AE (a_s q - p) (a_1 q) (a_2 q) (a_3 q) (a_4 q).
Lemma map_split {A B} (f : A -> B) l : forall u v, map f l = u ++ v -> exists u' v', l = u' ++ v' /\ map f u' = u /\ map f v' = v.
Proof.
  induction l as [|x l IH]; intros u v H; cbn [map] in H.
  - destruct u; [|discriminate]. exists [], []. repeat split; auto.
  - destruct u as [|y u]; cbn [app] in H; [exists [], (x :: l); repeat split; auto|]. injection H as <- H. destruct (IH _ _ H) as (u' & v' & -> & <- & <-). exists (x :: u'), v'. auto.
Qed.
Lemma between_mid s0 v0 s1 v1 z : s0 < z <= s1 -> between s0 v0 s1 v1 z ((v1 - v0) / (s1 - s0) * z + (v1 - (v1 - v0) / (s1 - s0) * s1)).
Proof.
  intros H. exists ((z - s0) / (s1 - s0)). assert (0 < s1 - s0) by lra. split; [|split; field; lra]. split.
  - apply Rmult_le_pos; [lra|]. left. now apply Rinv_0_lt_compat.
  - apply (Rmult_le_reg_r (s1 - s0)); [lra|]. unfold Rdiv. rewrite Rmult_assoc, Rinv_l by lra. lra.
Qed.
Lemma circle_value p l z : (forall q, In q l -> 0 < a_1 q) -> 0 < z -> (exists r l', l = r :: l' /\ a_s r < p + z /\ exists q, In q l' /\ p + z <= a_s q) ->
  exists u b f v rr, l = u ++ b :: f :: v /\ a_s b < p + z <= a_s f /\ between (a_s b) (a_1 b) (a_s f) (a_1 f) (p + z) rr /\
    forall x y, exists ok, within_interpolated ICircle (map (shifted p) l) x y z = Ok ok /\ (ok = true <-> disc rr x y).
Proof.
  intros P Z (r & l' & -> & R0 & q & Q & QZ). destruct (locate_ordered z (map (shifted p) l') (shifted p r)) as (u & b & f & v & E & LO & BZ).
  { exists (shifted p q). split; [now apply in_map|]. cbn. lra. } { cbn. lra. }
  change (shifted p r :: map (shifted p) l') with (map (shifted p) (r :: l')) in E. apply map_split in E. destruct E as (u' & w & E & <- & Ew). destruct w as [|b' [|f' w]]; try discriminate.
  cbn [map] in Ew. injection Ew as <- <- <-. cbn [shifted es] in BZ. assert (BI : In b' (r :: l')) by (rewrite E; apply in_or_app; right; now left).
  assert (FI : In f' (r :: l')) by (rewrite E; apply in_or_app; right; right; now left). pose proof (P _ BI) as PB. pose proof (P _ FI) as PF.
  pose proof (between_mid (a_s b') (a_1 b') (a_s f') (a_1 f') (p + z) ltac:(lra)) as BT. set (rr := (a_1 f' - a_1 b') / _ * _ + _) in BT.
  exists u', b', f', w, rr. split; [exact E|]. split; [lra|]. split; [exact BT|]. intros x y. cbn [within_interpolated]. unfold within_circle. rewrite clamp by lra. cbn [map find_pair]. rewrite LO.
  cbn [shifted e1]. destruct (Rltb_spec (Rabs x + Rabs y) (Rmin (a_1 f') (a_1 b'))) as [D|D].
  - exists true. split; [reflexivity|]. split; [|reflexivity]. intros _. apply diamond_disc. apply between_min in BT. rewrite Rmin_comm in D. lra.
  - rewrite !Reqb_false by lra. cbn [orb]. unfold onto. cbn [shifted es e1]. rewrite Reqb_false by lra. replace ((a_1 f' - a_1 b') / (a_s f' - p - (a_s b' - p)) * z + (a_1 f' - (a_1 f' - a_1 b') / (a_s f' - p - (a_s b' - p)) * (a_s f' - p))) with rr by (unfold rr; field; lra).
    eexists. split; [reflexivity|]. apply rltb_iff.
Qed.
Lemma around_pair t p len b m n l u x y v : around t p len b m n -> kept p b m n l -> l = u ++ x :: y :: v -> exists u' v', t = u' ++ x :: y :: v'.
Proof.
  intros ((u0 & v0 & ->) & _) K E. destruct K as [(_ & K)|(_ & K)]; rewrite K in E.
  - exists (u0 ++ b :: u), (v ++ v0). replace (u0 ++ b :: m ++ n :: v0) with (u0 ++ b :: (m ++ [n]) ++ v0) by (now rewrite <- app_assoc). rewrite E, <- !app_assoc. reflexivity.
  - exists (u0 ++ u), (v ++ v0). replace (u0 ++ b :: m ++ n :: v0) with (u0 ++ (b :: m ++ [n]) ++ v0) by (cbn; now rewrite <- app_assoc). rewrite E, <- !app_assoc. reflexivity.
Qed.
Theorem C332_circle t e b m n z : ordered t -> c_type e = "Drift" -> around t (c_pos e) (c_len e) b m n -> (forall q, In q (b :: m ++ [n]) -> apart (c_pos e) q) ->
  (forall q, In q (b :: m ++ [n]) -> a_t q = "CIRCLE" /\ 0 < a_1 q /\ a_3 q = 0) -> 0 < z <= c_len e ->
  exists a rr, find_ap t e = Ok (Some a) /\
    (exists u x y v, t = u ++ x :: y :: v /\ a_s x < c_pos e + z <= a_s y /\ between (a_s x) (a_1 x) (a_s y) (a_1 y) (c_pos e + z) rr) /\
    forall x y, exists ok, tests a x y z ok /\ (ok = true <-> disc rr x y).
Proof.
  intros O D AR A C Z. pose proof AR as (_ & B & M & N & L).
  assert (CB := C b (or_introl eq_refl)). assert (TY : forall q, In q (m ++ [n]) -> a_t q = a_t b) by (intros q Q; rewrite (proj1 CB); apply C; now right).
  destruct (C331_entries t e b m n ICircle O D AR A TY) as (l & K & F); [now rewrite (proj1 CB)|]. destruct (kept_in _ _ _ _ _ K) as (KI & NE).
  assert (SH : exists r l', l = r :: l' /\ a_s r < c_pos e + z /\ exists q, In q l' /\ c_pos e + z <= a_s q).
  { destruct K as [((q & Q & QP) & K)|(_ & K)].
    - destruct m as [|c m]; [destruct Q|]. exists c, (m ++ [n]). split; [exact K|]. split; [|exists n; split; [apply in_or_app; right; now left|lra]].
      destruct Q as [->|Q]; [lra|]. destruct AR as ((u0 & v0 & ->) & _). apply ordered_app in O. destruct O as (_ & O & _). inversion O as [|? ? _ O1]; subst. cbn [app] in O1. inversion O1 as [|? ? O2 _]; subst.
      specialize (O2 q). rewrite QP in O2. assert (a_s c <= c_pos e) by (apply O2, in_or_app; now left). lra.
    - exists b, (m ++ [n]). split; [exact K|]. split; [lra|]. exists n. split; [apply in_or_app; right; now left|lra]. }
  destruct (circle_value (c_pos e) l z) as (u & x & y & v & rr & E & XY & BT & W); [intros q Q; apply C, KI, Q|lra|exact SH|].
  destruct (around_pair _ _ _ _ _ _ _ _ _ _ _ AR K E) as (u' & v' & ET).
  destruct l as [|r l]; [contradiction|]. destruct (forallb (same_dims r) (r :: l)) eqn:SD.
  - (* all alike *)
    rewrite forallb_forall in SD. assert (XI : In x (r :: l)) by (rewrite E; apply in_or_app; right; now left). assert (YI : In y (r :: l)) by (rewrite E; apply in_or_app; right; right; now left).
    assert (SX := proj1 (same_dims_iff r x) (SD x XI)). assert (SY := proj1 (same_dims_iff r y) (SD y YI)).
    assert (RR : rr = a_1 r). { destruct SX as (SX & _), SY as (SY & _). rewrite SX, SY in BT. destruct BT as (tt & _ & _ & ->). ring. }
    exists (Plain (Circle (a_1 r))), rr. split.
    + destruct (drift_found t e b m n O D AR A) as (l2 & K2 & ->). assert (l2 = r :: l).
      { destruct K as [(K1 & K3)|(K1 & K3)], K2 as [(K2 & K4)|(K2 & K4)]; try congruence; exfalso. - destruct K1 as (q & Q & QP). exact (K2 q Q QP). - destruct K2 as (q & Q & QP). exact (K1 q Q QP). }
      subst l2. unfold build. rewrite (proj2 (forallb_forall _ _) SD). unfold plain_of. assert (CR := C r (KI r (or_introl eq_refl))). destruct CR as (-> & _ & ->).
      unfold make_aperture. cbn. now rewrite Reqb_true by reflexivity.
    + split; [exists u', x, y, v'; auto|]. intros x0 y0. exists (within (Circle (a_1 r)) x0 y0). split; [reflexivity|]. rewrite RR. apply C37_circle.
  - exists (Interp ICircle (map (shifted (c_pos e)) (r :: l))), rr. split.
    + apply F. assert (NA : ~ forall q, In q (r :: l) -> same_dims r q = true) by (intros X; rewrite (proj2 (forallb_forall _ _) X) in SD; discriminate).
      exists r. assert (EX : existsb (fun q => negb (same_dims r q)) (r :: l) = true).
      { destruct (existsb (fun q => negb (same_dims r q)) (r :: l)) eqn:X; [reflexivity|]. exfalso. apply NA. intros q Q. destruct (same_dims r q) eqn:S; [reflexivity|]. exfalso.
        assert (existsb (fun q => negb (same_dims r q)) (r :: l) = true) by (apply existsb_exists; exists q; rewrite S; auto). congruence. }
      apply existsb_exists in EX. destruct EX as (q & Q & S). exists q. split; [now left|]. split; [exact Q|]. intros AL. apply same_dims_iff in AL. rewrite AL in S. discriminate.
    + split; [exists u', x, y, v'; auto|]. intros x0 y0. destruct (W x0 y0) as (ok & W1 & W2). exists ok. split; [exact W1|exact W2].
Qed.
Print Assumptions C332_circle.
Example C332_example : exists a rr, find_ap [circ 0 0.1; circ 1 0.1; circ 3 0.2; circ 4 0.2] (drift 1 2) = Ok (Some a) /\ rr = 0.15 /\
  forall x y, exists ok, tests a x y 1 ok /\ (ok = true <-> disc rr x y).
Proof.
  destruct (C332_circle [circ 0 0.1; circ 1 0.1; circ 3 0.2; circ 4 0.2] (drift 1 2) (circ 0 0.1) [circ 1 0.1; circ 3 0.2] (circ 4 0.2) 1) as (a & rr & F & (u & x & y & v & E & XY & B) & T).
  - repeat (constructor; [intros q Q; cbn in Q; repeat (destruct Q as [<-|Q]; [cbn; lra|]); destruct Q|]). constructor.
  - reflexivity.
  - split; [exists [], []; reflexivity|]. cbn. repeat split; try lra; destruct H as [<-|[<-|[]]]; cbn; lra.
  - cbn [c_pos drift]. all_in; [apply apart_below; cbn; lra|left; reflexivity|apply apart_above; cbn; lra|apply apart_above; cbn; lra].
  - all_in; cbn; repeat split; lra.
  - cbn. lra.
  - exists a, rr. split; [exact F|]. split; [|exact T]. cbn [c_pos drift] in *.
    destruct u as [|? [|? [|? u]]]; cbn [app] in E; injection E; intros; subst; cbn [circ a_s a_1] in *; try lra.
    + destruct B as (tt & _ & ? & ->). lra.
    + destruct u as [|? [|? u]]; discriminate.
Qed.

(** ** C333: at the beginning of a drift the pipe is that of the entries there.  Refuted: with
    two entries there only a diamond is open *)
Theorem C333_refuted t e b c1 c2 m n x y : ordered t -> c_type e = "Drift" -> around t (c_pos e) (c_len e) b (c1 :: c2 :: m) n ->
  (forall q, In q (b :: (c1 :: c2 :: m) ++ [n]) -> apart (c_pos e) q) -> (forall q, In q ((c1 :: c2 :: m) ++ [n]) -> a_t q = "CIRCLE" /\ 0 < a_1 q) -> a_t b = "CIRCLE" ->
  a_s c1 = c_pos e -> a_s c2 = c_pos e -> (exists q, In q (m ++ [n]) /\ ~ alike c1 q) ->
  exists a, find_ap t e = Ok (Some a) /\ tests a x y 0 (Rltb (Rabs x + Rabs y) (Rmin (a_1 c1) (a_1 c2))).
Proof.
  intros O D AR A C CB P1 P2 (q & Q & NA). destruct (C331_entries t e b (c1 :: c2 :: m) n ICircle O D AR A) as (l & K & F); [intros r R; rewrite CB; now apply C|now rewrite CB|].
  destruct K as [(_ & ->)|(K & _)]; [|exfalso; exact (K c1 (or_introl eq_refl) P1)]. eexists. split; [apply F; exists c1, q; repeat split; [now left|right; right; exact Q|exact NA]|].
  cbn [tests within_interpolated app map]. unfold within_circle. rewrite clamp by lra. cbn [find_pair locate]. cbn [es]. rewrite Rleb_true by lra. cbn [e1].
  rewrite (Rmin_comm (a_1 c2)). destruct (Rltb_spec (Rabs x + Rabs y) (Rmin (a_1 c1) (a_1 c2))) as [H|H]; [reflexivity|].
  pose proof (proj2 (C c1 (or_introl eq_refl))). pose proof (proj2 (C c2 (or_intror (or_introl eq_refl)))). rewrite !Reqb_false by lra. cbn [orb]. unfold onto. cbn [es].
  now rewrite Reqb_true by lra.
Qed.
Print Assumptions C333_refuted.

(** ** C334: before the first entry the pipe is interpolated around the machine.  Refuted: it is
    extrapolated from the last and the first entry *)
Lemma last_row (r : arow) w : nth_error (w ++ [r]) (Nat.pred (List.length (w ++ [r]))) = Some r.
Proof. rewrite app_length. cbn [List.length]. rewrite PeanoNat.Nat.add_1_r. cbn [Nat.pred]. apply nth_len. Qed.
Lemma collected_first r0 w z p len : (forall q, In q (r0 :: w ++ [z]) -> p <= a_s q) -> exists g, collect (r0 :: w ++ [z]) p len = Ok (z :: r0 :: g) /\ forall q, In q g -> In q (r0 :: w ++ [z]).
Proof.
  intros H. unfold collect. cbn [lower_bound]. rewrite Rltb_false by (specialize (H r0 (or_introl eq_refl)); lra). rewrite (proj2 (none_below_spec p (w ++ [z]))) by (intros q Q; apply H; now right). cbn [bind].
  change (Nat.eqb 0 (List.length (r0 :: w ++ [z]))) with false. cbn iota. unfold row_at. cbn [nth_error bind]. change (r0 :: w ++ [z]) with ((r0 :: w) ++ [z]) at 1 2. rewrite last_row. cbn [bind skipn].
  cbn [gather]. assert (G : forall l t, (forall q, In q l -> In q (r0 :: t)) -> forall q, In q (gather r0 (p + len) l) -> In q (r0 :: t)).
  { induction l as [|x l IH]; intros t S q Q; cbn [gather] in Q; [destruct Q as [<-|[]]; now left|]. destruct (Rleb _ _); [destruct Q as [<-|Q]; [apply S; now left|apply IH; auto; intros y Y; apply S; now right]|].
    destruct Q as [<-|[]]. apply S. now left. }
  destruct (Rleb (a_s r0) (p + len)).
  - exists (gather r0 (p + len) (w ++ [z])). split; [reflexivity|]. apply G. intros q Q. now right.
  - exists []. split; [reflexivity|]. intros q [].
Qed.
Theorem C334_refuted r0 w zl e z : c_type e = "Drift" -> ordered (r0 :: w ++ [zl]) -> (forall q, In q (r0 :: w ++ [zl]) -> apart (c_pos e) q /\ a_t q = "CIRCLE") ->
  c_pos e < a_s r0 -> a_s r0 < a_s zl -> 0 < a_1 zl -> a_1 zl < a_1 r0 -> 0 < z -> c_pos e + z < a_s r0 ->
  exists a rr, find_ap (r0 :: w ++ [zl]) e = Ok (Some a) /\ a_1 r0 < rr /\ forall x y, exists ok, tests a x y z ok /\ (ok = true <-> disc rr x y).
Proof.
  intros D O A P0 PZ Z1 Z2 Z PZ0. pose proof tol_small as TS. assert (GE : forall q, In q (r0 :: w ++ [zl]) -> c_pos e <= a_s q). { inversion O as [|? ? O1 _]; subst. intros q [<-|Q]; [lra|]. apply O1 in Q. lra. }
  destruct (collected_first r0 w zl (c_pos e) (c_len e) GE) as (g & CO & GI). unfold find_ap. rewrite D. cbn [String.eqb Ascii.eqb Bool.eqb negb]. rewrite CO. cbn [bind].
  assert (AL : forall q, In q (zl :: r0 :: g) -> In q (r0 :: w ++ [zl])). { intros q [<-|[<-|Q]]; [right; apply in_or_app; right; now left|now left|auto]. }
  unfold clean, clean_rows. rewrite snap_all by (intros q Q; apply A, AL, Q). rewrite neg_none by (intros q Q; apply GE, AL, Q). cbn [Nat.pred skipn].
  assert (CL : (if existsb (near (/ 10 ^ 7) (c_pos e)) (zl :: r0 :: g) then zl :: r0 :: g else zl :: r0 :: g) = zl :: r0 :: g) by (destruct (existsb _ _); reflexivity). rewrite CL. cbn [bind].
  rewrite snap_apart; [|lra|lra|apply A, AL; now left]. unfold build. cbn [forallb].
  replace (same_dims zl r0) with false. 2: { symmetry. destruct (same_dims zl r0) eqn:S; [|reflexivity]. apply same_dims_iff in S. destruct S as (S & _). lra. }
  rewrite Bool.andb_false_r. change (String.eqb (a_t zl) (a_t zl) && (String.eqb (a_t zl) (a_t r0) && forallb (fun q => String.eqb (a_t zl) (a_t q)) g))%bool with (forallb (fun q => String.eqb (a_t zl) (a_t q)) (zl :: r0 :: g)).
  replace (forallb (fun q => String.eqb (a_t zl) (a_t q)) (zl :: r0 :: g)) with true.
  2: { symmetry. apply forallb_forall. intros q Q. rewrite (proj2 (A q (AL q Q))), (proj2 (A zl (AL zl (or_introl eq_refl)))). reflexivity. }
  unfold interp_of. cbn [map]. cbn [at_s a_t]. rewrite (proj2 (A zl (AL zl (or_introl eq_refl)))). cbn [itype_of String.eqb Ascii.eqb Bool.eqb option_map]. 
  set (rr := a_1 r0 + (a_1 r0 - a_1 zl) * (a_s r0 - (c_pos e + z)) / (a_s zl - a_s r0)).
  assert (RR : a_1 r0 < rr). { unfold rr. assert (0 < (a_1 r0 - a_1 zl) * (a_s r0 - (c_pos e + z)) / (a_s zl - a_s r0)); [|lra]. apply Rmult_lt_0_compat; [apply Rmult_lt_0_compat; lra|apply Rinv_0_lt_compat; lra]. }
  eexists. exists rr. split; [reflexivity|]. split; [exact RR|]. intros x y. cbn [tests within_interpolated]. unfold within_circle. rewrite clamp by lra. cbn [find_pair map locate entry_of es e1 at_s a_s a_1].
  rewrite Rleb_true by lra. cbn [entry_of es e1 at_s a_s a_1]. destruct (Rltb_spec (Rabs x + Rabs y) (Rmin (a_1 r0) (a_1 zl))) as [H|H].
  - exists true. split; [reflexivity|]. split; [|reflexivity]. intros _. apply diamond_disc. pose proof (Rmin_l (a_1 r0) (a_1 zl)). lra.
  - rewrite !Reqb_false by lra. cbn [orb]. unfold onto. cbn [entry_of es e1 at_s a_s a_1]. rewrite Reqb_false by lra. eexists. split; [reflexivity|]. 
    replace ((a_1 r0 - a_1 zl) / (a_s r0 - c_pos e - (a_s zl - c_pos e)) * z + (a_1 r0 - (a_1 r0 - a_1 zl) / (a_s r0 - c_pos e - (a_s zl - c_pos e)) * (a_s r0 - c_pos e))) with rr by (unfold rr; field; lra). apply rltb_iff.
Qed.
Print Assumptions C334_refuted.
Example C334_example : exists a rr, find_ap (circ 2 0.2 :: [] ++ [circ 10 0.1]) (drift 0 2) = Ok (Some a) /\ 0.2 < rr.
Proof.
  destruct (C334_refuted (circ 2 0.2) [] (circ 10 0.1) (drift 0 2) 1) as (a & rr & F & H & _); try reflexivity; try (cbn; lra).
  - constructor; [intros q [<-|[]]; cbn; lra|]. constructor; [intros q []|constructor].
  - all_in; (split; [apply apart_above; cbn; lra|reflexivity]).
  - exists a, rr. split; [exact F|exact H].
Qed.

(** ** C335: behind the last entry the pipe begins with that entry.  Refuted: such a drift gets
    the aperture of the first entry of the table, whatever the others are *)
Theorem C335_refuted u x y r0 e : c_type e = "Drift" -> 0 <= c_len e -> nth_error (u ++ [x; y]) 0 = Some r0 -> ordered (u ++ [x; y]) ->
  a_s x < c_pos e -> a_s y <= c_pos e -> a_s r0 < c_pos e -> (forall q, In q [x; y; r0] -> apart (c_pos e) q) -> exists a, find_ap (u ++ [x; y]) e = Ok a /\ describes r0 a.
Proof.
  intros D L E0 O X Y R0 A. pose proof tol_small as TS. exists (plain_of r0). split; [|reflexivity]. unfold find_ap. rewrite D. cbn [String.eqb Ascii.eqb Bool.eqb negb].
  assert (U : forall q, In q (u ++ [x]) -> a_s q < c_pos e). { intros q Q. apply in_app_or in Q. destruct Q as [Q|[<-|[]]]; [|lra]. apply ordered_app in O. destruct O as (_ & _ & O). specialize (O q x Q (or_introl eq_refl)). lra. }
  assert (CO : collect (u ++ [x; y]) (c_pos e) (c_len e) = Ok [x; y; r0]).
  { unfold collect. assert (LB : exists i, lower_bound (c_pos e) (u ++ [x; y]) = Ok i /\ (if Nat.eqb i (List.length (u ++ [x; y])) then Nat.pred i else i) = Datatypes.S (List.length u)).
    - assert (LE : List.length (u ++ [x; y]) = Datatypes.S (Datatypes.S (List.length u))) by (rewrite app_length; cbn; lia). destruct (Req_dec (a_s y) (c_pos e)) as [EY|EY].
      + exists (List.length (u ++ [x])). split. * replace (u ++ [x; y]) with ((u ++ [x]) ++ [y]) by (now rewrite <- app_assoc). apply lower_found; auto; [lra|intros q []].
        * rewrite LE, app_length. cbn [List.length]. rewrite PeanoNat.Nat.add_1_r. destruct (PeanoNat.Nat.eqb_spec (Datatypes.S (List.length u)) (Datatypes.S (Datatypes.S (List.length u)))); lia.
      + exists (List.length (u ++ [x; y])). split. * apply lower_end. intros q Q. apply in_app_or in Q. destruct Q as [Q|[<-|[<-|[]]]]; [apply U, in_or_app; now left|lra|lra].
        * rewrite PeanoNat.Nat.eqb_refl, LE. reflexivity.
    - destruct LB as (i & -> & EI). cbn [bind]. rewrite EI. unfold row_at. rewrite E0. cbn [bind]. rewrite nth_len. cbn [bind].
      replace (u ++ [x; y]) with ((u ++ [x]) ++ [y]) by (now rewrite <- app_assoc). replace (Datatypes.S (List.length u)) with (List.length (u ++ [x])) by (rewrite app_length; cbn; lia). rewrite skipn_len.
      cbn [gather]. now rewrite Rleb_true by lra. }
  rewrite CO. cbn [bind]. assert (CL : clean (c_pos e) [x; y; r0] = Ok [r0]).
  { unfold clean, clean_rows. rewrite snap_all by exact A. cbn [neg_count]. rewrite (Rltb_true (a_s x - c_pos e)), (Rltb_true (a_s r0 - c_pos e)) by lra. destruct (Req_dec (a_s y) (c_pos e)) as [EY|EY].
    - rewrite Rltb_false by lra. replace (existsb (near (/ 10 ^ 7) (c_pos e)) [x; y; r0]) with true by (symmetry; apply exists_at; auto; exists y; split; [right; now left|auto]). cbn [skipn]. rewrite snap_apart; [reflexivity|lra|lra|apply A; right; right; now left].
    - rewrite Rltb_true by lra. replace (existsb (near (/ 10 ^ 7) (c_pos e)) [x; y; r0]) with false.
      + cbn [Nat.pred skipn]. rewrite snap_apart; [reflexivity|lra|lra|apply A; right; right; now left].
      + symmetry. destruct (existsb _ _) eqn:EX; [|reflexivity]. apply exists_at in EX; auto. destruct EX as (q & [<-|[<-|[<-|[]]]] & QP); lra. }
  rewrite CL. cbn [bind]. unfold build. cbn [forallb]. now rewrite (proj2 (same_dims_iff r0 r0)) by (unfold alike; auto).
Qed.
Print Assumptions C335_refuted.
Example C335_example : find_ap [circ 0 0.2; circ 1 0.2; circ 3 0.01; circ 4 0.01] (drift 4 2) = Ok (Some (Plain (Circle 0.2))).
Proof.
  destruct (C335_refuted [circ 0 0.2; circ 1 0.2] (circ 3 0.01) (circ 4 0.01) (circ 0 0.2) (drift 4 2)) as (a & F & DS); try reflexivity; try (cbn; lra).
  - repeat (constructor; [intros q Q; cbn in Q; repeat (destruct Q as [<-|Q]; [cbn; lra|]); destruct Q|]). constructor.
  - cbn [c_pos drift]. all_in; [apply apart_below; cbn; lra|left; reflexivity|apply apart_below; cbn; lra].
  - cbn [app] in F. rewrite F, DS. cbn. now rewrite Reqb_true by reflexivity.
Qed.

(** ** C336: where the type of the entries changes both shapes limit the pipe.  Refuted: the
    type of the first entry decides; behind a round entry only APER_1 of the next counts *)
Theorem C336_refuted t e b q n x y : ordered t -> c_type e = "Drift" -> 0 < c_len e -> around t (c_pos e) (c_len e) b [q] n -> (forall r, In r [b; q; n] -> apart (c_pos e) r) ->
  a_t b = "CIRCLE" -> a_t q <> "CIRCLE" -> a_t q <> "OCTAGON" -> a_t n <> "OCTAGON" -> a_s q = c_pos e + c_len e -> 0 < a_1 b -> 0 < a_1 q -> ~ alike b q ->
  exists a ok, find_ap t e = Ok (Some a) /\ tests a x y (c_len e) ok /\ (ok = true <-> disc (a_1 q) x y).
Proof.
  intros O D L AR A TB TQ TQ8 TN8 SQ B1 Q1 NA. destruct (drift_found t e b [q] n O D AR A) as (l & K & ->). pose proof AR as (_ & SB & _).
  destruct K as [((r & [<-|[]] & K) & _)|(_ & ->)]; [lra|]. unfold build. cbn [app forallb]. replace (same_dims b q) with false by (symmetry; destruct (same_dims b q) eqn:S; auto; apply same_dims_iff in S; contradiction).
  rewrite Bool.andb_false_r. replace (String.eqb (a_t b) (a_t q)) with false by (symmetry; apply String.eqb_neq; congruence). rewrite Bool.andb_false_r. cbn [existsb].
  replace (octagonal b || (octagonal q || (octagonal n || false)))%bool with false.
  2: { unfold octagonal. rewrite TB. destruct (String.eqb_spec (a_t q) "OCTAGON"); [contradiction|]. destruct (String.eqb_spec (a_t n) "OCTAGON"); [contradiction|]. reflexivity. }
  rewrite Bool.andb_false_r. assert (U1 : forall r, a_1 (unify r) = a_1 r /\ a_s (unify r) = a_s r /\ a_t (unify r) = a_t r). { intros r. unfold unify. repeat destruct (String.eqb _ _); cbn; auto. }
  unfold interp_of. cbn [map]. rewrite (proj2 (proj2 (U1 (at_s (a_s b - c_pos e) b)))). cbn [at_s a_t]. rewrite TB. cbn [itype_of String.eqb Ascii.eqb Bool.eqb option_map].
  eexists. exists (Rltb (Rabs x + Rabs y) (Rmin (a_1 q) (a_1 b)) || Rltb (x * x + y * y) (a_1 q * a_1 q))%bool. split; [reflexivity|]. split.
  - cbn [tests within_interpolated]. unfold within_circle. rewrite clamp by lra. cbn [find_pair map locate entry_of es]. rewrite (proj1 (proj2 (U1 (at_s (a_s q - c_pos e) q)))). cbn [at_s a_s]. rewrite Rleb_true by lra.
    cbn [entry_of e1]. rewrite !(proj1 (U1 _)). cbn [at_s a_1]. destruct (Rltb (Rabs x + Rabs y) (Rmin (a_1 q) (a_1 b))); [reflexivity|]. cbn [orb]. rewrite !Reqb_false by lra. cbn [orb]. unfold onto. cbn [entry_of es e1].
    rewrite !(proj1 (U1 _)), !(proj1 (proj2 (U1 _))). cbn [at_s a_s a_1]. rewrite Reqb_false by lra. do 2 f_equal.
    replace ((a_1 q - a_1 b) / (a_s q - c_pos e - (a_s b - c_pos e)) * c_len e + (a_1 q - (a_1 q - a_1 b) / (a_s q - c_pos e - (a_s b - c_pos e)) * (a_s q - c_pos e))) with (a_1 q); [reflexivity|].
    rewrite SQ. field. lra.
  - unfold disc. destruct (Rltb_spec (Rabs x + Rabs y) (Rmin (a_1 q) (a_1 b))) as [H|H]; cbn [orb]; [|apply rltb_iff]. split; [|reflexivity]. intros _. apply diamond_disc. pose proof (Rmin_l (a_1 q) (a_1 b)). lra.
Qed.
Print Assumptions C336_refuted.
Example C336_example : exists a ok, find_ap [circ 0 0.1; mkA "RECTELLIPSE" 3 0.1 0.001 0.1 0.1; mkA "RECTELLIPSE" 4 0.1 0.001 0.1 0.1] (drift 1 2) = Ok (Some a) /\ tests a 0 0.09 2 ok /\ ok = true.
Proof.
  destruct (C336_refuted [circ 0 0.1; mkA "RECTELLIPSE" 3 0.1 0.001 0.1 0.1; mkA "RECTELLIPSE" 4 0.1 0.001 0.1 0.1] (drift 1 2) (circ 0 0.1) (mkA "RECTELLIPSE" 3 0.1 0.001 0.1 0.1) (mkA "RECTELLIPSE" 4 0.1 0.001 0.1 0.1) 0 0.09) as (a & ok & F & T & I);
    try discriminate; try reflexivity; try (cbn; lra).
  - repeat (constructor; [intros q Q; cbn in Q; repeat (destruct Q as [<-|Q]; [cbn; lra|]); destruct Q|]). constructor.
  - split; [exists [], []; reflexivity|]. cbn. repeat split; try lra; destruct H as [<-|[]]; cbn; lra.
  - cbn [c_pos drift]. all_in; [apply apart_below; cbn; lra|apply apart_above; cbn; lra|apply apart_above; cbn; lra].
  - intros (H & H2 & _). cbn in H2. lra.
  - exists a, ok. split; [exact F|]. split; [exact T|]. apply I. unfold disc. cbn. lra.
Qed.

(** ** C337: entries of rounded and of octagonal type with different sizes around one drift end
    the program *)
Theorem C337_mix t e b m n : ordered t -> c_type e = "Drift" -> around t (c_pos e) (c_len e) b m n -> (forall q, In q (b :: m ++ [n]) -> apart (c_pos e) q) ->
  exists l, kept (c_pos e) b m n l /\ ((exists r q, In r l /\ In q l /\ ~ alike r q) -> (exists r q, In r l /\ In q l /\ (a_t r = "RECTELLIPSE" \/ a_t r = "CIRCLE" \/ a_t r = "ELLIPSE") /\ a_t q = "OCTAGON") ->
    find_ap t e = Throw Exits).
Proof.
  intros O D AR A. destruct (drift_found t e b m n O D AR A) as (l & K & ->). exists l. split; [exact K|]. intros (x & y & X & Y & DF) (r & q & R & Q & TR & TQ). destruct l as [|r0 l]; [destruct R|]. unfold build.
  replace (forallb (same_dims r0) (r0 :: l)) with false.
  - replace (forallb (fun q0 => String.eqb (a_t r0) (a_t q0)) (r0 :: l)) with false.
    + replace (existsb rounded (r0 :: l)) with true by (symmetry; apply existsb_exists; exists r; split; [exact R|unfold rounded; destruct TR as [->|[->| ->]]; reflexivity]).
      replace (existsb octagonal (r0 :: l)) with true by (symmetry; apply existsb_exists; exists q; split; [exact Q|unfold octagonal; rewrite TQ; reflexivity]). reflexivity.
    + symmetry. destruct (forallb _ _) eqn:F; [|reflexivity]. exfalso. rewrite forallb_forall in F. pose proof (F r R) as F1. pose proof (F q Q) as F2. apply String.eqb_eq in F1, F2.
      rewrite F1 in F2. rewrite TQ in F2. rewrite F2 in TR. destruct TR as [TR|[TR|TR]]; discriminate.
  - symmetry. destruct (forallb (same_dims r0) (r0 :: l)) eqn:F; [|reflexivity]. exfalso. rewrite forallb_forall in F. apply DF. apply F, same_dims_iff in X. apply F, same_dims_iff in Y.
    destruct X as (? & ? & ? & ?), Y as (? & ? & ? & ?). unfold alike. repeat split; congruence.
Qed.
Print Assumptions C337_mix.

(** ** C338: a drift that was configured can be tracked through.  Refuted: with rectangles of
    different sizes around it every test ends the program *)
Theorem C338_refuted t e b m n : ordered t -> c_type e = "Drift" -> around t (c_pos e) (c_len e) b m n -> (forall q, In q (b :: m ++ [n]) -> apart (c_pos e) q) ->
  (forall q, In q (b :: m ++ [n]) -> a_t q = "RECTANGLE") -> exists l, kept (c_pos e) b m n l /\ ((exists r q, In r l /\ In q l /\ ~ alike r q) ->
  exists k es, find_ap t e = Ok (Some (Interp k es)) /\ forall x y z, within_interpolated k es x y z = Throw AExit).
Proof.
  intros O D AR A C. destruct (C331_entries t e b m n IRect O D AR A) as (l & K & F).
  - intros q Q. rewrite (C q (or_intror Q)). symmetry. apply C. now left.
  - rewrite (C b (or_introl eq_refl)). reflexivity.
  - exists l. split; [exact K|]. intros H. exists IRect. eexists. split; [now apply F|]. reflexivity.
Qed.
Print Assumptions C338_refuted.
Definition box_row (s w h : R) : arow := mkA "RECTANGLE" s w h 0 0.
Example C337_example : (let t := [circ 0 0.1; mkA "OCTAGON" 3 0.1 0.1 0.5 1; mkA "OCTAGON" 4 0.1 0.1 0.5 1] in
  ordered t /\ around t 1 1 (circ 0 0.1) [] (mkA "OCTAGON" 3 0.1 0.1 0.5 1) /\ kept 1 (circ 0 0.1) [] (mkA "OCTAGON" 3 0.1 0.1 0.5 1) [circ 0 0.1; mkA "OCTAGON" 3 0.1 0.1 0.5 1]) /\
  let t := [box_row 0 0.1 0.1; box_row 3 0.1 0.2] in ordered t /\ around t 1 1 (box_row 0 0.1 0.1) [] (box_row 3 0.1 0.2) /\ ~ alike (box_row 0 0.1 0.1) (box_row 3 0.1 0.2).
Proof.
  assert (OR : forall s1 s2 l, ordered l -> a_s s1 <= a_s s2 -> (forall q, In q l -> a_s s2 <= a_s q) -> ordered (s1 :: s2 :: l)) by (intros s1 s2 l H1 H2 H3; constructor; [intros q [<-|Q]; [lra|apply H3 in Q; lra]|constructor; auto]).
  split; [split; [|split]|split; [|split]].
  - apply OR; [constructor; [intros q []|constructor]|cbn; lra|intros q [<-|[]]; cbn; lra].
  - split; [exists [], [mkA "OCTAGON" 4 0.1 0.1 0.5 1]; reflexivity|]. cbn. repeat split; try lra; destruct H.
  - right. split; [intros q []|reflexivity].
  - apply OR; [constructor|cbn; lra|intros q []].
  - split; [exists [], []; reflexivity|]. cbn. repeat split; try lra; destruct H.
  - intros (_ & H & _). cbn in H. lra.
Qed.

(** ** C339: deleting the apertures frees each of them once and leaves no element with one *)
Lemma in_eqb a l : existsb (Nat.eqb a) l = true <-> In a l.
Proof. rewrite existsb_exists. split; [intros (b & B & E); apply PeanoNat.Nat.eqb_eq in E; now subst|intros H; exists a; split; [auto|apply PeanoNat.Nat.eqb_refl]]. Qed.
Lemma in_drop a b l : In b (filter (fun c => negb (Nat.eqb a c)) l) <-> In b l /\ b <> a.
Proof. rewrite filter_In. destruct (PeanoNat.Nat.eqb_spec a b); cbn; split; intros (H & H1); split; auto; congruence. Qed.
Theorem C339_delete l : forall live, NoDup (addresses l) -> (forall a, In a (addresses l) -> In a live) ->
  exists l' live', delete_all l live = Ok (l', live') /\ l' = repeat None (List.length l) /\ forall b, In b live' <-> In b live /\ ~ In b (addresses l).
Proof.
  induction l as [|[a|] l IH]; intros live N L; cbn [delete_all addresses List.length repeat] in *.
  - exists [], live. repeat split; auto. tauto.
  - inversion N as [|? ? N1 N2]; subst. rewrite (proj2 (in_eqb a live)) by (apply L; now left).
    destruct (IH (filter (fun b => negb (Nat.eqb a b)) live) N2) as (l' & live' & -> & -> & H). { intros b B. apply in_drop. split; [apply L; now right|]. intros ->. contradiction. }
    cbn [bind fst snd]. eexists. eexists. split; [reflexivity|]. split; [reflexivity|]. intros b. rewrite H, in_drop. cbn [In]. split; [intros ((A & B) & C); split; [auto|intros [D|D]; [congruence|auto]]|intros (A & B); repeat split; auto].
  - destruct (IH live N L) as (l' & live' & -> & -> & H). cbn [bind fst snd]. eexists. eexists. split; [reflexivity|]. split; [reflexivity|exact H].
Qed.
Print Assumptions C339_delete.
(* an aperture shared by two elements is deleted twice *)
Theorem C339_shared l : forall live, ~ NoDup (addresses l) -> delete_all l live = UB.
Proof.
  assert (G : forall l a live, In a (addresses l) -> ~ In a live -> delete_all l live = UB).
  { induction l0 as [|[b|] l0 IH]; intros a live I N; cbn [delete_all addresses] in *; [destruct I| |now rewrite (IH _ _ I N)].
    destruct (existsb (Nat.eqb b) live) eqn:E; [|reflexivity]. apply in_eqb in E. destruct I as [->|I]; [contradiction|]. rewrite (IH a); [reflexivity|exact I|]. intros H. apply in_drop in H. tauto. }
  induction l as [|[a|] l IH]; intros live N; cbn [delete_all addresses] in *; [contradiction N; constructor| |now rewrite IH].
  destruct (existsb (Nat.eqb a) live) eqn:E; [|reflexivity]. destruct (in_dec PeanoNat.Nat.eq_dec a (addresses l)) as [I|I].
  - rewrite (G l a); [reflexivity|exact I|]. intros H. apply in_drop in H. tauto.
  - rewrite IH; [reflexivity|]. intros H. apply N. now constructor.
Qed.
Print Assumptions C339_shared.
Example C339_example : delete_all [Some 1; None; Some 2]%nat [1; 2; 3]%nat = Ok ([None; None; None], [3%nat]) /\ delete_all [Some 1; Some 1]%nat [1; 2]%nat = UB.
Proof. split; reflexivity. Qed.
