From Coq Require Import ZArith Lra Lia.
From Verif Require Import RBase Bunch BunchSpec Optics Orbit OrbitSpec OrbitProofs.
Local Open Scope R_scope.

Lemma rad_ok on s n r : radiates on s n r -> rad_of on s n = Ok r.
Proof. intros []; cbn; [reflexivity| |]. { destruct (Reqb_spec s0 0); [contradiction|reflexivity]. } destruct (Reqb_spec 0 0); [reflexivity|lra]. Qed.
Lemma quotients_ext d T U p : (forall v, T v = U v) -> forall M, quotients d T p = Ok M -> exists M', quotients d U p = Ok M' /\ forall i j, M' i j = M i j.
Proof. intros E M H. unfold quotients in *. destruct (Reqb d 0); [discriminate|]. injection H as <-. eexists. split; [reflexivity|]. intros; cbv beta. rewrite !E. reflexivity. Qed.
Lemma affine_ext A k T U : (forall v, T v = U v) -> affine A k T -> affine A k U.
Proof. intros E H v i I. rewrite <- E. apply H. exact I. Qed.

(* ---- C215: the transfer matrix of a linear machine ---- *)
Theorem C215_turn : forall m t p A k r n,
  (n < length m)%nat -> tmobs t = Z.of_nat n -> tmdelta t <> 0 -> radiates (tmrad t) (tmsize t) (tmnum t) r ->
  affine A k (lap (tmscale t) r m n) ->
  exists M, find_tm_at m t p = Ok M /\ forall i j, (i < 6)%nat -> (j < 6)%nat -> M i j = A i j.
Proof.
  intros m t p A k r n N O D Rr H. unfold find_tm_at. rewrite O, ring_ok by exact N. cbn [bind]. rewrite (rad_ok _ _ _ _ Rr). cbn [bind].
  apply (quotients_affine A k); [|exact D]. eapply affine_ext; [|exact H]. intros; symmetry; apply through_journey.
Qed.
Theorem C215_between : forall m t p A k r n1 n2,
  (n1 <= n2 < length m)%nat -> tmdelta t <> 0 -> radiates (tmrad t) (tmsize t) (tmnum t) r ->
  affine A k (stretch (tmscale t) r m n1 n2) ->
  exists M, find_tm_between m t p (Z.of_nat n1) (Z.of_nat n2) = Ok M /\ forall i j, (i < 6)%nat -> (j < 6)%nat -> M i j = A i j.
Proof.
  intros m t p A k r n1 n2 N D Rr H. unfold find_tm_between. rewrite beamline_ok by lia. cbn [bind]. rewrite (rad_ok _ _ _ _ Rr). cbn [bind].
  apply (quotients_affine A k); [|exact D]. eapply affine_ext; [|exact H]. intros; symmetry; apply through_journey.
Qed.
(* any machine: the error is no larger than the curvature of the motion times the step *)
Theorem C215_error : forall m t p r n i j slope K,
  (n < length m)%nat -> tmobs t = Z.of_nat n -> tmdelta t <> 0 -> radiates (tmrad t) (tmsize t) (tmnum t) r -> (i < 6)%nat -> (j < 6)%nat ->
  (forall q h, (forall l, (l < 6)%nat -> coord l q = coord l p + (if Nat.eqb l j then h else 0)) ->
     Rabs (coord i (lap (tmscale t) r m n q) - coord i (lap (tmscale t) r m n p) - slope * h) <= K * (h * h)) ->
  exists M, find_tm_at m t p = Ok M /\ Rabs (M i j - slope) <= K * Rabs (tmdelta t).
Proof.
  intros m t p r n i j slope K N O D Rr I J H. unfold find_tm_at. rewrite O, ring_ok by exact N. cbn [bind]. rewrite (rad_ok _ _ _ _ Rr). cbn [bind].
  unfold quotients. destruct (Reqb_spec (tmdelta t) 0); [contradiction|]. eexists. split; [reflexivity|]. cbv beta. rewrite !through_journey.
  set (d := tmdelta t) in *.
  assert (B : forall l, (l < 6)%nat -> coord l (bump j d p) = coord l p + (if Nat.eqb l j then d else 0)).
  { intros l L. rewrite coord_bump by exact L. unfold delta_. destruct (Nat.eqb l j); ring. }
  specialize (H (bump j d p) d B). unfold lap in H.
  set (a := coord i (journey _ (bump j d p))) in *. set (b := coord i (journey _ p)) in *. clearbody a b d.
  replace ((a - b) / d - slope) with ((a - b - slope * d) / d) by (field; assumption).
  unfold Rdiv. rewrite Rabs_mult, Rabs_inv.
  assert (P : 0 < Rabs d) by (apply Rabs_pos_lt; assumption).
  apply (Rmult_le_reg_r (Rabs d)); [exact P|]. rewrite Rmult_assoc, Rinv_l, Rmult_1_r by lra.
  replace (K * Rabs d * Rabs d) with (K * (d * d)); [exact H|]. rewrite Rmult_assoc. f_equal. rewrite <- Rabs_mult. symmetry. apply Rabs_right. nra.
Qed.
(* a lattice of linear components *)
Definition linear_lattice (s : R) (r : option rad) (m : list comp) : Prop := Forall (fun c => exists A k, affine A k (moved s r c)) m.
Lemma affine_id : affine delta_ (fun _ => 0) (fun v => v).
Proof. intros v i I. rewrite (tot_delta 6 i (fun j => coord j v) I). ring. Qed.
Lemma linear_journey s r l : linear_lattice s r l -> exists A k, affine A k (journey (map (moved s r) l)).
Proof.
  induction 1 as [|c l (A & k & H) _ (B & b & K)]; [exists delta_, (fun _ => 0); exact affine_id|].
  eexists _, _. cbn [map]. eapply affine_ext; [|eapply affine_comp; [exact H|exact K]]. intros v. reflexivity.
Qed.
Lemma Forall_firstn' (P : comp -> Prop) n l : Forall P l -> Forall P (firstn n l).
Proof. revert n. induction l; intros [|n] H; cbn; try constructor; inversion H; subst; auto. Qed.
Lemma Forall_skipn' (P : comp -> Prop) n l : Forall P l -> Forall P (skipn n l).
Proof. revert n. induction l; intros [|n] H; cbn; try constructor; inversion H; subst; auto. Qed.
Lemma skip_skip (a b : nat) (l : list comp) : skipn a (skipn b l) = skipn (b + a) l.
Proof. revert l. induction b; intros [|h l]; cbn; try reflexivity; [apply skipn_nil|apply IHb]. Qed.
Lemma stretch_split s r m a b c v : (a <= b)%nat -> (b < c)%nat -> stretch s r m a c v = stretch s r m (b + 1) c (stretch s r m a b v).
Proof.
  intros AB BC. unfold stretch. rewrite <- journey_app, <- map_app. do 2 f_equal.
  replace (skipn (b + 1) m) with (skipn (b + 1 - a) (skipn a m)).
  2:{ rewrite skip_skip. f_equal. lia. }
  replace (c + 1 - a)%nat with ((b + 1 - a) + (c + 1 - (b + 1)))%nat by lia.
  generalize (skipn a m) as l, (b + 1 - a)%nat as x, (c + 1 - (b + 1))%nat as y. clear.
  induction l as [|h l IH]; intros [|x] [|y]; cbn; try reflexivity; try (rewrite ?firstn_nil; reflexivity).
  - rewrite app_nil_r, Nat.add_0_r. reflexivity.
  - f_equal. exact (IH x (S y)).
Qed.
(* matrices of consecutive stretches multiply, whatever orbits they are taken about *)
Theorem C215_product : forall m t p q s r a b c,
  (a <= b)%nat -> (b < c)%nat -> (c < length m)%nat -> tmdelta t <> 0 -> radiates (tmrad t) (tmsize t) (tmnum t) r -> linear_lattice (tmscale t) r m ->
  exists M1 M2 M, find_tm_between m t p (Z.of_nat a) (Z.of_nat b) = Ok M1 /\ find_tm_between m t q (Z.of_nat (b + 1)) (Z.of_nat c) = Ok M2 /\
    find_tm_between m t s (Z.of_nat a) (Z.of_nat c) = Ok M /\
    forall i j, (i < 6)%nat -> (j < 6)%nat -> M i j = product 6 M2 M1 i j.
Proof.
  intros m t p q s r a b c AB BC C D Rr L.
  assert (LS : forall a c, exists A k, affine A k (stretch (tmscale t) r m a c)).
  { intros. apply linear_journey, Forall_firstn', Forall_skipn', L. }
  destruct (LS a b) as (A & k & HA). destruct (LS (b + 1)%nat c) as (B & l & HB). destruct (LS a c) as (X & x & HX).
  destruct (C215_between m t p A k r a b ltac:(lia) D Rr HA) as (M1 & E1 & V1).
  destruct (C215_between m t q B l r (b + 1) c ltac:(lia) D Rr HB) as (M2 & E2 & V2).
  destruct (C215_between m t s X x r a c ltac:(lia) D Rr HX) as (M & E & V).
  exists M1, M2, M. split; [exact E1|]. split; [exact E2|]. split; [exact E|]. intros i j I J. rewrite V by assumption.
  rewrite (affine_unique X x (product 6 B A) _ _ HX (affine_ext _ _ _ _ (fun v => eq_sym (stretch_split _ r m a b c v AB BC)) (affine_comp _ _ _ _ _ _ HA HB)) i j I J).
  unfold product. apply tot_ext. intros e Ee. rewrite V1, V2 by assumption. reflexivity.
Qed.
Lemma lap_stretch s r m a b v : (a < b)%nat -> (b < length m)%nat ->
  lap s r m b (stretch s r m a (b - 1) v) = stretch s r m a (b - 1) (lap s r m a v).
Proof.
  intros AB B. unfold lap, stretch. replace (b - 1 + 1 - a)%nat with (b - a)%nat by lia. rewrite <- !journey_app, <- !map_app. do 2 f_equal.
  assert (E1 : skipn b m = skipn (b - a) (skipn a m)) by (rewrite skip_skip; f_equal; lia).
  assert (E2 : firstn b m = firstn a m ++ firstn (b - a) (skipn a m)).
  { clear E1. revert a b AB B. induction m as [|h m IH]; intros [|a] [|b] AB B; cbn in *; try lia; try reflexivity. f_equal. apply IH; lia. }
  rewrite E1, E2. rewrite !app_assoc. rewrite firstn_skipn. reflexivity.
Qed.
(* the matrices of a turn seen from two places are similar *)
Theorem C215_similar : forall m t p q s r a b,
  (a < b)%nat -> (b < length m)%nat -> tmdelta t <> 0 -> radiates (tmrad t) (tmsize t) (tmnum t) r -> linear_lattice (tmscale t) r m ->
  exists S M M', find_tm_between m t p (Z.of_nat a) (Z.of_nat (b - 1)) = Ok S /\ find_tm_at m (tm_set_obs (Z.of_nat a) t) q = Ok M /\
    find_tm_at m (tm_set_obs (Z.of_nat b) t) s = Ok M' /\
    forall i j, (i < 6)%nat -> (j < 6)%nat -> product 6 M' S i j = product 6 S M i j.
Proof.
  intros m t p q s r a b AB B D Rr L.
  assert (LL : forall n, exists A k, affine A k (lap (tmscale t) r m n)).
  { intros. apply linear_journey. apply Forall_app. split; [apply Forall_skipn', L|apply Forall_firstn', L]. }
  assert (LS : exists A k, affine A k (stretch (tmscale t) r m a (b - 1))) by (apply linear_journey, Forall_firstn', Forall_skipn', L).
  destruct LS as (A & k & HA), (LL a) as (X & x & HX), (LL b) as (Y & y & HY).
  destruct (C215_between m t p A k r a (b - 1) ltac:(lia) D Rr HA) as (S & E1 & V1).
  destruct (C215_turn m (tm_set_obs (Z.of_nat a) t) q X x r a ltac:(lia) eq_refl D Rr HX) as (M & E2 & V2).
  destruct (C215_turn m (tm_set_obs (Z.of_nat b) t) s Y y r b B eq_refl D Rr HY) as (M' & E3 & V3).
  exists S, M, M'. split; [exact E1|]. split; [exact E2|]. split; [exact E3|]. intros i j I J.
  transitivity (product 6 Y A i j); [unfold product; apply tot_ext; intros e Ee; rewrite V1, V3 by assumption; reflexivity|].
  transitivity (product 6 A X i j); [|unfold product; apply tot_ext; intros e Ee; rewrite V1, V2 by assumption; reflexivity].
  apply (affine_unique _ _ _ _ _ (affine_comp _ _ _ _ _ _ HA HY)
    (affine_ext _ _ _ _ (fun v => eq_sym (lap_stretch _ r m a b v AB B)) (affine_comp _ _ _ _ _ _ HX HA)) i j I J).
Qed.

(* ---- C216: the closed orbit of a linear machine ---- *)
Definition dims (c : corb) : nat := if cotrans c then 4 else 6.
Lemma dims_sizes c : sizes (dims c).
Proof. unfold sizes, dims. destruct (cotrans c); auto. Qed.
Lemma find_unfold factor m c n p r : (n < length m)%nat -> radiates (corad c) (cosize c) (conum c) r ->
  find_orbit factor m c (Z.of_nat n) p =
  iterate factor (dims c) (codelta c) (cotol c) (through (coscale c) r (skipn n m ++ firstn n m)) (Z.to_nat (comax c - 1)) 1 1 p.
Proof. intros N Rr. unfold find_orbit. rewrite ring_ok by exact N. cbn [bind]. rewrite (rad_ok _ _ _ _ Rr). reflexivity. Qed.
Theorem C216_found : forall factor m c n p A k r,
  (n < length m)%nat -> radiates (corad c) (cosize c) (conum c) r -> codelta c <> 0 -> cotol c < 1 -> (2 <= comax c)%Z ->
  affine A k (lap (coscale c) r m n) -> right factor (dims c) (less_one A) -> tame (dims c) (less_one A) ->
  exists p' w it, find_orbit factor m c (Z.of_nat n) p = Ok (p', w, it) /\
    closed (dims c) (lap (coscale c) r m n) p' /\ same_from (dims c) p' p /\
    (forall q, closed (dims c) (lap (coscale c) r m n) q -> same_from (dims c) q p -> q = p') /\
    ((3 <= comax c)%Z -> 0 <= cotol c -> w <= cotol c).
Proof.
  intros factor m c n p A k r N Rr D L X H Rt Tm. rewrite (find_unfold factor m c n p r N Rr).
  assert (H' : affine A k (through (coscale c) r (skipn n m ++ firstn n m))).
  { eapply affine_ext; [|exact H]. intros; symmetry; apply through_journey. }
  destruct (iterate_affine factor (dims c) A k _ (codelta c) (cotol c) (Z.to_nat (comax c - 1)) p H' (dims_sizes c) D Rt Tm L ltac:(lia)) as (p' & w & it & E & C & S & Q).
  exists p', w, it. split; [exact E|]. assert (C' : closed (dims c) (lap (coscale c) r m n) p').
  { intros i I. etransitivity; [|exact (C i I)]. rewrite through_journey. reflexivity. }
  split; [exact C'|]. split; [exact S|]. split.
  - intros q Cq Sq. eapply (closed_unique A k); [exact H|apply dims_sizes|exact Tm|exact Cq|exact C'|].
    eapply same_from_trans; [exact Sq|]. intros i I. symmetry. apply S. exact I.
  - intros X3 Z. apply Q; [exact Z|lia].
Qed.
(* any machine: a particle that is on a closed orbit stays there *)
Theorem C216_kept : forall factor m c n p r res,
  (n < length m)%nat -> radiates (corad c) (cosize c) (conum c) r -> 0 <= cotol c < 1 -> (2 <= comax c)%Z ->
  closed (dims c) (lap (coscale c) r m n) p -> find_orbit factor m c (Z.of_nat n) p = Ok res -> res = (p, 0, 2%Z).
Proof.
  intros factor m c n p r res N Rr L X C E. rewrite (find_unfold factor m c n p r N Rr) in E.
  destruct (Z.to_nat (comax c - 1)) as [|f] eqn:F; [lia|]. cbn [iterate] in E. destruct (Rltb_spec (cotol c) 1); [|lra].
  destruct (newton _ _ _ _ _) as [x| |] eqn:Nw; [|discriminate E|discriminate E]. cbn [bind] in E.
  apply newton_closed in Nw; [|apply dims_sizes|intros i I; rewrite through_journey; apply C; exact I]. subst x. cbn [fst snd] in E.
  destruct f; cbn [iterate] in E; [|destruct (Rltb_spec (cotol c) 0); [lra|]]; injection E as <-; reflexivity.
Qed.
(* closed orbits found at two places are the same orbit *)
Theorem C216_carried : forall factor m c a b p q A k B l r p1 w1 i1 p2 w2 i2,
  (a < b)%nat -> (b < length m)%nat -> cotrans c = false -> radiates (corad c) (cosize c) (conum c) r -> codelta c <> 0 -> cotol c < 1 -> (2 <= comax c)%Z ->
  affine A k (lap (coscale c) r m a) -> right factor 6 (less_one A) -> tame 6 (less_one A) ->
  affine B l (lap (coscale c) r m b) -> right factor 6 (less_one B) -> tame 6 (less_one B) ->
  find_orbit factor m c (Z.of_nat a) p = Ok (p1, w1, i1) -> find_orbit factor m c (Z.of_nat b) q = Ok (p2, w2, i2) ->
  p2 = stretch (coscale c) r m a (b - 1) p1.
Proof.
  intros factor m c a b p q A k B l r p1 w1 i1 p2 w2 i2 AB Bm Tr Rr D L X HA RA TA HB RB TB E1 E2.
  assert (Dm : dims c = 6%nat) by (unfold dims; rewrite Tr; reflexivity). rewrite <- Dm in RA, TA, RB, TB.
  destruct (C216_found factor m c a p A k r ltac:(lia) Rr D L X HA RA TA) as (x & w & it & F1 & C1 & _ & _). rewrite E1 in F1. injection F1 as <- _ _.
  destruct (C216_found factor m c b q B l r Bm Rr D L X HB RB TB) as (y & w' & it' & F2 & C2 & _ & U & _). rewrite E2 in F2. injection F2 as <- _ _.
  symmetry. apply U; [|intros i I; rewrite Dm in I; lia]. intros i I. rewrite lap_stretch by assumption.
  assert (P : lap (coscale c) r m a p1 = p1) by (apply vec_eq; rewrite <- Dm; exact C1). rewrite P. reflexivity.
Qed.
Print Assumptions C215_turn. Print Assumptions C215_between. Print Assumptions C215_error. Print Assumptions C215_product. Print Assumptions C215_similar.
Print Assumptions C216_found. Print Assumptions C216_kept. Print Assumptions C216_carried.
