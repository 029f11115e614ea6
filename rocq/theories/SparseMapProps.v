(* C36 (sparse maps), C72, C74, C76 *)
From Coq Require Import ZArith Lia Permutation.
From Verif Require Import RBase Cov CovProofs Bunch BunchSpec BunchProofs Optics OpticsSpec OpticsProofs SparseMap SparseMapSpec SparseMapProofs.
Local Open Scope R_scope.

(* ---- C36: a sparse map acts as the matrix its terms add up to ---- *)
Theorem C148_sparse_acts l x y : inside l -> exists v, act l x y = Ok v /\ forall i, (i < 6)%nat -> coord i v = coord i y + image 6 (amount l) x i.
Proof. intros H. now apply act_ok. Qed.
Print Assumptions C148_sparse_acts.
(* a term outside the six coordinates stops the program *)
Theorem C148_sparse_outside l x y : ~ inside l -> act l x y = Throw OAssert.
Proof.
  intros H. assert (D : forall t, {(ti t < 6)%nat /\ (tj t < 6)%nat} + {~ ((ti t < 6)%nat /\ (tj t < 6)%nat)}).
  { intros t. destruct (lt_dec (ti t) 6), (lt_dec (tj t) 6); [left|right|right|right]; tauto. }
  apply neg_Forall_Exists_neg in H; [|exact D]. apply Exists_exists in H. destruct H as (t & I & B). now apply (act_bad l x y t).
Qed.
Print Assumptions C148_sparse_outside.
(* the covariance becomes R S R^T, for a covariance of any dimension: terms
   beyond it are left out *)
Theorem C148_sparse_moments N m c d g : own m -> inside (terms m) -> holds N d g -> (forall a b, g a b = g b a) -> exists v d',
  act_moments N m (c, d) = Ok (v, d') /\ act_cov N m d = Ok d' /\ (forall i, (i < 6)%nat -> coord i v = image 6 (amount (terms m)) c i) /\
  holds N d' (congruence N (amount (terms m)) g).
Proof.
  intros O I H S. unfold act_moments, act_cov. rewrite iter_own by exact O. cbn [fst snd].
  destruct (act_ok (terms m) c I vzero) as (v & E & Hv). rewrite E. destruct (map_all_ok N d g (terms m) H S) as (d' & E' & H'). rewrite E'. cbn [bind].
  exists v, d'. repeat split; try reflexivity; [|exact (proj1 H')|exact (proj2 H')]. intros i Hi. rewrite Hv by exact Hi.
  replace (coord i vzero) with 0 by (six i; reflexivity). ring.
Qed.
Print Assumptions C148_sparse_moments.
(* hence a bunch and its moments go together *)
Theorem C148_sparse_bunch l (ps qs : list vec6) : inside l -> ps <> [] -> Forall2 (fun p q => act l p vzero = Ok q) ps qs ->
  forall i j, (i < 6)%nat -> (j < 6)%nat ->
  avg (coord i) qs = sum (fun k => amount l i k * avg (coord k) ps) (seq 0 6) /\
  cov (coord i) (coord j) qs = congruence 6 (amount l) (fun a b => cov (coord a) (coord b) ps) i j.
Proof.
  intros I NE F i j Hi Hj.
  assert (Q : qs = map (fun p => apply_m 6 (amount l) p) ps).
  { clear NE. induction F as [|p q ps qs E F IH]; [reflexivity|]. cbn [map]. f_equal; [|exact IH].
    destruct (act_ok l p I vzero) as (v & E' & H). rewrite E in E'. injection E' as <-. apply vec6_eq. intros k Hk. rewrite H, apply_coord by exact Hk.
    apply Nat.ltb_lt in Hk as Hk'. rewrite Hk'. replace (coord k vzero) with 0 by (six k; reflexivity). unfold image. ring. }
  assert (A : forall f : vec6 -> R, avg f qs = avg (fun p => f (apply_m 6 (amount l) p)) ps).
  { intros f. rewrite Q. unfold avg. now rewrite sum_map, map_length. }
  assert (C : forall k p, (k < 6)%nat -> coord k (apply_m 6 (amount l) p) = sum (fun j => amount l k j * coord j p) (seq 0 6)).
  { intros k p Hk. rewrite apply_coord by exact Hk. apply Nat.ltb_lt in Hk. now rewrite Hk. }
  split.
  - rewrite A, (avg_ext _ (fun p => sum (fun k => amount l i k * coord k p) (seq 0 6))) by (intros; now apply C). now apply (avg_sum (amount l i) coord).
  - unfold congruence. rewrite <- (cov_sum (amount l i) coord (amount l j) coord (seq 0 6) ps NE). unfold cov at 1. rewrite A.
    assert (M : forall k, (k < 6)%nat -> avg (coord k) qs = avg (fun p => sum (fun j => amount l k j * coord j p) (seq 0 6)) ps).
    { intros k Hk. rewrite A. apply avg_ext. intros. now apply C. }
    rewrite !M by assumption. apply avg_ext. intros a _. rewrite !C by assumption. reflexivity.
Qed.
Print Assumptions C148_sparse_bunch.
Example C36_sparse_acts_ex :
  let l := [mkT 0 0 2; mkT 0 1 3; mkT 0 0 5; mkT 4 5 (-1)] in
  inside l /\ act l (V6 10 20 0 0 0 1) vzero = Ok (V6 130 0 0 0 (-1) 0) /\ amount l 0%nat 0%nat = 7.
Proof.
  cbn zeta. split; [repeat constructor; cbn; lia|]. split; [|cbn; ring].
  unfold act, act1; cbn -[bump]. unfold bump, vof; cbn. do 2 f_equal; ring.
Qed.

(* ---- C36: used as an array, the map is an array ---- *)
Fixpoint writes (l : list (nat * nat * R)) (m : smap) : res oerr smap :=
  match l with [] => Ok m | (i, j, v) :: r => do m' <- set i j v m; writes r m' end.
(* the value written last at (i,j), 0 if none *)
Fixpoint last_written (h : list (nat * nat * R)) (i j : nat) (before : R) : R :=
  match h with
  | [] => before
  | (a, b, v) :: r => last_written r i j (if Nat.eq_dec a i then if Nat.eq_dec b j then v else before else before)
  end.
Definition numbered (h : list (nat * nat * R)) : Prop := Forall (fun p => (1 <= fst (fst p) <= 6)%nat /\ (1 <= snd (fst p) <= 6)%nat) h.
Lemma writes_ok h : numbered h -> forall m, tidy m -> exists m', writes h m = Ok m' /\ tidy m' /\
  forall i j, (1 <= i)%nat -> (1 <= j)%nat -> amount (terms m') (i - 1)%nat (j - 1)%nat = last_written h i j (amount (terms m) (i - 1)%nat (j - 1)%nat).
Proof.
  induction 1 as [|[[a b] v] h [H1 H2] _ IH]; intros m T; cbn [writes last_written].
  - exists m. repeat split; auto; apply T.
  - cbn [fst snd] in *. destruct (set_ok m a b v T H1 H2) as (m1 & E & T1 & _ & A). rewrite E. cbn [bind]. destruct (IH m1 T1) as (m2 & E2 & T2 & A2).
    exists m2. split; [exact E2|]. split; [exact T2|]. intros i j Hi Hj. rewrite A2 by assumption. rewrite A. unfold written.
    destruct (Nat.eq_dec (i - 1) (a - 1)), (Nat.eq_dec (j - 1) (b - 1)), (Nat.eq_dec a i), (Nat.eq_dec b j); try lia; reflexivity.
Qed.
Theorem C148_sparse_array w h : numbered h -> exists m M, writes h (empty w) = Ok m /\ to_matrix m = Ok M /\
  forall i j, (1 <= i <= 6)%nat -> (1 <= j <= 6)%nat ->
    get i j m = Ok (last_written h i j 0) /\ M (i - 1)%nat (j - 1)%nat = last_written h i j 0 /\
    amount (terms m) (i - 1)%nat (j - 1)%nat = last_written h i j 0.
Proof.
  intros H. destruct (writes_ok h H (empty w)) as (m & E & T & A); [repeat split; constructor|].
  destruct (to_matrix_ok m T) as (M & E' & HM). exists m, M. split; [exact E|]. split; [exact E'|]. intros i j Hi Hj.
  rewrite get_ok by exact T. rewrite HM, A by lia. auto.
Qed.
Print Assumptions C148_sparse_array.
Example C36_sparse_array_ex : let h := [(1%nat, 1%nat, 2); (3%nat, 4%nat, 5); (1%nat, 1%nat, 7)] in
  numbered h /\ last_written h 1 1 0 = 7 /\ last_written h 3 4 0 = 5 /\ last_written h 4 3 0 = 0.
Proof. cbn. repeat split; try reflexivity. repeat constructor; cbn; lia. Qed.

(* ---- C36: conversion from a matrix and back ---- *)
Theorem C148_sparse_of_matrix w rows cols R : (rows <= 6)%nat -> (cols <= 6)%nat -> exists m M,
  of_matrix w rows cols R = Ok m /\ tidy m /\ to_matrix m = Ok M /\
  (forall i j, (i < rows)%nat -> (j < cols)%nat -> amount (terms m) i j = R i j /\ M i j = R i j) /\
  (forall i j, (rows <= i \/ cols <= j)%nat -> amount (terms m) i j = 0 /\ M i j = 0) /\
  (forall t, In t (terms m) -> tv t <> 0).
Proof.
  intros A B. unfold of_matrix. pose proof (nonzero_inside R rows cols A B) as I. pose proof (nonzero_once R rows cols) as N.
  rewrite push_all_ok; [|reflexivity|cbn; now apply once_length]. cbn [self home terms empty app].
  set (m := mkS w w (nonzero R rows cols)). assert (T : tidy m) by (repeat split; assumption).
  destruct (to_matrix_ok m T) as (M & E & HM). exists m, M. split; [reflexivity|]. split; [exact T|]. split; [exact E|].
  repeat split; intros; rewrite ?HM; cbn [m terms]; rewrite ?amount_nonzero.
  1,2: destruct (Nat.ltb_spec i rows), (Nat.ltb_spec j cols); try lia; reflexivity.
  1,2: destruct (Nat.ltb_spec i rows), (Nat.ltb_spec j cols); try lia; reflexivity.
  match goal with H : In _ _ |- _ => apply nonzero_in in H; tauto end.
Qed.
Print Assumptions C148_sparse_of_matrix.
(* a term added twice is summed by the action but overwritten by the conversion *)
Theorem C36_to_matrix_refuted w : exists m M x v, add_all [(1%nat, 1%nat, 1); (1%nat, 1%nat, 2)] (empty w) = Ok m /\ to_matrix m = Ok M /\ act (terms m) x vzero = Ok v /\
  vx v = 3 /\ coord 0 (apply_m 6 M x) = 2 /\ get 1 1 m = Ok 1.
Proof.
  exists (mkS w w [mkT 0 0 1; mkT 0 0 2]), (mset 0 0 2 (mset 0 0 1 (fun _ _ => 0))), (V6 1 0 0 0 0 0), (bump 0 (2 * 1) (bump 0 (1 * 1) vzero)).
  unfold add_all, add_term, push, to_matrix, get, iter. cbn [self home terms empty]. rewrite Nat.eqb_refl. cbn -[mset bump Nat.eqb]. cbn [self home terms]. rewrite Nat.eqb_refl.
  cbn -[mset bump]. repeat (split; [reflexivity|]). unfold mset; cbn. split; [ring|split; [ring|reflexivity]].
Qed.
Print Assumptions C36_to_matrix_refuted.
(* more than 36 terms are written behind the array *)
Theorem C148_too_many_terms l m : own m -> (length (terms m) <= 36)%nat -> (36 < length (terms m) + length l)%nat -> push_all l m = UB.
Proof.
  revert m. induction l as [|t l IH]; intros m O B L; cbn [length] in L; [lia|]. cbn [push_all].
  destruct (Nat.eq_dec (length (terms m)) 36) as [E|E].
  - unfold push. rewrite <- O, Nat.eqb_refl, E. reflexivity.
  - rewrite push_ok by (auto; lia). cbn [bind]. apply IH; [exact O| |]; cbn [terms]; rewrite app_length; cbn; lia.
Qed.
Print Assumptions C148_too_many_terms.
(* a copy of a map refers to the storage of the original: neither adding to it
   nor applying it is defined *)
Theorem C36_copy_refuted w w' t d s m : own m -> self m = w -> w' <> w ->
  push t (copy w' m) = UB /\ to_matrix (copy w' m) = UB /\ act_cov 6 (copy w' m) d = UB /\ act_moments 6 (copy w' m) s = UB.
Proof.
  intros O E N. unfold push, to_matrix, act_cov, act_moments, iter, copy. cbn [self home terms].
  assert (X : Nat.eqb w' (home m) = false) by (apply Nat.eqb_neq; rewrite <- O; congruence). now rewrite X.
Qed.
Print Assumptions C36_copy_refuted.
Example C36_copy_ex : own (empty 1) /\ self (empty 1) = 1%nat /\ 2%nat <> 1%nat.
Proof. repeat split; discriminate. Qed.

(* ---- C72: the sparse and the dense elements are the same ---- *)
Lemma built w l : (length l <= 36)%nat -> add_all l (empty w) = Ok (mkS w w (stored l)).
Proof. intros H. rewrite add_all_push, push_all_ok; [reflexivity|reflexivity|]. cbn. unfold stored. now rewrite map_length. Qed.
Theorem C161_drift w l : exists m, add_all (drift_terms l) (empty w) = Ok m /\ tidy m /\ meq 6 (amount (terms m)) (drift 6 l).
Proof.
  rewrite built by (unfold drift_terms; destruct Reqb; cbn; lia). eexists. split; [reflexivity|]. split.
  - split; [reflexivity|]. unfold drift_terms; destruct Reqb; (split; [repeat constructor; cbn; lia|]); unfold once; cbn; repeat (constructor; [cbn; intuition discriminate|]); constructor.
  - intros i j Hi Hj. unfold drift_terms. destruct (Reqb_spec l 0) as [->|]; unfold amount, drift, mset, mid; six i; six j; cbn; ring.
Qed.
Print Assumptions C161_drift.
Lemma qr2_amount l K o i j : (o = 0 \/ o = 2)%nat -> (i < 6)%nat -> (j < 6)%nat -> amount (stored (qr2_terms l K o)) i j =
  if (Nat.eqb i (o + 1) && Nat.eqb j o)%bool then - K * Sf K l
  else if (Nat.eqb i o && Nat.eqb j (o + 1))%bool then Sf K l
  else if (Nat.eqb i j && (Nat.eqb i o || Nat.eqb i (o + 1)))%bool then Cf K l else 0.
Proof.
  intros Ho Hi Hj. unfold qr2_terms. kcase K.
  - unfold amount. destruct Ho; subst o; six i; six j; cbn; ring.
  - assert (E : - sqrt K * sin (sqrt K * l) = - K * (sin (sqrt K * l) / sqrt K)) by (rewrite <- H0 at 3; field; lra).
    cbn zeta. rewrite E. unfold amount. destruct Ho; subst o; six i; six j; cbn; ring.
  - assert (E : sqrt (- K) * sinh (sqrt (- K) * l) = - K * (sinh (sqrt (- K) * l) / sqrt (- K))).
    { replace (- K * (sinh (sqrt (- K) * l) / sqrt (- K))) with (sqrt (- K) * sqrt (- K) * (sinh (sqrt (- K) * l) / sqrt (- K))) by (rewrite H0; ring). field. lra. }
    cbn zeta. rewrite E. unfold amount. destruct Ho; subst o; six i; six j; cbn; ring.
Qed.
Lemma qr2_length l K o : (length (qr2_terms l K o) <= 4)%nat.
Proof. unfold qr2_terms. destruct Reqb; [|destruct Rltb]; cbn; lia. Qed.
Lemma stored_app a b : stored (a ++ b) = stored a ++ stored b.
Proof. apply map_app. Qed.
Lemma sbr_amount l h K : meq 6 (amount (stored (sbr_terms l h K))) (bend_form l h K).
Proof.
  intros i j Hi Hj. unfold sbr_terms. destruct (Reqb_spec l 0) as [->|NZ].
  { unfold bend_form. rewrite !Cf_0, !Sf_0. unfold amount. six i; six j; cbn; unfold Rdiv; ring. }
  rewrite !stored_app, !amount_app, !qr2_amount by (auto; lia). unfold bend_form, gh. set (k := K + h * h). replace (- - K) with K by ring.
  destruct (Reqb_spec h 0) as [Zh|Zh]; cbn [negb andb].
  { cbn [stored map]. unfold amount. subst h. destruct (Reqb_spec k 0); six i; six j; cbn; unfold Rdiv; ring. }
  destruct (Reqb_spec k 0) as [Zk|Zk]; cbn [negb andb].
  { cbn [stored map]. unfold amount. six i; six j; cbn; unfold Rdiv; ring. }
  assert (X : Cf k l = if Rltb 0 k then cos (sqrt k * l) else cosh (sqrt (- k) * l)) by (unfold Cf; destruct (Reqb_spec k 0); [contradiction|reflexivity]).
  assert (Y : Sf k l = if Rltb 0 k then sin (sqrt k * l) / sqrt k else sinh (sqrt (- k) * l) / sqrt (- k)) by (unfold Sf; destruct (Reqb_spec k 0); [contradiction|reflexivity]).
  destruct (Rltb_spec 0 k) as [P|P].
  - assert (0 < sqrt k) by (apply sqrt_lt_R0; lra). set (q := sqrt k) in *. clearbody q. rewrite X, Y. unfold amount. six i; six j; cbn; try ring; field; lra.
  - assert (0 < sqrt (- k)) by (apply sqrt_lt_R0; lra). set (q := sqrt (- k)) in *. clearbody q. rewrite X, Y. unfold amount. six i; six j; cbn; try ring; field; lra.
Qed.
Theorem C161_sector_bend w l h K : exists m M, add_all (sbr_terms l h K) (empty w) = Ok m /\ sector_bend 6 l h K = Ok M /\ inside (terms m) /\ meq 6 (amount (terms m)) M.
Proof.
  destruct (sbr_form 6 l h K (or_intror eq_refl)) as (M & E & F). rewrite built.
  2: { unfold sbr_terms. destruct Reqb; [cbn; lia|]. rewrite !app_length. pose proof (qr2_length l (K + h * h) 0). pose proof (qr2_length l (- K) 2).
       destruct (_ && _)%bool; [destruct Rltb|]; cbn [length]; lia. }
  eexists. exists M. split; [reflexivity|]. split; [exact E|]. cbn [terms]. split.
  - unfold sbr_terms, qr2_terms. destruct Reqb; [repeat constructor; cbn; lia|]. destruct (Reqb (K + h * h) 0), (Rltb 0 (K + h * h)), (Reqb (- K) 0), (Rltb 0 (- K)), (Reqb h 0); repeat constructor; cbn; lia.
  - eapply meq_trans; [apply sbr_amount|apply meq_sym, F].
Qed.
Print Assumptions C161_sector_bend.
Theorem C161_pole_face w h th fint hgap : exists m M, add_all (pole_terms h th fint hgap) (empty w) = Ok m /\ pole_face 6 h th fint hgap = Ok M /\ inside (terms m) /\ meq 6 (amount (terms m)) M.
Proof.
  rewrite built by (cbn; lia). eexists. eexists. split; [reflexivity|]. split; [reflexivity|]. cbn [terms]. split; [repeat constructor; cbn; lia|].
  intros i j Hi Hj. unfold pole_terms. cbn zeta. set (a := h * tan th). set (b := - h * tan _). unfold amount, mset, mid. six i; six j; cbn; ring.
Qed.
Print Assumptions C161_pole_face.
(* the quadrupole and the roll agree on the transverse coordinates *)
Theorem C161_quadrupole w l K : exists m M, add_all (quad_terms l K) (empty w) = Ok m /\ quadrupole 4 l K = Ok M /\ inside (terms m) /\ meq 4 (amount (terms m)) M.
Proof.
  destruct (sbr_form 4 l 0 K (or_introl eq_refl)) as (M & E & F). rewrite built by (unfold quad_terms; rewrite app_length; pose proof (qr2_length l K 0); pose proof (qr2_length l (- K) 2); lia).
  eexists. exists M. split; [reflexivity|]. split; [exact E|]. cbn [terms]. split.
  - unfold quad_terms, qr2_terms. destruct (Reqb K 0), (Rltb 0 K), (Reqb (- K) 0), (Rltb 0 (- K)); repeat constructor; cbn; lia.
  - eapply meq_trans; [|apply meq_sym, F]. intros i j Hi Hj. unfold quad_terms. rewrite stored_app, amount_app, !qr2_amount by (auto; lia).
    unfold bend_form. replace (K + 0 * 0) with K by ring. six i; six j; cbn; ring.
Qed.
Print Assumptions C161_quadrupole.
Theorem C161_roll w c s : exists m M, add_all (srot_terms c s) (empty w) = Ok m /\ srot_cs 4 c s = Ok M /\ inside (terms m) /\ meq 4 (amount (terms m)) M.
Proof.
  rewrite built by (cbn; lia). eexists. eexists. split; [reflexivity|]. split; [reflexivity|]. cbn [terms]. split; [repeat constructor; cbn; lia|].
  intros i j Hi Hj. unfold amount, mset, mid. six i; six j; cbn; ring.
Qed.
Print Assumptions C161_roll.
(* but they forget the time and the momentum of what they act on *)
Theorem C72_longitudinal_refuted w l K c s x : exists m m' v v',
  add_all (quad_terms l K) (empty w) = Ok m /\ act (terms m) x vzero = Ok v /\ vct v = 0 /\ vdp v = 0 /\
  add_all (srot_terms c s) (empty w) = Ok m' /\ act (terms m') x vzero = Ok v' /\ vct v' = 0 /\ vdp v' = 0.
Proof.
  destruct (C161_quadrupole w l K) as (m & _ & E & _ & I & _). destruct (C161_roll w c s) as (m' & _ & E' & _ & I' & _).
  destruct (act_ok _ x I vzero) as (v & A & H). destruct (act_ok _ x I' vzero) as (v' & A' & H').
  exists m, m', v, v'. split; [exact E|]. split; [exact A|].
  rewrite built in E by (unfold quad_terms; rewrite app_length; pose proof (qr2_length l K 0); pose proof (qr2_length l (- K) 2); lia). injection E as <-.
  rewrite built in E' by (cbn; lia). injection E' as <-. cbn [terms] in *.
  assert (Z : forall i, (4 <= i < 6)%nat -> coord i v = 0 /\ coord i v' = 0).
  { intros i Hi. rewrite H, H' by lia. replace (coord i vzero) with 0 by (six i; reflexivity). unfold image. split.
    - rewrite (sum_ext _ (fun _ => 0)); [rewrite sum_const; ring|]. intros j J. apply in_seq in J. unfold quad_terms. rewrite stored_app, amount_app, !qr2_amount by (auto; lia).
      six i; six j; cbn; ring.
    - rewrite (sum_ext _ (fun _ => 0)); [rewrite sum_const; ring|]. intros j J. apply in_seq in J. unfold amount. six i; six j; cbn; ring. }
  destruct (Z 4%nat ltac:(lia)) as [Z1 Z2]. destruct (Z 5%nat ltac:(lia)) as [Z3 Z4]. cbn [coord] in Z1, Z2, Z3, Z4.
  rewrite built by (cbn; lia). auto 10.
Qed.
Print Assumptions C72_longitudinal_refuted.
(* the sparse solenoid is another matrix than the dense one, although outside
   the tolerance window: one term is written to the wrong place *)
Theorem C72_solenoid_refuted w l ks : eps < Rabs (ks / 2 * l) -> sin (ks / 2 * l) <> 0 -> exists m M,
  add_all (sol_terms l ks) (empty w) = Ok m /\ solenoid 4 l ks = Ok M /\ amount (terms m) 2%nat 1%nat = 0 /\ M 2%nat 1%nat <> 0 /\
  amount (terms m) 3%nat 1%nat = M 3%nat 1%nat + M 2%nat 1%nat.
Proof.
  intros W NS. assert (FF : fequal (ks / 2 * l) 0 = false).
  { destruct (fequal (ks / 2 * l) 0) eqn:F; [|reflexivity]. apply fequal_0 in F. lra. }
  assert (KZ : ks <> 0) by (intros ->; apply NS; replace (0 / 2 * l) with 0 by field; apply sin_0).
  rewrite built by (unfold sol_terms; rewrite FF; cbn; lia). eexists. eexists. split; [reflexivity|]. split; [reflexivity|]. cbn [terms].
  unfold sol_terms. rewrite FF. cbn zeta. set (s := sin _) in *. set (c := cos _) in *. clearbody s c. unfold amount, mset, mid. cbn. repeat split; try ring.
  unfold Rdiv. apply Rmult_integral_contrapositive_currified; [|now apply Rinv_neq_0_compat]. apply Rmult_integral_contrapositive_currified; [lra|nra].
Qed.
Print Assumptions C72_solenoid_refuted.
Example C72_solenoid_ex : eps < Rabs (2 / 2 * (PI / 2)) /\ sin (2 / 2 * (PI / 2)) <> 0.
Proof.
  replace (2 / 2 * (PI / 2)) with (PI / 2) by field. rewrite sin_PI2. pose proof PI2_1. pose proof eps_small. split; [rewrite Rabs_right; lra|lra].
Qed.
(* everything else of the solenoid is the same *)
Theorem C161_solenoid w l ks : exists m M, add_all (sol_terms l ks) (empty w) = Ok m /\ solenoid 4 l ks = Ok M /\ inside (terms m) /\
  forall i j, (i < 4)%nat -> (j < 4)%nat -> ~ (j = 1 /\ (i = 2 \/ i = 3))%nat -> amount (terms m) i j = M i j.
Proof.
  rewrite built by (unfold sol_terms; destruct fequal; cbn; lia). eexists. eexists. split; [reflexivity|]. split; [reflexivity|]. cbn [terms]. split.
  - unfold sol_terms. destruct fequal; repeat constructor; cbn; lia.
  - intros i j Hi Hj N. unfold sol_terms. cbn zeta. set (s := sin _) in *. set (c := cos _) in *. clearbody s c.
    destruct fequal; unfold amount, mset, mid; six i; six j; try (exfalso; lia); cbn; ring.
Qed.
Print Assumptions C161_solenoid.

(* ---- C74: second-order coefficients ---- *)
(* writing a coefficient twice adds the two values, and reading one changes the
   map: every access makes a new term *)
Theorem C74_second_order_refuted w : exists m p, let m1 := rt_set3 1 1 1 1 m in let m2 := rt_set3 1 1 1 2 m1 in
  m = rt_empty w /\ (exists q, rt_apply m2 p = Ok q /\ vx (pv q) = 3) /\ fst (rt_read3 1 1 1 m2) = 0 /\ length (quad (snd (rt_read3 1 1 1 m2))) = S (length (quad m2)).
Proof.
  exists (rt_empty w), (mkP (V6 1 0 0 0 0 0) 0%Z). cbn zeta. split; [reflexivity|]. split; [|split; reflexivity].
  exists (mkP (bump 0 (2 * 1 * 1) (bump 0 (1 * 1 * 1) vzero)) 0%Z). unfold rt_apply, iter. cbn [lin rt_empty rt_set3 self home terms empty]. rewrite Nat.eqb_refl.
  cbn -[bump]. split; [reflexivity|]. cbn. ring.
Qed.
Print Assumptions C74_second_order_refuted.
Lemma coord_vzero i : coord i vzero = 0.
Proof. destruct i as [|[|[|[|[|]]]]]; reflexivity. Qed.
Definition amount3 (l : list term3) (i : nat) (x : vec6) : R := sum (fun t => if Nat.eq_dec (qi t) i then qv t * coord (qj t) x * coord (qk t) x else 0) l.
Definition inside3 (l : list term3) : Prop := Forall (fun t => (qi t < 6)%nat /\ (qj t < 6)%nat /\ (qk t < 6)%nat) l.
Lemma act3s_ok l x : inside3 l -> forall y, exists v, act3s l x y = Ok v /\ forall i, (i < 6)%nat -> coord i v = coord i y + amount3 l i x.
Proof.
  induction 1 as [|t l (Hi & Hj & Hk) _ IH]; intros y; cbn [act3s].
  - exists y. split; [reflexivity|]. intros. cbn. ring.
  - unfold act3. apply Nat.ltb_lt in Hi as Hi', Hj as Hj', Hk as Hk'. rewrite Hi', Hj', Hk'. cbn [andb bind].
    destruct (IH (bump (qi t) (qv t * coord (qj t) x * coord (qk t) x) y)) as (v & E & H). exists v. split; [exact E|]. intros i B.
    rewrite H, bump_coord by exact B. unfold amount3. cbn [sum]. destruct (Nat.eq_dec (qi t) i); ring.
Qed.
Lemma rt_sets_ok l : numbered l -> forall m, tidy (lin m) -> exists m', rt_sets l m = Ok m' /\ tidy (lin m') /\ quad m' = quad m /\
  forall i j, (1 <= i)%nat -> (1 <= j)%nat -> amount (terms (lin m')) (i - 1)%nat (j - 1)%nat = last_written l i j (amount (terms (lin m)) (i - 1)%nat (j - 1)%nat).
Proof.
  induction 1 as [|[[a b] v] h [H1 H2] _ IH]; intros m T; cbn [rt_sets last_written].
  - exists m. repeat split; auto; apply T.
  - cbn [fst snd] in *. unfold rt_set. destruct (set_ok (lin m) a b v T H1 H2) as (m1 & E & T1 & _ & A). rewrite E. cbn [bind].
    destruct (IH (mkRT m1 (quad m)) T1) as (m2 & E2 & T2 & Q2 & A2).
    exists m2. split; [exact E2|]. split; [exact T2|]. split; [exact Q2|]. intros i j Hi Hj. rewrite A2 by assumption. cbn [lin]. rewrite A. unfold written.
    destruct (Nat.eq_dec (i - 1) (a - 1)), (Nat.eq_dec (j - 1) (b - 1)), (Nat.eq_dec a i), (Nat.eq_dec b j); try lia; reflexivity.
Qed.
Lemma rt_set3s_ok q : forall m, rt_set3s q m = mkRT (lin m) (quad m ++ map (fun p => mkT3 (fst (fst (fst p)) - 1) (snd (fst (fst p)) - 1) (snd (fst p) - 1) (snd p)) q).
Proof.
  induction q as [|[[[i j] k] v] q IH]; intros m; cbn [rt_set3s map]; [rewrite app_nil_r; now destruct m|].
  rewrite IH. cbn [rt_set3 lin quad fst snd]. now rewrite <- app_assoc.
Qed.
Definition numbered3 (h : list (nat * nat * nat * R)) : Prop :=
  Forall (fun p => (1 <= fst (fst (fst p)) <= 6)%nat /\ (1 <= snd (fst (fst p)) <= 6)%nat /\ (1 <= snd (fst p) <= 6)%nat) h.
(* what a map built from lists of coefficients does: linear coefficients are
   overwritten, second-order ones are summed *)
Theorem C74_second_order_partial w l q p : numbered l -> numbered3 q -> exists m v, rt_make w l q = Ok m /\ rt_apply m p = Ok (mkP v (pid p)) /\
  forall i, (1 <= i <= 6)%nat -> coord (i - 1) v = sum (fun j => last_written l i j 0 * coord (j - 1) (pv p)) (seq 1 6)
    + sum (fun t => let '(a, b, c, u) := t in if Nat.eq_dec a i then u * coord (b - 1) (pv p) * coord (c - 1) (pv p) else 0) q.
Proof.
  intros L Q. unfold rt_make. destruct (rt_sets_ok l L (rt_empty w)) as (m & E & T & QE & A); [repeat split; constructor|]. rewrite E. cbn [bind].
  rewrite rt_set3s_ok, QE. cbn [rt_empty quad app]. set (q3 := map _ q). exists (mkRT (lin m) q3). unfold rt_apply. cbn [lin quad]. destruct T as (O & I & N). rewrite iter_own by exact O. cbn [bind].
  destruct (act_ok _ (pv p) I vzero) as (y & E1 & H1). destruct (act3s_ok q3 (pv p)) with (y := y) as (v & E2 & H2).
  { unfold q3, inside3. rewrite Forall_map. eapply Forall_impl; [|exact Q]. intros [[[a b] c] u] (Ha & Hb & Hc). cbn in *. lia. }
  exists v. split; [reflexivity|]. rewrite E1. cbn [bind]. rewrite E2. cbn [bind]. split; [reflexivity|]. intros i Hi.
  rewrite H2, H1 by lia. rewrite coord_vzero, Rplus_0_l. f_equal.
  - unfold image. rewrite <- seq_shift, sum_map. apply sum_ext. intros j J. apply in_seq in J. pose proof (A i (S j) ltac:(lia) ltac:(lia)) as X.
    replace (S j - 1)%nat with j in * by lia. rewrite X. reflexivity.
  - unfold amount3, q3. rewrite sum_map. apply sum_ext. intros [[[a b] c] u] J. cbn [fst snd qi qj qk qv].
    unfold numbered3 in Q. rewrite Forall_forall in Q. specialize (Q _ J). cbn in Q.
    destruct (Nat.eq_dec (a - 1) (i - 1)), (Nat.eq_dec a i); try lia; reflexivity.
Qed.
Print Assumptions C74_second_order_partial.

(* ---- C76: second-order maps ---- *)
Ltac numbers := unfold numbered, numbered3; repeat constructor; cbn [fst snd]; lia.
Lemma rt_result w l q p F : numbered l -> numbered3 q ->
  (forall i, (1 <= i <= 6)%nat -> coord (i - 1) F = sum (fun j => last_written l i j 0 * coord (j - 1) (pv p)) (seq 1 6)
    + sum (fun t => let '(a, b, c, u) := t in if Nat.eq_dec a i then u * coord (b - 1) (pv p) * coord (c - 1) (pv p) else 0) q) ->
  exists m, rt_make w l q = Ok m /\ rt_apply m p = Ok (mkP F (pid p)).
Proof.
  intros L Q H. destruct (C74_second_order_partial w l q p L Q) as (m & v & E & A & C). exists m. split; [exact E|]. rewrite A. do 2 f_equal.
  apply vec6_eq. intros i Hi. specialize (H (S i) ltac:(lia)). specialize (C (S i) ltac:(lia)). replace (S i - 1)%nat with i in * by lia. congruence.
Qed.
Definition drift2 (s : R) (x : vec6) : vec6 :=
  V6 (vx x + s * vxp x) (vxp x) (vy x + s * vyp x) (vyp x) (vct x + s * path_term x) (vdp x).
Lemma drift_tm_ok w s p : exists m, drift_tm w s = Ok m /\ rt_apply m p = Ok (mkP (drift2 s (pv p)) (pid p)).
Proof.
  apply rt_result; [numbers|numbers|]. intros i Hi. destruct i as [|i]; [lia|]. assert (i < 6)%nat by lia. six i; cbn; unfold path_term; field.
Qed.
(* the drift map is the exact second-order solution *)
Theorem C163_drift w : exists F, (forall s p, exists m, drift_tm w s = Ok m /\ rt_apply m p = Ok (mkP (F s (pv p)) (pid p))) /\
  solves2 drift_motion (quad_second 0) (fun s => apply_m 6 (drift 6 s)) F /\ forall s t x, F (s + t) x = F t (F s x).
Proof.
  exists drift2. split; [apply drift_tm_ok|]. split; [split|].
  - intros x. apply vec6_eq. intros i Hi. six i; cbn; ring.
  - intros x i s Hi. six i; cbn -[apply_m path_term]; (eapply dlim_eq; [|dl]); cbn; unfold path_term; cbn; field.
  - intros s t x. apply vec6_eq. intros i Hi. six i; cbn; unfold path_term; cbn; field.
Qed.
Print Assumptions C163_drift.
Definition quad2 (K s : R) (x : vec6) : vec6 :=
  let c := Cf K s in let t := Sf K s in let c' := Cf (- K) s in let t' := Sf (- K) s in let d := vdp x in
  V6 (c * vx x + t * vxp x + K * t * s / 2 * vx x * d + (t - c * s) / 2 * vxp x * d)
     (- K * t * vx x + c * vxp x + K * (t + c * s) / 2 * vx x * d + K * t * s / 2 * vxp x * d)
     (c' * vy x + t' * vyp x - K * t' * s / 2 * vy x * d + (t' - c' * s) / 2 * vyp x * d)
     (K * t' * vy x + c' * vyp x - K * (t' + c' * s) / 2 * vy x * d - K * t' * s / 2 * vyp x * d)
     (vct x - K * (s - t * c) / 4 * vx x * vx x + K * (t * t) / 2 * vx x * vxp x - (t * c + s) / 4 * vxp x * vxp x
        + K * (s - t' * c') / 4 * vy x * vy x - K * (t' * t') / 2 * vy x * vyp x - (t' * c' + s) / 4 * vyp x * vyp x)
     d.
Lemma quadrupole_tm_ok w s K p : K <> 0 -> exists m, quadrupole_tm w s K = Ok m /\ rt_apply m p = Ok (mkP (quad2 K s (pv p)) (pid p)).
Proof.
  intros NZ. unfold quadrupole_tm. destruct (Reqb_spec K 0); [contradiction|]. cbn zeta. apply rt_result; [numbers|numbers|]. intros i Hi. destruct i as [|i]; [lia|]. assert (Hi' : (i < 6)%nat) by lia.
  unfold quad2, Cf, Sf. cbn zeta. destruct (Reqb_spec K 0); [contradiction|]. destruct (Reqb_spec (- K) 0); [lra|]. replace (- - K) with K by ring.
  destruct (Rltb_spec K 0) as [N|N], (Rltb_spec 0 K) as [P|P], (Rltb_spec 0 (- K)) as [Q|Q]; try lra.
  - rewrite (Rabs_left K) by lra. assert (0 < sqrt (- K)) by (apply sqrt_lt_R0; lra). pose proof (sqrt_sqrt (- K) ltac:(lra)) as E. set (k := sqrt (- K)) in *.
    replace (2 * k * s) with (k * s + k * s) by ring. rewrite sin_plus, sinh_plus. assert (EK : K = - (k * k)) by lra. clearbody k. subst K.
    set (a := sin (k * s)). set (b := cos (k * s)). set (c := sinh (k * s)). set (d := cosh (k * s)). clear - H Hi'.
    six i; cbn; field; lra.
  - rewrite (Rabs_right K) by lra. assert (0 < sqrt K) by (apply sqrt_lt_R0; lra). pose proof (sqrt_sqrt K ltac:(lra)) as E. set (k := sqrt K) in *.
    replace (2 * k * s) with (k * s + k * s) by ring. rewrite sin_plus, sinh_plus. assert (EK : K = k * k) by lra. clearbody k. subst K.
    set (a := sin (k * s)). set (b := cos (k * s)). set (c := sinh (k * s)). set (d := cosh (k * s)). clear - H Hi'.
    six i; cbn; field; lra.
Qed.
(* what the linear part of a 6 by 6 element does *)
Lemma quad_lin K s M x i : quadrupole 6 s K = Ok M -> (i < 6)%nat -> coord i (apply_m 6 M x) = sum (fun j => bend_form s 0 K i j * coord j x) (seq 0 6).
Proof.
  intros E Hi. destruct (sbr_form 6 s 0 K (or_intror eq_refl)) as (M' & E' & F). unfold quadrupole in E. rewrite E' in E. injection E as <-.
  rewrite apply_coord by exact Hi. apply Nat.ltb_lt in Hi as Hb. rewrite Hb. apply sum_ext. intros j J. apply in_seq in J. now rewrite F by lia.
Qed.
(* the quadrupole map is the second-order solution of x'' = -K x/(1+dp),
   y'' = K y/(1+dp), ct' = -(x'^2+y'^2)/2 *)
Theorem C163_quadrupole w K : K <> 0 -> exists F L, (forall s p, exists m, quadrupole_tm w s K = Ok m /\ rt_apply m p = Ok (mkP (F s (pv p)) (pid p))) /\
  (forall s, exists M, quadrupole 6 s K = Ok M /\ forall x, L s x = apply_m 6 M x) /\ solves2 (bend_motion 0 K) (quad_second K) L F.
Proof.
  intros NZ. exists (quad2 K), (fun s x => match quadrupole 6 s K with Ok M => apply_m 6 M x | _ => x end).
  split; [intros; now apply quadrupole_tm_ok|]. split; [|split].
  - intros s. destruct (sbr_form 6 s 0 K (or_intror eq_refl)) as (M & E & F). exists M. unfold quadrupole. rewrite E. auto.
  - intros x. unfold quad2. rewrite !Cf_0, !Sf_0. apply vec6_eq. intros i Hi. six i; cbn; field.
  - intros x i s Hi.
    destruct (sbr_form 6 s 0 K (or_intror eq_refl)) as (M & E & _). fold (quadrupole 6 s K) in E. rewrite E.
    pose proof (fun k => quad_lin K s M x k E) as L.
    assert (L0 : vx (apply_m 6 M x) = Cf K s * vx x + Sf K s * vxp x).
    { change (coord 0 (apply_m 6 M x) = Cf K s * vx x + Sf K s * vxp x). rewrite L by lia. unfold bend_form, gh. cbn. replace (K + 0 * 0) with K by ring. destruct Reqb; unfold Rdiv; ring. }
    assert (L1 : vxp (apply_m 6 M x) = - K * Sf K s * vx x + Cf K s * vxp x).
    { change (coord 1 (apply_m 6 M x) = - K * Sf K s * vx x + Cf K s * vxp x). rewrite L by lia. unfold bend_form, gh. cbn. replace (K + 0 * 0) with K by ring. destruct Reqb; unfold Rdiv; ring. }
    assert (L2 : vy (apply_m 6 M x) = Cf (- K) s * vy x + Sf (- K) s * vyp x).
    { change (coord 2 (apply_m 6 M x) = Cf (- K) s * vy x + Sf (- K) s * vyp x). rewrite L by lia. unfold bend_form. cbn. ring. }
    assert (L3 : vyp (apply_m 6 M x) = K * Sf (- K) s * vy x + Cf (- K) s * vyp x).
    { change (coord 3 (apply_m 6 M x) = K * Sf (- K) s * vy x + Cf (- K) s * vyp x). rewrite L by lia. unfold bend_form. cbn. ring. }
    assert (L5 : vdp (apply_m 6 M x) = vdp x).
    { change (coord 5 (apply_m 6 M x) = vdp x). rewrite L by lia. unfold bend_form. cbn. ring. }
    unfold quad_second, path_term. unfold quad2. cbn zeta.
    pose proof (pyth K s) as PX. pose proof (pyth (- K) s) as PY.
    six i; cbn -[apply_m Rdiv]; (eapply dlim_eq; [|dl]); cbv beta; cbn -[apply_m]; rewrite ?L0, ?L1, ?L2, ?L3, ?L5; cbn.
    all: set (c := Cf K s) in *; set (t := Sf K s) in *; set (c' := Cf (- K) s) in *; set (t' := Sf (- K) s) in *; clearbody c t c' t'; clear L0 L1 L2 L3 L5 L E; unfold Rdiv.
    all: try (field; fail).
    assert (A : (K * (vx x * vx x) + vxp x * vxp x) * (c * c + K * (t * t) - 1) = 0) by (rewrite PX; ring).
    assert (B : (- K * (vy x * vy x) + vyp x * vyp x) * (c' * c' + - K * (t' * t') - 1) = 0) by (rewrite PY; ring).
    clear PX PY. lra.
Qed.
Print Assumptions C163_quadrupole.
(* without gradient the map is not a drift: it divides by zero *)
Theorem C76_quadrupole_refuted w s : quadrupole_tm w s 0 = UB.
Proof. unfold quadrupole_tm. destruct (Reqb_spec 0 0); [reflexivity|lra]. Qed.
Definition sext2 (k s : R) (x : vec6) : vec6 :=
  V6 (vx x + s * vxp x - k / 2 * (s ^ 2 / 2 * (vx x * vx x - vy x * vy x) + s ^ 3 / 3 * (vx x * vxp x - vy x * vyp x) + s ^ 4 / 12 * (vxp x * vxp x - vyp x * vyp x)))
     (vxp x - k / 2 * (s * (vx x * vx x - vy x * vy x) + s ^ 2 * (vx x * vxp x - vy x * vyp x) + s ^ 3 / 3 * (vxp x * vxp x - vyp x * vyp x)))
     (vy x + s * vyp x + k * (s ^ 2 / 2 * vx x * vy x + s ^ 3 / 6 * (vx x * vyp x + vxp x * vy x) + s ^ 4 / 12 * vxp x * vyp x))
     (vyp x + k * (s * vx x * vy x + s ^ 2 / 2 * (vx x * vyp x + vxp x * vy x) + s ^ 3 / 3 * vxp x * vyp x))
     (vct x + s * path_term x) (vdp x).
Lemma sextupole_tm_ok w s k p : exists m, sextupole_tm w s k = Ok m /\ rt_apply m p = Ok (mkP (sext2 k s (pv p)) (pid p)).
Proof.
  unfold sextupole_tm. cbn zeta. apply rt_result; [numbers|numbers|]. intros i Hi. destruct i as [|i]; [lia|]. assert (Hi' : (i < 6)%nat) by lia.
  six i; cbn; unfold path_term; field.
Qed.
Lemma dlim_pow n x : derivable_pt_lim (fun y => y ^ S n) x (INR (S n) * x ^ n).
Proof. apply (derivable_pt_lim_pow x (S n)). Qed.
(* the sextupole map is the second-order solution of x'' = -k/2 (x^2-y^2), y'' = k x y *)
Theorem C163_sextupole w k : exists F, (forall s p, exists m, sextupole_tm w s k = Ok m /\ rt_apply m p = Ok (mkP (F s (pv p)) (pid p))) /\
  solves2 drift_motion (sext_second k) (fun s => apply_m 6 (drift 6 s)) F.
Proof.
  exists (sext2 k). split; [intros; apply sextupole_tm_ok|]. split.
  - intros x. apply vec6_eq. intros i Hi. six i; cbn; field.
  - intros x i s Hi. six i; cbn -[apply_m path_term]; (eapply dlim_eq; [|dl]); cbn; unfold path_term; cbn; field.
Qed.
Print Assumptions C163_sextupole.
(* the linear part of the second-order bend is the first-order bend *)
Theorem C163_sector_bend_linear w s h : h <> 0 -> exists m M, writes (sector_tm_linear s h) (empty w) = Ok m /\ sector_bend 6 s h 0 = Ok M /\ meq 6 (amount (terms m)) M.
Proof.
  intros NZ. assert (Nb : numbered (sector_tm_linear s h)) by numbers. destruct (writes_ok _ Nb (empty w)) as (m & E & T & A); [repeat split; constructor|].
  destruct (sbr_form 6 s h 0 (or_intror eq_refl)) as (M & E' & F). exists m, M. split; [exact E|]. split; [exact E'|].
  eapply meq_trans; [|apply meq_sym, F]. intros i j Hi Hj. specialize (A (S i) (S j) ltac:(lia) ltac:(lia)).
  replace (S i - 1)%nat with i in A by lia. replace (S j - 1)%nat with j in A by lia. rewrite A. unfold bend_form, gh, Cf, Sf. rewrite Ropp_0, Rplus_0_l.
  destruct (Reqb_spec 0 0); [|lra]. destruct (Reqb_spec (h * h) 0); [nra|]. destruct (Rltb_spec 0 (h * h)); [|nra].
  assert (S1 : sin (sqrt (h * h) * s) / sqrt (h * h) = sin (h * s) / h /\ cos (sqrt (h * h) * s) = cos (h * s)).
  { destruct (Rle_dec 0 h) as [P|P].
    - rewrite sqrt_square by exact P. auto.
    - replace (h * h) with (- h * - h) by ring. rewrite sqrt_square by lra. replace (- h * s) with (- (h * s)) by ring. rewrite sin_neg, cos_neg. split; [field; lra|reflexivity]. }
  destruct S1 as [S1 S2]. rewrite S1, S2. clear - NZ Hi Hj. six i; six j; cbn; try ring; field; lra.
Qed.
Print Assumptions C163_sector_bend_linear.
Example C36_sparse_moments_ex : let m := mkS 0 0 (stored (drift_terms 2)) in own m /\ inside (terms m) /\ holds 4 (zero 4) (fun _ _ => 0).
Proof. cbn zeta. split; [reflexivity|]. split; [|exact (zero_holds 4)]. unfold drift_terms. destruct Reqb; repeat constructor; cbn; lia. Qed.
Example C76_ex : exists m, drift_tm 0 3 = Ok m /\ rt_apply m (mkP (V6 0 2 0 0 0 0) 7%Z) = Ok (mkP (V6 6 2 0 0 (-6) 0) 7%Z).
Proof.
  destruct (drift_tm_ok 0 3 (mkP (V6 0 2 0 0 0 0) 7%Z)) as (m & E & A). exists m. split; [exact E|]. rewrite A. cbn. unfold drift2, path_term. cbn. do 2 f_equal. f_equal; lra.
Qed.
