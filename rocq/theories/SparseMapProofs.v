From Coq Require Import ZArith Lia Permutation.
From Verif Require Import RBase Cov CovProofs Bunch BunchSpec BunchProofs Optics OpticsSpec OpticsProofs SparseMap SparseMapSpec.
Local Open Scope R_scope.

Definition ind (b : bool) : R := if b then 1 else 0.
Lemma sum_delta a (f : nat -> R) n : sum (fun k => if Nat.eq_dec a k then f k else 0) (seq 0 n) = if Nat.ltb a n then f a else 0.
Proof.
  induction n as [|n IH]; [reflexivity|]. rewrite seq_S, sum_app, IH. cbn [sum Nat.add].
  destruct (Nat.ltb_spec a n), (Nat.ltb_spec a (S n)), (Nat.eq_dec a n); subst; try lia; ring.
Qed.
(* terms of one row, weighted *)
Lemma row_sum N l a (f : nat -> R) :
  sum (fun t => (if Nat.eq_dec (ti t) a then if Nat.ltb (tj t) N then tv t * f (tj t) else 0 else 0)) l
  = sum (fun k => amount l a k * f k) (seq 0 N).
Proof.
  unfold amount. rewrite (sum_ext (fun k => _ * f k) (fun k => sum (fun t => (if Nat.eq_dec (ti t) a then if Nat.eq_dec (tj t) k then tv t else 0 else 0) * f k) l))
    by (intros; now rewrite sum_scal_r).
  rewrite sum_swap. apply sum_ext. intros t _. destruct (Nat.eq_dec (ti t) a).
  - rewrite (sum_ext _ (fun k => if Nat.eq_dec (tj t) k then tv t * f k else 0)) by (intros; destruct Nat.eq_dec; ring).
    rewrite (sum_delta (tj t) (fun k => tv t * f k)). reflexivity.
  - rewrite (sum_ext _ (fun _ => 0)) by (intros; ring). rewrite sum_const. ring.
Qed.

(* ---- particles ---- *)
Lemma bump_coord i v y k : (k < 6)%nat -> coord k (bump i v y) = coord k y + (if Nat.eq_dec i k then v else 0).
Proof. intros H. unfold bump. rewrite coord_vof by exact H. destruct (Nat.eqb_spec k i), (Nat.eq_dec i k); subst; try lia; ring. Qed.
Lemma act_ok l x : inside l -> forall y, exists v, act l x y = Ok v /\ forall i, (i < 6)%nat -> coord i v = coord i y + image 6 (amount l) x i.
Proof.
  induction 1 as [|t l [Hi Hj] _ IH]; intros y; cbn [act].
  - exists y. split; [reflexivity|]. intros i _. unfold image, amount. cbn [sum]. rewrite (sum_ext _ (fun _ => 0)) by (intros; ring). rewrite sum_const. ring.
  - unfold act1. apply Nat.ltb_lt in Hi, Hj. rewrite Hi, Hj. cbn [andb bind]. apply Nat.ltb_lt in Hi, Hj.
    destruct (IH (bump (ti t) (tv t * coord (tj t) x) y)) as (v & E & H). exists v. split; [exact E|]. intros i B. rewrite H, bump_coord by exact B.
    unfold image. rewrite <- !(row_sum 6 _ i (fun k => coord k x)). cbn [sum]. apply Nat.ltb_lt in Hj. rewrite Hj.
    destruct (Nat.eq_dec (ti t) i); ring.
Qed.
Lemma act_bad l x y t : In t l -> ~ ((ti t < 6)%nat /\ (tj t < 6)%nat) -> act l x y = Throw OAssert.
Proof.
  revert y. induction l as [|u l IH]; intros y; [contradiction|]. intros [-> | I] B; cbn [act]; unfold act1.
  - destruct (Nat.ltb_spec (ti t) 6), (Nat.ltb_spec (tj t) 6); cbn; try reflexivity. tauto.
  - destruct (Nat.ltb_spec (ti u) 6), (Nat.ltb_spec (tj u) 6); cbn; try reflexivity. now apply IH.
Qed.

(* ---- covariances ---- *)
Definition okpair (N : nat) (t u : term) : bool := Nat.ltb (ti t) N && Nat.ltb (ti u) N && Nat.ltb (tj t) N && Nat.ltb (tj u) N.
Definition contrib (N : nat) (g : mat) (t u : term) (a b : nat) : R :=
  if okpair N t u then
    let v := tv t * tv u * g (tj t) (tj u) in
    if Nat.eqb a b then (if (Nat.eqb (ti t) a && Nat.eqb (ti u) a)%bool then v else 0)
    else (if (Nat.eqb (ti t) a && Nat.eqb (ti u) b)%bool then v / 2 else 0) + (if (Nat.eqb (ti t) b && Nat.eqb (ti u) a)%bool then v / 2 else 0)
  else 0.
Lemma contrib_symm N g t u : symm (contrib N g t u).
Proof.
  intros a b. unfold contrib. destruct okpair; [|reflexivity]. cbn zeta. destruct (Nat.eqb_spec a b), (Nat.eqb_spec b a); subst; try lia; [reflexivity|]. ring.
Qed.
Lemma symm_plus f g : symm f -> symm g -> symm (fun a b => f a b + g a b).
Proof. intros F G a b. now rewrite (F a b), (G a b). Qed.
Lemma map2nd_ok N orig g t u d r : holds N orig g -> symm g -> holds N d r -> symm r ->
  exists d', map2nd N orig t u d = Ok d' /\ holds N d' (fun a b => r a b + contrib N g t u a b).
Proof.
  intros G SG H S. unfold map2nd, contrib. fold (okpair N t u). destruct (okpair N t u) eqn:O.
  2: { exists d. split; [reflexivity|]. eapply holds_ext; [|exact H]. intros. ring. }
  assert (B : (ti t < N /\ ti u < N /\ tj t < N /\ tj u < N)%nat).
  { unfold okpair in O. rewrite !andb_true_iff in O. destruct O as [[[A B] C] D]. apply Nat.ltb_lt in A, B, C, D. auto. }
  destruct B as (B1 & B2 & B3 & B4).
  assert (C : cov_get N orig (tj t) (tj u) = g (tj t) (tj u)) by (unfold cov_get; now rewrite (holds_sig N orig g G SG)). rewrite C.
  set (v := tv t * tv u * g (tj t) (tj u)).
  destruct (upd_ok N (ti t) (ti u) (fun _ => if Nat.eqb (ti t) (ti u) then v else v / 2) d r _ B1 B2 H S (fun s _ => eq_refl)) as (d' & E & H').
  exists d'. split; [exact E|]. eapply holds_ext; [|exact H']. intros a b Bd. unfold put.
  destruct (Nat.eqb_spec a (ti t)), (Nat.eqb_spec b (ti u)), (Nat.eqb_spec a (ti u)), (Nat.eqb_spec b (ti t)),
    (Nat.eqb_spec (ti t) (ti u)), (Nat.eqb_spec a b), (Nat.eqb_spec (ti t) a), (Nat.eqb_spec (ti u) a), (Nat.eqb_spec (ti u) b), (Nat.eqb_spec (ti t) b);
    subst; try lia; cbn [andb orb]; try (unfold Rdiv; ring).
  all: repeat match goal with H : ti ?x = ti ?y |- _ => rewrite <- H in *; clear H end; try lia; try (unfold Rdiv; ring).
  all: try (rewrite (S (ti u) (ti t)); unfold Rdiv; ring). all: try (rewrite (S (ti t) (ti u)); unfold Rdiv; ring).
Qed.

Lemma holds_plus N d r f g : holds N d (fun a b => r a b + f a b + g a b) -> holds N d (fun a b => r a b + (f a b + g a b)).
Proof. apply holds_ext. intros. ring. Qed.
Lemma symm_sum {A} (f : A -> mat) l : (forall a, symm (f a)) -> symm (fun x y => sum (fun a => f a x y) l).
Proof. intros H x y. apply sum_ext. intros a _. apply H. Qed.
Lemma map_row_ok N orig g t us : holds N orig g -> symm g -> forall d r, holds N d r -> symm r ->
  exists d', map_row N orig t us d = Ok d' /\ holds N d' (fun a b => r a b + sum (fun u => contrib N g t u a b) us).
Proof.
  intros G SG. induction us as [|u us IH]; intros d r H S; cbn [map_row].
  - exists d. split; [reflexivity|]. eapply holds_ext; [|exact H]. intros. cbn. ring.
  - destruct (map2nd_ok N orig g t u d r G SG H S) as (d1 & E & H1). rewrite E. cbn [bind].
    destruct (IH d1 _ H1 (symm_plus _ _ S (contrib_symm N g t u))) as (d2 & E2 & H2). exists d2. split; [exact E2|]. cbn [sum]. now apply holds_plus.
Qed.
Lemma map_rows_ok N orig g us : holds N orig g -> symm g -> forall ts d r, holds N d r -> symm r ->
  exists d', map_rows N orig ts us d = Ok d' /\ holds N d' (fun a b => r a b + sum (fun t => sum (fun u => contrib N g t u a b) us) ts).
Proof.
  intros G SG. induction ts as [|t ts IH]; intros d r H S; cbn [map_rows].
  - exists d. split; [reflexivity|]. eapply holds_ext; [|exact H]. intros. cbn. ring.
  - destruct (map_row_ok N orig g t us G SG d r H S) as (d1 & E & H1). rewrite E. cbn [bind].
    destruct (IH d1 _ H1 (symm_plus _ _ S (symm_sum (contrib N g t) us (contrib_symm N g t)))) as (d2 & E2 & H2). exists d2. split; [exact E2|]. cbn [sum]. now apply holds_plus.
Qed.

Definition cross (N : nat) (g : mat) (l : list term) (a b : nat) : R :=
  sum (fun t => sum (fun u => if okpair N t u then if (Nat.eqb (ti t) a && Nat.eqb (ti u) b)%bool then tv t * tv u * g (tj t) (tj u) else 0 else 0) l) l.
Lemma cross_comm N g l a b : symm g -> cross N g l a b = cross N g l b a.
Proof.
  intros S. unfold cross. rewrite sum_swap. apply sum_ext. intros t _. apply sum_ext. intros u _.
  assert (E : okpair N u t = okpair N t u) by (unfold okpair; destruct (Nat.ltb (ti t) N), (Nat.ltb (ti u) N), (Nat.ltb (tj t) N), (Nat.ltb (tj u) N); reflexivity).
  rewrite E, (S (tj u) (tj t)), andb_comm. destruct (okpair N t u); [|reflexivity]. destruct (Nat.eqb (ti t) b && Nat.eqb (ti u) a)%bool; ring.
Qed.
Lemma contrib_cross N g l a b : symm g -> sum (fun t => sum (fun u => contrib N g t u a b) l) l = cross N g l a b.
Proof.
  intros S. unfold contrib. destruct (Nat.eqb_spec a b) as [<-|NE].
  - reflexivity.
  - transitivity (/ 2 * cross N g l a b + / 2 * cross N g l b a).
    + unfold cross. rewrite <- !sum_scal, <- sum_plus. apply sum_ext. intros t _. rewrite <- !sum_scal, <- sum_plus. apply sum_ext. intros u _.
      destruct okpair; [|ring]. cbn zeta. destruct (_ && _)%bool, (_ && _)%bool; unfold Rdiv; ring.
    + rewrite (cross_comm N g l b a S). field.
Qed.
Lemma cross_congruence N g l a b : (a < N)%nat -> (b < N)%nat -> cross N g l a b = congruence N (amount l) g a b.
Proof.
  intros A B. unfold cross, congruence.
  rewrite (sum_ext _ (fun t => if Nat.eq_dec (ti t) a then if Nat.ltb (tj t) N then tv t * (sum (fun k => amount l b k * g (tj t) k) (seq 0 N)) else 0 else 0)).
  2: { intros t _. rewrite <- (row_sum N l b (fun k => g (tj t) k)). destruct (Nat.eq_dec (ti t) a) as [Ea|Na].
       - destruct (Nat.ltb_spec (tj t) N) as [L|L].
         + rewrite <- sum_scal. apply sum_ext. intros u _. unfold okpair. apply Nat.ltb_lt in L. rewrite L, Ea, Nat.eqb_refl. apply Nat.ltb_lt in A. rewrite A. cbn [andb].
           destruct (Nat.eq_dec (ti u) b) as [Eb|Nb].
           * rewrite Eb, Nat.eqb_refl. apply Nat.ltb_lt in B. rewrite B. cbn [andb]. destruct (Nat.ltb (tj u) N); ring.
           * apply Nat.eqb_neq in Nb. rewrite Nb. destruct (_ && _)%bool; ring.
         + rewrite (sum_ext _ (fun _ => 0)); [rewrite sum_const; ring|]. intros u _. unfold okpair. apply Nat.ltb_ge in L. rewrite L, !andb_false_r. reflexivity.
       - rewrite (sum_ext _ (fun _ => 0)); [rewrite sum_const; ring|]. intros u _. apply Nat.eqb_neq in Na. rewrite Na. cbn [andb]. destruct okpair; reflexivity. }
  rewrite (row_sum N l a (fun j => sum (fun k => amount l b k * g j k) (seq 0 N))).
  apply sum_ext. intros k _. rewrite <- sum_scal. apply sum_ext. intros m _. ring.
Qed.

Lemma zero_holds N : holds N (zero (Z.of_nat N)) (fun _ _ => 0).
Proof.
  split; [unfold sized, zero; now rewrite repeat_length|]. intros i j B.
  destruct (sig_ok (Z.of_nat N) (zero (Z.of_nat N)) (Z.of_nat i) (Z.of_nat j)) as (x & E & F); try lia.
  { unfold sized, zero. now rewrite repeat_length. }
  rewrite E. f_equal. apply nth_error_In in F. unfold zero in F. now apply repeat_spec in F.
Qed.
Lemma map_all_ok N d g l : holds N d g -> symm g -> exists d', map_rows N d l l (zero (Z.of_nat N)) = Ok d' /\ holds N d' (congruence N (amount l) g).
Proof.
  intros H S. destruct (map_rows_ok N d g l H S l _ _ (zero_holds N) (fun _ _ => eq_refl)) as (d' & E & H'). exists d'. split; [exact E|].
  eapply holds_ext; [|exact H']. intros a b B. cbn beta. rewrite contrib_cross, cross_congruence by (lia || exact S). ring.
Qed.

(* ---- storage ---- *)
Definition own (m : smap) : Prop := self m = home m.
Lemma iter_own m : own m -> iter m = Ok (terms m).
Proof. intros H. unfold iter. rewrite <- H, Nat.eqb_refl. reflexivity. Qed.
Lemma push_ok t m : own m -> (length (terms m) < 36)%nat -> push t m = Ok (mkS (self m) (home m) (terms m ++ [t])).
Proof. intros H L. unfold push. rewrite <- H, Nat.eqb_refl. apply Nat.ltb_lt in L. now rewrite L. Qed.
Lemma push_all_ok l : forall m, own m -> (length (terms m) + length l <= 36)%nat -> push_all l m = Ok (mkS (self m) (home m) (terms m ++ l)).
Proof.
  induction l as [|t l IH]; intros m H L; cbn [push_all].
  - rewrite app_nil_r. now destruct m.
  - cbn [length] in L. rewrite push_ok by (assumption || lia). cbn [bind]. rewrite IH; [|exact H|cbn [terms]; rewrite app_length; cbn; lia]. cbn [self home terms]. now rewrite <- app_assoc.
Qed.
Lemma add_all_push l : forall m, add_all l m = push_all (stored l) m.
Proof. induction l as [|[[i j] v] l IH]; intros m; cbn; [reflexivity|]. unfold add_term. destruct push; cbn; auto. Qed.

Lemma amount_app a b i j : amount (a ++ b) i j = amount a i j + amount b i j.
Proof. apply sum_app. Qed.
Lemma amount_none l i j : find (is_term i j) l = None -> amount l i j = 0.
Proof.
  induction l as [|t l IH]; [reflexivity|]. cbn. unfold is_term at 1. unfold amount in *. cbn [sum].
  destruct (Nat.eqb_spec (ti t) i), (Nat.eqb_spec (tj t) j), (Nat.eq_dec (ti t) i), (Nat.eq_dec (tj t) j); try congruence; cbn; try discriminate; intros E; rewrite IH by exact E; ring.
Qed.
Lemma find_none_in l i j : find (is_term i j) l = None <-> ~ In (i, j) (map (fun t => (ti t, tj t)) l).
Proof.
  induction l as [|t l IH]; cbn; [tauto|]. unfold is_term at 1. destruct (Nat.eqb_spec (ti t) i), (Nat.eqb_spec (tj t) j); cbn; subst.
  - split; [discriminate|tauto].
  - rewrite IH. split; [intros H [E|E]; [congruence|tauto]|tauto].
  - rewrite IH. split; [intros H [E|E]; [congruence|tauto]|tauto].
  - rewrite IH. split; [intros H [E|E]; [congruence|tauto]|tauto].
Qed.
Lemma amount_out l i j : ~ In (i, j) (map (fun t => (ti t, tj t)) l) -> amount l i j = 0.
Proof. intros H. apply amount_none, find_none_in, H. Qed.
Lemma find_once l i j : once l -> match find (is_term i j) l with Some t => tv t | None => 0 end = amount l i j.
Proof.
  unfold once. induction l as [|t l IH]; [reflexivity|]. cbn [map]. intros N. inversion N as [|? ? N1 N2]; subst. cbn [find]. unfold is_term at 1.
  change (amount (t :: l) i j) with ((if Nat.eq_dec (ti t) i then if Nat.eq_dec (tj t) j then tv t else 0 else 0) + amount l i j).
  destruct (Nat.eqb_spec (ti t) i), (Nat.eqb_spec (tj t) j), (Nat.eq_dec (ti t) i), (Nat.eq_dec (tj t) j); try congruence; cbn [andb]; try (rewrite IH by exact N2; ring).
  subst. rewrite (amount_out l) by exact N1. ring.
Qed.
Definition written (i j : nat) (v : R) (M : mtx) : mtx := fun a b => if Nat.eq_dec a i then if Nat.eq_dec b j then v else M a b else M a b.
Lemma replace_keys i j v l : map (fun t => (ti t, tj t)) (replace i j v l) = map (fun t => (ti t, tj t)) l.
Proof.
  induction l as [|t l IH]; [reflexivity|]. cbn. unfold is_term. destruct (Nat.eqb_spec (ti t) i), (Nat.eqb_spec (tj t) j); cbn; subst; try reflexivity; now rewrite IH.
Qed.
Lemma replace_amount i j v l : once l -> find (is_term i j) l <> None -> forall a b, amount (replace i j v l) a b = written i j v (amount l) a b.
Proof.
  unfold once. induction l as [|t l IH]; [now cbn|]. cbn [map find]. intros N F a b. inversion N as [|? ? N1 N2]; subst. cbn [replace]. unfold is_term in *. unfold written.
  change (amount (t :: l) a b) with ((if Nat.eq_dec (ti t) a then if Nat.eq_dec (tj t) b then tv t else 0 else 0) + amount l a b).
  destruct (Nat.eqb_spec (ti t) i), (Nat.eqb_spec (tj t) j); cbn [andb] in *.
  1: { subst. change (amount (mkT (ti t) (tj t) v :: l) a b) with ((if Nat.eq_dec (ti t) a then if Nat.eq_dec (tj t) b then v else 0 else 0) + amount l a b).
       destruct (Nat.eq_dec a (ti t)), (Nat.eq_dec b (tj t)), (Nat.eq_dec (ti t) a), (Nat.eq_dec (tj t) b); subst; try congruence; try ring. rewrite (amount_out l) by exact N1. ring. }
  all: change (amount (t :: replace i j v l) a b) with ((if Nat.eq_dec (ti t) a then if Nat.eq_dec (tj t) b then tv t else 0 else 0) + amount (replace i j v l) a b).
  all: rewrite (IH N2 F a b); unfold written; destruct (Nat.eq_dec a i), (Nat.eq_dec b j), (Nat.eq_dec (ti t) a), (Nat.eq_dec (tj t) b); subst; try congruence; ring.
Qed.
Lemma once_app l t : once l -> ~ In (ti t, tj t) (map (fun t => (ti t, tj t)) l) -> once (l ++ [t]).
Proof.
  unfold once. rewrite map_app. cbn [map]. intros N H. apply (Permutation_NoDup (l := (ti t, tj t) :: map (fun t => (ti t, tj t)) l)).
  - apply Permutation_cons_append.
  - now constructor.
Qed.
Lemma inside_keys l : inside l <-> forall p, In p (map (fun t => (ti t, tj t)) l) -> (fst p < 6)%nat /\ (snd p < 6)%nat.
Proof.
  unfold inside. rewrite Forall_forall. split.
  - intros H p I. apply in_map_iff in I. destruct I as (t & <- & I). now apply H.
  - intros H t I. apply (H (ti t, tj t)). apply in_map_iff. now exists t.
Qed.
Definition places : list (nat * nat) := list_prod (seq 0 6) (seq 0 6).
Lemma room_left l i j : inside l -> once l -> (i < 6)%nat -> (j < 6)%nat -> ~ In (i, j) (map (fun t => (ti t, tj t)) l) -> (length l < 36)%nat.
Proof.
  intros I N Hi Hj O. assert (L : (length ((i, j) :: map (fun t => (ti t, tj t)) l) <= length places)%nat).
  { apply NoDup_incl_length; [now constructor|]. intros [a b] [E|E].
    - injection E as <- <-. apply in_prod; apply in_seq; lia.
    - apply (proj1 (inside_keys l) I) in E. cbn in E. apply in_prod; apply in_seq; lia. }
  cbn [length] in L. rewrite map_length in L. change (length places) with 36%nat in L. lia.
Qed.
(* a map that is used as an array of 6 by 6 elements *)
Definition tidy (m : smap) : Prop := own m /\ inside (terms m) /\ once (terms m).
Lemma set_ok m i j v : tidy m -> (1 <= i <= 6)%nat -> (1 <= j <= 6)%nat ->
  exists m', set i j v m = Ok m' /\ tidy m' /\ self m' = self m /\ forall a b, amount (terms m') a b = written (i - 1) (j - 1) v (amount (terms m)) a b.
Proof.
  intros (O & I & N) Hi Hj. unfold set. rewrite iter_own by exact O. cbn [bind]. destruct (find (is_term (i - 1) (j - 1)) (terms m)) as [t|] eqn:F.
  - eexists. split; [reflexivity|]. cbn [self home terms]. split; [|split; [reflexivity|]].
    + split; [exact O|]. split; [|unfold once; cbn [terms]; rewrite replace_keys; exact N]. cbn [terms]. apply inside_keys. rewrite replace_keys. now apply inside_keys.
    + apply replace_amount; [exact N|congruence].
  - pose proof (proj1 (find_none_in _ _ _) F) as NI. rewrite push_ok; [|exact O|apply (room_left _ (i - 1) (j - 1)); auto; lia].
    eexists. split; [reflexivity|]. cbn [self home terms]. split; [|split; [reflexivity|]].
    + split; [exact O|]. split; [|now apply once_app]. cbn [terms]. apply Forall_app. split; [exact I|]. constructor; [cbn; lia|constructor].
    + intros a b. rewrite amount_app. unfold written, amount at 2. cbn [sum ti tj tv].
      destruct (Nat.eq_dec (i - 1) a), (Nat.eq_dec (j - 1) b), (Nat.eq_dec a (i - 1)), (Nat.eq_dec b (j - 1)); subst; try congruence; try ring.
      rewrite (amount_out _ _ _ NI). ring.
Qed.
Lemma get_ok m i j : tidy m -> get i j m = Ok (amount (terms m) (i - 1)%nat (j - 1)%nat).
Proof. intros (O & _ & N). unfold get. rewrite iter_own by exact O. cbn [bind]. f_equal. now apply find_once. Qed.
Definition place_dec (p q : nat * nat) : {p = q} + {p <> q}.
Proof. decide equality; apply Nat.eq_dec. Defined.
Lemma overwrite_ok l : inside l -> once l -> forall M, exists M', overwrite l M = Ok M' /\ forall a b, M' a b = if in_dec place_dec (a, b) (map (fun t => (ti t, tj t)) l) then amount l a b else M a b.
Proof.
  induction l as [|t l IH]; intros I N M; cbn [overwrite].
  - exists M. split; [reflexivity|]. intros. destruct in_dec; [contradiction|reflexivity].
  - inversion I as [|? ? [I1 I2] I3]; subst. inversion N as [|? ? N1 N2]; subst. apply Nat.ltb_lt in I1, I2. rewrite I1, I2. cbn [andb].
    destruct (IH I3 N2 (mset (ti t) (tj t) (tv t) M)) as (M' & E & H). exists M'. split; [exact E|]. intros a b. rewrite H. unfold mset.
    change (amount (t :: l) a b) with ((if Nat.eq_dec (ti t) a then if Nat.eq_dec (tj t) b then tv t else 0 else 0) + amount l a b).
    cbn [map]. destruct (in_dec _ (a, b) (map _ l)) as [Y|Y], (in_dec _ (a, b) (_ :: _)) as [Z|Z]; cbn [In] in Z.
    + destruct (Nat.eq_dec (ti t) a), (Nat.eq_dec (tj t) b); subst; try ring. contradiction.
    + tauto.
    + destruct Z as [Z|Z]; [|contradiction]. injection Z as <- <-. rewrite !Nat.eqb_refl. destruct (Nat.eq_dec (ti t) (ti t)), (Nat.eq_dec (tj t) (tj t)); try congruence. cbn. rewrite (amount_out l) by exact Y. ring.
    + destruct (Nat.eqb_spec a (ti t)), (Nat.eqb_spec b (tj t)); subst; cbn; try reflexivity. exfalso. tauto.
Qed.
Lemma to_matrix_ok m : tidy m -> exists M, to_matrix m = Ok M /\ forall a b, M a b = amount (terms m) a b.
Proof.
  intros (O & I & N). unfold to_matrix. rewrite iter_own by exact O. cbn [bind]. destruct (overwrite_ok _ I N (fun _ _ => 0)) as (M & E & H).
  exists M. split; [exact E|]. intros a b. rewrite H. destruct in_dec as [Y|Y]; [reflexivity|]. now rewrite amount_out.
Qed.
(* the terms of a matrix *)
Lemma nonzero_in R rows cols t : In t (nonzero R rows cols) <-> (ti t < rows)%nat /\ (tj t < cols)%nat /\ tv t = R (ti t) (tj t) /\ tv t <> 0.
Proof.
  unfold nonzero. rewrite in_flat_map. split.
  - intros (i & Hi & H). apply in_flat_map in H. destruct H as (j & Hj & H). destruct (Reqb_spec (R i j) 0); [contradiction|]. destruct H as [<-|[]]. cbn.
    apply in_seq in Hi, Hj. repeat split; try lia; auto.
  - intros (Hi & Hj & E & NZ). exists (ti t). split; [apply in_seq; lia|]. apply in_flat_map. exists (tj t). split; [apply in_seq; lia|].
    destruct (Reqb_spec (R (ti t) (tj t)) 0); [congruence|]. left. destruct t; cbn in *. now subst.
Qed.
Lemma amount_flat {A} (f : A -> list term) l i j : amount (flat_map f l) i j = sum (fun a => amount (f a) i j) l.
Proof. induction l as [|a l IH]; [reflexivity|]. cbn [flat_map sum]. now rewrite amount_app, IH. Qed.
Lemma amount_nonzero R rows cols i j : amount (nonzero R rows cols) i j = if (Nat.ltb i rows && Nat.ltb j cols)%bool then R i j else 0.
Proof.
  unfold nonzero. rewrite amount_flat.
  rewrite (sum_ext _ (fun k => if Nat.eq_dec i k then (if Nat.ltb j cols then R i j else 0) else 0)).
  - rewrite (sum_delta i (fun _ => _)). destruct (Nat.ltb i rows), (Nat.ltb j cols); reflexivity.
  - intros a _. rewrite amount_flat. rewrite (sum_ext _ (fun k => if Nat.eq_dec j k then (if Nat.eq_dec i a then R i j else 0) else 0)).
    + rewrite (sum_delta j (fun _ => _)). destruct (Nat.eq_dec i a), (Nat.ltb j cols); reflexivity.
    + intros b _. destruct (Reqb_spec (R a b) 0) as [Z|Z].
      * cbn. destruct (Nat.eq_dec j b), (Nat.eq_dec i a); subst; auto.
      * unfold amount. cbn [sum ti tj tv]. destruct (Nat.eq_dec a i), (Nat.eq_dec b j), (Nat.eq_dec j b), (Nat.eq_dec i a); subst; try congruence; ring.
Qed.
Lemma nodup_flat {A B} (f : A -> list B) l : NoDup l -> (forall a, In a l -> NoDup (f a)) -> (forall a b x, In a l -> In b l -> In x (f a) -> In x (f b) -> a = b) -> NoDup (flat_map f l).
Proof.
  induction 1 as [|a l NI N IH]; intros H1 H2; cbn; [constructor|].
  assert (D : forall x, In x (f a) -> ~ In x (flat_map f l)).
  { intros x X Y. apply in_flat_map in Y. destruct Y as (b & B1 & B2). assert (a = b) by (apply (H2 a b x); cbn; auto). subst. contradiction. }
  assert (N1 : NoDup (f a)) by (apply H1; now left). assert (N2 : NoDup (flat_map f l)) by (apply IH; intros; [apply H1|eapply H2]; cbn; eauto).
  revert N1 D. generalize (f a). intros fa N1 D. induction N1 as [|x fa X N1 IH']; cbn; [exact N2|].
  constructor; [rewrite in_app_iff; intros [Y|Y]; [contradiction|now apply (D x); [left|]]|]. apply IH'. intros y Y. apply D. now right.
Qed.
Lemma nonzero_once R rows cols : once (nonzero R rows cols).
Proof.
  unfold once, nonzero. rewrite flat_map_concat_map, concat_map, map_map, <- flat_map_concat_map.
  apply nodup_flat; [apply seq_NoDup| |].
  - intros i _. rewrite flat_map_concat_map, concat_map, map_map, <- flat_map_concat_map. apply nodup_flat; [apply seq_NoDup| |].
    + intros j _. destruct Reqb; cbn; repeat constructor. intros [].
    + intros a b x _ _ X Y. destruct (Reqb (R i a) 0), (Reqb (R i b) 0); cbn in *; try contradiction. destruct X as [<-|[]], Y as [E|[]]. congruence.
  - intros a b x _ _ X Y. apply in_map_iff in X, Y. destruct X as (t & <- & X), Y as (u & E & Y). apply in_flat_map in X, Y.
    destruct X as (j & _ & X), Y as (k & _ & Y). destruct (Reqb (R a j) 0), (Reqb (R b k) 0); cbn in *; try contradiction.
    destruct X as [<-|[]], Y as [<-|[]]. cbn in E. congruence.
Qed.
Lemma nonzero_inside R rows cols : (rows <= 6)%nat -> (cols <= 6)%nat -> inside (nonzero R rows cols).
Proof. intros A B. apply Forall_forall. intros t T. apply nonzero_in in T. lia. Qed.
Lemma once_length l : inside l -> once l -> (length l <= 36)%nat.
Proof.
  intros I N. rewrite <- (map_length (fun t => (ti t, tj t))). change 36%nat with (length places). apply NoDup_incl_length; [exact N|].
  intros [a b] E. apply (proj1 (inside_keys l) I) in E. cbn in E. apply in_prod; apply in_seq; lia.
Qed.
