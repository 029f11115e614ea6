(* C51, C114, C115: linear systems and determinants by LU factorisation *)
From Coq Require Import Lia Morphisms.
From Verif Require Import RBase Mat MatFacts Gauss LU LUProofs.
Local Open Scope R_scope.

Lemma lufactor_ok : forall n A p, invertible n A -> (n <= length p)%nat ->
  exists M p' s, lufactor n n A p = Ok (M, p', s) /\ (length p' = length p)%nat /\
    (forall k, (k < n)%nat -> (k <= pv_at p' k < n)%nat) /\
    (forall i, (i < n)%nat -> M i i <> 0) /\
    (forall i c, (i < n)%nat -> (c < n)%nat -> mmul n (lf M) (uf M) i c = A (perm n (pv_at p') i) c).
Proof.
  intros n A p I Hp. unfold lufactor. rewrite Nat.eqb_refl.
  destruct (scales_ok n n A) as [[(i & Hi & Z) _] | [_ (sc & -> & P)]].
  { exfalso. exact (invertible_row n A i I Hi Z). }
  cbn [bind]. destruct (columns_ok n A sc p n I (le_n n) Hp P) as (s & -> & V & L). cbn [bind].
  destruct V as [V1 V2 V3 V4 V5]. exists (lm s), (lpivot s), (lsign s). auto 6.
Qed.

(* With room for the pivots, every regular system is solved. *)
Theorem C114_solve : forall n A p b, invertible n A -> (n <= length p)%nat ->
  exists M p' s x, lufactor n n A p = Ok (M, p', s) /\ lusolve n n M p' b = Ok x /\
    forall i, (i < n)%nat -> mvec n A x i = b i.
Proof.
  intros n A p b I Hp. destruct (lufactor_ok n A p I Hp) as (M & p' & s & E & L & P & D & F).
  destruct (forward_ok n M p' b n (le_n n) ltac:(lia) P) as (y & f & Ey & _ & Y & _).
  exists M, p', s, (back n n M y). split; [exact E |]. unfold lusolve. rewrite Ey. cbn [bind fst].
  split; [reflexivity |]. intros r Hr.
  destruct (perm_onto n (pv_at p') n r (le_n n)) as (i & Hi & <-); [intros k Hk; apply P in Hk; lia | exact Hr |].
  set (x := back n n M y). unfold mvec at 1.
  rewrite (sumn_ext n _ (fun c => mmul n (lf M) (uf M) i c * x c)).
  2:{ intros c Hc. rewrite F by assumption. reflexivity. }
  change (sumn n (fun c => mmul n (lf M) (uf M) i c * x c)) with (mvec n (mmul n (lf M) (uf M)) x i).
  rewrite mvec_mmul, lf_vec by exact Hi. unfold x.
  rewrite (sumn_ext i _ (fun k => M i k * y k)).
  2:{ intros k Hk. rewrite back_uf by (try lia; exact D). reflexivity. }
  rewrite back_uf by (try lia; exact D). apply Y. exact Hi.
Qed.
Print Assumptions C114_solve.

(* The same factors solve for any number of right hand sides, so they give the
   inverse column by column. *)
Theorem C114_inverse : forall n A p, invertible n A -> (n <= length p)%nat ->
  exists M p' s, lufactor n n A p = Ok (M, p', s) /\
    exists B : mat, (forall c, (c < n)%nat -> exists x, lusolve n n M p' (fun i => mid i c) = Ok x /\ forall i, x i = B i c) /\
    inverse_of n B A.
Proof.
  intros n A p I Hp. destruct (lufactor_ok n A p I Hp) as (M & p' & s & E & _).
  exists M, p', s. split; [exact E |].
  set (col := fun c => match lusolve n n M p' (fun i => mid i c) with Ok x => x | _ => fun _ => 0 end).
  assert (H : forall c, exists x, lusolve n n M p' (fun i => mid i c) = Ok x /\ forall i, (i < n)%nat -> mvec n A x i = mid i c).
  { intros c. destruct (C114_solve n A p (fun i => mid i c) I Hp) as (M' & q & s' & x & E' & Ex & S).
    rewrite E in E'. assert (M = M' /\ p' = q) as [-> ->] by (split; congruence). eauto. }
  exists (fun i c => col c i). split.
  - intros c _. destruct (H c) as (x & Ex & _). exists x. split; [exact Ex |]. intros i. unfold col. rewrite Ex. reflexivity.
  - assert (R : meq n (mmul n A (fun i c => col c i)) mid).
    { intros i c Hi Hc. destruct (H c) as (x & Ex & S). unfold mmul, col. rewrite Ex. apply S. exact Hi. }
    destruct I as (C & C1 & C2). split; [| exact R].
    rewrite <- (inverse_unique n A C _ C1 R). exact C1.
Qed.
Print Assumptions C114_inverse.

Theorem C114_errors : forall nr nc A p, 
  (nr <> nc -> lufactor nr nc A p = Throw LUDimensionError) /\
  (nr = nc -> forall i, (i < nr)%nat -> (forall j, (j < nr)%nat -> A i j = 0) -> lufactor nr nc A p = Throw LUSingularMatrix).
Proof.
  intros nr nc A p. unfold lufactor. split.
  - intros N. destruct (Nat.eqb_spec nc nr); [congruence | reflexivity].
  - intros -> i Hi Z. rewrite Nat.eqb_refl.
    destruct (scales_ok nc nc A) as [[_ ->] | [NZ _]]; [reflexivity |].
    destruct (NZ i Hi) as (j & Hj & N). exfalso. apply N. apply Z. exact Hj.
Qed.
Print Assumptions C114_errors.

(* a right hand side that is too short *)
Theorem C114_short : forall n nv M p b, (nv < n)%nat -> (n <= length p)%nat ->
  (forall k, (k < n)%nat -> (k <= pv_at p k)%nat) -> lusolve n nv M p b = Throw LURangeError.
Proof.
  intros n nv M p b H Hp P. unfold lusolve.
  assert (G : forall m, (m <= n)%nat -> forward nv m M p b = Throw LURangeError \/
    (m <= nv)%nat /\ exists st, forward nv m M p b = Ok st).
  { induction m as [| m IH]; intros Hm; cbn [forward]; [right; split; [lia | eauto] |].
    destruct (IH ltac:(lia)) as [-> | [Hv ([v f] & ->)]]; [left; reflexivity |]. cbn [bind]. unfold forward1.
    assert (NP : nth_error p m = Some (pv_at p m)) by (apply nth_error_nth'; lia). rewrite NP. cbn [bind].
    destruct (Nat.ltb_spec (pv_at p m) nv); [| left; reflexivity].
    destruct (Nat.ltb_spec m nv); [| left; reflexivity]. right. split; [lia |]. destruct f; eauto. }
  destruct (G n (le_n n)) as [-> | [L _]]; [reflexivity | lia].
Qed.
Print Assumptions C114_short.

(* LUMatrix gives LUfactor a vector without elements: every matrix that gets as
   far as the first column is an access out of range. *)
Lemma columns_empty : forall n m s, lpivot s = [] -> (0 < m)%nat -> columns n m s = UB.
Proof.
  intros n m s H Hm. induction m as [| m IH]; [lia |]. cbn [columns]. destruct m as [| m].
  - cbn [columns bind]. unfold column. destruct (lower _ _ _ _) as [[M1 b] im]. rewrite H. reflexivity.
  - rewrite IH by lia. reflexivity.
Qed.
Theorem C51_lumatrix_refuted : forall n A, (0 < n)%nat -> invertible n A -> lumatrix n n A = UB.
Proof.
  intros n A Hn I. unfold lumatrix, lufactor. rewrite Nat.eqb_refl.
  destruct (scales_ok n n A) as [[(i & Hi & Z) _] | [_ (sc & -> & P)]].
  { exfalso. exact (invertible_row n A i I Hi Z). }
  cbn [bind]. rewrite columns_empty by (reflexivity || exact Hn). reflexivity.
Qed.
Print Assumptions C51_lumatrix_refuted.

(* A singular matrix without a row of zeros is never reported. *)
Lemma columns_run : forall n A sc p m, (m <= length p)%nat ->
  exists s, columns n m (mkLU A sc p 1) = Ok s /\ length (lpivot s) = length p.
Proof.
  intros n A sc p. induction m as [| m IH]; intros H; cbn [columns]; [eauto |].
  destruct (IH ltac:(lia)) as (s & -> & L). cbn [bind]. unfold column.
  destruct (lower _ _ _ _) as [[M1 b] im]. destruct (Nat.ltb_spec m (length (lpivot s))); [| lia].
  eexists. split; [reflexivity |]. cbn [lpivot]. rewrite pv_set_len by assumption. exact L.
Qed.
Theorem C51_singular_refuted : forall n A p, (n <= length p)%nat ->
  (forall i, (i < n)%nat -> exists j, (j < n)%nat /\ A i j <> 0) -> exists f, lufactor n n A p = Ok f.
Proof.
  intros n A p Hp NZ. unfold lufactor. rewrite Nat.eqb_refl.
  destruct (scales_ok n n A) as [[(i & Hi & Z) _] | [_ (sc & -> & P)]].
  { destruct (NZ i Hi) as (j & Hj & N). exfalso. apply N. apply Z. exact Hj. }
  cbn [bind]. destruct (columns_run n A sc p n Hp) as (s & -> & _). cbn [bind]. eauto.
Qed.
Print Assumptions C51_singular_refuted.
Example C51_singular_case : ~ invertible 2 (fun _ _ => 1) /\
  exists f, lufactor 2 2 (fun _ _ => 1) [0; 0]%nat = Ok f.
Proof.
  split.
  - intros I. pose proof (invertible_injective 2 (fun _ _ => 1) (fun i => match i with O => 1 | _ => -1 end) I) as H.
    specialize (H ltac:(intros; unfold mvec; cbn; ring) 0%nat ltac:(lia)). cbn in H. lra.
  - apply C51_singular_refuted; [cbn; lia |]. intros i Hi. exists 0%nat. split; [lia | lra].
Qed.

(* A system that needs an exchange of rows. *)
Example C114_case : invertible 2 (fun i j => if Nat.eqb i j then 0 else 1).
Proof.
  exists (fun i j => if Nat.eqb i j then 0 else 1).
  split; intros [| [| i]] [| [| j]] Hi Hj; try lia; unfold mmul, mid; cbn; ring.
Qed.

(* C115: the determinant.  A form of n rows is the determinant if it reacts to row
   operations as the determinant does and is 1 for the unit matrix. *)
Definition addrow (r k : nat) (c : R) (A : mat) : mat := fun i j => if Nat.eqb i r then A r j + c * A k j else A i j.
Definition mulrow (r : nat) (c : R) (A : mat) : mat := fun i j => if Nat.eqb i r then c * A r j else A i j.
Definition swaprows (r k : nat) (A : mat) : mat := fun i => A (if Nat.eqb i r then k else if Nat.eqb i k then r else i).
Record determinant (n : nat) (D : mat -> R) : Prop := {
  det_meq : forall A B, meq n A B -> D A = D B;
  det_add : forall r k c A, (r < n)%nat -> (k < n)%nat -> r <> k -> D (addrow r k c A) = D A;
  det_mul : forall r c A, (r < n)%nat -> D (mulrow r c A) = c * D A;
  det_swap : forall r k A, (r < n)%nat -> (k < n)%nat -> r <> k -> D (swaprows r k A) = - D A;
  det_one : D mid = 1 }.

Section Det.
Variables (n : nat) (D : mat -> R).
Hypothesis HD : determinant n D.

Lemma det_comb : forall r (c : nat -> R) A m, (r < n)%nat -> (m <= n)%nat ->
  D (fun i j => if Nat.eqb i r then A r j + sumn m (fun k => if Nat.eqb k r then 0 else c k * A k j) else A i j) = D A.
Proof.
  intros r c A m Hr. induction m as [| m IH]; intros Hm.
  - apply (det_meq n D HD). intros i j Hi Hj. destruct (Nat.eqb_spec i r) as [-> |]; cbn; ring.
  - rewrite <- IH by lia. destruct (Nat.eq_dec m r) as [-> | N].
    + apply (det_meq n D HD). intros i j Hi Hj. rewrite sumn_S, Nat.eqb_refl. destruct (Nat.eqb i r); ring.
    + rewrite <- (det_add n D HD r m (c m) (fun i j => if Nat.eqb i r then A r j + sumn m _ else A i j)) by (try lia; congruence).
      apply (det_meq n D HD). intros i j Hi Hj. unfold addrow. rewrite sumn_S, Nat.eqb_refl.
      destruct (Nat.eqb_spec m r); [contradiction |]. destruct (Nat.eqb i r); ring.
Qed.

(* unit lower triangular factor *)
Lemma det_lower : forall M, D (mmul n (lf M) (uf M)) = D (uf M).
Proof.
  intros M. set (P := mmul n (lf M) (uf M)).
  assert (G : forall m, (m <= n)%nat -> D (fun i => if Nat.ltb i m then uf M i else P i) = D P).
  { induction m as [| m IH]; intros Hm.
    - apply (det_meq n D HD). intros i j _ _. reflexivity.
    - rewrite <- IH by lia.
      rewrite <- (det_comb m (fun k => if Nat.ltb k m then - M m k else 0) (fun i => if Nat.ltb i m then uf M i else P i) n) by lia.
      apply (det_meq n D HD). intros i j Hi Hj. destruct (Nat.eqb_spec i m) as [-> | N].
      + rewrite Nat.ltb_irrefl. destruct (Nat.ltb_spec m (Datatypes.S m)); [| lia].
        unfold P. change (mmul n (lf M) (uf M) m j) with (mvec n (lf M) (fun k => uf M k j) m).
        rewrite lf_vec by lia.
        assert (E : sumn n (fun k => if Nat.eqb k m then 0 else (if Nat.ltb k m then - M m k else 0) * (if Nat.ltb k m then uf M k else mmul n (lf M) (uf M) k) j) = - sumn m (fun k => M m k * uf M k j)).
        { rewrite (sumn_split n m) by lia. rewrite (sumn_0 (n - m)).
          2:{ intros k Hk. destruct (Nat.eqb_spec (m + k) m); [reflexivity |]. destruct (Nat.ltb_spec (m + k) m); [lia | ring]. }
          rewrite (sumn_ext m _ (fun k => -1 * (M m k * uf M k j))).
          2:{ intros k Hk. destruct (Nat.eqb_spec k m); [lia |]. destruct (Nat.ltb_spec k m); [ring | lia]. }
          rewrite sumn_scal. ring. }
        rewrite E. ring.
      + destruct (Nat.ltb_spec i m), (Nat.ltb_spec i (Datatypes.S m)); try lia; reflexivity. }
  rewrite <- (G n (le_n n)). apply (det_meq n D HD). intros i j Hi Hj. destruct (Nat.ltb_spec i n); [reflexivity | lia].
Qed.

Fixpoint prodn (m : nat) (f : nat -> R) : R := match m with O => 1 | Datatypes.S k => prodn k f * f k end.

Lemma det_diag : forall f, D (fun i j => if Nat.eqb i j then f i else 0) = prodn n f.
Proof.
  intros f.
  assert (G : forall m, (m <= n)%nat -> D (fun i j => if Nat.eqb i j then if Nat.ltb i m then f i else 1 else 0) = prodn m f).
  { induction m as [| m IH]; intros Hm; cbn [prodn].
    - transitivity (D mid); [| apply (det_one n D HD)]. apply (det_meq n D HD). intros i j _ _. reflexivity.
    - rewrite <- IH by lia. rewrite Rmult_comm, <- (det_mul n D HD m) by lia. apply (det_meq n D HD). intros i j Hi Hj. unfold mulrow.
      destruct (Nat.eqb_spec i m) as [-> | N].
      + destruct (Nat.eqb_spec m j) as [<- |]; [| ring]. rewrite Nat.ltb_irrefl. destruct (Nat.ltb_spec m (Datatypes.S m)); [ring | lia].
      + destruct (Nat.eqb i j); [| reflexivity]. destruct (Nat.ltb_spec i m), (Nat.ltb_spec i (Datatypes.S m)); try lia; reflexivity. }
  rewrite <- (G n (le_n n)). apply (det_meq n D HD). intros i j Hi Hj. destruct (Nat.ltb_spec i n); [reflexivity | lia].
Qed.

Lemma det_upper : forall M, (forall i, (i < n)%nat -> M i i <> 0) -> D (uf M) = prodn n (fun i => M i i).
Proof.
  intros M Z. rewrite <- det_diag.
  (* rows from n - m on are diagonal *)
  assert (G : forall m, (m <= n)%nat ->
    D (fun i j => if Nat.ltb i (n - m) then uf M i j else if Nat.eqb i j then M i i else 0) = D (uf M)).
  { induction m as [| m IH]; intros Hm.
    - apply (det_meq n D HD). intros i j Hi Hj. destruct (Nat.ltb_spec i (n - 0)); [reflexivity | lia].
    - rewrite <- IH by lia. set (r := (n - Datatypes.S m)%nat).
      rewrite <- (det_comb r (fun k => if Nat.ltb r k then - (M r k / M k k) else 0)
        (fun i j => if Nat.ltb i (n - m) then uf M i j else if Nat.eqb i j then M i i else 0) n) by lia.
      apply (det_meq n D HD). intros i j Hi Hj. destruct (Nat.eqb_spec i r) as [-> | N].
      + rewrite Nat.ltb_irrefl. destruct (Nat.ltb_spec r (n - m)); [| lia].
        assert (E : sumn n (fun k => if Nat.eqb k r then 0 else (if Nat.ltb r k then - (M r k / M k k) else 0) *
             (if Nat.ltb k (n - m) then uf M k j else if Nat.eqb k j then M k k else 0)) = if Nat.ltb r j then - M r j else 0).
        { destruct (Nat.ltb_spec r j) as [L | L].
          - rewrite (sumn_single n j).
            + destruct (Nat.eqb_spec j r); [lia |]. destruct (Nat.ltb_spec r j); [| lia]. destruct (Nat.ltb_spec j (n - m)); [lia |].
              rewrite Nat.eqb_refl. field. apply Z. exact Hj.
            + exact Hj.
            + intros k Hk Nk. destruct (Nat.eqb_spec k r); [reflexivity |]. destruct (Nat.ltb_spec r k); [| ring].
              destruct (Nat.ltb_spec k (n - m)); [lia |]. destruct (Nat.eqb_spec k j); [contradiction | ring].
          - apply sumn_0. intros k Hk. destruct (Nat.eqb_spec k r); [reflexivity |]. destruct (Nat.ltb_spec r k); [| ring].
            destruct (Nat.ltb_spec k (n - m)); [lia |]. destruct (Nat.eqb_spec k j); [lia | ring]. }
        rewrite E. unfold uf. destruct (Nat.eqb_spec r j) as [<- | Nj].
        * rewrite Nat.leb_refl, Nat.ltb_irrefl. ring.
        * destruct (Nat.leb_spec r j), (Nat.ltb_spec r j); try lia; ring.
      + destruct (Nat.ltb_spec i r), (Nat.ltb_spec i (n - m)); try lia; reflexivity. }
  rewrite <- (G n (le_n n)). apply (det_meq n D HD). intros i j Hi Hj. rewrite Nat.sub_diag.
  destruct (Nat.ltb_spec i 0); [lia | reflexivity].
Qed.

(* row exchanges *)
Fixpoint sgn (m : nat) (p : nat -> nat) : R :=
  match m with O => 1 | Datatypes.S k => sgn k p * (if Nat.eqb k (p k) then 1 else -1) end.
Lemma det_perm : forall A p m, (m <= n)%nat -> (forall k, (k < m)%nat -> (p k < n)%nat) ->
  D (fun i => A (perm m p i)) = sgn m p * D A.
Proof.
  intros A p m. induction m as [| m IH]; intros Hm Hp; cbn [perm sgn].
  - rewrite Rmult_1_l. reflexivity.
  - specialize (IH ltac:(lia) ltac:(intros; apply Hp; lia)).
    destruct (Nat.eqb_spec m (p m)) as [E | N].
    + rewrite Rmult_1_r, <- IH. apply (det_meq n D HD). intros i j _ _. rewrite <- E, exch_same. reflexivity.
    + replace (sgn m p * -1 * D A) with (- D (fun i => A (perm m p i))) by (rewrite IH; ring).
      rewrite <- (det_swap n D HD m (p m)) by (try lia; auto). reflexivity.
Qed.
End Det.

Lemma columns_sign : forall n A sc p m s, (m <= length p)%nat -> columns n m (mkLU A sc p 1) = Ok s ->
  lsign s = sgn m (pv_at (lpivot s)) /\ length (lpivot s) = length p.
Proof.
  intros n A sc p. induction m as [| m IH]; intros s Hm E; cbn [columns] in E.
  - apply (f_equal (fun r => match r with Ok v => v | _ => s end)) in E. subst s. cbn. auto.
  - destruct (columns n m (mkLU A sc p 1)) as [s0 | e |]; cbn [bind] in E; try discriminate.
    destruct (IH s0 ltac:(lia) eq_refl) as [S0 L0]. unfold column in E.
    destruct (lower _ _ _ _) as [[M1 b] im]. destruct (Nat.ltb_spec m (length (lpivot s0))) as [Hl | Hl]; [| discriminate].
    apply (f_equal (fun r => match r with Ok v => v | _ => s end)) in E. subst s. cbn [lsign lpivot].
    rewrite pv_set_len by exact Hl. split; [| exact L0]. cbn [sgn]. rewrite pv_set, Nat.eqb_refl by exact Hl.
    assert (X : sgn m (pv_at (firstn m (lpivot s0) ++ im :: skipn (m + 1) (lpivot s0))) = sgn m (pv_at (lpivot s0))).
    { assert (G : forall k, (k <= m)%nat -> sgn k (pv_at (firstn m (lpivot s0) ++ im :: skipn (m + 1) (lpivot s0))) = sgn k (pv_at (lpivot s0))).
      { induction k as [| k IHk]; intros Hk; cbn [sgn]; [reflexivity |]. rewrite IHk by lia. rewrite pv_set by exact Hl.
        destruct (Nat.eqb_spec k m); [lia | reflexivity]. }
      apply G. lia. }
    rewrite X, S0. destruct (Nat.eqb m im); ring.
Qed.

Theorem C115_determinant : forall n D A p, determinant n D -> invertible n A -> (n <= length p)%nat ->
  exists f, lufactor n n A p = Ok f /\ ludet n f = D A.
Proof.
  intros n D A p HD I Hp.
  destruct (lufactor_ok n A p I Hp) as (M & p' & s & E & L & P & Z & F).
  exists (M, p', s). split; [exact E |].
  assert (S : s = sgn n (pv_at p')).
  { unfold lufactor in E. rewrite Nat.eqb_refl in E.
    destruct (scales n n A) as [sc | e |]; cbn [bind] in E; try discriminate.
    destruct (columns n n (mkLU A sc p 1)) as [t | e |] eqn:C; cbn [bind] in E; try discriminate.
    apply columns_sign in C; [| exact Hp]. destruct C as [C _].
    assert (lpivot t = p' /\ lsign t = s) as [<- <-] by (split; congruence). exact C. }
  assert (DP : sgn n (pv_at p') * D A = prodn n (fun i => M i i)).
  { rewrite <- (det_perm n D HD) by (try lia; intros k Hk; apply P in Hk; lia).
    rewrite <- (det_upper n D HD) by exact Z. rewrite <- (det_lower n D HD).
    apply (det_meq n D HD). intros i j Hi Hj. symmetry. apply F; assumption. }
  assert (S2 : s * s = 1).
  { rewrite S. generalize n at 1 2. intros m. induction m as [| m IH]; cbn [sgn]; [ring |].
    destruct (Nat.eqb m (pv_at p' m)); nra. }
  assert (LD : ludet n (M, p', s) = s * prodn n (fun i => M i i)).
  { unfold ludet. apply (loop_split _ 0 n _ (fun k d => d = s * prodn k (fun i => M i i))).
    - cbn. ring.
    - intros k d Hk ->. cbn [prodn Nat.add]. ring. }
  rewrite LD, <- DP, <- S. rewrite <- Rmult_assoc, S2. ring.
Qed.
Print Assumptions C115_determinant.

(* Two rows: the usual expression is a determinant. *)
Example C115_case : determinant 2 (fun A => A 0%nat 0%nat * A 1%nat 1%nat - A 0%nat 1%nat * A 1%nat 0%nat).
Proof.
  constructor.
  - intros A B H. rewrite !H by lia. reflexivity.
  - intros [| [| r]] [| [| k]] c A Hr Hk N; try lia; unfold addrow; cbn; ring.
  - intros [| [| r]] c A Hr; try lia; unfold mulrow; cbn; ring.
  - intros [| [| r]] [| [| k]] A Hr Hk N; try lia; unfold swaprows; cbn; ring.
  - unfold mid. cbn. ring.
Qed.

(* The determinant returned is never zero: a zero pivot is replaced. *)
Lemma column_diag : forall n j s s', (j < n)%nat -> (forall i, (i < n)%nat -> 0 < lscale s i) ->
  (forall c, (c < j)%nat -> lm s c c <> 0) -> column n j s = Ok s' ->
  (forall i, (i < n)%nat -> 0 < lscale s' i) /\ forall c, (c < Datatypes.S j)%nat -> lm s' c c <> 0.
Proof.
  intros n j s s' Hj P Z E. unfold column in E.
  destruct (upper_ok j (lm s)) as [_ U2]. set (U := upper j (lm s)) in *.
  destruct (lower_ok n j (lscale s) U Hj P) as (M1 & big & im & EL & Him & _ & L2 & _). rewrite EL in E.
  destruct (Nat.ltb j (length (lpivot s))); [| discriminate].
  set (M2 := if Nat.eqb j im then M1 else swap_rows im j M1) in E.
  set (M3 := if Reqb (M2 j j) 0 then set2 M2 j j dbl_eps else M2) in E.
  destruct (divide_ok (j + 1) (n - (j + 1)) j (1 / M3 j j) M3) as [_ D2]; [lia |].
  set (M4 := loop _ _ _ M3) in *.
  apply (f_equal (fun r => match r with Ok v => v | _ => s end)) in E. subst s'. cbn [lm lscale]. split.
  - intros i Hi. destruct (Nat.eqb j im); [apply P; exact Hi |]. unfold set1. destruct (Nat.eqb_spec i im); apply P; lia.
  - intros c Hc. rewrite D2 by lia. destruct (Nat.eq_dec c j) as [-> | N].
    + unfold M3. destruct (Reqb_spec (M2 j j) 0) as [Y | Y]; [| exact Y]. rewrite set2_eq. unfold dbl_eps.
      apply Rinv_neq_0_compat. apply pow_nonzero. lra.
    + assert (E3 : M3 c c = M2 c c). { unfold M3. destruct (Reqb (M2 j j) 0); [apply set2_neq; lia | reflexivity]. }
      assert (E2 : M2 c c = M1 c c).
      { unfold M2. destruct (Nat.eqb j im); [reflexivity |]. rewrite swap_is, exch_sym, exch_below by lia. reflexivity. }
      rewrite E3, E2, L2, U2 by lia. apply Z. lia.
Qed.
Lemma columns_diag : forall n A sc p m s, (m <= n)%nat -> (forall i, (i < n)%nat -> 0 < sc i) ->
  columns n m (mkLU A sc p 1) = Ok s ->
  (forall i, (i < n)%nat -> 0 < lscale s i) /\ forall c, (c < m)%nat -> lm s c c <> 0.
Proof.
  intros n A sc p. induction m as [| m IH]; intros s Hm P E; cbn [columns] in E.
  - apply (f_equal (fun r => match r with Ok v => v | _ => s end)) in E. subst s. cbn. split; [exact P | intros; lia].
  - destruct (columns n m (mkLU A sc p 1)) as [s0 | e |]; cbn [bind] in E; try discriminate.
    destruct (IH s0 ltac:(lia) P eq_refl) as [P0 Z0]. eapply column_diag; eauto.
Qed.
Theorem C115_never_zero_refuted : forall n A p f, (n <= length p)%nat -> lufactor n n A p = Ok f -> ludet n f <> 0.
Proof.
  intros n A p f Hp E. unfold lufactor in E. rewrite Nat.eqb_refl in E.
  destruct (scales_ok n n A) as [[_ S] | [_ (sc & S & P)]]; rewrite S in E; cbn [bind] in E; [discriminate |].
  destruct (columns n n (mkLU A sc p 1)) as [s | e |] eqn:C; cbn [bind] in E; try discriminate.
  apply (f_equal (fun r => match r with Ok v => v | _ => f end)) in E. subst f.
  destruct (columns_diag n A sc p n s (le_n n) P C) as [_ Z].
  destruct (columns_sign n A sc p n s Hp C) as [SG _].
  unfold ludet. apply (loop_split _ 0 n _ (fun _ d => d <> 0)).
  - rewrite SG. generalize n at 1. intros m. induction m as [| m IH]; cbn [sgn]; [lra |].
    apply Rmult_integral_contrapositive_currified; [exact IH |]. destruct (Nat.eqb m _); lra.
  - intros k d Hk H. apply Rmult_integral_contrapositive_currified; [exact H |]. apply Z. exact Hk.
Qed.
Print Assumptions C115_never_zero_refuted.
