(* Lemmas about LatFun.v *)
From Coq Require Import ZArith Lia Lra.
From Verif Require Import RBase Bunch BunchSpec Optics Orbit OrbitSpec OrbitProofs LatFun LatFunSpec.
From Verif Require Mat MatFacts Gauss GaussProps SympProps Rot RotProofs.
Local Open Scope R_scope.

Lemma sumn_tot n f : Mat.sumn n f = tot n f.
Proof. induction n; [reflexivity|]. cbn [Mat.sumn]. rewrite tot_S, IHn. reflexivity. Qed.
Lemma mmul_product n A B i j : Mat.mmul n A B i j = product n A B i j.
Proof. apply sumn_tot. Qed.
Lemma has_inverse_iff n A : has_inverse n A <-> Mat.invertible n A.
Proof.
  split; intros (B & P & Q); exists B; split; intros i j Hi Hj.
  - rewrite mmul_product. apply Q; assumption.
  - rewrite mmul_product. apply P; assumption.
  - rewrite <- mmul_product. apply Q; assumption.
  - rewrite <- mmul_product. apply P; assumption.
Qed.

Lemma calc_row_ok n ok s p N cs : forall cs', calc_row n ok s p N cs = Ok cs' ->
  Forall2 (fun c c' => exists v, value_of n ok s p N (ci c) (cj c) (ck c) = Ok v /\ c' = append_value v c) cs cs'.
Proof.
  induction cs as [|c cs IH]; intros cs' H; cbn [calc_row] in H.
  - inversion H. constructor.
  - destruct (value_of n ok s p N (ci c) (cj c) (ck c)) as [v| |] eqn:V; cbn [bind] in H; try discriminate.
    destruct (calc_row n ok s p N cs) as [r| |] eqn:E; cbn [bind] in H; try discriminate.
    inversion H. constructor; [exists v; auto|apply IH; reflexivity].
Qed.
Lemma value_legal n ok s p N i j k : n = dim ok -> legal n (i, j, k) -> exists v, value_of n ok s p N i j k = Ok v.
Proof.
  intros D (L1 & L2 & L3). unfold value_of.
  destruct (Z.eqb_spec k 3) as [K|K]; destruct ok; cbn [negb andb]; cbn [dim] in D; subst n; cbn [Z.of_nat] in *; try lia.
  all: destruct (Z.eqb_spec i 0); destruct (Z.eqb_spec j 0); destruct (Z.ltb_spec 0 k); destruct (Z.eqb_spec k 0); destruct (Z.ltb_spec 0 i); destruct (Z.ltb_spec 0 j);
    cbn [andb]; try lia;
    repeat match goal with |- context [Z.leb ?a ?b] => destruct (Z.leb_spec a b); try lia end; cbn [andb]; eauto.
Qed.
Lemma calc_row_legal n ok s p N cs : n = dim ok -> Forall (fun c => legal n (idx c)) cs -> exists cs', calc_row n ok s p N cs = Ok cs'.
Proof.
  intros D. induction 1 as [|c cs L _ [r IH]]; cbn [calc_row]; [eauto|].
  destruct (value_legal n ok s p N _ _ _ D L) as [v ->]. cbn [bind]. rewrite IH. cbn [bind]. eauto.
Qed.
Lemma append_idx v c : idx (append_value v c) = idx c.
Proof. reflexivity. Qed.
Lemma calc_row_idx n ok s p N cs cs' : calc_row n ok s p N cs = Ok cs' -> map idx cs' = map idx cs.
Proof. intros H. apply calc_row_ok in H. induction H as [|c c' cs cs' (v & _ & ->) _ IH]; cbn [map]; [reflexivity|]. rewrite IH. reflexivity. Qed.

Lemma arrives_S s c m r p : arrives s (c :: m) (S r) p = arrives s m r (pass s None (lc c) p).
Proof. unfold arrives. cbn [firstn map]. rewrite moved_pass. reflexivity. Qed.
Lemma way_S c m r : way (c :: m) (S r) = clen (lc c) + way m r.
Proof. reflexivity. Qed.
Lemma way_0 m : way m 0 = 0.
Proof. reflexivity. Qed.

(* a probe at row r *)
Fixpoint prun (n : nat) (scale : R) (l : list lcomp) (g : R) (v : vec6) (r : nat) : vec6 :=
  match r with
  | O => grow_by n g v
  | S r => match l with [] => v | c :: l => prun n scale l (lgain c) (pass scale None (lc c) (grow_by n g v)) r end
  end.
Fixpoint gat (l : list lcomp) (g : R) (r : nat) : R :=
  match r with O => g | S r => match l with [] => 1 | c :: l => gat l (lgain c) r end end.
Definition Qat (n : nat) (delta scale : R) (l : list lcomp) (g : R) (pref : vec6) (probes : nat -> vec6) (r : nat) : nat -> nat -> R :=
  fun i j => (coord i (prun n scale l g (probes j) r) - coord i (grow_by n (gat l g r) (arrives scale l r pref))) / delta.

Lemma walk_unfold n delta scale symp ok l pref probes M1 N s g cs :
  walk n delta scale symp ok l pref probes M1 N s g cs =
  (let M2 := Qat n delta scale l g pref probes 0 in
   let M21 := Mat.mmul n M2 M1 in
   do i <- of_la (Gauss.inverse n n M2);
   do M <- if symp then if Nat.eqb n 6 then of_la (Gauss.symplectify M21) else UB else Ok M21;
   let N1 := Mat.mmul n M N in
   do cs1 <- calc_row n ok s pref N1 cs;
   match l with
   | [] => Ok cs1
   | c :: l => walk n delta scale symp ok l (pass scale None (lc c) pref) (fun k => pass scale None (lc c) (grow_by n g (probes k))) (fst i) N1 (s + clen (lc c)) (lgain c) cs1
   end).
Proof. destruct l; reflexivity. Qed.
Lemma Qat_S n delta scale c l g pref probes r :
  Qat n delta scale (c :: l) g pref probes (S r) = Qat n delta scale l (lgain c) (pass scale None (lc c) pref) (fun k => pass scale None (lc c) (grow_by n g (probes k))) r.
Proof. unfold Qat. rewrite arrives_S. reflexivity. Qed.

Lemma inverse_ok n A i : of_la (Gauss.inverse n n A) = Ok i -> Mat.inverse_of n (fst i) A.
Proof.
  intros H. destruct (GaussProps.C111_outcomes n A) as [(B & p & E & I & _)|(E & _)]; rewrite E in H; cbn in H; [|discriminate].
  inversion H. exact I.
Qed.
Lemma mmul_meq_l n A B C : Mat.meq n A B -> Mat.meq n (Mat.mmul n A C) (Mat.mmul n B C).
Proof. intros H i j Hi Hj. unfold Mat.mmul. apply MatFacts.sumn_ext. intros k Hk. rewrite H by assumption. reflexivity. Qed.
Lemma mmul_meq_r n A B C : Mat.meq n A B -> Mat.meq n (Mat.mmul n C A) (Mat.mmul n C B).
Proof. intros H i j Hi Hj. unfold Mat.mmul. apply MatFacts.sumn_ext. intros k Hk. rewrite H by assumption. reflexivity. Qed.
Lemma undo n I A B N : Mat.inverse_of n I A -> Mat.meq n (Mat.mmul n I (Mat.mmul n (Mat.mmul n A B) N)) (Mat.mmul n B N).
Proof.
  intros [P _] i j Hi Hj.
  rewrite (mmul_meq_r n _ (Mat.mmul n A (Mat.mmul n B N)) I) by (try assumption; intros a b _ _; apply MatFacts.mmul_assoc).
  rewrite <- MatFacts.mmul_assoc. rewrite (mmul_meq_l n _ Mat.mid) by assumption. apply MatFacts.mmul_id_l. exact Hi.
Qed.

Definition rowspec (n : nat) (ok : bool) (scale s : R) (l : list lcomp) (pref : vec6) (Ns : nat -> nat -> nat -> R) (c c' : lcol) : Prop :=
  idx c' = idx c /\ exists vs, cval c' = cval c ++ vs /\ length vs = S (length l) /\
    forall r, (r <= length l)%nat -> value_of n ok (s + way l r) (arrives scale l r pref) (Ns r) (ci c) (cj c) (ck c) = Ok (nth r vs 0).

Lemma walk_spec n delta scale symp ok l : forall pref probes M1 N s g cs cs',
  walk n delta scale symp ok l pref probes M1 N s g cs = Ok cs' ->
  exists Ns, Forall2 (rowspec n ok scale s l pref Ns) cs cs' /\
    (symp = false -> forall r, (r <= length l)%nat ->
       Mat.invertible n (Qat n delta scale l g pref probes r) /\
       Mat.meq n (Ns r) (Mat.mmul n (Qat n delta scale l g pref probes r) (Mat.mmul n M1 N))) /\
    (symp = true -> n = 6%nat /\ forall r, (r <= length l)%nat -> exists A, SympProps.symplectic A /\ Ns r = Mat.mmul n A (match r with O => N | S r => Ns r end)).
Proof.
  induction l as [|c l IH]; intros pref probes M1 N s g cs cs' H; rewrite walk_unfold in H; cbv zeta in H.
  all: set (Q := Qat n delta scale _ g pref probes 0) in *.
  all: destruct (of_la (Gauss.inverse n n Q)) as [i| |] eqn:I; cbn [bind] in H; try discriminate; apply inverse_ok in I.
  all: match type of H with bind ?X _ = _ => destruct X as [M| |] eqn:EM; cbn [bind] in H; try discriminate end.
  all: destruct (calc_row n ok s pref (Mat.mmul n M N) cs) as [cs1| |] eqn:C; cbn [bind] in H; try discriminate.
  all: assert (Z0 : symp = false -> Mat.invertible n Q /\ Mat.meq n (Mat.mmul n M N) (Mat.mmul n Q (Mat.mmul n M1 N)))
    by (intros ->; inversion EM; split; [exists (fst i); exact I|intros a b _ _; apply MatFacts.mmul_assoc]).
  all: assert (Z1 : symp = true -> n = 6%nat /\ SympProps.symplectic M)
    by (intros ->; destruct (Nat.eqb_spec n 6) as [->|]; [|discriminate]; split; [reflexivity|];
        destruct (Gauss.symplectify (Mat.mmul 6 Q M1)) as [B| |] eqn:EB; cbn in EM; try discriminate; inversion EM; subst B; exact (SympProps.C112_symplectic _ _ EB)).
  all: apply calc_row_ok in C.
  - inversion H; subst cs1. exists (fun _ => Mat.mmul n M N). split.
    + eapply Forall2_impl; [|exact C]. cbn beta. intros a b (v & V & ->). split; [reflexivity|]. exists [v]. split; [reflexivity|]. split; [reflexivity|].
      intros r Hr. cbn [length] in Hr. assert (r = O) as -> by lia. rewrite way_0, Rplus_0_r. exact V.
    + split; [intros E r Hr; cbn [length] in Hr; assert (r = O) as -> by lia; exact (Z0 E)|].
      intros E. destruct (Z1 E) as [E6 SM]. split; [exact E6|]. intros r Hr. cbn [length] in Hr. assert (r = O) as -> by lia. exists M. split; [exact SM|reflexivity].
  - destruct (IH _ _ _ _ _ _ _ _ H) as (Ns & F & G & K).
    exists (fun r => match r with O => Mat.mmul n M N | S r => Ns r end). split.
    + clear H. revert cs' F. clear - C. induction C as [|a b cs cs1 (v & V & ->) _ IC]; intros cs' F; inversion F as [|? c2 ? cs2 (J & vs & E1 & E2 & E3) F']; subst; constructor.
      * split; [exact J|]. exists (v :: vs). split; [rewrite E1; cbn [cval append_value]; rewrite <- app_assoc; reflexivity|].
        split; [cbn [length]; rewrite E2; reflexivity|]. intros r Hr. destruct r as [|r]; cbn [nth].
        -- rewrite way_0, Rplus_0_r. exact V.
        -- rewrite way_S, arrives_S, <- Rplus_assoc. apply E3. cbn [length] in Hr. lia.
      * apply IC. exact F'.
    + split.
      2: { intros E. destruct (Z1 E) as [E6 SM]. split; [exact E6|]. intros r Hr. destruct r as [|r]; [exists M; split; [exact SM|reflexivity]|].
           destruct (K E) as [_ K']. destruct (K' r ltac:(cbn [length] in Hr; lia)) as (A & SA & EA). exists A. split; [exact SA|]. rewrite EA. destruct r; reflexivity. }
      intros E r Hr. destruct r as [|r]; [exact (Z0 E)|]. cbn [length] in Hr.
      destruct (G E r ltac:(lia)) as [G1 G2]. rewrite Qat_S. split; [exact G1|].
      intros a b Ha Hb. rewrite G2 by assumption. apply mmul_meq_r; try assumption.
      destruct symp; [discriminate|]. inversion EM; subst M. apply undo. exact I.
Qed.

Lemma walk_ok n delta scale ok l : n = dim ok -> forall pref probes M1 N s g cs,
  Forall (fun c => legal n (idx c)) cs -> (forall r, (r <= length l)%nat -> Mat.invertible n (Qat n delta scale l g pref probes r)) ->
  exists cs', walk n delta scale false ok l pref probes M1 N s g cs = Ok cs'.
Proof.
  intros D. induction l as [|c l IH]; intros pref probes M1 N s g cs L I; rewrite walk_unfold; cbv zeta.
  all: destruct (GaussProps.C111_inverse n _ (I O ltac:(lia))) as (B & p & -> & _); cbn [of_la bind].
  all: match goal with |- context [calc_row _ _ _ _ ?X _] => destruct (calc_row_legal n ok s pref X cs D L) as [cs1 E] end; rewrite E; cbn [bind].
  - eauto.
  - apply IH.
    + apply calc_row_idx in E. rewrite <- (Forall_map idx (legal n)), E, Forall_map. exact L.
    + intros r Hr. specialize (I (S r) ltac:(cbn; lia)). rewrite Qat_S in I. exact I.
Qed.

Lemma grow_one n v : grow_by n 1 v = v.
Proof. unfold grow_by. destruct (Reqb_spec 1 1); [reflexivity|lra]. Qed.
Lemma coast_prun n s l : coasting l -> forall v r, (r <= length l)%nat -> prun n s l 1 v r = arrives s l r v.
Proof.
  induction 1 as [|c l G _ IH]; intros v r Hr; destruct r as [|r]; cbn [prun length] in *; try lia; rewrite grow_one; try reflexivity.
  rewrite G, arrives_S. apply IH. lia.
Qed.
Lemma coast_gat l : coasting l -> forall r, (r <= length l)%nat -> gat l 1 r = 1.
Proof. induction 1 as [|c l G _ IH]; intros r Hr; destruct r as [|r]; cbn [gat length] in *; try lia; try reflexivity. rewrite G. apply IH. lia. Qed.
Lemma bump_nudge j d p : (j < 6)%nat -> bump j d p = nudge j d p.
Proof. intros H. do 6 (destruct j as [|j]; [reflexivity|]). lia. Qed.
Lemma dim_le ok : (dim ok <= 6)%nat.
Proof. destruct ok; cbn; lia. Qed.
Lemma coast_Q ok d s l p r : coasting l -> (r <= length l)%nat -> same_mat (dim ok) (Qat (dim ok) d s l 1 p (fun k => bump k d p) r) (slopes s l r d p).
Proof.
  intros C Hr i j Hi Hj. pose proof (dim_le ok). unfold Qat, slopes. rewrite coast_prun, coast_gat, grow_one by assumption. rewrite bump_nudge by lia. reflexivity.
Qed.

Definition phi (re im : nat -> nat -> R) (k : nat) : R := Rot.atan2 (sqrt 2 * im k (2 * k)%nat) (sqrt 2 * re k (2 * k)%nat).
Definition rotated (n : nat) (re im : nat -> nat -> R) : nat -> nat -> R := let N := norm_matrix re im in Mat.mmul n N (phase_matrix N).
Lemma rotated_cols ok re im k row : (2 * k < dim ok)%nat ->
  rotated (dim ok) re im row (2 * k)%nat = sqrt 2 * (re k row * cos (phi re im k) + im k row * sin (phi re im k)) /\
  rotated (dim ok) re im row (2 * k + 1)%nat = sqrt 2 * (im k row * cos (phi re im k) - re k row * sin (phi re im k)).
Proof.
  intros H. unfold rotated, Mat.mmul, phi.
  destruct ok; cbn [dim] in *; destruct k as [|[|[|k]]]; try (exfalso; lia);
    cbn [Mat.sumn]; unfold phase_matrix, norm_matrix; cbn [Nat.mul Nat.add Nat.div2 Nat.even Nat.eqb];
    rewrite ?cos_neg, ?sin_neg; split; ring.
Qed.
Lemma act_lin n Q u v x y i : tot n (fun k => Q i k * (sqrt 2 * (u k * x + v k * y))) = sqrt 2 * (act n Q u i * x + act n Q v i * y).
Proof.
  unfold act. rewrite (Rmult_comm (tot n (fun j => Q i j * u j))), (Rmult_comm (tot n (fun j => Q i j * v j))), <- !tot_scale, <- tot_plus, <- tot_scale.
  apply tot_ext. intros. ring.
Qed.
Lemma carried_cols ok Q re im k i : (2 * k < dim ok)%nat ->
  Mat.mmul (dim ok) Q (rotated (dim ok) re im) i (2 * k)%nat =
    sqrt 2 * (act (dim ok) Q (re k) i * cos (phi re im k) + act (dim ok) Q (im k) i * sin (phi re im k)) /\
  Mat.mmul (dim ok) Q (rotated (dim ok) re im) i (2 * k + 1)%nat =
    sqrt 2 * (act (dim ok) Q (im k) i * cos (phi re im k) - act (dim ok) Q (re k) i * sin (phi re im k)).
Proof.
  intros H. rewrite !mmul_product. unfold product. split.
  - rewrite <- act_lin. apply tot_ext. intros r _. destruct (rotated_cols ok re im k r H) as [-> _]. reflexivity.
  - rewrite <- (Rplus_0_r (act _ _ (im k) i * _ - _)). replace (act (dim ok) Q (im k) i * cos (phi re im k) - act (dim ok) Q (re k) i * sin (phi re im k) + 0)
      with (act (dim ok) Q (im k) i * cos (phi re im k) + act (dim ok) Q (re k) i * - sin (phi re im k)) by ring.
    rewrite <- act_lin. apply tot_ext. intros r _. destruct (rotated_cols ok re im k r H) as [_ ->]. ring.
Qed.
(* polar form *)
Lemma atan2_polar x y : x = sqrt (x * x + y * y) * cos (Rot.atan2 y x) /\ y = sqrt (x * x + y * y) * sin (Rot.atan2 y x).
Proof.
  destruct (Req_EM_T (x * x + y * y) 0) as [Z|Z].
  - assert (x = 0) as -> by nra. assert (y = 0) as -> by nra. replace (0 * 0 + 0 * 0) with 0 by ring. rewrite sqrt_0. split; ring.
  - assert (P : 0 < x * x + y * y) by nra. set (r := sqrt (x * x + y * y)).
    assert (R0 : 0 < r) by (apply sqrt_lt_R0; exact P).
    assert (RR : r * r = x * x + y * y) by (apply sqrt_sqrt; lra).
    assert (U : x / r * (x / r) + y / r * (y / r) = 1) by (field_simplify_eq; [lra|lra]).
    destruct (RotProofs.atan2_unit _ _ U) as [C S].
    assert (E : Rot.atan2 y x = Rot.atan2 (y / r) (x / r)).
    { unfold Rot.atan2. assert (I : 0 < / r) by (apply Rinv_0_lt_compat; exact R0).
      assert (Q : x <> 0 -> y / r / (x / r) = y / x) by (intros; field; lra).
      unfold Rdiv in *.
      destruct (Rltb_spec 0 x), (Rltb_spec 0 (x * / r)); try nra.
      - rewrite Q by lra. reflexivity.
      - destruct (Rltb_spec x 0), (Rltb_spec (x * / r) 0); try nra.
        + rewrite Q by lra. destruct (Rleb_spec 0 y), (Rleb_spec 0 (y * / r)); try nra; reflexivity.
        + destruct (Rltb_spec 0 y), (Rltb_spec 0 (y * / r)); try nra; try reflexivity.
          destruct (Rltb_spec y 0), (Rltb_spec (y * / r) 0); try nra; reflexivity. }
    rewrite E, C, S. split; field; lra.
Qed.

Lemma area_form u v : area u v = Mat.sumn 6 (fun i => u i * Mat.mvec 6 Gauss.symp_s v i).
Proof. unfold area, tot, Mat.mvec, Gauss.symp_s. cbn. ring. Qed.
Lemma area_ext u v u' v' : (forall i, (i < 6)%nat -> u i = u' i) -> (forall i, (i < 6)%nat -> v i = v' i) -> area u v = area u' v'.
Proof. intros E F. unfold area. apply tot_ext. intros p Hp. rewrite !E, !F by lia. reflexivity. Qed.
Lemma act_mvec n A u i : act n A u i = Mat.mvec n A u i.
Proof. symmetry. apply sumn_tot. Qed.
Lemma symplectic_keeps A : SympProps.symplectic A -> keeps_area A.
Proof.
  intros H u v. rewrite !area_form.
  transitivity (Mat.sumn 6 (fun i => u i * Mat.mvec 6 (Mat.mmul 6 (Mat.mmul 6 (Mat.mtr A) Gauss.symp_s) A) v i)).
  - set (w := Mat.mvec 6 Gauss.symp_s (act 6 A v)).
    transitivity (Mat.sumn 6 (fun i => u i * Mat.mvec 6 (Mat.mtr A) w i)).
    + unfold Mat.mvec, act, Mat.mtr. rewrite (MatFacts.sumn_ext 6 _ (fun a => Mat.sumn 6 (fun i => A a i * u i * w a))).
      2:{ intros a _. rewrite MatFacts.sumn_scal_r, sumn_tot. reflexivity. }
      rewrite MatFacts.sumn_swap. apply MatFacts.sumn_ext. intros i _. rewrite <- MatFacts.sumn_scal. apply MatFacts.sumn_ext. intros a _. ring.
    + apply MatFacts.sumn_ext. intros i _. f_equal. rewrite !MatFacts.mvec_mmul. unfold Mat.mvec at 1 3. apply MatFacts.sumn_ext. intros k _. f_equal.
      unfold w, Mat.mvec at 1. apply MatFacts.sumn_ext. intros q _. rewrite act_mvec. reflexivity.
  - apply MatFacts.sumn_ext. intros i Hi. f_equal. unfold Mat.mvec. apply MatFacts.sumn_ext. intros j Hj. rewrite (H i j Hi Hj). reflexivity.
Qed.
