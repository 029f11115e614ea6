From Verif Require Import RBase Mat MatFacts Gauss.
Local Open Scope R_scope.

(* The matrix the algorithm stands for: columns that are done are those of
   the unit matrix. *)
Definition virt (a : mat) (done : nat -> bool) : mat :=
  fun i j => if done j then mid i j else a i j.

Fixpoint count (n : nat) (done : nat -> bool) : nat :=
  match n with O => 0%nat | Datatypes.S k => (count k done + (if done k then 1 else 0))%nat end.
Lemma count_le : forall n d, (count n d <= n)%nat.
Proof. induction n as [| n IH]; intros d; cbn; [lia |]. specialize (IH d). destruct (d n); lia. Qed.
Lemma count_lt : forall n d, (count n d < n)%nat -> exists k, (k < n)%nat /\ d k = false.
Proof.
  induction n as [| n IH]; intros d H; [lia |]. cbn in H. destruct (d n) eqn:E.
  - destruct (IH d) as (k & Hk & Hd); [lia |]. exists k. split; [lia | exact Hd].
  - exists n. split; [lia | exact E].
Qed.
Lemma count_all : forall n d, count n d = n -> forall k, (k < n)%nat -> d k = true.
Proof.
  induction n as [| n IH]; intros d H k Hk; [lia |]. cbn in H. pose proof (count_le n d).
  destruct (d n) eqn:E; [| lia]. destruct (Nat.eq_dec k n) as [-> | D]; [exact E |].
  apply IH; lia.
Qed.
Lemma count_set : forall n d c, (c < n)%nat -> d c = false ->
  count n (fun k => if Nat.eqb k c then true else d k) = Datatypes.S (count n d).
Proof.
  induction n as [| n IH]; intros d c H E; [lia |]. cbn.
  destruct (Nat.eqb_spec n c) as [-> | D].
  - rewrite E. assert (K : count c (fun k => if Nat.eqb k c then true else d k) = count c d).
    { clear. assert (G : forall m, (m <= c)%nat ->
        count m (fun k => if Nat.eqb k c then true else d k) = count m d).
      { induction m as [| m IH]; intros H; [reflexivity |]. cbn. rewrite IH by lia.
        destruct (Nat.eqb_spec m c); [lia | reflexivity]. }
      apply G. lia. }
    rewrite K. lia.
  - rewrite IH by (assumption || lia). lia.
Qed.

(* The search. *)
Lemma fold_flat_map : forall A B S (f : S -> B -> S) (g : A -> list B) l s,
  fold_left f (flat_map g l) s = fold_left (fun s x => fold_left f (g x) s) l s.
Proof.
  induction l as [| x l IH]; intros s; [reflexivity |].
  cbn. rewrite fold_left_app. apply IH.
Qed.
Lemma fold_ext : forall A S (f g : S -> A -> S) l s, (forall s x, f s x = g s x) ->
  fold_left f l s = fold_left g l s.
Proof. induction l as [| x l IH]; intros s H; [reflexivity |]. cbn. rewrite H. apply IH. exact H. Qed.

Definition open (n : nat) (done : nat -> bool) : list (nat * nat) :=
  flat_map (fun j => if done j then [] else
    flat_map (fun k => if done k then [] else [(j, k)]) (seq 0 n)) (seq 0 n).
Lemma in_open : forall n done j k, In (j, k) (open n done) <->
  (j < n)%nat /\ (k < n)%nat /\ done j = false /\ done k = false.
Proof.
  intros n done j k. unfold open. rewrite in_flat_map. split.
  - intros (x & Hx & H). apply in_seq in Hx. destruct (done x) eqn:D; [contradiction |].
    apply in_flat_map in H as (y & Hy & H). apply in_seq in Hy.
    destruct (done y) eqn:D'; [contradiction |]. destruct H as [H | []].
    injection H as <- <-. repeat split; auto; lia.
  - intros (Hj & Hk & Dj & Dk). exists j. split; [apply in_seq; lia |]. rewrite Dj.
    apply in_flat_map. exists k. split; [apply in_seq; lia |]. rewrite Dk. left. reflexivity.
Qed.
Lemma search_open : forall n a done pr pc, search n a done pr pc =
  fold_left (fun s p => look a (fst p) (snd p) s) (open n done) (0, pr, pc).
Proof.
  intros. unfold search, open, loop. rewrite fold_flat_map. apply fold_ext. intros s j.
  destruct (done j); [reflexivity |]. rewrite fold_flat_map. apply fold_ext. intros s' k.
  destruct (done k); reflexivity.
Qed.
Lemma look_all : forall a l pr pc, l <> [] ->
  exists r c, fold_left (fun s p => look a (fst p) (snd p) s) l (0, pr, pc) = (Rabs (a r c), r, c) /\
    In (r, c) l /\ forall j k, In (j, k) l -> Rabs (a j k) <= Rabs (a r c).
Proof.
  intros a l pr pc. induction l as [| [j k] l IH] using rev_ind; intros N; [contradiction |].
  rewrite fold_left_app. cbn [fold_left fst snd].
  destruct l as [| p l].
  - cbn. destruct (Rleb_spec 0 (Rabs (a j k))) as [L | L]; [| pose proof (Rabs_pos (a j k)); lra].
    exists j, k. split; [reflexivity |]. split; [left; reflexivity |].
    intros x y [E | []]. injection E as <- <-. lra.
  - destruct IH as (r & c & E & I & M); [discriminate |]. rewrite E. unfold look.
    destruct (Rleb_spec (Rabs (a r c)) (Rabs (a j k))) as [L | L].
    + exists j, k. split; [reflexivity |]. split; [apply in_or_app; right; left; reflexivity |].
      intros x y H. apply in_app_or in H as [H | [H | []]].
      * eapply Rle_trans; [apply M; exact H | exact L].
      * injection H as <- <-. lra.
    + exists r, c. split; [reflexivity |]. split; [apply in_or_app; left; exact I |].
      intros x y H. apply in_app_or in H as [H | [H | []]]; [apply M; exact H |].
      injection H as <- <-. lra.
Qed.
Lemma search_ok : forall n a done pr pc, (count n done < n)%nat ->
  exists r c, search n a done pr pc = (Rabs (a r c), r, c) /\
    (r < n)%nat /\ (c < n)%nat /\ done r = false /\ done c = false /\
    forall j k, (j < n)%nat -> (k < n)%nat -> done j = false -> done k = false ->
      Rabs (a j k) <= Rabs (a r c).
Proof.
  intros n a done pr pc H. apply count_lt in H as (q & Hq & Dq).
  rewrite search_open. destruct (look_all a (open n done) pr pc) as (r & c & E & I & M).
  { intros E. assert (I : In (q, q) (open n done)) by (apply in_open; auto). rewrite E in I. exact I. }
  exists r, c. split; [exact E |]. apply in_open in I. destruct I as (I1 & I2 & I3 & I4).
  repeat split; auto. intros j k Hj Hk Dj Dk. apply M. apply in_open. auto.
Qed.

(* One step is a row operation on the matrix stood for. *)
Definition rowop (r c : nat) (pinv : R) (d : nat -> R) (a : mat) : mat :=
  let a1 := swap_rows r c a in
  fun i j => if Nat.eqb i c then a1 c j * pinv else a1 i j - d i * (a1 c j * pinv).

Lemma swap_same : forall c a i j, swap_rows c c a i j = a i j.
Proof.
  intros. unfold swap_rows. destruct (Nat.eqb_spec i c) as [-> |]; reflexivity.
Qed.
Lemma swap_if : forall r c a i j,
  (if Nat.eqb r c then a else swap_rows r c a) i j = swap_rows r c a i j.
Proof.
  intros r c a i j. destruct (Nat.eqb_spec r c) as [-> |]; [rewrite swap_same |]; reflexivity.
Qed.

Definition ginv (n : nat) (A : mat) (s : gstate) : Prop :=
  let V := virt (ga s) (gdone s) in
  (forall i j, (i < n)%nat -> (j < n)%nat -> V i j = mmul n (gb s) A i j) /\
  (forall x, (forall i, (i < n)%nat -> mvec n V x i = 0) ->
             forall i, (i < n)%nat -> mvec n A x i = 0) /\
  (forall y, (forall i, (i < n)%nat -> mvec n (gb s) y i = 0) ->
             forall i, (i < n)%nat -> y i = 0).

Lemma mvec_rowop : forall n r c p d V x i, mvec n (rowop r c p d V) x i =
  if Nat.eqb i c then p * mvec n (swap_rows r c V) x c
  else mvec n (swap_rows r c V) x i - d i * (p * mvec n (swap_rows r c V) x c).
Proof.
  intros. unfold mvec, rowop. destruct (Nat.eqb i c).
  - rewrite <- sumn_scal. apply sumn_ext. intros. ring.
  - rewrite <- !sumn_scal, <- sumn_minus. apply sumn_ext. intros. ring.
Qed.
Lemma rowop_kernel : forall n r c p d V x, (r < n)%nat -> (c < n)%nat -> p <> 0 ->
  (forall i, (i < n)%nat -> mvec n (rowop r c (/ p) d V) x i = 0) ->
  forall i, (i < n)%nat -> mvec n V x i = 0.
Proof.
  intros n r c p d V x Hr Hc Pn HV.
  assert (C0 : mvec n (swap_rows r c V) x c = 0).
  { pose proof (HV c Hc) as K. rewrite mvec_rowop, Nat.eqb_refl in K.
    apply Rmult_integral in K as [K | K]; [| exact K]. apply Rinv_neq_0_compat in Pn. contradiction. }
  assert (ALL : forall i, (i < n)%nat -> mvec n (swap_rows r c V) x i = 0).
  { intros i Hi. destruct (Nat.eq_dec i c) as [-> | N]; [exact C0 |].
    pose proof (HV i Hi) as K. rewrite mvec_rowop, C0 in K.
    destruct (Nat.eqb_spec i c); [contradiction |]. rewrite <- K. ring. }
  intros i Hi. destruct (Nat.eq_dec i r) as [-> | Nr].
  - specialize (ALL c Hc). rewrite <- ALL. unfold mvec, swap_rows. rewrite Nat.eqb_refl.
    apply sumn_ext. intros k Hk. destruct (Nat.eqb_spec c r) as [-> |]; reflexivity.
  - destruct (Nat.eq_dec i c) as [-> | Nc].
    + specialize (ALL r Hr). rewrite <- ALL. unfold mvec, swap_rows. rewrite Nat.eqb_refl. reflexivity.
    + specialize (ALL i Hi). rewrite <- ALL. unfold mvec, swap_rows.
      destruct (Nat.eqb_spec i r), (Nat.eqb_spec i c); try contradiction. reflexivity.
Qed.
Lemma mmul_rowop : forall n r c p d B A i j, mmul n (rowop r c p d B) A i j =
  rowop r c p d (mmul n B A) i j.
Proof.
  intros. unfold mmul, rowop, swap_rows.
  destruct (Nat.eqb_spec i c) as [-> | N].
  - rewrite <- sumn_scal_r || idtac. rewrite Nat.eqb_refl.
    destruct (Nat.eqb c r); rewrite <- sumn_scal_r; apply sumn_ext; intros; ring.
  - rewrite Nat.eqb_refl. destruct (Nat.eqb c r), (Nat.eqb i r);
      rewrite <- sumn_scal_r, <- sumn_scal, <- sumn_minus; apply sumn_ext; intros; ring.
Qed.

Lemma gstep_ok : forall n A s, (count n (gdone s) < n)%nat -> ginv n A s -> 0 < gmin s ->
  (exists s', gstep n s = Ok s' /\ ginv n A s' /\
     count n (gdone s') = Datatypes.S (count n (gdone s)) /\ 0 < gmin s' <= gmin s) \/
  (gstep n s = Throw SingularMatrix /\
     exists x k, (k < n)%nat /\ x k <> 0 /\ forall i, (i < n)%nat -> mvec n A x i = 0).
Proof.
  intros n A s HC (I1 & I2 & I3) HM. unfold gstep.
  destruct (search_ok n (ga s) (gdone s) (grow s) (gcol s) HC) as (r & c & E & Hr & Hc & Dr & Dc & M).
  rewrite E. cbv beta iota zeta. rewrite !swap_if.
  assert (P : swap_rows r c (ga s) c c = ga s r c).
  { unfold swap_rows. rewrite Nat.eqb_refl. destruct (Nat.eqb_spec c r) as [-> |]; reflexivity. }
  rewrite P. set (p := ga s r c).
  destruct (Reqb_spec (Rmin (gmin s) (Rabs p)) 0) as [Z | Z].
  - right. split; [reflexivity |].
    assert (P0 : Rabs p = 0).
    { unfold Rmin in Z. destruct (Rle_dec (gmin s) (Rabs p)); [lra | exact Z]. }
    assert (ZZ : forall j k, (j < n)%nat -> (k < n)%nat -> gdone s j = false -> gdone s k = false ->
               ga s j k = 0).
    { intros j k Hj Hk Dj Dk. specialize (M j k Hj Hk Dj Dk). fold p in M. rewrite P0 in M.
      pose proof (Rabs_pos (ga s j k)). destruct (Req_dec (ga s j k) 0) as [| N]; [assumption |].
      apply Rabs_pos_lt in N. lra. }
    exists (fun k => if Nat.eqb k c then 1 else if gdone s k then - ga s k c else 0), c.
    split; [exact Hc |]. split; [rewrite Nat.eqb_refl; lra |].
    apply I2. intros i Hi. unfold mvec, virt.
    destruct (gdone s i) eqn:Di.
    + assert (Nic : i <> c) by congruence.
      rewrite (sumn_ext n _ (fun k => (if Nat.eqb k c then ga s i c else 0)
                                      + (if Nat.eqb k i then - ga s i c else 0))).
      * rewrite sumn_plus, (sumn_single n c), (sumn_single n i); auto.
        -- rewrite !Nat.eqb_refl. ring.
        -- intros k _ Hk. destruct (Nat.eqb_spec k i); [contradiction | reflexivity].
        -- intros k _ Hk. destruct (Nat.eqb_spec k c); [contradiction | reflexivity].
      * intros k Hk. destruct (Nat.eqb_spec k c) as [-> | Nkc].
        -- rewrite Dc. destruct (Nat.eqb_spec c i); [congruence | ring].
        -- destruct (gdone s k) eqn:Dk.
           ++ destruct (Nat.eqb_spec k i) as [-> | Nki]; [rewrite mid_diag; ring |].
              rewrite mid_off by congruence. ring.
           ++ destruct (Nat.eqb_spec k i); [congruence | ring].
    + apply sumn_0. intros k Hk. destruct (gdone s k) eqn:Dk.
      * rewrite mid_off by congruence. ring.
      * rewrite ZZ by assumption. ring.
  - left.
    assert (Pn : p <> 0).
    { intros K. apply Z. rewrite K, Rabs_R0. unfold Rmin. destruct (Rle_dec (gmin s) 0); lra. }
    set (d := fun i => scale_row c (1 / p) (set2 (if Nat.eqb r c then ga s else swap_rows r c (ga s)) c c 1) i c).
    eexists. split; [reflexivity |]. cbn [gdone gmin].
    assert (Dd : forall i, i <> c -> d i = swap_rows r c (virt (ga s) (gdone s)) i c).
    { intros i Hi. unfold d, scale_row. destruct (Nat.eqb_spec i c) as [| _]; [contradiction |].
      rewrite set2_neq by (left; exact Hi). rewrite swap_if. unfold swap_rows, virt. rewrite Dc. reflexivity. }
    assert (BO : forall i j, sweep c d (scale_row c (1 / p) (if Nat.eqb r c then gb s else swap_rows r c (gb s))) i j
                = rowop r c (/ p) d (gb s) i j).
    { intros i j. unfold sweep, scale_row, rowop. rewrite !swap_if. rewrite Nat.eqb_refl.
      destruct (Nat.eqb_spec i c) as [-> | N]; [rewrite ?Nat.eqb_refl |]; unfold Rdiv; rewrite Rmult_1_l; reflexivity. }
    assert (VO : forall i j, (i < n)%nat -> (j < n)%nat ->
       virt (sweep c d (clear_column c (scale_row c (1 / p)
               (set2 (if Nat.eqb r c then ga s else swap_rows r c (ga s)) c c 1))))
            (fun k => if Nat.eqb k c then true else gdone s k) i j
       = rowop r c (/ p) d (virt (ga s) (gdone s)) i j).
    { intros i j Hi Hj. unfold virt at 1, rowop.
      destruct (Nat.eqb_spec j c) as [-> | Njc].
      - assert (Vcc : swap_rows r c (virt (ga s) (gdone s)) c c = p).
        { unfold p. rewrite <- P. unfold swap_rows, virt. rewrite Dc. reflexivity. }
        rewrite Vcc. destruct (Nat.eqb_spec i c) as [-> | Nic].
        + rewrite mid_diag. field. exact Pn.
        + rewrite mid_off by exact Nic. rewrite Dd by exact Nic. field. exact Pn.
      - destruct (gdone s j) eqn:Dj.
        + assert (Njr : j <> r) by congruence.
          assert (U : forall q, swap_rows r c (virt (ga s) (gdone s)) q j = mid q j).
          { intros q. unfold swap_rows, virt. rewrite Dj.
            destruct (Nat.eqb_spec q r) as [-> | Nq]; [rewrite !mid_off by congruence; reflexivity |].
            destruct (Nat.eqb_spec q c) as [-> | Nq']; [rewrite !mid_off by congruence; reflexivity |].
            reflexivity. }
          rewrite !U. rewrite (mid_off c j) by congruence.
          destruct (Nat.eqb_spec i c) as [-> | Nic]; [rewrite mid_off by congruence; ring | ring].
        + assert (U : forall q, swap_rows r c (virt (ga s) (gdone s)) q j = swap_rows r c (ga s) q j).
          { intros q. unfold swap_rows, virt. rewrite Dj. reflexivity. }
          rewrite !U. unfold sweep, clear_column, scale_row. rewrite Nat.eqb_refl.
          destruct (Nat.eqb_spec i c) as [-> | Nic]; cbn [negb andb].
          * rewrite set2_neq by (right; exact Njc). rewrite swap_if. field. exact Pn.
          * destruct (Nat.eqb_spec j c); [contradiction |]. cbn [negb andb].
            rewrite (set2_neq _ c c 1 i j) by (left; exact Nic).
            rewrite set2_neq by (right; exact Njc). rewrite !swap_if. field. exact Pn. }
    split; [split; [| split] |].
    + intros i j Hi Hj. cbn [ga gb gdone]. rewrite VO by assumption.
      transitivity (mmul n (rowop r c (/ p) d (gb s)) A i j).
      * rewrite mmul_rowop. unfold rowop, swap_rows. rewrite Nat.eqb_refl.
        destruct (Nat.eqb_spec i c) as [-> | Nic].
        -- destruct (Nat.eqb c r); rewrite I1 by assumption; reflexivity.
        -- destruct (Nat.eqb c r), (Nat.eqb i r); rewrite !I1 by assumption; reflexivity.
      * unfold mmul. apply sumn_ext. intros k Hk. rewrite BO. reflexivity.
    + intros x HX. apply I2. cbn [ga gdone] in HX.
      assert (HV : forall i, (i < n)%nat -> mvec n (rowop r c (/ p) d (virt (ga s) (gdone s))) x i = 0).
      { intros i Hi. rewrite <- (HX i Hi). unfold mvec. apply sumn_ext. intros k Hk.
        rewrite VO by assumption. reflexivity. }
      exact (rowop_kernel n r c p d _ x Hr Hc Pn HV).
    + intros y HY. apply I3. cbn [gb] in HY. apply (rowop_kernel n r c p d _ y Hr Hc Pn).
      intros i Hi. rewrite <- (HY i Hi). unfold mvec. apply sumn_ext. intros k Hk.
      rewrite BO. reflexivity.
    + split; [apply count_set; assumption |].
      pose proof (Rabs_pos_lt p Pn). unfold Rmin. destruct (Rle_dec (gmin s) (Rabs p)); lra.
Qed.

Definition singular (n : nat) (A : mat) : Prop :=
  exists x k, (k < n)%nat /\ x k <> 0 /\ forall i, (i < n)%nat -> mvec n A x i = 0.

Lemma gsteps_ok : forall n A k, (k <= n)%nat ->
  let s0 := mkG A mid (fun _ => false) 1000000000 0 0 in
  (exists s, gsteps n k s0 = Ok s /\ ginv n A s /\ count n (gdone s) = k /\ 0 < gmin s <= 1000000000) \/
  (gsteps n k s0 = Throw SingularMatrix /\ singular n A).
Proof.
  intros n A k Hk s0. induction k as [| k IH].
  - left. exists s0. split; [reflexivity |]. split; [split; [| split] |].
    + intros i j Hi Hj. cbn. symmetry. apply mmul_id_l. exact Hi.
    + intros x H. exact H.
    + intros y H i Hi. rewrite <- (mvec_id n y i Hi). apply H. exact Hi.
    + split; [| cbn; lra]. unfold s0. cbn [gdone]. clear. induction n; cbn; lia.
  - destruct IH as [(s & E & I & C & M) | [E S]]; [lia | |].
    + cbn [gsteps]. rewrite E. cbn [bind].
      destruct (gstep_ok n A s) as [(s' & E' & I' & C' & M') | (E' & S')]; try assumption; try lia; try lra.
      * left. exists s'. rewrite C' in *. repeat split; try assumption; try (apply I'); try lra. congruence.
      * right. split; [exact E' | exact S'].
    + right. cbn [gsteps]. rewrite E. split; [reflexivity | exact S].
Qed.

Lemma singular_not_invertible : forall n A, singular n A -> ~ invertible n A.
Proof.
  intros n A (x & k & Hk & Nk & H) I. apply Nk. exact (invertible_injective n A x I H k Hk).
Qed.

Lemma ginv_inverse : forall n A s, ginv n A s -> count n (gdone s) = n -> inverse_of n (gb s) A.
Proof.
  intros n A s (G1 & _ & G3) C.
  assert (L : meq n (mmul n (gb s) A) mid).
  { intros i j Hi Hj. rewrite <- G1 by assumption. unfold virt.
    rewrite (count_all n (gdone s) C j Hj). reflexivity. }
  split; [exact L |]. intros i j Hi Hj.
  apply Rminus_diag_uniq.
  apply (G3 (fun k => mmul n A (gb s) k j - mid k j)); [| exact Hi].
  intros l Hl. unfold mvec.
  rewrite (sumn_ext n _ (fun k => gb s l k * mmul n A (gb s) k j - gb s l k * mid k j)) by (intros; ring).
  rewrite sumn_minus.
  change (sumn n (fun k => gb s l k * mmul n A (gb s) k j)) with (mmul n (gb s) (mmul n A (gb s)) l j).
  change (sumn n (fun k => gb s l k * mid k j)) with (mmul n (gb s) mid l j).
  rewrite <- mmul_assoc, mmul_id_r by exact Hj.
  rewrite (mmul_proper n _ _ L _ _ (meq_refl n (gb s)) l j Hl Hj), mmul_id_l by exact Hl. ring.
Qed.

(* C111: matrix inversion.  Either the inverse is returned, or the matrix is
   singular and this is reported. *)
Theorem C111_outcomes : forall n A,
  (exists B p, inverse n n A = Ok (B, p) /\ inverse_of n B A /\ 0 < p) \/
  (inverse n n A = Throw SingularMatrix /\ singular n A /\ ~ invertible n A).
Proof.
  intros n A. unfold inverse. rewrite Nat.eqb_refl.
  destruct (gsteps_ok n A n (le_n n)) as [(s & E & G & C & M) | [E S]].
  - left. rewrite E. cbn [bind]. exists (gb s), (gmin s). split; [reflexivity |]. split; [| lra].
    apply ginv_inverse; assumption.
  - right. rewrite E. split; [reflexivity |]. split; [exact S |].
    apply singular_not_invertible. exact S.
Qed.
Print Assumptions C111_outcomes.

Theorem C111_inverse : forall n A, invertible n A ->
  exists B p, inverse n n A = Ok (B, p) /\ inverse_of n B A /\ 0 < p.
Proof.
  intros n A I. destruct (C111_outcomes n A) as [H | (_ & _ & N)]; [exact H | contradiction].
Qed.
Print Assumptions C111_inverse.

Theorem C111_shape : forall nr nc A, nr <> nc -> inverse nr nc A = Throw NonSquareMatrix.
Proof.
  intros nr nc A H. unfold inverse. destruct (Nat.eqb_spec nr nc); [contradiction | reflexivity].
Qed.
Print Assumptions C111_shape.

(* A matrix whose first pivot has to be looked for. *)
Example C111_case : invertible 2 (fun i j => match i, j with O, O => 0 | O, _ => 2 | _, O => 1 | _, _ => 3 end)
  /\ singular 2 (fun i j => 1).
Proof.
  split.
  - exists (fun i j => match i, j with O, O => -(3/2) | O, _ => 1 | _, O => 1/2 | _, _ => 0 end).
    split; intros [| [| i]] [| [| j]] Hi Hj; try lia; unfold mmul, mid; cbn; field.
  - exists (fun k => match k with O => 1 | _ => -1 end), 0%nat. split; [lia |]. split; [lra |].
    intros i Hi. unfold mvec. cbn. ring.
Qed.

Theorem C111_pivot : forall n A B p, inverse n n A = Ok (B, p) -> p <= 1000000000 /\
  (n = 1%nat -> p = Rmin 1000000000 (Rabs (A 0%nat 0%nat))).
Proof.
  intros n A B p H. split.
  - unfold inverse in H. rewrite Nat.eqb_refl in H.
    destruct (gsteps_ok n A n (le_n n)) as [(s & E & G & C & M) | [E S]]; rewrite E in H; cbn in H;
      [| discriminate].
    apply (f_equal (fun r => match r with Ok v => snd v | _ => 0 end)) in H. cbn in H. lra.
  - intros ->. unfold inverse in H. cbn [Nat.eqb gsteps bind] in H. unfold gstep in H.
    rewrite search_open in H. cbn [ga gb gdone gmin grow gcol open seq flat_map app fold_left look fst snd] in H.
    destruct (Rleb_spec 0 (Rabs (A 0%nat 0%nat))) as [L | L]; [| pose proof (Rabs_pos (A 0%nat 0%nat)); lra].
    cbn [Nat.eqb] in H.
    destruct (Reqb (Rmin 1000000000 (Rabs (A 0%nat 0%nat))) 0); cbn [bind] in H; [discriminate |].
    apply (f_equal (fun r => match r with Ok v => snd v | _ => 0 end)) in H. cbn [snd gmin] in H.
    symmetry. exact H.
Qed.
Print Assumptions C111_pivot.

