(* Lemmas for TuneProps.v: the fast transform computes the discrete Fourier transform. *)
From Verif Require Import RBase Base Tune TuneSpec.
From Coq Require Import List Arith Lia Lra FunctionalExtensionality.
Import ListNotations.
Local Open Scope R_scope.

(* ---- complex numbers ---- *)
Lemma cx_eq (a b : cx) : fst a = fst b -> snd a = snd b -> a = b.
Proof. destruct a, b; cbn; intros -> ->; reflexivity. Qed.
Ltac cxring := apply cx_eq; unfold cadd, csub, cmul; cbn [fst snd]; ring.
Lemma cis_plus a b : cis (a + b) = cmul (cis a) (cis b).
Proof. apply cx_eq; unfold cis, cmul; cbn [fst snd]; [apply cos_plus|rewrite sin_plus; ring]. Qed.
Lemma cis_turns a k : cis (a + 2 * INR k * PI) = cis a.
Proof. apply cx_eq; unfold cis; cbn [fst snd]; [apply cos_period|apply sin_period]. Qed.
Lemma csum_ext f g n : (forall i, (i < n)%nat -> f i = g i) -> csum f n = csum g n.
Proof. induction n as [|n IH]; intros H; cbn [csum]; [reflexivity|]. rewrite IH, (H n) by (intros; auto with arith). reflexivity. Qed.
Lemma csum_even_odd f n : csum f (2 * n) = cadd (csum (fun r => f (2 * r)%nat) n) (csum (fun r => f (2 * r + 1)%nat) n).
Proof.
  induction n as [|n IH]; [cbn; cxring|]. replace (2 * S n)%nat with (S (S (2 * n))) by lia. cbn [csum]. rewrite IH. replace (2 * n + 1)%nat with (S (2 * n)) by lia. cxring.
Qed.
Lemma csum_scale c f n : csum (fun r => cmul c (f r)) n = cmul c (csum f n).
Proof. induction n as [|n IH]; cbn [csum]; [cxring|]. rewrite IH. cxring. Qed.

(* ---- lists of reals ---- *)
Lemma tput_ok l i x : (i < List.length l)%nat -> exists l', tput l i x = Ok l' /\ List.length l' = List.length l /\ forall m, nth_error l' m = if Nat.eqb m i then Some x else nth_error l m.
Proof.
  intros H. unfold tput. destruct (upd_some _ l i x H) as (l' & E). rewrite E. exists l'. split; [reflexivity|]. split; [eapply upd_length; eauto|]. intros m. destruct (Nat.eqb_spec m i) as [->|N]; [eapply upd_nth_same; eauto|eapply upd_nth_other; eauto].
Qed.
Lemma vget_ok {E} (l : list R) i x : nth_error l i = Some x -> @vget E R l i = Ok x.
Proof. unfold vget. now intros ->. Qed.
Ltac decide_eqb := repeat match goal with |- context [Nat.eqb ?a ?b] => destruct (Nat.eqb_spec a b); try lia end.
Lemma holds_ext n l f g : (forall k, (k < n)%nat -> f k = g k) -> holds n l f -> holds n l g.
Proof. intros E (L & H). split; [exact L|]. intros k K. rewrite <- (E k K). auto. Qed.

Lemma swap_ok l i j x y : nth_error l i = Some x -> nth_error l j = Some y -> i <> j -> exists l', swap_at l i j = Ok l' /\ List.length l' = List.length l /\ forall m, nth_error l' m = if Nat.eqb m j then Some x else if Nat.eqb m i then Some y else nth_error l m.
Proof.
  intros X Y N. unfold swap_at. rewrite (vget_ok _ _ _ X), (vget_ok _ _ _ Y). cbn [bind]. assert (LI : (i < List.length l)%nat) by (apply nth_error_Some; congruence). assert (LJ : (j < List.length l)%nat) by (apply nth_error_Some; congruence).
  destruct (tput_ok l i y LI) as (l1 & -> & L1 & N1). cbn [bind]. destruct (tput_ok l1 j x ltac:(lia)) as (l2 & -> & L2 & N2). exists l2. split; [reflexivity|]. split; [lia|]. intros m. now rewrite N2, N1.
Qed.
Lemma swap_holds n l f a b : holds n l f -> (a < n)%nat -> (b < n)%nat -> a <> b ->
  exists l', (do l1 <- swap_at l (2 * a) (2 * b); swap_at l1 (2 * a + 1) (2 * b + 1)) = Ok l' /\ holds n l' (fun k => if Nat.eqb k a then f b else if Nat.eqb k b then f a else f k).
Proof.
  intros (L & H) A B N. destruct (H a A) as (A1 & A2). destruct (H b B) as (B1 & B2). destruct (swap_ok l (2 * a) (2 * b) _ _ A1 B1 ltac:(lia)) as (l1 & -> & L1 & N1). cbn [bind].
  destruct (swap_ok l1 (2 * a + 1) (2 * b + 1) (snd (f a)) (snd (f b))) as (l2 & -> & L2 & N2); [rewrite N1; decide_eqb; exact A2|rewrite N1; decide_eqb; exact B2|lia|]. exists l2. split; [reflexivity|]. split; [lia|].
  intros k K. rewrite !N2, !N1. destruct (H k K) as (K1 & K2). destruct (Nat.eqb_spec k a) as [->|NA]; [|destruct (Nat.eqb_spec k b) as [->|NB]]; decide_eqb; auto.
Qed.

(* ---- turning the bits around ---- *)
Fixpoint rb (t i : nat) : nat := match t with O => O | S t' => ((i mod 2) * 2 ^ t' + rb t' (i / 2))%nat end.
Lemma half_even i b : (b < 2)%nat -> ((2 * i + b) / 2 = i /\ (2 * i + b) mod 2 = b)%nat.
Proof. intros B. split; [symmetry; apply (Nat.div_unique _ _ _ b); lia|symmetry; apply (Nat.mod_unique _ _ i); lia]. Qed.
Lemma rb_low t i b : (b < 2)%nat -> (rb (S t) (2 * i + b) = b * 2 ^ t + rb t i)%nat.
Proof. intros B. cbn [rb]. destruct (half_even i b B) as (-> & ->). reflexivity. Qed.
Lemma split2 i : exists a b, (i = 2 * a + b /\ b < 2)%nat.
Proof. exists (i / 2)%nat, (i mod 2)%nat. split; [apply Nat.div_mod; lia|apply Nat.mod_upper_bound; lia]. Qed.
Lemma rb_lt t : forall i, (rb t i < 2 ^ t)%nat.
Proof.
  induction t as [|t IH]; intros i; [cbn; lia|]. destruct (split2 i) as (a & b & -> & B). rewrite rb_low by exact B. specialize (IH a). cbn [Nat.pow]. destruct b as [|[|]]; lia.
Qed.
Lemma rb_high t : forall i b, (i < 2 ^ t)%nat -> (b < 2)%nat -> (rb (S t) (i + b * 2 ^ t) = 2 * rb t i + b)%nat.
Proof.
  induction t as [|t IH]; intros i b I B.
  - cbn [Nat.pow] in *. assert (i = O) by lia. subst i. destruct b as [|[|]]; [reflexivity|reflexivity|lia].
  - destruct (split2 i) as (a & c & -> & C). cbn [Nat.pow] in *. replace (2 * a + c + b * (2 * 2 ^ t))%nat with (2 * (a + b * 2 ^ t) + c)%nat by lia. rewrite rb_low by exact C. rewrite IH by lia. rewrite rb_low by exact C. cbn [Nat.pow]. lia.
Qed.
Lemma rb_inv t : forall i, (i < 2 ^ t)%nat -> rb t (rb t i) = i.
Proof.
  induction t as [|t IH]; intros i I; [cbn in *; lia|]. destruct (split2 i) as (a & b & -> & B). rewrite rb_low by exact B. rewrite Nat.add_comm, rb_high by (auto using rb_lt). cbn [Nat.pow] in I. rewrite IH by lia. lia.
Qed.
Lemma carry_ok t : forall fuel i, (t <= fuel)%nat -> (i + 1 < 2 ^ t)%nat -> carry fuel (2 ^ t) (2 * rb t i + 1) = (2 * rb t (i + 1) + 1)%nat.
Proof.
  induction t as [|t IH]; intros fuel i F I; [cbn in I; lia|]. destruct fuel as [|fuel]; [lia|]. destruct (split2 i) as (a & b & -> & B). pose proof (rb_lt t a) as LT. cbn [Nat.pow] in *. rewrite rb_low by exact B. cbn [carry].
  replace (Nat.leb 2 (2 * 2 ^ t)) with true by (symmetry; apply Nat.leb_le; lia). cbn [andb]. destruct b as [|[|]]; [| |lia].
  - replace (2 * a + 0 + 1)%nat with (2 * a + 1)%nat by lia. rewrite rb_low by lia. replace (Nat.ltb _ _) with false by (symmetry; apply Nat.ltb_ge; lia). lia.
  - replace (Nat.ltb _ _) with true by (symmetry; apply Nat.ltb_lt; lia). rewrite Nat.div2_double. replace (2 * (1 * 2 ^ t + rb t a) + 1 - 2 * 2 ^ t)%nat with (2 * rb t a + 1)%nat by lia. rewrite IH by lia.
    replace (2 * a + 1 + 1)%nat with (2 * (a + 1) + 0)%nat by lia. rewrite rb_low by lia. lia.
Qed.
Lemma pow_ge t : (t <= 2 ^ t)%nat.
Proof. pose proof (Nat.pow_gt_lin_r 2 t ltac:(lia)). lia. Qed.
Definition half_done (t : nat) (x : nat -> cx) (m k : nat) : cx := if Nat.ltb (Nat.min k (rb t k)) m then x (rb t k) else x k.
Lemma reverse_ok t x : forall cnt i j l, (i + cnt = 2 ^ t)%nat -> ((0 < cnt)%nat -> j = (2 * rb t i + 1)%nat) -> holds (2 ^ t) l (half_done t x i) ->
  exists l', reverse (2 ^ t) cnt (2 * i + 1) j l = Ok l' /\ holds (2 ^ t) l' (fun k => x (rb t k)).
Proof.
  induction cnt as [|cnt IH]; intros i j l E J H; cbn [reverse].
  - exists l. split; [reflexivity|]. eapply holds_ext; [|exact H]. intros k K. unfold half_done. pose proof (rb_lt t k). replace (Nat.ltb _ _) with true by (symmetry; apply Nat.ltb_lt; lia). reflexivity.
  - specialize (J ltac:(lia)). subst j. pose proof (rb_lt t i) as LT.
    assert (ST : exists l1, (if Nat.ltb (2 * i + 1) (2 * rb t i + 1) then do l1 <- swap_at l (2 * rb t i + 1 - 1) (2 * i + 1 - 1); swap_at l1 (2 * rb t i + 1) (2 * i + 1) else Ok l) = Ok l1 /\ holds (2 ^ t) l1 (half_done t x (S i))).
    { destruct (Nat.ltb_spec (2 * i + 1) (2 * rb t i + 1)) as [L|L].
      - replace (2 * rb t i + 1 - 1)%nat with (2 * rb t i)%nat by lia. replace (2 * i + 1 - 1)%nat with (2 * i)%nat by lia. destruct (swap_holds _ _ _ (rb t i) i H LT ltac:(lia) ltac:(lia)) as (l1 & E1 & H1). exists l1. split; [exact E1|]. eapply holds_ext; [|exact H1].
        intros k K. unfold half_done. pose proof (rb_inv t i ltac:(lia)) as RI. pose proof (rb_inv t k K) as RK. destruct (Nat.eqb_spec k (rb t i)) as [->|N1]; [|destruct (Nat.eqb_spec k i) as [->|N2]].
        + rewrite RI. replace (Nat.ltb (Nat.min i (rb t i)) i) with false by (symmetry; apply Nat.ltb_ge; lia). replace (Nat.ltb _ (S i)) with true by (symmetry; apply Nat.ltb_lt; lia). reflexivity.
        + rewrite RI. replace (Nat.ltb (Nat.min (rb t i) i) i) with false by (symmetry; apply Nat.ltb_ge; lia). replace (Nat.ltb _ (S i)) with true by (symmetry; apply Nat.ltb_lt; lia). reflexivity.
        + assert (N3 : rb t k <> i) by (intros Q; apply N1; rewrite <- Q; now rewrite RK). destruct (Nat.ltb_spec (Nat.min k (rb t k)) i), (Nat.ltb_spec (Nat.min k (rb t k)) (S i)); try lia; reflexivity.
      - exists l. split; [reflexivity|]. eapply holds_ext; [|exact H]. intros k K. unfold half_done. pose proof (rb_inv t i ltac:(lia)) as RI. pose proof (rb_inv t k K) as RK.
        destruct (Nat.ltb_spec (Nat.min k (rb t k)) i) as [M|M], (Nat.ltb_spec (Nat.min k (rb t k)) (S i)) as [M'|M']; try lia; try reflexivity.
        destruct (Nat.eq_dec k i) as [->|NK]; [f_equal; lia|]. assert (Q : rb t k = i) by lia. assert (k = rb t i) by (rewrite <- Q; now rewrite RK). lia. }
    destruct ST as (l1 & -> & H1). cbn [bind]. replace (2 * i + 1 + 2)%nat with (2 * S i + 1)%nat by lia. apply IH; [lia| |exact H1]. intros C. rewrite carry_ok; [f_equal; f_equal; f_equal; lia|apply pow_ge|lia].
Qed.

(* ---- one stage ---- *)
Lemma butterfly_ok n l f wr wi i L : holds n l f -> (0 < L)%nat -> (i + L < n)%nat ->
  exists l', butterfly wr wi (2 * i + 1) (2 * L) l = Ok l' /\ holds n l' (fun k => if Nat.eqb k i then cadd (f i) (cmul (wr, wi) (f (i + L)%nat)) else if Nat.eqb k (i + L) then csub (f i) (cmul (wr, wi) (f (i + L)%nat)) else f k).
Proof.
  intros (LN & H) P B. destruct (H i ltac:(lia)) as (I1 & I2). destruct (H (i + L)%nat ltac:(lia)) as (J1 & J2). unfold butterfly.
  replace (2 * i + 1 + 2 * L - 1)%nat with (2 * (i + L))%nat by lia. replace (2 * i + 1 + 2 * L)%nat with (2 * (i + L) + 1)%nat by lia. replace (2 * i + 1 - 1)%nat with (2 * i)%nat by lia. cbv zeta.
  rewrite (vget_ok _ _ _ J1), (vget_ok _ _ _ J2), (vget_ok _ _ _ I1). cbn [bind].
  match goal with |- context [tput l ?a ?b] => destruct (tput_ok l a b ltac:(lia)) as (l1 & -> & L1 & N1) end. cbn [bind].
  rewrite (vget_ok l1 (2 * i + 1) (snd (f i))) by (rewrite N1; decide_eqb; exact I2). cbn [bind].
  match goal with |- context [tput l1 ?a ?b] => destruct (tput_ok l1 a b ltac:(lia)) as (l2 & -> & L2 & N2) end. cbn [bind].
  rewrite (vget_ok l2 (2 * i) (fst (f i))) by (rewrite N2, N1; decide_eqb; exact I1). cbn [bind].
  match goal with |- context [tput l2 ?a ?b] => destruct (tput_ok l2 a b ltac:(lia)) as (l3 & -> & L3 & N3) end. cbn [bind].
  rewrite (vget_ok l3 (2 * i + 1) (snd (f i))) by (rewrite N3, N2, N1; decide_eqb; exact I2). cbn [bind].
  match goal with |- context [tput l3 ?a ?b] => destruct (tput_ok l3 a b ltac:(lia)) as (l4 & -> & L4 & N4) end.
  exists l4. split; [reflexivity|]. split; [lia|]. intros k K. rewrite !N4, !N3, !N2, !N1. destruct (H k K) as (K1 & K2).
  destruct (Nat.eqb_spec k i) as [->|NA]; [|destruct (Nat.eqb_spec k (i + L)) as [->|NB]]; decide_eqb; auto; split; f_equal; unfold cadd, csub, cmul; cbn [fst snd]; ring.
Qed.
Definition tw (L k : nat) : cx := cis (PI * INR k / INR L).
Definition stagef (L : nat) (f : nat -> cx) (i : nat) : cx :=
  if Nat.ltb (i mod (2 * L)) L then cadd (f i) (cmul (tw L (i mod L)) (f (i + L)%nat)) else csub (f (i - L)%nat) (cmul (tw L (i mod L)) (f i)).
Definition partly (L : nat) (f : nat -> cx) (K q i : nat) : cx :=
  if (Nat.ltb (i mod L) K || (Nat.eqb (i mod L) K && Nat.ltb (i / (2 * L)) q))%bool then stagef L f i else f i.
Lemma decomp L i : (0 < L)%nat -> exists c b k, (i = 2 * L * c + L * b + k /\ b < 2 /\ k < L)%nat.
Proof.
  intros P. exists (i / L / 2)%nat, ((i / L) mod 2)%nat, (i mod L)%nat. split; [|split; apply Nat.mod_upper_bound; lia].
  pose proof (Nat.div_mod i L ltac:(lia)) as E1. pose proof (Nat.div_mod (i / L) 2 ltac:(lia)) as E2. rewrite E1 at 1. rewrite E2 at 1. ring.
Qed.
Lemma parts_of L c b k : (0 < L)%nat -> (b < 2)%nat -> (k < L)%nat -> let i := (2 * L * c + L * b + k)%nat in (i mod L = k /\ i / (2 * L) = c /\ i mod (2 * L) = L * b + k)%nat.
Proof.
  intros P B K i. unfold i. assert (L * b + k < 2 * L)%nat by (destruct b as [|[|]]; lia). repeat split; symmetry.
  - apply (Nat.mod_unique _ _ (2 * c + b)); [exact K|ring].
  - apply (Nat.div_unique _ _ _ (L * b + k)); [assumption|ring].
  - apply (Nat.mod_unique _ _ c); [assumption|ring].
Qed.
Lemma pass_ok n cn L f K : (0 < L)%nat -> (K < L)%nat -> n = (2 * L * cn)%nat -> forall fuel q l, (cn < fuel + q)%nat -> (q <= cn)%nat -> holds n l (partly L f K q) ->
  exists l', pass fuel (fst (tw L K)) (snd (tw L K)) (2 * (2 * L * q + K) + 1) (2 * L) (2 * n) l = Ok l' /\ holds n l' (partly L f (S K) 0).
Proof.
  intros P KL EN. assert (FIN : forall l, holds n l (partly L f K cn) -> holds n l (partly L f (S K) 0)).
  { intros l. apply holds_ext. intros i I. unfold partly. destruct (decomp L i P) as (c & b & k & E & B & KK). destruct (parts_of L c b k P B KK) as (M & D & _). rewrite <- E in M, D. rewrite M, D.
    assert (c < cn)%nat. { apply (Nat.mul_lt_mono_pos_l (2 * L)); [lia|]. rewrite <- EN. lia. }
    destruct (Nat.ltb_spec k K), (Nat.ltb_spec k (S K)), (Nat.eqb_spec k K), (Nat.ltb_spec c cn); cbn [orb andb]; try lia; try reflexivity; destruct (Nat.eqb k (S K)); reflexivity. }
  induction fuel as [|fuel IH]; intros q l F Q H; cbn [pass].
  - lia.
  - destruct (Nat.eq_dec q cn) as [->|NQ].
    + replace (Nat.leb _ _) with false by (symmetry; apply Nat.leb_gt; rewrite EN; lia). exists l. auto.
    + assert (QL : (2 * L * S q <= n)%nat) by (rewrite EN; apply Nat.mul_le_mono_l; lia). rewrite Nat.mul_succ_r in QL.
      replace (Nat.leb _ _) with true by (symmetry; apply Nat.leb_le; lia).
      destruct (butterfly_ok n l _ (fst (tw L K)) (snd (tw L K)) (2 * L * q + K) L H P ltac:(lia)) as (l1 & -> & H1). cbn [bind].
      replace (2 * (2 * L * q + K) + 1 + 2 * (2 * L))%nat with (2 * (2 * L * S q + K) + 1)%nat by (rewrite Nat.mul_succ_r; lia). apply IH; [lia|lia|]. eapply holds_ext; [|exact H1].
      destruct (parts_of L q 0 K P ltac:(lia) KL) as (A1 & A2 & A3). destruct (parts_of L q 1 K P ltac:(lia) KL) as (B1 & B2 & B3).
      replace (2 * L * q + L * 0 + K)%nat with (2 * L * q + K)%nat in * by lia. replace (2 * L * q + L * 1 + K)%nat with (2 * L * q + K + L)%nat in * by lia.
      assert (F0 : partly L f K q (2 * L * q + K) = f (2 * L * q + K)%nat). { unfold partly. rewrite A1, A2, Nat.eqb_refl, !Nat.ltb_irrefl. reflexivity. }
      assert (F1 : partly L f K q (2 * L * q + K + L) = f (2 * L * q + K + L)%nat). { unfold partly. rewrite B1, B2, Nat.eqb_refl, !Nat.ltb_irrefl. reflexivity. }
      intros i I. rewrite F0, F1. replace (fst (tw L K), snd (tw L K)) with (tw L K) by (destruct (tw L K); reflexivity).
      destruct (Nat.eqb_spec i (2 * L * q + K)) as [->|N0]; [|destruct (Nat.eqb_spec i (2 * L * q + K + L)) as [->|N1]].
      * unfold partly. rewrite A1, A2, Nat.eqb_refl. replace (Nat.ltb q (S q)) with true by (symmetry; apply Nat.ltb_lt; lia). rewrite Bool.orb_true_r. unfold stagef. rewrite A1, A3. replace (Nat.ltb _ L) with true by (symmetry; apply Nat.ltb_lt; lia). reflexivity.
      * unfold partly. rewrite B1, B2, Nat.eqb_refl. replace (Nat.ltb q (S q)) with true by (symmetry; apply Nat.ltb_lt; lia). rewrite Bool.orb_true_r. unfold stagef. rewrite B1, B3. replace (Nat.ltb _ L) with false by (symmetry; apply Nat.ltb_ge; lia). replace (2 * L * q + K + L - L)%nat with (2 * L * q + K)%nat by lia. reflexivity.
      * unfold partly. destruct (decomp L i P) as (c & b & k & E & B & KK). destruct (parts_of L c b k P B KK) as (M & D & _). rewrite <- E in M, D. rewrite M, D.
        destruct (Nat.eqb_spec k K) as [->|NK]; [|reflexivity]. destruct (Nat.ltb_spec c q), (Nat.ltb_spec c (S q)); try lia; try reflexivity. assert (c = q) by lia. subst c. exfalso. destruct b as [|[|]]; lia.
Qed.
Lemma twiddle L K : (0 < L)%nat -> let theta := 2 * PI / INR (2 * L) in let w := tw L K in
  (fst w * (-2 * sin (theta / 2) * sin (theta / 2)) - snd w * sin theta + fst w, snd w * (-2 * sin (theta / 2) * sin (theta / 2)) + fst w * sin theta + snd w) = tw L (S K).
Proof.
  intros P theta w. assert (NL : INR L <> 0) by (apply not_0_INR; lia). assert (T : theta = PI / INR L). { unfold theta. rewrite mult_INR. cbn [INR]. field. exact NL. }
  assert (E : tw L (S K) = cmul w (cis theta)). { unfold w, tw. rewrite <- cis_plus. f_equal. rewrite T, S_INR. field. exact NL. }
  rewrite E. assert (C : -2 * sin (theta / 2) * sin (theta / 2) = cos theta - 1). { replace theta with (2 * (theta / 2)) at 3 by field. rewrite cos_2a_sin. ring. }
  rewrite C. apply cx_eq; unfold cmul, cis; cbn [fst snd]; ring.
Qed.
Lemma groups_ok n cn L f : (0 < L)%nat -> n = (2 * L * cn)%nat -> let theta := 2 * PI / INR (2 * L) in forall fuel K l, (L <= fuel + K)%nat -> (K <= L)%nat -> holds n l (partly L f K 0) ->
  exists l', groups fuel (-2 * sin (theta / 2) * sin (theta / 2)) (sin theta) (fst (tw L K)) (snd (tw L K)) (2 * K + 1) (2 * L) (2 * n) l = Ok l' /\ holds n l' (stagef L f).
Proof.
  intros P EN theta. assert (FIN : forall l, holds n l (partly L f L 0) -> holds n l (stagef L f)).
  { intros l. apply holds_ext. intros i I. unfold partly. replace (Nat.ltb (i mod L) L) with true by (symmetry; apply Nat.ltb_lt; apply Nat.mod_upper_bound; lia). reflexivity. }
  induction fuel as [|fuel IH]; intros K l F KL H; cbn [groups].
  - assert (K = L) by lia. subst K. exists l. auto.
  - destruct (Nat.eq_dec K L) as [->|NK].
    + replace (Nat.ltb _ _) with false by (symmetry; apply Nat.ltb_ge; lia). exists l. auto.
    + replace (Nat.ltb _ _) with true by (symmetry; apply Nat.ltb_lt; lia). destruct (pass_ok n cn L f K P ltac:(lia) EN (S (2 * n)) 0 l) as (l1 & E1 & H1); [|lia|exact H|].
      { assert (cn <= n)%nat by (rewrite EN; destruct L; [lia|]; cbn; lia). lia. }
      replace (2 * (2 * L * 0 + K) + 1)%nat with (2 * K + 1)%nat in E1 by lia. rewrite E1. cbn [bind]. pose proof (twiddle L K P) as T. cbv zeta in T. fold theta in T. pose proof (f_equal fst T) as T1. pose proof (f_equal snd T) as T2. cbn [fst snd] in T1, T2. rewrite T1, T2.
      replace (2 * K + 1 + 2)%nat with (2 * S K + 1)%nat by lia. apply IH; [lia|lia|exact H1].
Qed.

(* ---- all stages ---- *)
Definition upto (y : nat -> cx) (s i : nat) : cx := csum (fun r => cmul (y (i / 2 ^ s * 2 ^ s + rb s r)%nat) (cis (2 * PI * INR (i mod 2 ^ s * r) / INR (2 ^ s)))) (2 ^ s).
Lemma cis_turns' a b k : b = a + 2 * INR k * PI -> cis b = cis a.
Proof. intros ->. apply cis_turns. Qed.
Lemma cis_half a b k : b = a + (2 * INR k + 1) * PI -> cis b = csub (0, 0) (cis a).
Proof.
  intros ->. replace (a + (2 * INR k + 1) * PI) with ((a + PI) + 2 * INR k * PI) by ring. rewrite cis_turns. rewrite cis_plus. unfold cis at 2. rewrite cos_PI, sin_PI. cxring.
Qed.
Lemma stage_upto y s i : stagef (2 ^ s) (upto y s) i = upto y (S s) i.
Proof.
  set (L := (2 ^ s)%nat). assert (P : (0 < L)%nat) by (unfold L; pose proof (Nat.pow_nonzero 2 s); lia). assert (NL : INR L <> 0) by (apply not_0_INR; lia).
  destruct (decomp L i P) as (c & b & k & -> & B & K). destruct (parts_of L c b k P B K) as (M & D & M2). unfold stagef. rewrite M, M2.
  assert (V : forall b', (b' < 2)%nat -> upto y s (2 * L * c + L * b' + k) = csum (fun r => cmul (y (2 * L * c + L * b' + rb s r)%nat) (cis (2 * PI * INR (k * r) / INR L))) L).
  { intros b' B'. destruct (parts_of L c b' k P B' K) as (M' & _ & _). unfold upto. fold L. rewrite M'. replace ((2 * L * c + L * b' + k) / L)%nat with (2 * c + b')%nat by (apply (Nat.div_unique _ _ _ k); [exact K|ring]). apply csum_ext. intros r R. do 2 f_equal. ring. }
  assert (W : upto y (S s) (2 * L * c + L * b + k) = cadd (csum (fun r => cmul (y (2 * L * c + rb s r)%nat) (cis (2 * PI * INR (k * r) / INR L))) L)
     (cmul (if Nat.eqb b 0 then tw L k else csub (0, 0) (tw L k)) (csum (fun r => cmul (y (2 * L * c + L + rb s r)%nat) (cis (2 * PI * INR (k * r) / INR L))) L))).
  { unfold upto. replace (2 ^ S s)%nat with (2 * L)%nat by (unfold L; cbn [Nat.pow]; lia). rewrite D, M2, csum_even_odd, <- csum_scale. f_equal; apply csum_ext; intros r R.
    - replace (rb (S s) (2 * r)) with (rb s r) by (replace (2 * r)%nat with (2 * r + 0)%nat by lia; rewrite rb_low by lia; lia). f_equal; [f_equal; lia|]. apply (cis_turns' _ _ (b * r)). rewrite !mult_INR, plus_INR, !mult_INR. change (INR 2) with 2. field. exact NL.
    - rewrite rb_low by lia. fold L. replace (c * (2 * L) + (1 * L + rb s r))%nat with (2 * L * c + L + rb s r)%nat by lia.
      assert (CE : cis (2 * PI * INR ((L * b + k) * (2 * r + 1)) / INR (2 * L)) = cmul (if Nat.eqb b 0 then tw L k else csub (0, 0) (tw L k)) (cis (2 * PI * INR (k * r) / INR L))).
      { destruct b as [|[|]]; [| |lia]; cbn [Nat.eqb].
        - unfold tw. rewrite <- cis_plus. f_equal. rewrite !mult_INR, !plus_INR, !mult_INR. change (INR 2) with 2. change (INR 1) with 1. change (INR 0) with 0. field. exact NL.
        - rewrite (cis_half (PI * INR k / INR L + 2 * PI * INR (k * r) / INR L) _ r).
          + rewrite cis_plus. unfold tw. cxring.
          + rewrite !mult_INR, !plus_INR, !mult_INR. change (INR 2) with 2. change (INR 1) with 1. field. exact NL. }
      rewrite CE. cxring. }
  rewrite W. destruct b as [|[|]]; [| |lia]; cbn [Nat.eqb].
  - replace (Nat.ltb _ L) with true by (symmetry; apply Nat.ltb_lt; lia). replace (2 * L * c + L * 0 + k + L)%nat with (2 * L * c + L * 1 + k)%nat by lia. rewrite !V by lia. f_equal; [apply csum_ext; intros; do 2 f_equal; lia|]. f_equal. apply csum_ext; intros; do 2 f_equal; lia.
  - replace (Nat.ltb _ L) with false by (symmetry; apply Nat.ltb_ge; lia). replace (2 * L * c + L * 1 + k - L)%nat with (2 * L * c + L * 0 + k)%nat by lia. rewrite !V by lia.
    replace (csum (fun r => cmul (y (2 * L * c + L * 0 + rb s r)%nat) (cis (2 * PI * INR (k * r) / INR L))) L) with (csum (fun r => cmul (y (2 * L * c + rb s r)%nat) (cis (2 * PI * INR (k * r) / INR L))) L) by (apply csum_ext; intros; do 2 f_equal; lia).
    replace (csum (fun r => cmul (y (2 * L * c + L * 1 + rb s r)%nat) (cis (2 * PI * INR (k * r) / INR L))) L) with (csum (fun r => cmul (y (2 * L * c + L + rb s r)%nat) (cis (2 * PI * INR (k * r) / INR L))) L) by (apply csum_ext; intros; do 2 f_equal; lia).
    cxring.
Qed.
Lemma stages_ok y t : forall d s fuel l, (s + d = t)%nat -> (d <= fuel)%nat -> holds (2 ^ t) l (upto y s) -> exists l', stages fuel (2 * 2 ^ s) (2 * 2 ^ t) l = Ok l' /\ holds (2 ^ t) l' (upto y t).
Proof.
  induction d as [|d IH]; intros s fuel l E F H.
  - assert (s = t) by lia. subst s. exists l. split; [|exact H]. destruct fuel; cbn [stages]; [reflexivity|]. now rewrite Nat.ltb_irrefl.
  - destruct fuel as [|fuel]; [lia|]. cbn [stages]. assert (PW : (2 ^ t = 2 * 2 ^ s * 2 ^ d)%nat) by (rewrite <- E, Nat.pow_add_r; cbn [Nat.pow]; ring). assert (P : (0 < 2 ^ s)%nat) by (pose proof (Nat.pow_nonzero 2 s); lia). assert (PD : (0 < 2 ^ d)%nat) by (pose proof (Nat.pow_nonzero 2 d); lia).
    replace (Nat.ltb _ _) with true by (symmetry; apply Nat.ltb_lt; rewrite PW; nia).
    destruct (groups_ok (2 ^ t) (2 ^ d) (2 ^ s) (upto y s) P PW (2 * 2 ^ s) 0 l) as (l1 & E1 & H1); [lia|lia| |].
    { eapply holds_ext; [|exact H]. intros i I. unfold partly. rewrite !(proj2 (Nat.ltb_ge _ 0)) by lia. now rewrite Bool.andb_false_r. }
    cbv zeta in *. assert (T0 : tw (2 ^ s) 0 = (1, 0)). { unfold tw, cis. change (INR 0) with 0. replace (PI * 0 / INR (2 ^ s)) with 0 by (unfold Rdiv; ring). now rewrite cos_0, sin_0. }
    rewrite T0 in E1. cbn [fst snd] in E1. change (2 * 0 + 1)%nat with 1%nat in E1. rewrite E1. cbn [bind]. replace (2 * (2 * 2 ^ s))%nat with (2 * 2 ^ S s)%nat by (cbn [Nat.pow]; lia). apply IH; [lia|lia|]. eapply holds_ext; [|exact H1]. intros i I. apply stage_upto.
Qed.
Theorem fft_dft t l x : holds (2 ^ t) l x -> exists l', fft l = Ok l' /\ holds (2 ^ t) l' (dft (2 ^ t) x).
Proof.
  intros H. unfold fft. destruct H as (LN & H0). rewrite LN, Nat.div2_double.
  destruct (reverse_ok t x (2 ^ t) 0 1 l) as (l1 & E1 & H1); [lia| | |].
  { intros _. clear. assert (rb t 0 = 0)%nat; [|lia]. induction t as [|t IH]; [reflexivity|]. cbn [rb]. change (0 / 2)%nat with O. change (0 mod 2)%nat with O. lia. }
  { split; [exact LN|]. intros k K. unfold half_done. replace (Nat.ltb _ 0) with false by (symmetry; apply Nat.ltb_ge; lia). auto. }
  change (2 * 0 + 1)%nat with 1%nat in E1. rewrite E1. cbn [bind].
  destruct (stages_ok (fun k => x (rb t k)) t t 0 (2 * 2 ^ t) l1) as (l2 & E2 & H2); [lia|pose proof (pow_ge t); lia| |].
  { eapply holds_ext; [|exact H1]. intros k K. unfold upto. cbn [Nat.pow csum rb]. rewrite Nat.div_1_r. replace (k * 1 + 0)%nat with k by lia. replace (2 * PI * INR (k mod 1 * 0) / INR 1) with 0 by (rewrite Nat.mul_0_r; cbn; field). unfold cis. rewrite cos_0, sin_0. cxring. }
  change (2 * 2 ^ 0)%nat with 2%nat in E2. exists l2. split; [exact E2|]. eapply holds_ext; [|exact H2]. intros k K. unfold upto, dft. apply csum_ext. intros r R. rewrite Nat.div_small, Nat.mod_small by exact K. cbn [Nat.mul Nat.add]. now rewrite rb_inv by exact R.
Qed.
