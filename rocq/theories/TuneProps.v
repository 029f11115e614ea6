(* C371-C378: tunes from tracking. *)
From Verif Require Import RBase Base Tune TuneSpec TuneProofs.
From Coq Require Import List Arith Lia Lra ZArith Ratan.
Import ListNotations.
Local Open Scope R_scope.

(* C371: for a power of two of turns the transform of the program is the discrete Fourier transform *)
Theorem C371_fft : forall t l x, holds (2 ^ t) l x -> exists l', fft l = Ok l' /\ holds (2 ^ t) l' (dft (2 ^ t) x).
Proof. exact fft_dft. Qed.
Print Assumptions C371_fft.
Example C371_ex : holds (2 ^ 1) [1; 2; 3; 4] (fun k => match k with O => (1, 2) | _ => (3, 4) end) /\ fst (dft (2 ^ 1) (fun k => match k with O => (1, 2) | _ => (3, 4) end) 1) = -2.
Proof.
  split.
  - split; [reflexivity|]. intros [|[|k]] K; cbn in *; [auto|auto|lia].
  - change (2 ^ 1)%nat with 2%nat. unfold dft, cis. cbn [csum]. unfold cadd, cmul. cbn [fst snd Nat.mul Nat.add INR]. replace (2 * PI * 0 / (1 + 1)) with 0 by field. replace (2 * PI * 1 / (1 + 1)) with PI by field. rewrite cos_0, sin_0, cos_PI, sin_PI. ring.
Qed.

(* ---- C372: other numbers of turns ---- *)
Definition keeps (n : nat) (r : tres (list R)) : Prop := match r with Ok l => List.length l = n | Throw _ => False | UB => True end.
Lemma keeps_bind n r f : keeps n r -> (forall l, List.length l = n -> keeps n (f l)) -> keeps n (bind r f).
Proof. destruct r; cbn; auto; tauto. Qed.
Lemma vget_bind {B} (l : list R) i (f : R -> tres B) (P : tres B -> Prop) : P UB -> (forall x, P (f x)) -> P (do x <- vget l i; f x).
Proof. intros U F. unfold vget. destruct (nth_error l i); cbn [bind]; auto. Qed.
Lemma tput_keeps n l i x : List.length l = n -> keeps n (tput l i x).
Proof. intros L. unfold tput. destruct (upd l i x) eqn:E; cbn; [|trivial]. apply upd_length in E. lia. Qed.
Lemma swap_keeps n l i j : List.length l = n -> keeps n (swap_at l i j).
Proof.
  intros L. unfold swap_at. apply vget_bind; [exact I|intros a]. apply vget_bind; [exact I|intros b]. apply keeps_bind; [now apply tput_keeps|]. intros l1 L1. now apply tput_keeps.
Qed.
Lemma reverse_keeps n nn : forall cnt i j l, List.length l = n -> keeps n (reverse nn cnt i j l).
Proof.
  induction cnt as [|cnt IH]; intros i j l L; cbn [reverse]; [exact L|]. apply keeps_bind; [|intros l' L'; now apply IH].
  destruct (Nat.ltb i j); [|exact L]. apply keeps_bind; [now apply swap_keeps|intros l' L'; now apply swap_keeps].
Qed.
Lemma butterfly_keeps n wr wi i m l : List.length l = n -> keeps n (butterfly wr wi i m l).
Proof.
  intros L. unfold butterfly. cbv zeta. apply vget_bind; [exact I|intros a]. apply vget_bind; [exact I|intros b]. apply vget_bind; [exact I|intros c].
  apply keeps_bind; [now apply tput_keeps|intros l1 L1]. apply vget_bind; [exact I|intros d]. apply keeps_bind; [now apply tput_keeps|intros l2 L2].
  apply vget_bind; [exact I|intros e]. apply keeps_bind; [now apply tput_keeps|intros l3 L3]. apply vget_bind; [exact I|intros g]. now apply tput_keeps.
Qed.
Lemma pass_keeps n wr wi m k : forall fuel i l, List.length l = n -> keeps n (pass fuel wr wi i m k l).
Proof. induction fuel as [|f IH]; intros i l L; cbn [pass]; [exact L|]. destruct (Nat.leb i k); [|exact L]. apply keeps_bind; [now apply butterfly_keeps|intros l' L'; now apply IH]. Qed.
Lemma groups_keeps n wpr wpi mm k : forall fuel wr wi m l, List.length l = n -> keeps n (groups fuel wpr wpi wr wi m mm k l).
Proof. induction fuel as [|f IH]; intros wr wi m l L; cbn [groups]; [exact L|]. destruct (Nat.ltb m mm); [|exact L]. apply keeps_bind; [now apply pass_keeps|intros l' L'; now apply IH]. Qed.
Lemma pass_over L a n wr wi : (0 < L)%nat -> n = (L * (2 * a + 1))%nat -> forall fuel q l, (q <= a)%nat -> (a < fuel + q)%nat -> List.length l = (2 * n)%nat -> pass fuel wr wi (2 * (2 * L * q) + 1) (2 * L) (2 * n) l = UB.
Proof.
  intros P EN. induction fuel as [|f IH]; intros q l Q F LL; [lia|]. cbn [pass]. assert (QL : (2 * L * q + L <= n)%nat) by (rewrite EN; nia).
  replace (Nat.leb _ _) with true by (symmetry; apply Nat.leb_le; lia). destruct (Nat.eq_dec q a) as [->|NQ].
  - unfold butterfly. cbv zeta. unfold vget at 1. replace (nth_error l _) with (@None R); [reflexivity|]. symmetry. apply nth_error_None. rewrite LL, EN. nia.
  - pose proof (butterfly_keeps _ wr wi (2 * (2 * L * q) + 1) (2 * L) l LL) as KB. destruct (butterfly _ _ _ _ l) as [l'| |]; cbn [keeps] in KB; [|contradiction|reflexivity]. cbn [bind].
    replace (2 * (2 * L * q) + 1 + 2 * (2 * L))%nat with (2 * (2 * L * S q) + 1)%nat by lia. apply IH; [lia|lia|exact KB].
Qed.
Lemma stages_over s a n : (0 < a)%nat -> n = (2 ^ s * (2 * a + 1))%nat -> forall d r fuel l, (r + d = s)%nat -> (d < fuel)%nat -> List.length l = (2 * n)%nat -> stages fuel (2 * 2 ^ r) (2 * n) l = UB.
Proof.
  intros A EN. induction d as [|d IH]; intros r fuel l E F LL; (destruct fuel as [|fuel]; [lia|]); cbn [stages].
  - assert (r = s) by lia. subst r. assert (P : (0 < 2 ^ s)%nat) by (pose proof (Nat.pow_nonzero 2 s); lia). replace (Nat.ltb _ _) with true by (symmetry; apply Nat.ltb_lt; rewrite EN; nia). cbv zeta.
    destruct (2 * 2 ^ s)%nat as [|g] eqn:G; [lia|]. cbn [groups]. replace (Nat.ltb 1 (S g)) with true by (symmetry; apply Nat.ltb_lt; lia).
    pose proof (pass_over (2 ^ s) a n 1 0 P EN (S (2 * n)) 0 l ltac:(lia)) as PO. rewrite G in PO. replace (2 * (S g * 0) + 1)%nat with 1%nat in PO by lia. rewrite PO; [reflexivity| |exact LL]. assert (a <= n)%nat by (rewrite EN; nia). lia.
  - assert (P : (0 < 2 ^ r)%nat) by (pose proof (Nat.pow_nonzero 2 r); lia). assert (PW : (2 ^ s = 2 ^ r * 2 ^ S d)%nat) by (rewrite <- E, Nat.pow_add_r; reflexivity). assert (PD : (0 < 2 ^ d)%nat) by (pose proof (Nat.pow_nonzero 2 d); lia).
    replace (Nat.ltb _ _) with true by (symmetry; apply Nat.ltb_lt; rewrite EN, PW; cbn [Nat.pow]; nia). cbv zeta.
    match goal with |- bind ?e _ = _ => pose proof (groups_keeps (2 * n) (-2 * sin (2 * PI / INR (2 * 2 ^ r) / 2) * sin (2 * PI / INR (2 * 2 ^ r) / 2)) (sin (2 * PI / INR (2 * 2 ^ r))) (2 * 2 ^ r) (2 * n) (2 * 2 ^ r) 1 0 1 l LL) as KG; destruct e as [l'| |] end; cbn [keeps] in KG; [|contradiction|reflexivity]. cbn [bind].
    replace (2 * (2 * 2 ^ r))%nat with (2 * 2 ^ S r)%nat by (cbn [Nat.pow]; lia). apply IH; [lia|lia|exact KG].
Qed.
Lemma odd_part : forall n, (0 < n)%nat -> exists s a, n = (2 ^ s * (2 * a + 1))%nat.
Proof.
  induction n as [n IH] using lt_wf_ind. intros P. destruct (split2 n) as (a & [|[|b]] & E & B); [| |lia].
  - destruct (IH a ltac:(lia) ltac:(lia)) as (s & c & EA). exists (S s), c. rewrite E, EA. cbn [Nat.pow]. ring.
  - exists O, a. cbn [Nat.pow]. lia.
Qed.
(* C372: with any other number of turns it reads and writes outside its data *)
Theorem C372_power_refuted : forall n l, (0 < n)%nat -> (forall t, n <> 2 ^ t)%nat -> List.length l = (2 * n)%nat -> fft l = UB.
Proof.
  intros n l P N LL. destruct (odd_part n P) as (s & a & EN). assert (A : (0 < a)%nat). { destruct a; [|lia]. exfalso. apply (N s). rewrite EN. ring. }
  unfold fft. rewrite LL, Nat.div2_double. pose proof (reverse_keeps (2 * n) n n 1 1 l LL) as KR. destruct (reverse n n 1 1 l) as [l'| |]; cbn [keeps] in KR; [|contradiction|reflexivity]. cbn [bind].
  apply (stages_over s a n A EN s 0 (2 * n) l'); [lia| |exact KR]. pose proof (pow_ge s). rewrite EN. nia.
Qed.
Print Assumptions C372_power_refuted.
Example C372_ex : (forall t, 1000 <> 2 ^ t)%nat.
Proof.
  intros t E. destruct (Nat.le_gt_cases t 9) as [H|H].
  - do 10 (destruct t as [|t]; [cbv in E; discriminate|]). lia.
  - pose proof (Nat.pow_le_mono_r 2 10 t ltac:(lia) ltac:(lia)) as Q. rewrite <- E in Q. apply Nat.leb_le in Q. vm_compute in Q. discriminate.
Qed.

(* ---- the peak ---- *)
Lemma peaks_run n d b : holds n d b -> forall cnt i spec h pos, (i + cnt = n)%nat ->
  exists pos', peaks cnt (2 * i) d spec h pos = Ok (spec ++ map (fun k => cabs (b k)) (seq i cnt), pos') /\
  ((pos' = pos /\ forall k, (i <= k < n)%nat -> cabs (b k) <= h) \/ ((i <= pos' < n)%nat /\ h < cabs (b pos') /\ (forall k, (i <= k < n)%nat -> cabs (b k) <= cabs (b pos')))).
Proof.
  intros (L & H). induction cnt as [|cnt IH]; intros i spec h pos E; cbn [peaks seq map].
  - exists pos. rewrite app_nil_r. split; [reflexivity|]. left. split; [reflexivity|]. intros k K. lia.
  - destruct (H i ltac:(lia)) as (H1 & H2). rewrite (vget_ok _ _ _ H1), (vget_ok _ _ _ H2). cbn [bind]. cbv zeta. fold (cabs (b i)). replace (2 * i + 2)%nat with (2 * S i)%nat by lia. destruct (Rltb_spec h (cabs (b i))) as [LT|GE].
    + rewrite Nat.div2_double. destruct (IH (S i) (spec ++ [cabs (b i)]) (cabs (b i)) i ltac:(lia)) as (p & -> & C). exists p. rewrite <- app_assoc. split; [reflexivity|]. right. destruct C as [(-> & B)|(R1 & R2 & R3)].
      * split; [lia|]. split; [exact LT|]. intros k K. destruct (Nat.eq_dec k i) as [->|NK]; [lra|]. apply B. lia.
      * split; [lia|]. split; [lra|]. intros k K. destruct (Nat.eq_dec k i) as [->|NK]; [lra|]. apply R3. lia.
    + destruct (IH (S i) (spec ++ [cabs (b i)]) h pos ltac:(lia)) as (p & -> & C). exists p. rewrite <- app_assoc. split; [reflexivity|]. destruct C as [(-> & B)|(R1 & R2 & R3)].
      * left. split; [reflexivity|]. intros k K. destruct (Nat.eq_dec k i) as [->|NK]; [lra|]. apply B. lia.
      * right. split; [lia|]. split; [exact R2|]. intros k K. destruct (Nat.eq_dec k i) as [->|NK]; [lra|]. apply R3. lia.
Qed.
Lemma spec_nth n b i : nth_error (map (fun k => cabs (b k)) (seq 1 (n - 1))) i = if Nat.ltb (i + 1) n then Some (cabs (b (i + 1)%nat)) else None.
Proof.
  destruct (Nat.ltb_spec (i + 1) n) as [L|L].
  - replace (i + 1)%nat with (1 + i)%nat by lia. apply (map_nth_error (fun k => cabs (b k))). rewrite (nth_error_nth' _ O) by (rewrite seq_length; lia). now rewrite seq_nth by lia.
  - apply nth_error_None. rewrite map_length, seq_length. lia.
Qed.
Lemma find_tune_unfold t l x p : holds (2 ^ t) l x -> (1 <= p < 2 ^ t)%nat -> (forall k, (1 <= k < 2 ^ t)%nat -> k <> p -> cabs (dft (2 ^ t) x k) < cabs (dft (2 ^ t) x p)) -> 0 < cabs (dft (2 ^ t) x p) ->
  find_tune l = (do c <- vget (map (fun k => cabs (dft (2 ^ t) x k)) (seq 1 (2 ^ t - 1))) p; do g <- vget (map (fun k => cabs (dft (2 ^ t) x k)) (seq 1 (2 ^ t - 1))) (p + 1);
    do q <- amp (c / sqrt (INR (2 ^ t))) (g / sqrt (INR (2 ^ t))) (cos (2 * PI / INR (2 ^ t)));
    if Rltb 1 (Rabs (q * sin (2 * PI / INR (2 ^ t)))) then Throw TNaN else Ok ((INR p + INR (2 ^ t) * asin (q * sin (2 * PI / INR (2 ^ t))) / (2 * PI)) / INR (2 ^ t))).
Proof.
  intros H P M Z. unfold find_tune. destruct (fft_dft t l x H) as (d & -> & HD). cbn [bind]. cbv zeta. destruct H as (LL & _). rewrite LL, Nat.div2_double. assert (N1 : (1 + (2 ^ t - 1) = 2 ^ t)%nat) by lia.
  destruct (peaks_run _ _ _ HD (2 ^ t - 1) 1 [] 0 0 N1) as (pos & EP & C). change (2 * 1)%nat with 2%nat in EP. rewrite EP. cbn [bind fst snd app].
  assert (pos = p). { destruct C as [(_ & B)|(R1 & R2 & R3)]; [specialize (B p P); lra|]. destruct (Nat.eq_dec pos p) as [|NE]; [assumption|]. specialize (M pos R1 NE). specialize (R3 p P). lra. }
  subst pos. reflexivity.
Qed.
(* C375: a tune in the last two bins of the spectrum (between -2/n and 0, that is just below a whole number): the value next to the peak is read outside the spectrum *)
Theorem C375_last_bins_refuted : forall t l x p, holds (2 ^ t) l x -> (1 <= p < 2 ^ t)%nat -> (2 ^ t <= p + 2)%nat ->
  (forall k, (1 <= k < 2 ^ t)%nat -> k <> p -> cabs (dft (2 ^ t) x k) < cabs (dft (2 ^ t) x p)) -> 0 < cabs (dft (2 ^ t) x p) -> find_tune l = UB.
Proof.
  intros t l x p H P N M Z. rewrite (find_tune_unfold t l x p H P M Z). unfold vget at 1. destruct (nth_error _ p); [|reflexivity]. cbn [bind]. unfold vget. rewrite spec_nth. replace (Nat.ltb _ _) with false by (symmetry; apply Nat.ltb_ge; lia). reflexivity.
Qed.
Print Assumptions C375_last_bins_refuted.

(* C374: a particle which does not move in a plane has no number as its tune there *)
Lemma zeros_fft t : holds (2 ^ t) (repeat 0 (2 * 2 ^ t)) (fun _ => (0, 0)).
Proof. split; [apply repeat_length|]. intros k K. split; apply nth_error_repeat; lia. Qed.
Lemma dft_zero n k : dft n (fun _ => (0, 0)) k = (0, 0).
Proof. unfold dft. generalize n at 2 as m. induction m as [|m IH]; cbn [csum]; [reflexivity|]. rewrite IH. cxring. Qed.
Theorem C374_at_rest_refuted : forall t, (2 <= t)%nat -> find_tune (repeat 0 (2 * 2 ^ t)) = Throw TNaN.
Proof.
  intros t T. pose proof (zeros_fft t) as H. assert (N4 : (4 <= 2 ^ t)%nat) by (change 4%nat with (2 ^ 2)%nat; apply Nat.pow_le_mono_r; lia).
  unfold find_tune. destruct (fft_dft t _ _ H) as (d & -> & HD). cbn [bind]. cbv zeta. rewrite repeat_length, Nat.div2_double.
  destruct (peaks_run _ _ _ HD (2 ^ t - 1) 1 [] 0 0 ltac:(lia)) as (pos & EP & C). change (2 * 1)%nat with 2%nat in EP. rewrite EP. cbn [bind fst snd app].
  assert (Z : forall k, cabs (dft (2 ^ t) (fun _ => (0, 0)) k) = 0). { intros k. rewrite dft_zero. unfold cabs. cbn [fst snd]. replace (0 * 0 + 0 * 0) with 0 by ring. apply sqrt_0. }
  assert (pos = O). { destruct C as [(-> & _)|(_ & R2 & _)]; [reflexivity|]. rewrite Z in R2. lra. } subst pos.
  unfold vget. rewrite !spec_nth. replace (Nat.ltb (0 + 1) _) with true by (symmetry; apply Nat.ltb_lt; lia). replace (Nat.ltb (0 + 1 + 1) _) with true by (symmetry; apply Nat.ltb_lt; lia). cbn [bind]. rewrite !Z. unfold amp. cbv zeta.
  replace (0 / sqrt (INR (2 ^ t))) with 0 by (unfold Rdiv; ring). set (c := cos _). replace (c * c * (0 + 0) * (0 + 0) - 2 * 0 * 0 * (2 * c * c - c - 1)) with 0 by ring. rewrite Rltb_false by lra. replace (0 * 0 + 0 * 0 + 2 * 0 * 0 * c) with 0 by ring. rewrite Reqb_true by reflexivity. reflexivity.
Qed.
Print Assumptions C374_at_rest_refuted.

(* ---- from the tracking to the data ---- *)
Definition xof (q : quad) : cx := (q_x q, q_xp q).
Definition yof (q : quad) : cx := (q_y q, q_yp q).
Definition tame (q : quad) : Prop := Rabs (q_x q) <= 10 ^ 10 /\ Rabs (q_y q) <= 10 ^ 10.
Definition from (n : nat) (f : nat -> cx) (k c : nat) : list R := flat_map (fun i => [fst (f i) * window n i; snd (f i) * window n i]) (seq k c).
Lemma hann_window k n : hann k n = window n k.
Proof. unfold hann, window. cbv zeta. ring. Qed.
Lemma collect_first track q n : forall cnt k s, (forall i, (k <= i < k + cnt)%nat -> track i = Some (q i) /\ tame (q i)) -> (k + cnt <= n)%nat ->
  collect track n cnt k s = (true, mkSt (x1 s ++ from n (fun i => xof (q i)) k cnt) (y1 s ++ from n (fun i => yof (q i)) k cnt) (x2 s) (y2 s)).
Proof.
  induction cnt as [|cnt IH]; intros k s H K.
  - cbn. rewrite !app_nil_r. now destruct s.
  - destruct (H k ltac:(lia)) as (E & T1 & T2). cbn [collect]. rewrite E, Rltb_false, Rltb_false by assumption. cbn [orb]. cbv zeta. replace (Nat.ltb k n) with true by (symmetry; apply Nat.ltb_lt; lia).
    rewrite IH by (try lia; intros i I; apply H; lia). cbn [x1 y1 x2 y2]. unfold from. cbn [seq flat_map]. rewrite hann_window, <- !app_assoc. reflexivity.
Qed.
Lemma collect_second track q n : forall cnt k s, (forall i, (k <= i < k + cnt)%nat -> track i = Some (q i) /\ tame (q i)) -> (n <= k)%nat ->
  collect track n cnt k s = (true, mkSt (x1 s) (y1 s) (x2 s ++ from n (fun i => xof (q i)) k cnt) (y2 s ++ from n (fun i => yof (q i)) k cnt)).
Proof.
  induction cnt as [|cnt IH]; intros k s H K.
  - cbn. rewrite !app_nil_r. now destruct s.
  - destruct (H k ltac:(lia)) as (E & T1 & T2). cbn [collect]. rewrite E, Rltb_false, Rltb_false by assumption. cbn [orb]. cbv zeta. replace (Nat.ltb k n) with false by (symmetry; apply Nat.ltb_ge; lia).
    rewrite IH by (try lia; intros i I; apply H; lia). cbn [x1 y1 x2 y2]. unfold from. cbn [seq flat_map]. rewrite hann_window, <- !app_assoc. reflexivity.
Qed.
Lemma collect_app track n : forall c1 c2 k s, collect track n (c1 + c2) k s = (let r := collect track n c1 k s in if fst r then collect track n c2 (k + c1) (snd r) else r).
Proof.
  induction c1 as [|c1 IH]; intros c2 k s; cbn [Nat.add collect]; [cbn; now rewrite Nat.add_0_r|]. destruct (track k) as [p|]; [|reflexivity]. destruct (_ || _)%bool; [reflexivity|]. cbv zeta. rewrite IH. cbv zeta. now replace (S k + c1)%nat with (k + S c1)%nat by lia.
Qed.
Lemma window_period n k : (0 < n)%nat -> window n (n + k) = window n k.
Proof.
  intros P. unfold window. assert (NN : INR n <> 0) by (apply not_0_INR; lia). replace (PI * INR (n + k + 1) / INR n) with (PI * INR (k + 1) / INR n + PI) by (rewrite !plus_INR; field; exact NN). rewrite neg_sin. ring.
Qed.
Lemma seq_from : forall c k j, seq (k + j) c = map (fun i => (k + i)%nat) (seq j c).
Proof. induction c as [|c IH]; intros k j; cbn [seq map]; [reflexivity|]. f_equal. replace (S (k + j)) with (k + S j)%nat by lia. apply IH. Qed.
Lemma from_second n f : (0 < n)%nat -> from n f n n = recorded n (fun i => f (n + i)%nat).
Proof.
  intros P. unfold from, recorded. replace (seq n n) with (map (fun i => (n + i)%nat) (seq 0 n)) by (rewrite <- seq_from; f_equal; lia). rewrite flat_map_concat_map, map_map, <- flat_map_concat_map. apply flat_map_ext. intros i. now rewrite window_period.
Qed.
(* C378: the tune of each plane is the one found in the windowed values of the first n turns, the diffusion that of the next n turns less the first *)
Theorem C378_tunes : forall track q n, (0 < n)%nat -> (forall i, (i < 2 * n)%nat -> track i = Some (q i) /\ tame (q i)) -> forall a b c d,
  find_tune (recorded n (fun i => xof (q i))) = Ok a -> find_tune (recorded n (fun i => yof (q i))) = Ok b ->
  find_tune (recorded n (fun i => xof (q (n + i)%nat))) = Ok c -> find_tune (recorded n (fun i => yof (q (n + i)%nat))) = Ok d ->
  find_tunes track n true = Ok (mkTunes a b (c - a) (d - b)).
Proof.
  intros track q n P H a b c d A B C D. unfold find_tunes. cbv zeta. replace (n * 2)%nat with (n + n)%nat by lia. rewrite collect_app. cbv zeta. rewrite (collect_first track q n n 0) by (try lia; intros; apply H; lia). cbn [fst snd].
  rewrite (collect_second track q n n (0 + n)) by (try lia; intros; apply H; lia). cbn [fst snd x1 y1 x2 y2 app andb Nat.add]. rewrite !from_second by exact P. fold (recorded n (fun i => xof (q i))) in A. unfold from. unfold recorded in A, B. rewrite A, B. cbn [bind]. rewrite C, D. reflexivity.
Qed.
Print Assumptions C378_tunes.
Lemma once track q n : (forall i, (i < n)%nat -> track i = Some (q i) /\ tame (q i)) ->
  find_tunes track n false = (do a <- find_tune (recorded n (fun i => xof (q i))); do b <- find_tune (recorded n (fun i => yof (q i))); Ok (mkTunes a b (0 - a) (0 - b))).
Proof.
  intros H. unfold find_tunes. cbv zeta. rewrite (collect_first track q n n 0) by (try lia; intros; apply H; lia). cbn [fst snd x1 y1 x2 y2 app andb bind]. reflexivity.
Qed.
Theorem C378_once : forall track q n, (forall i, (i < n)%nat -> track i = Some (q i) /\ tame (q i)) -> forall a b,
  find_tune (recorded n (fun i => xof (q i))) = Ok a -> find_tune (recorded n (fun i => yof (q i))) = Ok b ->
  exists r, find_tunes track n false = Ok r /\ Qx r = a /\ Qy r = b.
Proof. intros track q n H a b A B. rewrite (once track q n H), A, B. cbn [bind]. eexists. split; [reflexivity|]. split; reflexivity. Qed.
Print Assumptions C378_once.
(* C376: without diffusion the change of the tune is not 0 but minus the tune *)
Theorem C376_no_diffusion_refuted : forall track n r, find_tunes track n false = Ok r -> dQx r = - Qx r /\ dQy r = - Qy r.
Proof.
  intros track n r. unfold find_tunes. cbv zeta. cbn [andb bind]. match goal with |- bind ?e _ = _ -> _ => destruct e as [a|e1|] end; cbn [bind]; try discriminate. match goal with |- bind ?e _ = _ -> _ => destruct e as [b|e1|] end; cbn [bind]; try discriminate. intros [= <-]. cbn [dQx Qx dQy Qy]. split; ring.
Qed.
Print Assumptions C376_no_diffusion_refuted.
(* C377: a particle which is lost, or goes further than 10^10, in any turn: all values are 0 *)
Definition gone (o : option quad) : Prop := match o with None => True | Some p => 10 ^ 10 < Rabs (q_x p) \/ 10 ^ 10 < Rabs (q_y p) end.
Lemma collect_gone track n : forall cnt k s i, (k <= i < k + cnt)%nat -> gone (track i) -> fst (collect track n cnt k s) = false.
Proof.
  induction cnt as [|cnt IH]; intros k s i I G; [lia|]. cbn [collect]. destruct (track k) as [p|] eqn:E; [|reflexivity]. destruct (_ || _)%bool eqn:T; [reflexivity|]. cbv zeta.
  destruct (Nat.eq_dec i k) as [->|N]; [|eapply IH; [|exact G]; lia]. exfalso. rewrite E in G. apply Bool.orb_false_iff in T. destruct T as (T1 & T2). destruct (Rltb_spec (10 ^ 10) (Rabs (q_x p))), (Rltb_spec (10 ^ 10) (Rabs (q_y p))); try discriminate. cbn in G. lra.
Qed.
Theorem C377_lost : forall track n (diffusion : bool) i, (i < if diffusion then 2 * n else n)%nat -> gone (track i) -> find_tunes track n diffusion = Ok (mkTunes 0 0 0 0).
Proof.
  intros track n df i I G. unfold find_tunes. cbv zeta. rewrite (collect_gone track n _ 0 _ i) by (try exact G; destruct df; lia). rewrite Bool.andb_false_r. cbn [bind]. do 2 f_equal; ring.
Qed.
Print Assumptions C377_lost.
Example C377_ex : gone (Some (mkQ (2 * 10 ^ 10) 0 0 0)) /\ gone None /\ ~ gone (Some (mkQ 1 0 0 0)).
Proof. unfold gone. cbn [q_x q_y]. rewrite (Rabs_pos_eq (2 * 10 ^ 10)), (Rabs_pos_eq 1), Rabs_R0 by lra. repeat split; lra. Qed.
(* C372 and C375 for the tunes themselves: the number of turns must be a power of two and at least 4 *)
Lemma recorded_length n f : List.length (recorded n f) = (2 * n)%nat.
Proof.
  unfold recorded. assert (G : forall m k, List.length (flat_map (fun i => [fst (f i) * window n i; snd (f i) * window n i]) (seq k m)) = (2 * m)%nat); [|apply G].
  induction m as [|m IH]; intros k; cbn [seq flat_map]; [reflexivity|]. cbn [app List.length]. rewrite IH. lia.
Qed.
Lemma recorded_nth n f : holds n (recorded n f) (fun k => (fst (f k) * window n k, snd (f k) * window n k)).
Proof.
  split; [apply recorded_length|]. unfold recorded. intros k K. cbn [fst snd].
  assert (G : forall m j k, (k < m)%nat -> nth_error (flat_map (fun i => [fst (f i) * window n i; snd (f i) * window n i]) (seq j m)) (2 * k) = Some (fst (f (j + k)%nat) * window n (j + k)) /\
     nth_error (flat_map (fun i => [fst (f i) * window n i; snd (f i) * window n i]) (seq j m)) (2 * k + 1) = Some (snd (f (j + k)%nat) * window n (j + k))).
  { induction m as [|m IH]; intros j i I; [lia|]. cbn [seq flat_map app]. destruct i as [|i].
    - cbn. rewrite Nat.add_0_r. auto.
    - replace (2 * S i)%nat with (S (S (2 * i))) by lia. cbn [nth_error Nat.add]. replace (j + S i)%nat with (S j + i)%nat by lia. apply IH. lia. }
  exact (G n O k K).
Qed.
Theorem C372_turns_refuted : forall track q n (diffusion : bool), (forall i, (i < if diffusion then 2 * n else n)%nat -> track i = Some (q i) /\ tame (q i)) -> (forall t, (2 <= t)%nat -> n <> 2 ^ t)%nat -> find_tunes track n diffusion = UB.
Proof.
  intros track q n df H N. assert (U : forall f, find_tune (recorded n f) = UB).
  { intros f. unfold find_tune. cbv zeta. rewrite recorded_length, Nat.div2_double.
    assert (POW : (exists t, n = 2 ^ t)%nat \/ n = O \/ ((0 < n)%nat /\ forall t, n <> 2 ^ t)%nat).
    { destruct (Nat.eq_dec n 0) as [|NZ]; [auto|]. destruct (Nat.eq_dec n 1) as [E1|N1]; [left; now exists O|]. destruct (Nat.eq_dec n 2) as [E2|N2]; [left; now exists 1%nat|]. right. right. split; [lia|]. intros [|[|t]]; [exact N1|exact N2|apply N; lia]. }
    destruct POW as [(t & E)|[->|(P & NP)]].
    - pose proof (recorded_nth n f) as RN. rewrite E in RN. destruct (fft_dft t _ _ RN) as (d & ED & HD). rewrite E, ED. cbn [bind].
      destruct (peaks_run _ _ _ HD (2 ^ t - 1) 1 [] 0 0) as (pos & EP & _). { pose proof (Nat.pow_nonzero 2 t). lia. } change (2 * 1)%nat with 2%nat in EP. rewrite EP. cbn [bind fst snd app].
      assert (T : (2 ^ t <= 2)%nat). { destruct t as [|[|t]]; [cbn; lia|cbn; lia|]. exfalso. apply (N (S (S t))); [lia|exact E]. }
      unfold vget at 1. destruct (nth_error _ pos); [|reflexivity]. cbn [bind]. unfold vget. rewrite spec_nth. replace (Nat.ltb _ _) with false by (symmetry; apply Nat.ltb_ge; lia). reflexivity.
    - reflexivity.
    - rewrite (C372_power_refuted n _ P NP (recorded_length n f)). reflexivity. }
  unfold find_tunes. cbv zeta. destruct df.
  - replace (n * 2)%nat with (n + n)%nat by lia. rewrite collect_app. cbv zeta. rewrite (collect_first track q n n 0) by (try lia; intros; apply H; lia). cbn [fst snd]. rewrite (collect_second track q n n (0 + n)) by (try lia; intros; apply H; lia). cbn [fst snd x1 app]. pose proof (U (fun i => xof (q i))) as UX. unfold recorded in UX. unfold from. rewrite UX. reflexivity.
  - rewrite (collect_first track q n n 0) by (try lia; intros; apply H; lia). cbn [fst snd x1 app]. pose proof (U (fun i => xof (q i))) as UX. unfold recorded in UX. unfold from. rewrite UX. reflexivity.
Qed.
Print Assumptions C372_turns_refuted.

(* ---- C373: a particle whose tune is exactly p/n ---- *)
Lemma cabs_mul a b : cabs (cmul a b) = cabs a * cabs b.
Proof.
  unfold cabs. rewrite <- sqrt_mult_alt; [|pose proof (Rle_0_sqr (fst a)); pose proof (Rle_0_sqr (snd a)); unfold Rsqr in *; lra]. f_equal. unfold cmul. cbn [fst snd]. ring.
Qed.
Lemma cabs_cis t : cabs (cis t) = 1.
Proof. unfold cabs, cis. cbn [fst snd]. pose proof (sin2_cos2 t) as S. unfold Rsqr in S. replace (cos t * cos t + sin t * sin t) with 1 by lra. apply sqrt_1. Qed.
Lemma cabs_real r : cabs (r, 0) = Rabs r.
Proof. unfold cabs. cbn [fst snd]. replace (r * r + 0 * 0) with (Rsqr r) by (unfold Rsqr; ring). apply sqrt_Rsqr_abs. Qed.
Definition geo (n : nat) (z : Z) : cx := csum (fun r => cis (2 * PI * IZR z * INR (r + 1) / INR n)) n.
Lemma geo_full n : geo n 0 = (INR n, 0).
Proof.
  unfold geo. generalize n at 2 3 as m. induction m as [|m IH]; cbn [csum]; [reflexivity|]. rewrite IH, S_INR. replace (2 * PI * 0 * INR (m + 1) / INR n) with 0 by (unfold Rdiv; ring). unfold cis. rewrite cos_0, sin_0. cxring.
Qed.
Lemma geo_tel phi : forall m, cmul (csub (cis phi) (1, 0)) (csum (fun r => cis (phi * INR (r + 1))) m) = csub (cis (phi * INR (m + 1))) (cis phi).
Proof.
  induction m as [|m IH]; cbn [csum].
  - change (INR (0 + 1)) with 1. rewrite Rmult_1_r. cxring.
  - replace (cmul (csub (cis phi) (1, 0)) (cadd (csum (fun r => cis (phi * INR (r + 1))) m) (cis (phi * INR (m + 1))))) with (cadd (cmul (csub (cis phi) (1, 0)) (csum (fun r => cis (phi * INR (r + 1))) m)) (cmul (csub (cis phi) (1, 0)) (cis (phi * INR (m + 1))))) by cxring.
    rewrite IH. replace (cis (phi * INR (S m + 1))) with (cmul (cis phi) (cis (phi * INR (m + 1)))); [cxring|]. rewrite <- cis_plus. f_equal. replace (S m + 1)%nat with (m + 1 + 1)%nat by lia. rewrite !plus_INR. change (INR 1) with 1. ring.
Qed.
Lemma cmul_zero a b : cmul a b = (0, 0) -> 0 < fst a * fst a + snd a * snd a -> b = (0, 0).
Proof.
  destruct a as [a1 a2], b as [b1 b2]. unfold cmul. cbn [fst snd]. intros [= E1 E2] P. assert (X : (a1 * a1 + a2 * a2) * b1 = a1 * (a1 * b1 - a2 * b2) + a2 * (a1 * b2 + a2 * b1)) by ring. assert (Y : (a1 * a1 + a2 * a2) * b2 = a1 * (a1 * b2 + a2 * b1) - a2 * (a1 * b1 - a2 * b2)) by ring.
  rewrite E1, E2 in X, Y. f_equal; nra.
Qed.
Lemma sin_frac_nz n z : (0 < n)%nat -> (z <> 0)%Z -> (Z.abs z < Z.of_nat n)%Z -> sin (PI * IZR z / INR n) <> 0.
Proof.
  intros P NZ B. assert (NP : 0 < INR n) by (apply lt_0_INR; lia). assert (G : forall y, (0 < y)%Z -> (y < Z.of_nat n)%Z -> 0 < sin (PI * IZR y / INR n)).
  { intros y Y1 Y2. pose proof PI_RGT_0 as PP. apply IZR_lt in Y1, Y2. rewrite <- INR_IZR_INZ in Y2. apply sin_gt_0.
    - apply Rmult_lt_0_compat; [nra|now apply Rinv_0_lt_compat].
    - apply Rmult_lt_reg_r with (INR n); [exact NP|]. unfold Rdiv. rewrite Rmult_assoc, Rinv_l by lra. nra. }
  destruct (Z_lt_le_dec z 0) as [N|Q].
  - specialize (G (- z)%Z ltac:(lia) ltac:(lia)). rewrite opp_IZR in G. replace (PI * - IZR z / INR n) with (- (PI * IZR z / INR n)) in G by (field; lra). rewrite sin_neg in G. lra.
  - specialize (G z ltac:(lia) ltac:(lia)). lra.
Qed.
Lemma geo_zero n z : (0 < n)%nat -> (z <> 0)%Z -> (Z.abs z < Z.of_nat n)%Z -> geo n z = (0, 0).
Proof.
  intros P NZ B. assert (NN : INR n <> 0) by (apply not_0_INR; lia). set (phi := 2 * PI * IZR z / INR n). assert (E : geo n z = csum (fun r => cis (phi * INR (r + 1))) n). { apply csum_ext. intros r R. f_equal. unfold phi. field. exact NN. }
  rewrite E. apply (cmul_zero (csub (cis phi) (1, 0))).
  - rewrite geo_tel. assert (C : cis (phi * INR (n + 1)) = cis phi); [|rewrite C; cxring].
    rewrite plus_INR. replace (phi * (INR n + INR 1)) with (phi + 2 * IZR z * PI) by (unfold phi; cbn [INR]; field; exact NN).
    destruct (Z_le_gt_dec 0 z) as [Q|Q].
    + apply (cis_turns' _ _ (Z.to_nat z)). rewrite INR_IZR_INZ, Z2Nat.id by lia. ring.
    + symmetry. apply (cis_turns' _ _ (Z.to_nat (- z))). rewrite INR_IZR_INZ, Z2Nat.id by lia. rewrite opp_IZR. ring.
  - unfold csub, cis. cbn [fst snd]. pose proof (sin_frac_nz n z P NZ B) as SN. replace phi with (2 * (PI * IZR z / INR n)) by (unfold phi; field; exact NN). set (h := PI * IZR z / INR n) in *. rewrite cos_2a_sin, sin_2a. pose proof (sin2_cos2 h) as SC. unfold Rsqr in SC. assert (0 < sin h * sin h) by nra. replace (cos h * cos h) with (1 - sin h * sin h) in * by lra.
    replace ((1 - 2 * sin h * sin h - 1) * (1 - 2 * sin h * sin h - 1) + (2 * sin h * cos h - 0) * (2 * sin h * cos h - 0)) with (4 * (sin h * sin h) * (sin h * sin h + cos h * cos h)) by ring. nra.
Qed.
Lemma csum_add f g n : csum (fun r => cadd (f r) (g r)) n = cadd (csum f n) (csum g n).
Proof. induction n as [|n IH]; cbn [csum]; [cxring|]. rewrite IH. cxring. Qed.
Definition bins (n : nat) (d : Z) : cx := cadd (cmul (1 / 2, 0) (geo n d)) (cadd (cmul (- (1 / 4), 0) (geo n (d + 1))) (cmul (- (1 / 4), 0) (geo n (d - 1)))).
Lemma rot_bin n a p m : (0 < n)%nat -> dft n (fun k => (fst (rotating a p n k) * window n k, snd (rotating a p n k) * window n k)) m = cmul (cmul a (cis (- (2 * PI * INR m / INR n)))) (bins n (Z.of_nat m - Z.of_nat p)).
Proof.
  intros P. assert (NN : INR n <> 0) by (apply not_0_INR; lia). unfold bins, geo. rewrite <- !csum_scale, <- !csum_add, <- csum_scale. unfold dft. apply csum_ext. intros r R.
  set (u := PI * INR (r + 1) / INR n). set (b := - (2 * PI * INR m / INR n)). set (g := 2 * PI * INR p * INR (r + 1) / INR n). set (e := 2 * PI * INR (m * r) / INR n).
  replace (2 * PI * IZR (Z.of_nat m - Z.of_nat p + 1) * INR (r + 1) / INR n) with (- g + e + - b + 2 * u) by (unfold g, e, b, u; rewrite plus_IZR, minus_IZR, <- !INR_IZR_INZ, mult_INR, plus_INR; cbn [INR]; field; exact NN).
  replace (2 * PI * IZR (Z.of_nat m - Z.of_nat p - 1) * INR (r + 1) / INR n) with (- g + e + - b + - (2 * u)) by (unfold g, e, b, u; rewrite !minus_IZR, <- !INR_IZR_INZ, mult_INR, plus_INR; cbn [INR]; field; exact NN).
  replace (2 * PI * IZR (Z.of_nat m - Z.of_nat p) * INR (r + 1) / INR n) with (- g + e + - b) by (unfold g, e, b, u; rewrite minus_IZR, <- !INR_IZR_INZ, mult_INR, plus_INR; cbn [INR]; field; exact NN).
  unfold rotating, window. fold u. fold g. rewrite (cis_plus (- g + e + - b) (2 * u)), (cis_plus (- g + e + - b) (- (2 * u))), (cis_plus (- g + e)), (cis_plus (- g) e).
  assert (ONE : cmul (cis b) (cis (- b)) = (1, 0)). { rewrite <- cis_plus. replace (b + - b) with 0 by ring. unfold cis. now rewrite cos_0, sin_0. }
  assert (W : cadd (1 / 2, 0) (cadd (cmul (- (1 / 4), 0) (cis (2 * u))) (cmul (- (1 / 4), 0) (cis (- (2 * u))))) = (sin u ^ 2, 0)).
  { unfold cis, cadd, cmul. cbn [fst snd]. rewrite cos_neg, sin_neg, cos_2a_sin. f_equal; field. }
  set (X := cis (- g)). set (Y := cis e) in *. set (B := cis b) in *. set (B' := cis (- b)) in *.
  transitivity (cmul (cmul (cmul a X) Y) (cmul (cmul B B') (sin u ^ 2, 0))); [rewrite ONE; unfold X; cxring|]. rewrite <- W. cxring.
Qed.
Lemma bins_val n d : (3 <= n)%nat -> (Z.abs d + 1 < Z.of_nat n)%Z -> bins n d = (if Z.eqb d 0 then INR n / 2 else if Z.eqb (Z.abs d) 1 then - (INR n / 4) else 0, 0).
Proof.
  intros N B. unfold bins. destruct (Z.eqb_spec d 0) as [->|N0]; [|destruct (Z.eqb_spec (Z.abs d) 1) as [E1|N1]].
  - cbn [Z.add Z.sub Z.opp]. rewrite geo_full, !geo_zero by lia. apply cx_eq; unfold cadd, cmul; cbn [fst snd]; field.
  - rewrite (geo_zero n d) by lia. destruct (Z.eq_dec d 1) as [->|ND].
    + change (1 - 1)%Z with 0%Z. rewrite geo_full, geo_zero by lia. apply cx_eq; unfold cadd, cmul; cbn [fst snd]; field.
    + assert (d = -1)%Z by lia. subst d. change (-1 + 1)%Z with 0%Z. rewrite geo_full, geo_zero by lia. apply cx_eq; unfold cadd, cmul; cbn [fst snd]; field.
  - rewrite !geo_zero by lia. cxring.
Qed.
Lemma rot_abs n a p m : (3 <= n)%nat -> (1 <= p < n)%nat -> (1 <= m < n)%nat ->
  cabs (dft n (fun k => (fst (rotating a p n k) * window n k, snd (rotating a p n k) * window n k)) m) = cabs a * (if Nat.eqb m p then INR n / 2 else if (Nat.eqb m (p + 1) || Nat.eqb (m + 1) p)%bool then INR n / 4 else 0).
Proof.
  intros N P M. rewrite rot_bin, !cabs_mul, cabs_cis, bins_val, cabs_real, Rmult_1_r by lia. f_equal. assert (NP : 0 < INR n) by (apply lt_0_INR; lia).
  destruct (Z.eqb_spec (Z.of_nat m - Z.of_nat p) 0), (Nat.eqb_spec m p); try lia; [apply Rabs_pos_eq; lra|]. destruct (Z.eqb_spec (Z.abs (Z.of_nat m - Z.of_nat p)) 1), (Nat.eqb_spec m (p + 1)), (Nat.eqb_spec (m + 1) p); try lia; cbn [orb]; rewrite ?Rabs_R0, ?Rabs_Ropp; try apply Rabs_pos_eq; lra.
Qed.
Lemma rot_peak t a p : (2 <= t)%nat -> (1 <= p < 2 ^ t)%nat -> 0 < cabs a -> let x := fun k => (fst (rotating a p (2 ^ t) k) * window (2 ^ t) k, snd (rotating a p (2 ^ t) k) * window (2 ^ t) k) in
  (forall k, (1 <= k < 2 ^ t)%nat -> k <> p -> cabs (dft (2 ^ t) x k) < cabs (dft (2 ^ t) x p)) /\ 0 < cabs (dft (2 ^ t) x p).
Proof.
  intros T P A x. assert (N4 : (4 <= 2 ^ t)%nat) by (change 4%nat with (2 ^ 2)%nat; apply Nat.pow_le_mono_r; lia). assert (NP : 0 < INR (2 ^ t)) by (apply lt_0_INR; lia). unfold x. split.
  - intros k K NK. rewrite !rot_abs by lia. rewrite Nat.eqb_refl. destruct (Nat.eqb_spec k p); [lia|]. destruct (_ || _)%bool; nra.
  - rewrite rot_abs by lia. rewrite Nat.eqb_refl. nra.
Qed.
Lemma rot_tune t a p : (1 <= p)%nat -> (p + 3 <= 2 ^ t)%nat -> 0 < cabs a -> find_tune (recorded (2 ^ t) (rotating a p (2 ^ t))) = Ok ((INR p - 1) / INR (2 ^ t)).
Proof.
  intros P1 P3 A. assert (T : (2 <= t)%nat). { destruct t as [|[|t]]; cbn in P3; lia. } assert (N4 : (4 <= 2 ^ t)%nat) by lia. assert (NP : 4 <= INR (2 ^ t)). { replace 4 with (INR 4) by (cbn; ring). apply le_INR. exact N4. }
  destruct (rot_peak t a p T ltac:(lia) A) as (M & Z). cbv zeta in M, Z. rewrite (find_tune_unfold t _ _ p (recorded_nth _ _) ltac:(lia) M Z). clear M Z.
  unfold vget. rewrite !spec_nth. replace (Nat.ltb (p + 1) _) with true by (symmetry; apply Nat.ltb_lt; lia). replace (Nat.ltb (p + 1 + 1) _) with true by (symmetry; apply Nat.ltb_lt; lia). cbn [bind]. rewrite !rot_abs by lia.
  rewrite Nat.eqb_refl. destruct (Nat.eqb_spec (p + 1) p); [lia|]. cbn [orb]. destruct (Nat.eqb_spec (p + 1 + 1) p); [lia|]. destruct (Nat.eqb_spec (p + 1 + 1) (p + 1)); [lia|]. destruct (Nat.eqb_spec (p + 1 + 1 + 1) p); [lia|]. cbn [orb].
  assert (SQ : 0 < sqrt (INR (2 ^ t))) by (apply sqrt_lt_R0; lra). assert (V : 0 < cabs a * (INR (2 ^ t) / 4) / sqrt (INR (2 ^ t))). { apply Rmult_lt_0_compat; [nra|now apply Rinv_0_lt_compat]. }
  set (v := cabs a * (INR (2 ^ t) / 4) / sqrt (INR (2 ^ t))) in *. replace (cabs a * 0 / sqrt (INR (2 ^ t))) with 0 by (unfold Rdiv; ring).
  unfold amp. cbv zeta. set (c := cos (2 * PI / INR (2 ^ t))). replace (c * c * (v + 0) * (v + 0) - 2 * v * 0 * (2 * c * c - c - 1)) with ((c * v) * (c * v)) by ring. rewrite Rltb_false by (pose proof (Rle_0_sqr (c * v)); unfold Rsqr in *; lra).
  replace (v * v + 0 * 0 + 2 * v * 0 * c) with (v * v) by ring. rewrite Reqb_false by nra. cbn [bind]. replace ((- (v + 0 * c) * (v - 0) + 0 * sqrt (c * v * (c * v))) / (v * v)) with (-1) by (field; lra).
  set (d := 2 * PI / INR (2 ^ t)). replace (-1 * sin d) with (sin (- d)) by (rewrite sin_neg; ring).
  assert (DB : 0 <= d <= PI / 2). { pose proof PI_RGT_0 as PP. unfold d. split; [apply Rlt_le; apply Rmult_lt_0_compat; [lra|apply Rinv_0_lt_compat; lra]|]. apply Rmult_le_reg_r with (INR (2 ^ t)); [lra|]. unfold Rdiv. rewrite Rmult_assoc, Rinv_l by lra. nra. }
  rewrite Rltb_false by (pose proof (SIN_bound (- d)) as (S1 & S2); apply Rabs_le; lra). rewrite asin_sin by lra. f_equal. unfold d. field. pose proof PI_RGT_0. lra.
Qed.
(* C373: the tune found is one bin too low *)
Theorem C373_tune_refuted : forall t a b p r track, (1 <= p)%nat -> (p + 3 <= 2 ^ t)%nat -> (1 <= r)%nat -> (r + 3 <= 2 ^ t)%nat -> 0 < cabs a <= 10 ^ 10 -> 0 < cabs b <= 10 ^ 10 ->
  (forall i, track i = Some (mkQ (fst (rotating a p (2 ^ t) i)) (snd (rotating a p (2 ^ t) i)) (fst (rotating b r (2 ^ t) i)) (snd (rotating b r (2 ^ t) i)))) ->
  exists q, find_tunes track (2 ^ t) false = Ok q /\ Qx q = INR p / INR (2 ^ t) - 1 / INR (2 ^ t) /\ Qy q = INR r / INR (2 ^ t) - 1 / INR (2 ^ t).
Proof.
  intros t a b p r track P1 P3 R1 R3 A B TR. assert (NP : INR (2 ^ t) <> 0) by (apply not_0_INR; lia).
  assert (BD : forall c s i, cabs c <= 10 ^ 10 -> Rabs (fst (rotating c s (2 ^ t) i)) <= 10 ^ 10).
  { intros c s i C. apply Rle_trans with (cabs (rotating c s (2 ^ t) i)).
    - unfold cabs. rewrite <- sqrt_Rsqr_abs. apply sqrt_le_1_alt. unfold Rsqr. pose proof (Rle_0_sqr (snd (rotating c s (2 ^ t) i))). unfold Rsqr in *. lra.
    - unfold rotating. rewrite cabs_mul, cabs_cis. lra. }
  destruct (C378_once track (fun i => mkQ (fst (rotating a p (2 ^ t) i)) (snd (rotating a p (2 ^ t) i)) (fst (rotating b r (2 ^ t) i)) (snd (rotating b r (2 ^ t) i))) (2 ^ t)) with (a := (INR p - 1) / INR (2 ^ t)) (b := (INR r - 1) / INR (2 ^ t)) as (q & E & X & Y).
  - intros i I. split; [apply TR|]. split; cbn [q_x q_y]; apply BD; lra.
  - rewrite <- (rot_tune t a p P1 P3) by lra. reflexivity.
  - rewrite <- (rot_tune t b r R1 R3) by lra. reflexivity.
  - exists q. split; [exact E|]. rewrite X, Y. split; field; exact NP.
Qed.
Print Assumptions C373_tune_refuted.
Example C373_ex : (256 + 3 <= 2 ^ 10)%nat /\ 0 < cabs (3, 4) <= 10 ^ 10 /\ fst (rotating (3, 4) 1 4 0) = 4.
Proof.
  split; [apply Nat.leb_le; reflexivity|]. split.
  - unfold cabs. cbn [fst snd]. replace (3 * 3 + 4 * 4) with (5 * 5) by ring. rewrite sqrt_square by lra. lra.
  - unfold rotating, cis, cmul. cbn [fst snd]. replace (2 * PI * INR 1 * INR (0 + 1) / INR 4) with (PI / 2) by (cbn; field). rewrite cos_neg, sin_neg, cos_PI2, sin_PI2. ring.
Qed.
(* C375 for such particles: the last two bins *)
Theorem C375_rotating_refuted : forall t a p, (2 <= t)%nat -> (p < 2 ^ t)%nat -> (2 ^ t <= p + 2)%nat -> 0 < cabs a -> find_tune (recorded (2 ^ t) (rotating a p (2 ^ t))) = UB.
Proof.
  intros t a p T P2 P3 A. assert (N4 : (4 <= 2 ^ t)%nat) by (change 4%nat with (2 ^ 2)%nat; apply Nat.pow_le_mono_r; lia). destruct (rot_peak t a p T ltac:(lia) A) as (M & Z).
  eapply C375_last_bins_refuted; [apply recorded_nth| |exact P3|exact M|exact Z]. lia.
Qed.
Print Assumptions C375_rotating_refuted.
(* a particle with tune 1/4 recorded for 8 turns: the tune found is 1/8 *)
Example C378_ex : find_tune (recorded 8 (rotating (3, 4) 2 8)) = Ok (1 / 8).
Proof.
  pose proof (rot_tune 3 (3, 4) 2 ltac:(lia) ltac:(cbn; lia)) as H. change (2 ^ 3)%nat with 8%nat in H. rewrite H.
  - f_equal. cbn. field.
  - unfold cabs. cbn [fst snd]. replace (3 * 3 + 4 * 4) with (5 * 5) by ring. rewrite sqrt_square by lra. lra.
Qed.
Example C375_ex : find_tune (recorded 8 (rotating (1, 0) 7 8)) = UB.
Proof.
  apply (C375_rotating_refuted 3); [lia|cbn; lia|cbn; lia|]. rewrite cabs_real, Rabs_R1. lra.
Qed.
Example C374_ex : find_tune (repeat 0 (2 * 8)) = Throw TNaN.
Proof. apply (C374_at_rest_refuted 3). lia. Qed.
Example C376_ex : let track := fun i => Some (mkQ (fst (rotating (3, 4) 2 8 i)) (snd (rotating (3, 4) 2 8 i)) (fst (rotating (3, 4) 2 8 i)) (snd (rotating (3, 4) 2 8 i))) in exists q, find_tunes track 8 false = Ok q /\ Qx q = 1 / 8 /\ dQx q = - (1 / 8).
Proof.
  intros track. assert (C : cabs (3, 4) = 5). { unfold cabs. cbn [fst snd]. replace (3 * 3 + 4 * 4) with (5 * 5) by ring. apply sqrt_square. lra. }
  destruct (C373_tune_refuted 3 (3, 4) (3, 4) 2 2 track) as (q & E & X & Y); try (cbn; lia); try (rewrite C; lra); [reflexivity|].
  change (2 ^ 3)%nat with 8%nat in *. exists q. split; [exact E|]. destruct (C376_no_diffusion_refuted _ _ _ E) as (D & _). rewrite D, X. cbn [INR]. split; field.
Qed.

(* C379: the interpolation between two neighbouring bins is exact.  The two values are those of the spectrum of the Hanning window, up to a common factor, at offsets u and u - h, in units where bins are h apart *)
Theorem C379_interpolation : forall h u s, 0 < s -> 0 < h <= PI / 4 -> - h < u < 2 * h -> - (PI / 4) <= u <= PI / 4 ->
  exists A, amp (s * (cos u * sin (2 * h - u))) (s * (cos (u - h) * sin (u + h))) (cos (2 * h)) = Ok A /\ A * sin (2 * h) = sin (2 * u).
Proof.
  intros h u s S H U Q. pose proof PI_RGT_0 as PP. assert (SH : 0 < sin (2 * h)) by (apply sin_gt_0; lra).
  assert (CH : cos (2 * h) * cos (2 * h) = 1 - sin (2 * h) * sin (2 * h)). { pose proof (sin2_cos2 (2 * h)) as T. unfold Rsqr in T. lra. }
  assert (CU : cos (2 * u) * cos (2 * u) = 1 - sin (2 * u) * sin (2 * u)). { pose proof (sin2_cos2 (2 * u)) as T. unfold Rsqr in T. lra. }
  assert (EA : cos u * sin (2 * h - u) = (sin (2 * h) + sin (2 * h - 2 * u)) / 2). { replace (2 * h) with ((2 * h - u) + u) at 2 by ring. replace (2 * h - 2 * u) with ((2 * h - u) - u) by ring. rewrite (sin_plus (2 * h - u) u), (sin_minus (2 * h - u) u). field. }
  assert (EB : cos (u - h) * sin (u + h) = (sin (2 * h) + sin (2 * u)) / 2). { replace (2 * h) with ((u + h) - (u - h)) by ring. replace (2 * u) with ((u + h) + (u - h)) by ring. rewrite (sin_plus (u + h) (u - h)), (sin_minus (u + h) (u - h)). field. }
  assert (BP : 0 < sin (2 * h) + sin (2 * u)). { assert (B0 : 0 < cos (u - h) * sin (u + h)); [|lra]. apply Rmult_lt_0_compat; [apply cos_gt_0; lra|apply sin_gt_0; lra]. }
  rewrite EA, EB, sin_minus. set (sh := sin (2 * h)) in *. set (c := cos (2 * h)) in *. set (C := cos (2 * u)) in *. set (su := sin (2 * u)) in *.
  set (k := s * sh / 2). assert (K : 0 < k) by (unfold k; nra). set (y := su / sh). assert (SU : su = sh * y) by (unfold y; field; lra).
  replace (s * ((sh + (sh * C - c * su)) / 2)) with (k * (1 + C - c * y)) by (rewrite SU; unfold k; field). replace (s * ((sh + su) / 2)) with (k * (1 + y)) by (rewrite SU; unfold k; field).
  assert (Y : 0 < 1 + y). { apply Rmult_lt_reg_l with sh; [exact SH|]. rewrite Rmult_0_r. replace (sh * (1 + y)) with (sh + su) by (rewrite SU; ring). exact BP. }
  assert (C0 : 0 <= C). { apply cos_ge_0; lra. } assert (C2 : C * C = 1 - (1 - c * c) * (y * y)). { rewrite CU, SU. replace (1 - c * c) with (sh * sh) by lra. ring. } assert (CB : -1 <= c <= 1) by apply COS_bound. assert (SB : sh <= 1) by (apply SIN_bound).
  assert (SQ : 0 <= (1 + c) * C + 1 + (1 - c * c) * y). { replace (1 - c * c) with (sh * sh) by lra. replace (sh * sh * y) with (sh * su) by (rewrite SU; ring). assert (- 1 <= su) by (apply SIN_bound). assert (-1 <= sh * su) by nra. nra. }
  unfold amp. cbv zeta.
  assert (QE : c * c * (k * (1 + C - c * y) + k * (1 + y)) * (k * (1 + C - c * y) + k * (1 + y)) - 2 * (k * (1 + C - c * y)) * (k * (1 + y)) * (2 * c * c - c - 1) = (k * ((1 + c) * C + 1 + (1 - c * c) * y)) * (k * ((1 + c) * C + 1 + (1 - c * c) * y))).
  { assert (Z : C * C - (1 - (1 - c * c) * (y * y)) = 0) by lra.
    match goal with |- ?l = ?r => assert (D : l - r = k * k * (C * C - (1 - (1 - c * c) * (y * y))) * (- (1 + 2 * c))) by ring end. rewrite Z in D. lra. }
  rewrite QE, sqrt_square by nra. rewrite Rltb_false by (apply Rle_0_sqr).
  assert (DP : 0 < k * (1 + C - c * y) * (k * (1 + C - c * y)) + k * (1 + y) * (k * (1 + y)) + 2 * (k * (1 + C - c * y)) * (k * (1 + y)) * c).
  { replace (k * (1 + C - c * y) * (k * (1 + C - c * y)) + k * (1 + y) * (k * (1 + y)) + 2 * (k * (1 + C - c * y)) * (k * (1 + y)) * c) with (Rsqr (k * (1 + C + c)) + (1 - c * c) * Rsqr (k * (1 + y))) by (unfold Rsqr; ring).
    pose proof (Rle_0_sqr (k * (1 + C + c))). assert (0 < Rsqr (k * (1 + y))) by (apply Rlt_0_sqr; nra). replace (1 - c * c) with (sh * sh) by lra. assert (0 < sh * sh) by nra. nra. }
  rewrite Reqb_false by lra. eexists. split; [reflexivity|]. rewrite SU. rewrite (Rmult_comm sh y). f_equal. apply Rmult_eq_reg_r with (k * (1 + C - c * y) * (k * (1 + C - c * y)) + k * (1 + y) * (k * (1 + y)) + 2 * (k * (1 + C - c * y)) * (k * (1 + y)) * c); [|lra].
  unfold Rdiv. rewrite Rmult_assoc, Rinv_l, Rmult_1_r by lra.
  match goal with |- ?l = ?r => assert (D : l - r = - (k * k * (1 + y)) * (C * C - (1 - (1 - c * c) * (y * y)))) by ring end. rewrite C2 in D. lra.
Qed.
Print Assumptions C379_interpolation.
Example C379_ex : 0 < PI / 8 <= PI / 4 /\ - (PI / 8) < - (PI / 16) < 2 * (PI / 8) /\ - (PI / 4) <= - (PI / 16) <= PI / 4.
Proof. pose proof PI_RGT_0. lra. Qed.
