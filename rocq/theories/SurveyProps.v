(* C39, C83: the aperture survey *)
From Coq Require Import ZArith Psatz.
From Verif Require Import RBase Survey SurveySpec Aper AperSpec AperProps.
Local Open Scope R_scope.

Theorem C39_bisect n d inside lo hi : lo <= hi -> hi - lo <= d * 2 ^ n -> exists a b, bisect n d inside lo hi = Ok (a, b) /\ lo <= a <= b /\ b <= hi /\ b - a <= d /\
  (a = lo \/ inside a = true) /\ (b = hi \/ inside b = false).
Proof.
  revert lo hi. induction n as [|n IH]; intros lo hi L D; cbn [bisect]; destruct (Rltb_spec d (hi - lo)) as [H|H].
  - cbn in D. lra.
  - exists lo, hi. repeat split; auto; lra.
  - cbn [pow] in D. assert (E : (hi + lo) / 2 * 2 = hi + lo) by field. set (g := (hi + lo) / 2) in *. destruct (inside g) eqn:I.
    + destruct (IH g hi) as (a & b & Eq & A & B & C & F & G); [lra|lra|]. exists a, b. split; auto. split; [lra|]. split; auto. split; auto. split; auto. right. destruct F as [->|F]; auto.
    + destruct (IH lo g) as (a & b & Eq & A & B & C & F & G); [lra|lra|]. exists a, b. split; auto. split; [lra|]. split; [lra|]. split; auto. split; auto. right. destruct G as [->|G]; auto.
  - exists lo, hi. repeat split; auto; lra.
Qed.
Print Assumptions C39_bisect.
(* the loop takes exactly twenty turns, whatever the aperture *)
Lemma too_few n d inside : forall lo hi, d * 2 ^ n < hi - lo -> 0 < d -> bisect n d inside lo hi = UB.
Proof.
  induction n as [|n IH]; intros lo hi D P; cbn [bisect pow] in *.
  - destruct (Rltb_spec d (hi - lo)); [reflexivity|lra].
  - assert (1 <= 2 ^ n) by (apply pow_R1_Rle; lra). destruct (Rltb_spec d (hi - lo)); [|nra]. assert (E : (hi + lo) / 2 * 2 = hi + lo) by field. set (g := (hi + lo) / 2) in *. destruct (inside g); apply IH; lra.
Qed.
Theorem C39_turns inside : bisect 19 delta inside 0 1 = UB /\ exists p, bisect 20 delta inside 0 1 = Ok p.
Proof.
  split; [apply too_few; unfold delta; lra|]. destruct (C39_bisect 20 delta inside 0 1) as (a & b & E & _); unfold delta; try lra. exists (a, b). exact E.
Qed.
Print Assumptions C39_turns.
Theorem C39_limit a inside : 0 <= a -> open_until a inside -> exists r, limit 20 inside = Ok r /\ 0 <= r <= 1 /\ Rabs (r - Rmin a 1) <= delta / 2.
Proof.
  intros P O. destruct (C39_bisect 20 delta inside 0 1) as (lo & hi & E & A & B & C & F & G); [lra|unfold delta; lra|]. exists ((hi + lo) / 2). unfold limit. rewrite E. cbn [bind fst snd]. split; auto. split; [lra|].
  assert (L : lo <= Rmin a 1). { apply Rmin_glb; [|lra]. destruct F as [->|F]; auto. destruct (Rle_dec lo a); auto. rewrite (proj2 (O lo ltac:(lra)) ltac:(lra)) in F. discriminate. }
  assert (H : Rmin a 1 <= hi). { destruct G as [->|G]; [apply Rmin_r|]. destruct (Rle_dec a hi); [pose proof (Rmin_l a 1); lra|]. rewrite (proj1 (O hi ltac:(lra)) ltac:(lra)) in G. discriminate. }
  apply Rabs_le. lra.
Qed.
Print Assumptions C39_limit.
(* the survey of the shapes *)
Definition near (a r : R) : Prop := Rabs (r - Rmin a 1) <= delta / 2.
Lemma four w s a b c d : 0 <= a -> 0 <= b -> 0 <= c -> 0 <= d ->
  open_until a (fun g => w (1 * g) (0 * g) s) -> open_until b (fun g => w (-1 * g) (0 * g) s) -> open_until c (fun g => w (0 * g) (1 * g) s) -> open_until d (fun g => w (0 * g) (-1 * g) s) ->
  exists p q u v, check_aperture 20 w s = Ok [p; q; u; v] /\ near a p /\ near b q /\ near c u /\ near d v.
Proof.
  intros A B C D O1 O2 O3 O4. destruct (C39_limit _ _ A O1) as (p & E1 & _ & N1). destruct (C39_limit _ _ B O2) as (q & E2 & _ & N2). destruct (C39_limit _ _ C O3) as (u & E3 & _ & N3). destruct (C39_limit _ _ D O4) as (v & E4 & _ & N4).
  exists p, q, u, v. unfold check_aperture. rewrite E1, E2, E3, E4. cbn. auto.
Qed.
Theorem C39_four w s a b c d : 0 <= a -> 0 <= b -> 0 <= c -> 0 <= d ->
  (forall g, 0 <= g -> ((g < a -> w g 0 s = true) /\ (a < g -> w g 0 s = false)) /\ ((g < b -> w (- g) 0 s = true) /\ (b < g -> w (- g) 0 s = false)) /\
    ((g < c -> w 0 g s = true) /\ (c < g -> w 0 g s = false)) /\ ((g < d -> w 0 (- g) s = true) /\ (d < g -> w 0 (- g) s = false))) ->
  exists p q u v, check_aperture 20 w s = Ok [p; q; u; v] /\ near a p /\ near b q /\ near c u /\ near d v.
Proof.
  intros A B C D H. apply four; auto; intros g G; destruct (H g G) as (H1 & H2 & H3 & H4); replace (1 * g) with g by ring; replace (0 * g) with 0 by ring; replace (-1 * g) with (- g) by ring; auto.
Qed.
Print Assumptions C39_four.
Theorem C39_rectangle hx hy s : 0 < hx -> 0 < hy -> exists p q u v, check_aperture 20 (fun x y _ => within (Rectangle hx hy) x y) s = Ok [p; q; u; v] /\ near hx p /\ near hx q /\ near hy u /\ near hy v.
Proof.
  intros X Y. assert (F : forall x y, ~ box hx hy x y -> within (Rectangle hx hy) x y = false) by (intros x y N; destruct (within _ _ _) eqn:E; auto; apply C37_rectangle in E; contradiction).
  apply C39_four; try lra. intros g G. repeat split; intros; try (apply C37_rectangle; unfold box; lra); apply F; unfold box; lra.
Qed.
Print Assumptions C39_rectangle.
Example C39_ex : exists p q u v, check_aperture 20 (fun x y _ => within (Rectangle (1/4) 3) x y) 0 = Ok [p; q; u; v] /\ Rabs (p - 1/4) <= delta / 2 /\ Rabs (u - 1) <= delta / 2.
Proof.
  destruct (C39_rectangle (1/4) 3 0) as (p & q & u & v & E & A & _ & B & _); try lra. exists p, q, u, v. split; auto. unfold near in A, B. rewrite Rmin_left in A by lra. rewrite Rmin_right in B by lra. auto.
Qed.

(* ---- sampling ---- *)
Theorem C83_points points len i : (i < points)%nat -> length (points_of points len) = points /\ (forall z, nth_error (points_of points len) i = Some z -> 
  (points = 1%nat -> z = 0) /\ (INR (points - 1) * z = INR i * len) /\ (0 <= len -> 0 <= z <= len)).
Proof.
  intros H. unfold points_of. split. { cbn. rewrite map_length, seq_length. lia. }
  intros z E. destruct i as [|i].
  - cbn in E. injection E as <-. repeat split; cbn; try lra.
  - cbn [nth_error] in E. rewrite nth_error_map in E. destruct (nth_error (seq 1 (points - 1)) i) as [k|] eqn:K; [|discriminate]. cbn in E. injection E as <-.
    assert (k = S i). { apply nth_error_nth with (d := 0%nat) in K. rewrite seq_nth in K by lia. lia. } subst k.
    assert (P : 0 < INR (points - 1)) by (apply lt_0_INR; lia). assert (Q : INR (S i) <= INR (points - 1)) by (apply le_INR; lia). pose proof (pos_INR (S i)).
    split; [lia|]. split; [field; lra|]. intros L. assert (E : INR (S i) * len * (1 / INR (points - 1)) = len * (INR (S i) / INR (points - 1))) by (field; lra). rewrite E.
    assert (0 <= INR (S i) / INR (points - 1) <= 1). { split; [apply Rmult_le_pos; [lra|left; now apply Rinv_0_lt_compat]|]. apply (Rmult_le_reg_r (INR (points - 1))); auto. unfold Rdiv. rewrite Rmult_assoc, Rinv_l by lra. lra. } nra.
Qed.
Print Assumptions C83_points.
Lemma seq_snoc a n : seq a (S n) = a :: seq (S a) n.
Proof. reflexivity. Qed.
Lemma steps_ok n step len : 0 < step -> forall j, len < INR (j + n) * step -> exists k, steps_of n step len (INR j * step) = Ok (map (fun i => INR i * step) (seq j k)) /\ len < INR (j + k) * step /\
  (k = 0%nat \/ INR (j + k - 1) * step <= len).
Proof.
  intros P. induction n as [|n IH]; intros j D; cbn [steps_of].
  - rewrite Nat.add_0_r in D. destruct (Rleb_spec (INR j * step) len); [lra|]. exists 0%nat. rewrite Nat.add_0_r. auto.
  - destruct (Rleb_spec (INR j * step) len) as [L|L].
    + destruct (IH (S j)) as (k & E & A & B). { now replace (S j + n)%nat with (j + S n)%nat by lia. }
      replace (INR j * step + step) with (INR (S j) * step) by (rewrite S_INR; ring). rewrite E. cbn [bind]. exists (S k). split; [reflexivity|]. replace (j + S k)%nat with (S j + k)%nat by lia. split; auto. right.
      destruct B as [-> | B]; auto. now replace (S j + 0 - 1)%nat with j by lia.
    + exists 0%nat. rewrite Nat.add_0_r. split; auto. split; auto. lra.
Qed.
Theorem C83_distance n step len last s points : 0 < step -> len < INR n * step -> 0 <= len -> exists k,
  samples n points Distance step s len last = Ok (multiples step k ++ [len], last) /\ (0 < k)%nat /\ INR (k - 1) * step <= len < INR k * step.
Proof.
  intros P D L. destruct (steps_ok n step len P 0 D) as (k & E & A & B). cbn [INR Nat.add] in *. rewrite Rmult_0_l in E. exists k. cbn [samples]. rewrite E. cbn [bind]. split; [reflexivity|].
  destruct B as [-> | B]; [cbn in A; lra|]. split; [|auto]. destruct k; [cbn in A; lra|lia].
Qed.
Print Assumptions C83_distance.
Lemma abs_ok n step s len : 0 < step -> forall j, s + len <= INR (j + n) * step -> exists k, abs_of n step s len ((INR j - 1) * step) = Ok (map (fun i => INR i * step - s) (seq j k), (INR (j + k) - 1) * step) /\
  s + len <= INR (j + k) * step /\ (k = 0%nat \/ INR (j + k - 1) * step < s + len).
Proof.
  intros P. induction n as [|n IH]; intros j D; cbn [abs_of]; replace ((INR j - 1) * step + step) with (INR j * step) by ring.
  - rewrite Nat.add_0_r in D. destruct (Rltb_spec (INR j * step) (s + len)); [lra|]. exists 0%nat. rewrite Nat.add_0_r. auto.
  - destruct (Rltb_spec (INR j * step) (s + len)) as [L|L].
    + destruct (IH (S j)) as (k & E & A & B). { now replace (S j + n)%nat with (j + S n)%nat by lia. }
      replace ((INR (S j) - 1) * step) with (INR j * step) in E by (rewrite S_INR; ring). rewrite E. cbn [bind fst snd]. exists (S k). replace (j + S k)%nat with (S j + k)%nat by lia. split; [reflexivity|]. split; auto. right.
      destruct B as [-> | B]; auto. now replace (S j + 0 - 1)%nat with j by lia.
    + exists 0%nat. rewrite Nat.add_0_r. split; auto. split; auto. lra.
Qed.
Lemma survey_abs n points step : 0 < step -> forall l s k j, in_line s l -> s + total l <= INR n * step -> s <= INR j * step -> (j = 0%nat \/ INR (j - 1) * step < s) ->
  exists m r, survey n points AbsDistance step s ((INR j - 1) * step) k l = Ok r /\ map snd r = map (fun i => INR i * step) (seq j m) /\
  s + total l <= INR (j + m) * step /\ ((j + m)%nat = 0%nat \/ INR (j + m - 1) * step < s + total l) /\
  Forall (fun q => exists e, nth_error l (fst q - k) = Some e /\ (k <= fst q)%nat /\ lpos e <= snd q < lpos e + llen e) r.
Proof.
  intros P. induction l as [|e l IH]; intros s k j I D S J; cbn [survey].
  - cbn in *. rewrite Rplus_0_r. exists 0%nat, []. rewrite Nat.add_0_r. cbn. auto 10.
  - destruct I as (Es & Len & I). cbn [total] in *. destruct (Reqb_spec (llen e) 0) as [Z|Z].
    + destruct (IH s (Datatypes.S k) j) as (m & r & E & A & B & C & F); auto. { now rewrite Z, Rplus_0_r in I. } { rewrite Z in D. lra. }
      exists m, r. split; auto. split; auto. rewrite Z, Rplus_0_l. split; auto. split; auto. eapply Forall_impl; [|exact F]. intros q (e' & E1 & E2 & E3). exists e'. replace (fst q - k)%nat with (Datatypes.S (fst q - Datatypes.S k)) by lia. cbn. split; auto. split; auto. lia.
    + rewrite Es, Rminus_diag_eq, Rabs_R0 by reflexivity. destruct (Rltb_spec (/ 1000000) 0); [lra|]. cbn [samples].
      assert (T : 0 <= total l). { clear - I. revert I. generalize (s + llen e). induction l as [|a l IHl]; intros u I; cbn in *; [lra|]. destruct I as (_ & A & B). specialize (IHl _ B). lra. }
      destruct (abs_ok n step s (llen e) P j) as (q & E & A & B). { assert (INR n * step <= INR (j + n) * step) by (apply Rmult_le_compat_r; [lra|apply le_INR; lia]). lra. }
      rewrite E. cbn [bind fst snd]. destruct (IH (s + llen e) (Datatypes.S k) (j + q)%nat) as (m & r & E' & A' & B' & C' & F'); auto; try lra.
      { destruct B as [-> | B]; auto. rewrite Nat.add_0_r. destruct J as [J|J]; auto. right. lra. }
      rewrite E'. cbn [bind]. exists (q + m)%nat. eexists. split; [reflexivity|]. rewrite map_app, !map_map. cbn [snd]. split; [|split; [|split]].
      * rewrite seq_app, map_app, A'. f_equal. apply map_ext. intros i. ring.
      * replace (j + (q + m))%nat with (j + q + m)%nat by lia. lra.
      * replace (j + (q + m))%nat with (j + q + m)%nat by lia. rewrite <- Rplus_assoc. exact C'.
      * apply Forall_app. split.
        -- apply Forall_forall. intros x X. apply in_map_iff in X. destruct X as (y & <- & Y). apply in_seq in Y. cbn [fst snd]. exists e. rewrite Nat.sub_diag. split; auto. split; auto. rewrite Es.
           assert (INR j <= INR y) by (apply le_INR; lia). destruct B as [-> | B]; [lia|]. assert (INR y <= INR (j + q - 1)) by (apply le_INR; lia). replace (s + (INR y * step - s)) with (INR y * step) by ring. nra.
        -- eapply Forall_impl; [|exact F']. intros x (e' & E1 & E2 & E3). exists e'. replace (fst x - k)%nat with (Datatypes.S (fst x - Datatypes.S k)) by lia. cbn. split; auto. split; auto. lia.
Qed.
(* in absolute mode every multiple of the step below the total length is sampled
   once, in order, in the element it lies in *)
Theorem C83_absolute n points step l : 0 < step -> in_line 0 l -> total l <= INR n * step -> exists m r, run_survey n points AbsDistance step l = Ok r /\
  map snd r = multiples step m /\ total l <= INR m * step /\ (m = 0%nat \/ INR (m - 1) * step < total l) /\
  Forall (fun q => exists e, nth_error l (fst q) = Some e /\ lpos e <= snd q < lpos e + llen e) r.
Proof.
  intros P I D. cbn [run_survey]. destruct (Rleb_spec step 0); [lra|]. destruct (survey_abs n points step P l 0 0 0) as (m & r & E & A & B & C & F); auto; cbn [INR]; try lra.
  cbn [INR Nat.add] in *. rewrite Rplus_0_l in *. replace ((0 - 1) * step) with (0 - step) in E by ring. exists m, r. split; auto. split; auto. split; auto. split; auto. eapply Forall_impl; [|exact F]. intros q (e & E1 & _ & E2). rewrite Nat.sub_0_r in E1. eauto.
Qed.
Print Assumptions C83_absolute.
Example C83_ex : in_line 0 [EL 0 3; EL 3 0; EL 3 4] /\ total [EL 0 3; EL 3 0; EL 3 4] <= INR 4 * 2 /\ exists r, run_survey 4 0 AbsDistance 2 [EL 0 3; EL 3 0; EL 3 4] = Ok r /\ map snd r = multiples 2 4.
Proof.
  assert (I : in_line 0 [EL 0 3; EL 3 0; EL 3 4]) by (cbn; repeat split; lra). assert (T : total [EL 0 3; EL 3 0; EL 3 4] <= INR 4 * 2) by (cbn; lra). split; auto. split; auto.
  destruct (C83_absolute 4 0 2 _ ltac:(lra) I T) as (m & r & E & A & B & C & _). exists r. split; auto. rewrite A. f_equal. cbn [total llen] in B, C.
  destruct m as [|[|[|[|[|m]]]]]; cbn [INR Nat.sub] in B, C; try lra; auto. exfalso. destruct C as [C|C]; [lia|]. pose proof (pos_INR m). destruct m; lra.
Qed.
(* bad steps and inconsistent positions end the program *)
Theorem C83_refused n points step m l : (m = PointsPerElement /\ points = 0%nat \/ m <> PointsPerElement /\ step <= 0) -> run_survey n points m step l = Throw SExit.
Proof. intros [[-> ->]|[N S]]; [reflexivity|]. destruct m; [now destruct N| |]; cbn; destruct (Rleb_spec step 0); auto; lra. Qed.
Print Assumptions C83_refused.
Theorem C83_inconsistent n points m step s last k e l : llen e <> 0 -> / 1000000 < Rabs (s - lpos e) -> survey n points m step s last k (e :: l) = Throw SExit.
Proof. intros N D. cbn [survey]. destruct (Reqb_spec (llen e) 0); [contradiction|]. destruct (Rltb_spec (/ 1000000) (Rabs (s - lpos e))); auto. contradiction. Qed.
Print Assumptions C83_inconsistent.
