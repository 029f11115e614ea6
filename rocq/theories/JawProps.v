(* C81, C82: collimator jaws *)
From Coq Require Import Psatz.
From Verif Require Import RBase Aper AperSpec AperProps.
Local Open Scope R_scope.

Lemma seen_unique cx cy t x y u v : seen_from cx cy t x y u v -> turned_x t (x - cx) (y - cy) = u /\ turned_y t (x - cx) (y - cy) = v.
Proof.
  intros [-> ->]. unfold turned_x, turned_y. rewrite cos_neg, sin_neg. pose proof (sin2_cos2 t) as P. unfold Rsqr in P. split; [transitivity (u * (sin t * sin t + cos t * cos t))|transitivity (v * (sin t * sin t + cos t * cos t))]; try ring; rewrite P; ring.
Qed.
Lemma half_iff u w : Rltb (Rabs u * 2) w = true <-> - (w / 2) < u < w / 2.
Proof. rewrite rltb_iff, <- abs_lt. lra. Qed.
(* jaws of constant opening, displaced and tilted *)
Theorem C81_unaligned w h t len xo yo x y z u v : seen_from xo yo t x y u v ->
  within_unaligned (new_jaws w h t len xo yo) x y z = true <-> box (w / 2) (h / 2) u v.
Proof.
  intros S. destruct (seen_unique _ _ _ _ _ _ _ S) as [E1 E2]. unfold within_unaligned. cbn [tilt xen yen rhx rhy new_jaws]. rewrite E1, E2, andb_true_iff, !half_iff. unfold box.
  replace (w / 2 * 2 / 2) with (w / 2) by field. replace (h / 2 * 2 / 2) with (h / 2) by field. reflexivity.
Qed.
Print Assumptions C81_unaligned.
(* one jaw only: the other side is open *)
Theorem C81_one_sided w h t len xo yo b x y z u v : seen_from xo yo t x y u v ->
  within_onesided (set_side b (new_jaws w h t len xo yo)) x y z = true <-> (if b then u < w / 2 else - (w / 2) < u) /\ - (h / 2) < v < h / 2.
Proof.
  intros S. destruct (seen_unique _ _ _ _ _ _ _ S) as [E1 E2]. unfold within_onesided. cbn [tilt xen yen rhx rhy side set_side new_jaws]. rewrite E1, E2, andb_true_iff, half_iff.
  replace (h / 2 * 2 / 2) with (h / 2) by field. destruct b; rewrite rltb_iff; split; intros [A B]; split; lra.
Qed.
Print Assumptions C81_one_sided.
(* two one-sided jaws make a full collimator *)
Theorem C81_two_sides w h t len xo yo x y z : let j := new_jaws w h t len xo yo in
  within_onesided (set_side true j) x y z = true /\ within_onesided (set_side false j) x y z = true <-> within_unaligned j x y z = true.
Proof.
  intros j. set (u := (x - xo) * cos t + (y - yo) * sin t). set (v := - (x - xo) * sin t + (y - yo) * cos t).
  assert (S : seen_from xo yo t x y u v).
  { unfold seen_from, u, v. pose proof (sin2_cos2 t) as P. unfold Rsqr in P. split; [transitivity ((x - xo) * (sin t * sin t + cos t * cos t)); [rewrite P; ring|ring]|transitivity ((y - yo) * (sin t * sin t + cos t * cos t)); [rewrite P; ring|ring]]. }
  unfold j. rewrite (C81_one_sided _ _ _ _ _ _ _ _ _ _ _ _ S), (C81_one_sided _ _ _ _ _ _ _ _ _ _ _ _ S), (C81_unaligned _ _ _ _ _ _ _ _ _ _ _ S). unfold box. tauto.
Qed.
Print Assumptions C81_two_sides.
Lemma between_line len a b z v : 0 < len -> between 0 a len b z v -> v = z * (b - a) / len + a.
Proof. intros L (s & _ & -> & ->). field. lra. Qed.
(* tapered jaws: centre and opening are interpolated between entrance and exit *)
Lemma jaw_test_iff w h t len xo yo wx hx xx yx x y z cx cy wz hz u v : let j := set_exit wx hx xx yx (new_jaws w h t len xo yo) in
  0 < len -> between 0 xo len xx z cx -> between 0 yo len yx z cy -> between 0 w len wx z wz -> between 0 h len hx z hz -> seen_from cx cy t x y u v ->
  jaw_test j x y z = true <-> box (wz / 2) (hz / 2) u v.
Proof.
  intros j L BX BY BW BH S. apply between_line in BX, BY, BW, BH; auto. destruct (seen_unique _ _ _ _ _ _ _ S) as [E1 E2]. unfold jaw_test, j. cbn [tilt clen xen yen xex yex wex hex rhx rhy set_exit new_jaws].
  destruct (Reqb_spec len 0); [lra|].
  replace (x + (z * (xo - xx) / len - xo)) with (x - cx) by (rewrite BX; field; lra). replace (y + (z * (yo - yx) / len - yo)) with (y - cy) by (rewrite BY; field; lra).
  replace (z * (wx - w / 2 * 2) / len + w / 2 * 2) with wz by (rewrite BW; field; lra). replace (z * (hx - h / 2 * 2) / len + h / 2 * 2) with hz by (rewrite BH; field; lra).
  rewrite E1, E2, andb_true_iff, !half_iff. reflexivity.
Qed.
Theorem C81_tapered w h t len xo yo wx hx xx yx x y z cx cy wz hz u v : let j := set_exit wx hx xx yx (new_jaws w h t len xo yo) in
  0 < len -> (w <= wx /\ h <= hx) \/ (xo, yo, xx, yx) <> (0, 0, 0, 0) ->
  between 0 xo len xx z cx -> between 0 yo len yx z cy -> between 0 w len wx z wz -> between 0 h len hx z hz -> seen_from cx cy t x y u v ->
  within_jaws j x y z = true <-> box (wz / 2) (hz / 2) u v.
Proof.
  intros j L N BX BY BW BH S. pose proof (jaw_test_iff w h t len xo yo wx hx xx yx x y z cx cy wz hz u v L BX BY BW BH S) as T. unfold within_jaws. fold j in T.
  match goal with |- context [if ?c then _ else _] => destruct c eqn:E end; [|exact T]. split; auto. intros _.
  apply andb_true_iff in E. destruct E as [E D]. apply rltb_iff in D. unfold j in E, D. cbn [xen yen xex yex mind set_exit new_jaws] in E, D.
  repeat (apply andb_true_iff in E; destruct E as [E ?]). destruct (Reqb_spec xo 0), (Reqb_spec yo 0), (Reqb_spec xx 0), (Reqb_spec yx 0); try discriminate. subst.
  destruct N as [N|N]; [|now destruct N]. apply between_line in BX, BY; auto. replace cx with 0 in S by (rewrite BX; field; lra). replace cy with 0 in S by (rewrite BY; field; lra).
  destruct S as [X Y]. rewrite Rminus_0_r in X, Y. assert (M0 : 0 < Rmin (w / 2) (h / 2)) by (pose proof (Rabs_pos x); pose proof (Rabs_pos y); lra). apply diamond_disc in D. assert (Q : u * u + v * v = x * x + y * y).
  { rewrite X, Y. pose proof (sin2_cos2 t) as P. unfold Rsqr in P. transitivity ((u * u + v * v) * (sin t * sin t + cos t * cos t)); [rewrite P; ring|ring]. }
  rewrite <- Q in D. apply between_min in BW, BH. rewrite Rmin_left in BW, BH by lra. pose proof (Rmin_l (w / 2) (h / 2)). pose proof (Rmin_r (w / 2) (h / 2)). set (m := Rmin _ _) in *. clearbody m.
  assert (F : forall a k, a * a < m * m -> m <= k -> - k < a < k) by (intros a k A K; split; nra).
  split; apply F; try lra; nra.
Qed.
Print Assumptions C81_tapered.
Theorem C81_no_length w h t xo yo wx hx xx yx x y z : (xo, yo, xx, yx) <> (0, 0, 0, 0) -> within_jaws (set_exit wx hx xx yx (new_jaws w h t 0 xo yo)) x y z = false.
Proof.
  intros N. unfold within_jaws, jaw_test. cbn [xen yen xex yex clen set_exit new_jaws]. destruct (Reqb_spec 0 0); [|lra].
  destruct (Reqb_spec xo 0), (Reqb_spec yo 0), (Reqb_spec xx 0), (Reqb_spec yx 0); auto. subst. now destruct N.
Qed.
Print Assumptions C81_no_length.
(* a collimator opening from 2 to 4, half way; the point (1.4, 0) is inside at the
   middle and outside at the entrance *)
Example C81_ex : let j := set_exit 4 4 0 0 (new_jaws 2 2 0 10 0 0) in within_jaws j (14/10) 0 5 = true /\ within_jaws j (14/10) 0 0 = false.
Proof.
  intros j. assert (S : seen_from 0 0 0 (14/10) 0 (14/10) 0) by (unfold seen_from; rewrite cos_0, sin_0; lra). split.
  - apply (C81_tapered 2 2 0 10 0 0 4 4 0 0 (14/10) 0 5 0 0 3 3 (14/10) 0); auto; try lra; try (left; lra); try (exists (1/2); lra). unfold box. lra.
  - destruct (within_jaws j _ _ _) eqn:E; auto. apply (C81_tapered 2 2 0 10 0 0 4 4 0 0 (14/10) 0 0 0 0 2 2 (14/10) 0) in E; auto; try lra; try (left; lra); try (exists 0; lra). unfold box in E. lra.
Qed.

(* ---- what does not hold ---- *)
(* narrowing jaws without offset: the quick test uses the entrance opening; in
   particular a collimator whose exit was not set is closed at its end and still
   accepts there *)
Theorem C82_narrowing_refuted w h t len x y : 0 < len -> Rabs x + Rabs y < Rmin (w / 2) (h / 2) -> let j := new_jaws w h t len 0 0 in
  wex j = 0 /\ hex j = 0 /\ within_jaws j x y len = true /\ jaw_test j x y len = false.
Proof.
  intros L D j. split; [reflexivity|]. split; [reflexivity|]. split.
  - unfold within_jaws, j. cbn [xen yen xex yex mind new_jaws]. destruct (Reqb_spec 0 0); [|lra]. cbn [andb]. now rewrite (proj2 (rltb_iff _ _) D).
  - unfold jaw_test, j. cbn [tilt clen xen yen xex yex wex hex rhx rhy new_jaws]. destruct (Reqb_spec len 0); auto. replace (len * (0 - w / 2 * 2) / len + w / 2 * 2) with 0 by (field; lra).
    match goal with |- context [Rltb (Rabs ?u * 2) 0] => pose proof (Rabs_pos u); destruct (Rltb_spec (Rabs u * 2) 0); [lra|reflexivity] end.
Qed.
Print Assumptions C82_narrowing_refuted.
Example C82_narrowing_ex : 0 < 1 /\ Rabs (1/2) + Rabs 0 < Rmin (2 / 2) (2 / 2).
Proof. rewrite Rabs_R0, Rabs_right, Rmin_left by lra. lra. Qed.
(* setting the entrance opening changes no test *)
Theorem C82_entrance_refuted w h j x y z : within_jaws (set_entrance w h j) x y z = within_jaws j x y z /\ within_unaligned (set_entrance w h j) x y z = within_unaligned j x y z /\
  within_errors (set_entrance w h j) x y z = within_errors j x y z /\ within_onesided (set_entrance w h j) x y z = within_onesided j x y z /\ (wen (set_entrance w h j) = w /\ hen (set_entrance w h j) = h).
Proof. repeat split. Qed.
Print Assumptions C82_entrance_refuted.
(* the jaw error has no effect *)
Theorem C82_error_refuted e j x y z : within_errors (set_error e j) x y z = within_errors j x y z /\ aerror (set_error e j) = e.
Proof. repeat split. Qed.
Print Assumptions C82_error_refuted.
(* without quick test the collimator with errors is right also when it narrows *)
Theorem C168_errors w h t len xo yo wx hx xx yx e x y z cx cy wz hz u v : let j := set_error e (set_exit wx hx xx yx (new_jaws w h t len xo yo)) in
  0 < len -> between 0 xo len xx z cx -> between 0 yo len yx z cy -> between 0 w len wx z wz -> between 0 h len hx z hz -> seen_from cx cy t x y u v ->
  within_errors j x y z = true <-> box (wz / 2) (hz / 2) u v.
Proof. intros j L BX BY BW BH S. apply (jaw_test_iff w h t len xo yo wx hx xx yx x y z cx cy wz hz u v L BX BY BW BH S). Qed.
Print Assumptions C168_errors.
