(* C37, C38, C79-C81: apertures *)
From Coq Require Import Psatz.
From Verif Require Import RBase Aper AperSpec.
Local Open Scope R_scope.

Lemma sq_abs x : Rabs x * Rabs x = x * x.
Proof. unfold Rabs. destruct (Rcase_abs x); ring. Qed.
Lemma abs_lt x h : Rabs x < h <-> - h < x < h.
Proof. unfold Rabs. destruct (Rcase_abs x); lra. Qed.
Lemma rltb_iff x y : Rltb x y = true <-> x < y.
Proof. destruct (Rltb_spec x y); split; auto; discriminate. Qed.
Lemma rleb_iff x y : Rleb x y = true <-> x <= y.
Proof. destruct (Rleb_spec x y); split; auto; try discriminate. Qed.
Lemma rleb_neg x y : negb (Rleb x y) = true <-> y < x.
Proof. destruct (Rleb_spec x y); cbn; split; auto; try discriminate; lra. Qed.
Lemma box_iff hx hy x y : negb (beyond_box hx hy x y) = true <-> box hx hy x y.
Proof.
  unfold beyond_box, box. rewrite negb_orb, andb_true_iff, !rleb_neg, !abs_lt. reflexivity.
Qed.
Lemma oval_iff ex ey x y : ex <> 0 -> ey <> 0 -> negb (beyond_ellipse ex ey x y) = true <-> oval ex ey x y.
Proof.
  intros Hx Hy. unfold beyond_ellipse, oval, ediv. destruct (Reqb_spec (ey * ey) 0); [nra|]. cbn. rewrite rleb_neg.
  assert (P : 0 < ex * ex) by nra. split; intros H.
  - apply (Rmult_lt_reg_l (ex * ex)); [exact P|]. replace (ex * ex * (x / ex * (x / ex) + y / ey * (y / ey))) with (x * x + y * y * (ex * ex / (ey * ey))) by (field; auto). lra.
  - apply (Rmult_lt_compat_l (ex * ex)) in H; [|exact P]. replace (ex * ex * (x / ex * (x / ex) + y / ey * (y / ey))) with (x * x + y * y * (ex * ex / (ey * ey))) in H by (field; auto). lra.
Qed.
Lemma diamond_disc x y m : Rabs x + Rabs y < m -> x * x + y * y < m * m.
Proof. intros H. rewrite <- (sq_abs x), <- (sq_abs y). pose proof (Rabs_pos x). pose proof (Rabs_pos y). nra. Qed.
Lemma diamond_oval x y m ex ey : Rabs x + Rabs y < m -> m <= ex -> m <= ey -> oval ex ey x y.
Proof.
  intros H Hx Hy. pose proof (Rabs_pos x). pose proof (Rabs_pos y). unfold oval.
  assert (Q : forall u e, m <= e -> Rabs u < m -> u / e * (u / e) <= u * u / (m * m)).
  { intros u e He Hu. pose proof (Rabs_pos u). replace (u / e * (u / e)) with (u * u / (e * e)) by (field; lra). unfold Rdiv. apply Rmult_le_compat_l; [nra|]. apply Rinv_le_contravar; nra. }
  pose proof (Q x ex Hx ltac:(lra)). pose proof (Q y ey Hy ltac:(lra)). apply diamond_disc in H.
  assert ((x * x + y * y) / (m * m) < 1). { apply (Rmult_lt_reg_r (m * m)); [nra|]. unfold Rdiv. rewrite Rmult_assoc, Rinv_l by nra. lra. }
  unfold Rdiv in *. lra.
Qed.

Theorem C37_circle r x y : within (Circle r) x y = true <-> disc r x y.
Proof.
  unfold within, disc. destruct (Rltb_spec (Rabs x + Rabs y) r) as [H|H].
  - split; auto. intros _. now apply diamond_disc.
  - apply rleb_neg.
Qed.
Print Assumptions C37_circle.
Theorem C37_rectangle hx hy x y : within (Rectangle hx hy) x y = true <-> box hx hy x y.
Proof.
  unfold within. destruct (Rltb_spec (Rabs x + Rabs y) (Rmin hx hy)) as [H|H]; [|apply box_iff].
  split; auto. intros _. pose proof (Rmin_l hx hy). pose proof (Rmin_r hx hy). pose proof (Rabs_pos x). pose proof (Rabs_pos y). split; apply abs_lt; lra.
Qed.
Print Assumptions C37_rectangle.
Theorem C37_ellipse ex ey x y : 0 < ex -> 0 < ey -> within (Ellipse ex ey) x y = true <-> oval ex ey x y.
Proof.
  intros Hx Hy. unfold within. destruct (Rltb_spec (Rabs x + Rabs y) (Rmin ex ey)) as [H|H]; [|apply oval_iff; lra].
  split; auto. intros _. eapply diamond_oval; [exact H|apply Rmin_l|apply Rmin_r].
Qed.
Print Assumptions C37_ellipse.
Theorem C37_rectellipse hx hy ex ey x y : 0 < ex -> 0 < ey -> within (RectEllipse hx hy ex ey) x y = true <-> box hx hy x y /\ oval ex ey x y.
Proof.
  intros Hx Hy. unfold within. set (m := Rmin (Rmin hx hy) (Rmin ex ey)).
  assert (M : m <= hx /\ m <= hy /\ m <= ex /\ m <= ey).
  { unfold m. pose proof (Rmin_l (Rmin hx hy) (Rmin ex ey)). pose proof (Rmin_r (Rmin hx hy) (Rmin ex ey)). pose proof (Rmin_l hx hy). pose proof (Rmin_r hx hy). pose proof (Rmin_l ex ey). pose proof (Rmin_r ex ey). repeat split; lra. }
  destruct (Rltb_spec (Rabs x + Rabs y) m) as [H|H].
  - split; auto. intros _. pose proof (Rabs_pos x). pose proof (Rabs_pos y). split; [split; apply abs_lt; lra|]. apply diamond_oval with (m := m); lra.
  - rewrite <- (oval_iff ex ey x y) by lra. destruct (beyond_ellipse ex ey x y); cbn; [split; [discriminate|tauto]|]. rewrite <- box_iff. tauto.
Qed.
Print Assumptions C37_rectellipse.
(* every aperture is symmetric about both axes *)
Theorem C37_symmetric a x y : within a (- x) y = within a x y /\ within a x (- y) = within a x y.
Proof.
  destruct a; unfold within, beyond_box, beyond_ellipse, beyond_corner, reaches; rewrite !Rabs_Ropp; replace (- x * - x) with (x * x) by ring; replace (- y * - y) with (y * y) by ring; auto;
    assert (E : Reqb (- y) 0 = Reqb y 0) by (destruct (Reqb_spec (- y) 0), (Reqb_spec y 0); auto; lra); rewrite E; auto.
Qed.
Print Assumptions C37_symmetric.
Definition sound_dims (a : aperture) : Prop :=
  match a with
  | Ellipse ex ey | RectEllipse _ _ ex ey => 0 < ex /\ 0 < ey
  | Octagon hx hy a1 a2 => 0 <= hx * tan a1 <= hy /\ 0 <= hy * tan (PI / 2 - a2) <= hx
  | _ => True
  end.
Lemma shrink_box hx hy x y t : 0 <= t <= 1 -> box hx hy x y -> box hx hy (t * x) (t * y).
Proof. unfold box. intros [A B] [[C D] [E F]]. repeat split; nra. Qed.
Lemma shrink_oval ex ey x y t : 0 <= t <= 1 -> ex <> 0 -> ey <> 0 -> oval ex ey x y -> oval ex ey (t * x) (t * y).
Proof.
  unfold oval. intros T X Y H. replace (t * x / ex) with (t * (x / ex)) by (field; auto). replace (t * y / ey) with (t * (y / ey)) by (field; auto).
  set (u := x / ex) in *. set (v := y / ey) in *. clearbody u v. replace (t * u * (t * u) + t * v * (t * v)) with (t * t * (u * u + v * v)) by ring. assert (t * t <= 1) by nra. nra.
Qed.
(* an accepted point stays accepted when it moves towards the centre *)
Theorem C37_star a x y t : sound_dims a -> 0 <= t <= 1 -> within a x y = true -> within a (t * x) (t * y) = true.
Proof.
  destruct a as [r|hx hy|ex ey|hx hy ex ey|hx hy a1 a2]; cbn [sound_dims]; intros S T.
  - rewrite !C37_circle. unfold disc. intros H. replace (t * x * (t * x) + t * y * (t * y)) with (t * t * (x * x + y * y)) by ring. assert (t * t <= 1) by nra. nra.
  - rewrite !C37_rectangle. now apply shrink_box.
  - destruct S. rewrite !C37_ellipse by tauto. apply shrink_oval; lra.
  - destruct S. rewrite !C37_rectellipse by tauto. intros [A B]. split; [now apply shrink_box|apply shrink_oval; auto; lra].
  - unfold within. rewrite !Rabs_mult, (Rabs_right t) by lra. pose proof (Rabs_pos x). pose proof (Rabs_pos y).
    destruct (Rltb_spec (Rabs x + Rabs y) (Rmin hx hy)) as [D|D].
    + intros _. destruct (Rltb_spec (t * Rabs x + t * Rabs y) (Rmin hx hy)); auto. nra.
    + destruct (Rltb_spec (t * Rabs x + t * Rabs y) (Rmin hx hy)) as [D'|D']; auto. destruct (beyond_box hx hy x y) eqn:E; [discriminate|]. intros C.
      assert (B : box hx hy x y) by (apply box_iff; now rewrite E). assert (P : 0 < Rmin hx hy) by (destruct B as [[B1 B2] [B3 B4]]; apply Rmin_glb_lt; lra). apply (shrink_box hx hy x y t T) in B. apply box_iff in B. destruct (beyond_box hx hy (t * x) (t * y)); [discriminate|].
      unfold beyond_corner in *. rewrite rleb_neg in *. rewrite !Rabs_mult, (Rabs_right t) by lra. set (p := hx * tan a1) in *. set (q := hy * tan (PI / 2 - a2)) in *. clearbody p q.
      destruct S as [S1 S2]. assert (0 <= hx * (hy - p)) by nra. assert (0 <= p * (hx - q)) by nra. assert (0 < t) by (destruct (Req_dec t 0); [subst; lra|lra]).
      replace ((q - hx) * (t * Rabs y - p) - (hy - p) * (t * Rabs x - hx)) with (t * ((q - hx) * (Rabs y - p) - (hy - p) * (Rabs x - hx)) + (1 - t) * (p * (hx - q) + hx * (hy - p))) by ring.
      apply Rplus_lt_le_0_compat; [now apply Rmult_lt_0_compat|]. apply Rmult_le_pos; lra.
Qed.
Print Assumptions C37_star.
(* what the rows of a table become *)
Theorem C37_rows p1 p2 p3 p4 :
  make_aperture "RECTANGLE" p1 p2 p3 p4 = Some (Rectangle p1 p2) /\
  make_aperture "RECTELLIPSE" p1 p2 p3 p4 = Some (RectEllipse p1 p2 p3 p4) /\
  make_aperture "OCTAGON" p1 p2 p3 p4 = Some (Octagon p1 p2 p3 p4) /\
  make_aperture "CIRCLE" p1 p2 p3 p4 = Some (Circle (if Reqb p3 0 then p1 else p3)) /\
  (make_aperture "ELLIPSE" p1 p2 0 0 = Some (Ellipse p1 p2)) /\ ((p3, p4) <> (0, 0) -> make_aperture "ELLIPSE" p1 p2 p3 p4 = Some (Ellipse p3 p4)) /\
  (forall t, ~ In t ["CIRCLE"; "RECTANGLE"; "ELLIPSE"; "RECTELLIPSE"; "OCTAGON"]%string -> make_aperture t p1 p2 p3 p4 = None).
Proof.
  split; [reflexivity|]. split; [reflexivity|]. split; [reflexivity|]. split; [reflexivity|]. split; [|split].
  - unfold make_aperture. cbn [String.eqb Ascii.eqb Bool.eqb]. destruct (Reqb_spec 0 0); [reflexivity|lra].
  - intros N. unfold make_aperture. cbn [String.eqb Ascii.eqb Bool.eqb]. destruct (Reqb_spec p3 0), (Reqb_spec p4 0); subst; cbn; congruence.
  - intros t N. unfold make_aperture. cbn [In] in N. repeat match goal with |- context [String.eqb t ?s] => destruct (String.eqb_spec t s); [exfalso; apply N; subst; tauto|] end. reflexivity.
Qed.
Print Assumptions C37_rows.
Example C37_ex : within (RectEllipse 2 1 2 2) (3/2) (1/2) = true /\ within (RectEllipse 2 1 2 2) (19/10) (9/10) = false /\ sound_dims (RectEllipse 2 1 2 2).
Proof.
  split; [|split].
  - apply C37_rectellipse; try lra. unfold box, oval. split; lra.
  - destruct (within _ _ _) eqn:E; auto. apply C37_rectellipse in E; try lra. destruct E as [_ E]. unfold oval in E. lra.
  - cbn. lra.
Qed.

(* ---- octagons ---- *)
Lemma corner_iff hx hy a b x y : 0 <= a <= hy -> 0 <= b <= hx -> (a, b) <> (hy, hx) -> 0 <= x < hx -> 0 <= y < hy ->
  (b - hx) * (y - a) - (hy - a) * (x - hx) <= 0 <-> in_corner hx hy a b x y.
Proof.
  intros Ha Hb N Hx Hy. split.
  - intros H. destruct (Req_dec b hx) as [Eb|Nb].
    { exfalso. assert (a <> hy) by (intros ->; apply N; now rewrite Eb). subst b. nra. }
    destruct (Req_dec a hy) as [Ea|Na]. { exfalso. subst a. nra. }
    exists ((hy - y) / (hy - a)), ((hx - x) / (hx - b)). split; [apply Rmult_le_pos; [lra|left; apply Rinv_0_lt_compat; lra]|]. split; [apply Rmult_le_pos; [lra|left; apply Rinv_0_lt_compat; lra]|].
    split; [|split; field; lra]. apply (Rmult_le_reg_r ((hy - a) * (hx - b))); [nra|].
    replace (((hy - y) / (hy - a) + (hx - x) / (hx - b)) * ((hy - a) * (hx - b))) with ((hy - y) * (hx - b) + (hx - x) * (hy - a)) by (field; lra). nra.
  - intros (s & t & S & T & ST & -> & ->). assert (0 <= (hx - b) * (hy - a)) by nra. nra.
Qed.
Lemma octagon_diamond hx hy a b x y : 0 <= a <= hy -> 0 <= b <= hx -> 0 <= x -> 0 <= y -> x + y < Rmin hx hy -> (a, b) <> (hy, hx) ->
  0 < (b - hx) * (y - a) - (hy - a) * (x - hx).
Proof.
  intros Ha Hb Hx Hy H N. pose proof (Rmin_l hx hy). pose proof (Rmin_r hx hy). set (m := Rmin hx hy) in *. clearbody m.
  assert (E : (b - hx) * (y - a) - (hy - a) * (x - hx) = (hx - b) * (a - y) + (hy - a) * (hx - x)) by ring. rewrite E.
  assert (0 <= hx - b) by lra. assert (0 <= hy - a) by lra.
  (* the point is x <= m - y - e; the line passes above both (m,0) and (0,m) *)
  assert (L1 : (hx - b) * (a - 0) + (hy - a) * (hx - m) >= 0) by nra.
  assert (L2 : (hx - b) * (a - m) + (hy - a) * (hx - 0) >= 0) by nra.
  assert (M : 0 < m) by lra.
  assert (Z : (hx - b) * a + (hy - a) * hx > 0).
  { destruct (Req_dec a hy) as [->|Na]. - assert (b <> hx) by (intros ->; now apply N). assert (0 < hx - b) by lra. nra. - assert (0 < hy - a) by lra. nra. }
  assert (R : m * ((hx - b) * (a - y) + (hy - a) * (hx - x)) = x * ((hx - b) * (a - 0) + (hy - a) * (hx - m)) + y * ((hx - b) * (a - m) + (hy - a) * (hx - 0)) + (m - x - y) * ((hx - b) * a + (hy - a) * hx)) by ring.
  assert (0 < m * ((hx - b) * (a - y) + (hy - a) * (hx - x))). { rewrite R. nra. }
  nra.
Qed.
Theorem C167_octagon hx hy a1 a2 x y : let a := hx * tan a1 in let b := hy * tan (PI / 2 - a2) in
  0 <= a <= hy -> 0 <= b <= hx -> (a, b) <> (hy, hx) -> within (Octagon hx hy a1 a2) x y = true <-> octagon hx hy a1 a2 x y.
Proof.
  intros a b Ha Hb N. unfold within, octagon. pose proof (Rabs_pos x). pose proof (Rabs_pos y). unfold beyond_corner. fold a b.
  destruct (Rltb_spec (Rabs x + Rabs y) (Rmin hx hy)) as [D|D].
  - pose proof (Rmin_l hx hy). pose proof (Rmin_r hx hy). split; auto. intros _. split; [split; apply abs_lt; lra|]. rewrite <- corner_iff; auto; try lra.
    pose proof (octagon_diamond hx hy a b _ _ Ha Hb H H0 D N). lra.
  - rewrite <- box_iff. destruct (beyond_box hx hy x y) eqn:E; cbn; [split; [discriminate|intros [C _]; discriminate]|].
    assert (B : box hx hy x y) by (apply box_iff; now rewrite E). destruct B as [B1 B2]. apply abs_lt in B1, B2.
    rewrite <- corner_iff by (auto; lra). rewrite rleb_neg. split; [intros; split; auto; lra|intros [_ C]; lra].
Qed.
Print Assumptions C167_octagon.
(* corners that are not cut at all: the shape is the rectangle, but only the inner
   diamond is accepted *)
Theorem C79_octagon_uncut_refuted hx hy a1 a2 : 0 < hx -> 0 < hy -> hx * tan a1 = hy -> hy * tan (PI / 2 - a2) = hx ->
  (forall x y, octagon hx hy a1 a2 x y <-> box hx hy x y) /\
  (forall x y, within (Octagon hx hy a1 a2) x y = true <-> Rabs x + Rabs y < Rmin hx hy).
Proof.
  intros Hx Hy A B. split; intros x y.
  - unfold octagon. split; [tauto|]. intros H. split; auto. rewrite A, B. intros (s & t & S & T & ST & X & Y). destruct H as [H _]. apply abs_lt in H. lra.
  - unfold within, beyond_corner. rewrite A, B. destruct (Rltb_spec (Rabs x + Rabs y) (Rmin hx hy)) as [D|D]; [tauto|]. split; [|lra].
    destruct (beyond_box hx hy x y); [discriminate|]. replace ((hx - hx) * (Rabs y - hy) - (hy - hy) * (Rabs x - hx)) with 0 by ring. destruct (Rleb_spec 0 0); [discriminate|lra].
Qed.
Print Assumptions C79_octagon_uncut_refuted.
Example C79_uncut_ex : 0 < 1 /\ 1 * tan (PI / 4) = 1 /\ 1 * tan (PI / 2 - PI / 4) = 1.
Proof. replace (PI / 2 - PI / 4) with (PI / 4) by field. rewrite tan_PI4. lra. Qed.
(* an octagon that accepts (0.7, 0.2) and rejects its corner *)
Example C79_ex : within (Octagon 1 1 0 (PI / 2)) (7/10) (2/10) = true /\ within (Octagon 1 1 0 (PI / 2)) (7/10) (7/10) = false.
Proof.
  assert (T : tan 0 = 0) by apply tan_0. assert (T' : tan (PI / 2 - PI / 2) = 0) by (replace (PI / 2 - PI / 2) with 0 by ring; apply tan_0).
  unfold within. rewrite !Rabs_right by lra. rewrite Rmin_left by lra. destruct (Rltb_spec (7/10 + 2/10) 1); [|lra]. split; auto.
  destruct (Rltb_spec (7/10 + 7/10) 1); [lra|]. destruct (beyond_box 1 1 (7/10) (7/10)); auto. unfold beyond_corner. rewrite T, T', Rabs_right by lra. destruct (Rleb_spec ((1 * 0 - 1) * (7/10 - 1 * 0) - (1 - 1 * 0) * (7/10 - 1)) 0); auto. lra.
Qed.
(* an ellipse without height accepts points of the axis at any distance *)
Theorem C79_flat_ellipse_refuted ex x : within (Ellipse ex 0) x 0 = true.
Proof.
  unfold within. destruct (Rltb _ _); auto. unfold beyond_ellipse, reaches, ediv. destruct (Reqb_spec (0 * 0) 0); [|lra].
  destruct (Reqb (ex * ex) 0); auto. destruct (Reqb_spec 0 0); [reflexivity|lra].
Qed.
Print Assumptions C79_flat_ellipse_refuted.

(* ---- interpolation ---- *)
Lemma between_start s0 v0 s1 v1 v : s0 < s1 -> between s0 v0 s1 v1 s0 v -> v = v0.
Proof. intros H (t & _ & E & ->). assert (t = 0) by nra. subst. ring. Qed.
Lemma between_end s0 v0 s1 v1 : between s0 v0 s1 v1 s1 v1.
Proof. exists 1. repeat split; lra. Qed.
Lemma between_range s0 v0 s1 v1 z v : s0 <= s1 -> between s0 v0 s1 v1 z v -> s0 <= z <= s1.
Proof. intros H (t & T & -> & _). nra. Qed.
Lemma between_min s0 v0 s1 v1 z v : between s0 v0 s1 v1 z v -> Rmin v0 v1 <= v.
Proof. intros (t & T & _ & ->). pose proof (Rmin_l v0 v1). pose proof (Rmin_r v0 v1). nra. Qed.
Lemma locate_ok p z v l : forall back, increasing es (back :: l) -> table_value es p (back :: l) z v ->
  exists b f, locate z back l = Some (b, f) /\ es b < es f /\ In b (back :: l) /\ In f (back :: l) /\ between (es b) (p b) (es f) (p f) z v.
Proof.
  induction l as [|f l IH]; intros back I (pre & b & g & post & E & B).
  { destruct pre as [|? [|? ?]]; discriminate. }
  inversion I as [|? ? Lt I' Heq]; subst. cbn [locate]. destruct pre as [|a pre].
  - injection E as E1 E2 E3. subst b g post. assert (L : es back < es f) by (apply Lt; now left). pose proof (between_range _ _ _ _ _ _ (Rlt_le _ _ L) B).
    destruct (Rleb_spec z (es f)); [|lra]. exists back, f. cbn. auto 10.
  - injection E as E1 E2. subst a. destruct (Rleb_spec z (es f)) as [Z|Z].
    + assert (L : es b < es g). { clear - I' E2. revert I' E2. generalize (f :: l). induction pre as [|c pre IHp]; intros k I' ->; inversion I'; subst; [apply H1; cbn; auto|eapply IHp; eauto]. }
      pose proof (between_range _ _ _ _ _ _ (Rlt_le _ _ L) B) as [ZB _].
      assert (b = f). { destruct pre as [|c pre]; [cbn in E2; congruence|]. exfalso. injection E2 as E3 E4; subst. inversion I'; subst. assert (es c < es b) by (apply H1, in_or_app; cbn; auto). lra. }
      subst b. assert (z = es f) by lra. subst z. apply between_start in B; [|exact L]. subst v.
      exists back, f. split; auto. split; [apply Lt; now left|]. split; [now left|]. split; [now right; left|]. apply between_end.
    + destruct (IH f I') as (b' & f' & E' & L & I1 & I2 & B'). { exists pre, b, g, post. auto. } exists b', f'. split; auto. split; auto. cbn in *. tauto.
Qed.
Lemma find_ok p z v l : increasing es l -> table_value es p l z v ->
  exists b f, find_pair z l = Some (b, f) /\ es b < es f /\ In b l /\ In f l /\ between (es b) (p b) (es f) (p f) z v.
Proof.
  intros I T. destruct l as [|a l]; [destruct T as ([|? ?] & ? & ? & ? & E & _); discriminate|]. now apply locate_ok.
Qed.
Lemma onto_ok p b f z v : es b < es f -> between (es b) (p b) (es f) (p f) z v -> onto p b f z = Some v.
Proof. intros L (t & _ & -> & ->). unfold onto. destruct (Reqb_spec (es f - es b) 0); [lra|]. f_equal. field. lra. Qed.
Lemma clamp z : 0 <= z -> at_least_zero z = z.
Proof. intros H. unfold at_least_zero. destruct (Rltb_spec z 0); auto. lra. Qed.
Lemma locate_beyond z l : forall b, (forall e, In e l -> es e < z) -> locate z b l = None.
Proof. induction l as [|f l IH]; intros b H; cbn; auto. destruct (Rleb_spec z (es f)); [specialize (H f (or_introl eq_refl)); lra|]. apply IH. intros e I. apply H. now right. Qed.
Lemma find_beyond z l : (forall e, In e l -> es e < z) -> find_pair z l = None.
Proof. destruct l; intros H; auto. apply locate_beyond. intros e' I. apply H. now right. Qed.

Theorem C80_circle l x y z r : increasing es l -> (forall e, In e l -> 0 < e1 e) -> 0 <= z -> table_value es e1 l z r ->
  exists b, within_interpolated ICircle l x y z = Ok b /\ (b = true <-> disc r x y).
Proof.
  intros I P Z T. destruct (find_ok _ _ _ _ I T) as (b & f & E & L & Ib & If & B). cbn [within_interpolated]. unfold within_circle. rewrite clamp, E by exact Z.
  pose proof (P b Ib). pose proof (P f If). destruct (Rltb_spec (Rabs x + Rabs y) (Rmin (e1 f) (e1 b))) as [D|D].
  - exists true. split; auto. split; auto. intros _. rewrite Rmin_comm in D. apply between_min in B. apply diamond_disc. lra.
  - destruct (Reqb_spec (e1 f) 0); [lra|]. destruct (Reqb_spec (e1 b) 0); [lra|]. cbn [orb]. rewrite (onto_ok _ _ _ _ _ L B). eexists. split; [reflexivity|]. apply rltb_iff.
Qed.
Print Assumptions C80_circle.
Theorem C80_octagon l x y z hw hh a1 a2 : increasing es l -> 0 <= z -> table_value es e1 l z hw -> table_value es e2 l z hh -> table_value es e3 l z a1 -> table_value es e4 l z a2 ->
  let a := hw * tan a1 in let b := hh * tan (PI / 2 - a2) in 0 <= a <= hh -> 0 <= b <= hw -> (a, b) <> (hh, hw) ->
  exists r, within_interpolated IOctagon l x y z = Ok r /\ (r = true <-> octagon hw hh a1 a2 x y).
Proof.
  intros I Z T1 T2 T3 T4 a b Ha Hb N. cbn [within_interpolated]. unfold within_octagon. rewrite clamp by exact Z.
  destruct (find_ok _ _ _ _ I T1) as (p & f & E & L & _ & _ & B1). destruct (find_ok _ _ _ _ I T2) as (? & ? & E2 & _ & _ & _ & B2). destruct (find_ok _ _ _ _ I T3) as (? & ? & E3 & _ & _ & _ & B3). destruct (find_ok _ _ _ _ I T4) as (? & ? & E4 & _ & _ & _ & B4).
  rewrite E in *. injection E2 as <- <-. injection E3 as <- <-. injection E4 as <- <-.
  rewrite (onto_ok _ _ _ _ _ L B1), (onto_ok _ _ _ _ _ L B2), (onto_ok _ _ _ _ _ L B3), (onto_ok _ _ _ _ _ L B4). eexists. split; [reflexivity|].
  unfold octagon. rewrite <- box_iff. destruct (beyond_box hw hh x y) eqn:F; cbn; [split; [discriminate|intros [C _]; discriminate]|].
  assert (B : box hw hh x y) by (apply box_iff; now rewrite F). destruct B as [C1 C2]. apply abs_lt in C1, C2. pose proof (Rabs_pos x). pose proof (Rabs_pos y).
  unfold beyond_corner. fold a b. rewrite <- corner_iff by (auto; lra). rewrite rleb_neg. split; [intros; split; auto; lra|intros [_ C]; lra].
Qed.
Print Assumptions C80_octagon.
(* in front of the element the entrance is used *)
Theorem C80_in_front k l x y z : z < 0 -> within_interpolated k l x y z = within_interpolated k l x y 0.
Proof.
  intros H. assert (E : at_least_zero z = at_least_zero 0) by (unfold at_least_zero; destruct (Rltb_spec z 0), (Rltb_spec 0 0); auto; lra).
  destruct k; cbn; unfold within_circle, within_ellipse, within_rectellipse, within_octagon; try rewrite E; reflexivity.
Qed.
Print Assumptions C80_in_front.
Definition cone : list entry := [AE 0 1 0 0 0; AE 2 3 0 0 0; AE 4 3 0 0 0].
Example C80_ex : increasing es cone /\ (forall e, In e cone -> 0 < e1 e) /\ table_value es e1 cone 1 2 /\
  (exists b, within_interpolated ICircle cone (3/2) 1 1 = Ok b /\ b = true) /\ (exists b, within_interpolated ICircle cone (3/2) (3/2) 1 = Ok b /\ b = false).
Proof.
  assert (I : increasing es cone). { unfold cone. repeat (constructor; [cbn; intros b H; repeat (destruct H as [<-|H]; [cbn; lra|]); contradiction|]). constructor. }
  assert (P : forall e, In e cone -> 0 < e1 e) by (cbn; intros e [<-|[<-|[<-|[]]]]; cbn; lra).
  assert (T : table_value es e1 cone 1 2). { exists [], (AE 0 1 0 0 0), (AE 2 3 0 0 0), [AE 4 3 0 0 0]. split; auto. exists (1/2). cbn. lra. }
  split; auto. split; auto. split; auto. split.
  - destruct (C80_circle cone (3/2) 1 1 2 I P ltac:(lra) T) as (b & E & H). exists b. split; auto. apply H. unfold disc. lra.
  - destruct (C80_circle cone (3/2) (3/2) 1 2 I P ltac:(lra) T) as (b & E & H). exists b. split; auto. destruct b; auto. unfold disc in *. exfalso. pose proof (proj1 H eq_refl). lra.
Qed.

(* the interpolated rect-ellipse is right when the half width is not the smallest
   dimension *)
Lemma oval2_iff a b x y : a <> 0 -> b <> 0 -> negb (beyond_ellipse2 (Some a) (Some b) x y) = true <-> closed_oval a b x y.
Proof.
  intros A B. unfold beyond_ellipse2, ediv, closed_oval. destruct (Reqb_spec (a * a) 0); [nra|]. destruct (Reqb_spec (b * b) 0); [nra|]. cbn [eadd over_one].
  replace (x * x / (a * a)) with (x / a * (x / a)) by (field; auto). replace (y * y / (b * b)) with (y / b * (y / b)) by (field; auto).
  destruct (Rltb_spec 1 (x / a * (x / a) + y / b * (y / b))); cbn; split; auto; try discriminate; lra.
Qed.
Lemma abs_le x h : ~ h < Rabs x <-> - h <= x <= h.
Proof. unfold Rabs. destruct (Rcase_abs x); lra. Qed.
Definition least (e : entry) : R := Rmin (e1 e) (Rmin (e2 e) (Rmin (e3 e) (e4 e))).
Lemma least_le e : least e <= e1 e /\ least e <= e2 e /\ least e <= e3 e /\ least e <= e4 e.
Proof.
  unfold least. pose proof (Rmin_l (e1 e) (Rmin (e2 e) (Rmin (e3 e) (e4 e)))). pose proof (Rmin_r (e1 e) (Rmin (e2 e) (Rmin (e3 e) (e4 e)))). pose proof (Rmin_l (e2 e) (Rmin (e3 e) (e4 e))). pose proof (Rmin_r (e2 e) (Rmin (e3 e) (e4 e))). pose proof (Rmin_l (e3 e) (e4 e)). pose proof (Rmin_r (e3 e) (e4 e)). repeat split; lra.
Qed.
Lemma fold_min_le a l x : In x (a :: l) -> fold_right Rmin a l <= x.
Proof.
  induction l as [|b l IH]; cbn.
  - intros [-> | []]. lra.
  - intros H. pose proof (Rmin_l b (fold_right Rmin a l)). pose proof (Rmin_r b (fold_right Rmin a l)). destruct H as [<-|[<-|H]]; try lra; [assert (K := IH (or_introl eq_refl))|assert (K := IH (or_intror H))]; lra.
Qed.
Theorem C38_rectellipse_partial l x y z hx hy ex ey : increasing es l -> (forall e, In e l -> 0 < least e /\ Rmin (e2 e) (Rmin (e3 e) (e4 e)) <= e1 e) -> 0 <= z ->
  table_value es e1 l z hx -> table_value es e2 l z hy -> table_value es e3 l z ex -> table_value es e4 l z ey ->
  exists r, within_interpolated IRectEllipse l x y z = Ok r /\ (r = true <-> closed_box hx hy x y /\ closed_oval ex ey x y).
Proof.
  intros I P Z T1 T2 T3 T4. cbn [within_interpolated]. unfold within_rectellipse. rewrite clamp by exact Z.
  destruct (find_ok _ _ _ _ I T1) as (p & f & E & L & Ip & If & B1). destruct (find_ok _ _ _ _ I T2) as (? & ? & E2 & _ & _ & _ & B2). destruct (find_ok _ _ _ _ I T3) as (? & ? & E3 & _ & _ & _ & B3). destruct (find_ok _ _ _ _ I T4) as (? & ? & E4 & _ & _ & _ & B4).
  rewrite E in *. injection E2 as <- <-. injection E3 as <- <-. injection E4 as <- <-.
  rewrite (onto_ok _ _ _ _ _ L B1), (onto_ok _ _ _ _ _ L B2), (onto_ok _ _ _ _ _ L B3), (onto_ok _ _ _ _ _ L B4).
  destruct (P p Ip) as [Pp Qp]. destruct (P f If) as [Pf Qf]. pose proof (least_le p) as Lp. pose proof (least_le f) as Lf.
  assert (PX : 0 < ex /\ 0 < ey). { apply between_min in B3, B4. split; [apply Rlt_le_trans with (2 := B3)|apply Rlt_le_trans with (2 := B4)]; apply Rmin_glb_lt; lra. }
  set (m := fold_right Rmin _ _). destruct (Rltb_spec (Rabs x + Rabs y) m) as [D|D].
  - exists true. split; auto. split; auto. intros _.
    assert (M : forall u, In u [e1 f; e2 f; e3 f; e4 f; e1 f; e2 p; e3 p; e4 p] -> m <= u) by (intros u Hu; apply fold_min_le; exact Hu).
    assert (M1 : m <= e1 p). { eapply Rle_trans; [|exact Qp]. repeat apply Rmin_glb; apply M; cbn; tauto. }
    apply between_min in B1, B2, B3, B4. assert (m <= hx /\ m <= hy /\ m <= ex /\ m <= ey) as (M2 & M3 & M4 & M5).
    { repeat split; [eapply Rle_trans; [|exact B1]|eapply Rle_trans; [|exact B2]|eapply Rle_trans; [|exact B3]|eapply Rle_trans; [|exact B4]]; apply Rmin_glb; try exact M1; apply M; cbn; tauto. }
    pose proof (Rabs_pos x). pose proof (Rabs_pos y). split; [split; apply abs_le; lra|]. apply Rlt_le, (diamond_oval x y m ex ey); lra.
  - pose proof (oval2_iff ex ey x y ltac:(lra) ltac:(lra)) as O. destruct (beyond_ellipse2 (Some ex) (Some ey) x y); cbn [negb] in O.
    + exists false. split; auto. split; [discriminate|]. intros [_ C]. apply O in C. discriminate.
    + eexists. split; [reflexivity|]. rewrite <- O. unfold exceeds, closed_box. rewrite <- !abs_le. destruct (Rltb_spec hx (Rabs x)), (Rltb_spec hy (Rabs y)); cbn; split; auto; try discriminate; tauto.
Qed.
Print Assumptions C38_rectellipse_partial.
(* otherwise the quick test accepts points far outside *)
Theorem C38_rectellipse_refuted : let l := [AE 0 1 9 9 9; AE 1 9 9 9 9] in increasing es l /\
  within_interpolated IRectEllipse l 5 0 0 = Ok true /\ table_value es e1 l 0 1 /\ ~ closed_box 1 9 5 0.
Proof.
  intros l. split. { unfold l. repeat (constructor; [cbn; intros b H; repeat (destruct H as [<-|H]; [cbn; lra|]); contradiction|]). constructor. }
  split; [|split; [exists [], (AE 0 1 9 9 9), (AE 1 9 9 9 9), []; split; auto; exists 0; cbn; lra|unfold closed_box; lra]].
  cbn [within_interpolated]. unfold within_rectellipse. rewrite clamp by lra. unfold l, find_pair, locate. cbn [es]. destruct (Rleb_spec 0 1); [|lra]. cbn [e1 e2 e3 e4 fold_right].
  rewrite !Rmin_left by (repeat apply Rmin_glb; lra). rewrite Rabs_R0, Rabs_right by lra. destruct (Rltb_spec (5 + 0) 9); [reflexivity|lra].
Qed.
Print Assumptions C38_rectellipse_refuted.
(* the interpolated ellipse ignores the vertical half axis *)
Theorem C38_ellipse_partial l x y z a : increasing es l -> (forall e, In e l -> 0 < e1 e) -> 0 <= z -> table_value es e1 l z a -> exists b f r,
  In b l /\ In f l /\ es b <= z <= es f /\ within_interpolated IEllipse l x y z = Ok r /\ (Rabs x + Rabs y < Rmin (e1 b) (e1 f) -> r = true) /\
  (r = true <-> closed_oval a (e1 f) x y).
Proof.
  intros I P Z T. destruct (find_ok _ _ _ _ I T) as (b & f & E & L & Ib & If & B). exists b, f. cbn [within_interpolated]. unfold within_ellipse. rewrite clamp, E by exact Z.
  pose proof (P b Ib). pose proof (P f If). pose proof (between_min _ _ _ _ _ _ B) as M. pose proof (between_range _ _ _ _ _ _ (Rlt_le _ _ L) B).
  assert (0 < a) by (apply Rlt_le_trans with (2 := M); apply Rmin_glb_lt; lra). rewrite (Rmin_comm (e1 f)). destruct (Rltb_spec (Rabs x + Rabs y) (Rmin (e1 b) (e1 f))) as [D|D].
  - exists true. split; auto. split; auto. split; auto. split; auto. split; auto. split; auto. intros _. apply Rlt_le. eapply diamond_oval; [exact D|exact M|apply Rmin_r].
  - destruct (Reqb_spec (e1 f) 0); [lra|]. destruct (Reqb_spec (e1 b) 0); [lra|]. cbn [orb]. rewrite (onto_ok _ _ _ _ _ L B). eexists. split; auto. split; auto. split; auto. split; [reflexivity|]. split; [contradiction|]. apply oval2_iff; lra.
Qed.
Print Assumptions C38_ellipse_partial.
Theorem C38_ellipse_refuted : let l := [AE 0 9 1 0 0; AE 1 9 1 0 0] in increasing es l /\
  within_interpolated IEllipse l 0 5 0 = Ok true /\ table_value es e2 l 0 1 /\ ~ closed_oval 9 1 0 5.
Proof.
  intros l. assert (I : increasing es l). { unfold l. repeat (constructor; [cbn; intros b H; repeat (destruct H as [<-|H]; [cbn; lra|]); contradiction|]). constructor. }
  split; auto. split; [|split; [exists [], (AE 0 9 1 0 0), (AE 1 9 1 0 0), []; split; auto; exists 0; cbn; lra|unfold closed_oval; lra]].
  cbn [within_interpolated]. unfold within_ellipse. rewrite clamp by lra. unfold l, find_pair, locate. cbn [es]. destruct (Rleb_spec 0 1); [|lra]. cbn [e1].
  rewrite Rmin_left by lra. rewrite Rabs_R0, Rabs_right by lra. destruct (Rltb_spec (0 + 5) 9); [reflexivity|lra].
Qed.
Print Assumptions C38_ellipse_refuted.
(* behind the last entry, or with a table of one row *)
Theorem C38_beyond_refuted l x y z : 0 <= z -> (forall e, In e l -> es e < z) ->
  within_interpolated IRectEllipse l x y z = UB /\ within_interpolated IOctagon l x y z = Ok true /\
  within_interpolated ICircle l x y z = (if Nat.ltb (length l) 2 then Ok false else Throw AAbort) /\
  within_interpolated IEllipse l x y z = (if Nat.ltb (length l) 2 then Ok true else Throw AAbort).
Proof. intros Z H. cbn. unfold within_rectellipse, within_octagon, within_circle, within_ellipse. rewrite clamp, find_beyond by auto. auto. Qed.
Print Assumptions C38_beyond_refuted.
(* rectangles cannot be interpolated: the first test ends the program *)
Theorem C38_rectangle_refuted l x y z : within_interpolated IRect l x y z = Throw AExit.
Proof. reflexivity. Qed.
Print Assumptions C38_rectangle_refuted.
