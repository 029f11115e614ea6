(* Closed form of the second-order map of a bend with gradient. *)
From Coq Require Import ZArith Lia.
From Verif Require Import RBase Cov Bunch BunchSpec BunchProofs Optics OpticsSpec OpticsProofs SparseMap SparseMapSpec SparseMapProofs SparseMapProps SympIntSpec BendMap BendMapSpec BendMapProofs.
Local Open Scope R_scope.

Definition regular (h K1 : R) : Prop := h <> 0 /\ K1 <> 0 /\ K1 + h * h <> 0 /\ K1 + h * h + 4 * K1 <> 0.
(* linear part *)
Definition gen1 (h K1 s : R) (x : vec6) : vec6 := match sector_bend 6 s h K1 with Ok M => apply_m 6 M x | _ => x end.
Lemma gen1_form h K1 s x : K1 + h * h <> 0 ->
  let k := K1 + h * h in let C := Cf k s in let S := Sf k s in let E := (1 - C) / k in let c := Cf (- K1) s in let t := Sf (- K1) s in
  gen1 h K1 s x = V6 (C * vx x + S * vxp x + h * E * vdp x) (- k * S * vx x + C * vxp x + h * S * vdp x) (c * vy x + t * vyp x) (K1 * t * vy x + c * vyp x)
                     (- h * S * vx x - h * E * vxp x + vct x - h * h * (s - S) / k * vdp x) (vdp x).
Proof.
  intros NZ. cbn zeta. unfold gen1. destruct (sbr_form 6 s h K1 (or_intror eq_refl)) as (M & E & F). unfold sector_bend. rewrite E.
  assert (V : forall i, (i < 6)%nat -> coord i (apply_m 6 M x) = sum (fun j => bend_form s h K1 i j * coord j x) (seq 0 6)).
  { intros i Hi. rewrite apply_coord by exact Hi. apply Nat.ltb_lt in Hi as Hb. rewrite Hb. apply sum_ext. intros j J. apply in_seq in J. now rewrite F by lia. }
  apply vec6_eq. intros i Hi. rewrite V by exact Hi. unfold bend_form, gh. destruct (Reqb_spec (K1 + h * h) 0); [contradiction|].
  clear - NZ Hi. six i; cbn; field; assumption.
Qed.
(* the second-order coefficients, simplified *)
Section Coefficients.
Variables (h K1 K2 s : R).
Let k := K1 + h * h. Let D := k + 4 * K1. Let q := h * h * h + 2 * K1 * h + K2. Let m := K1 * h + K2. Let j := h * h + k.
Let C := Cf k s. Let S := Sf k s. Let E := (1 - C) / k. Let c := Cf (- K1) s. Let t := Sf (- K1) s.
Definition t111 := - q * (E + S * S) / 3 + k * h * (2 * E - S * S) / 6.
Definition t112 := - 2 * q * E * S / 3 - k * h * E * S / 3.
Definition t116 := j * s * S / 2 - 2 * q * h / k * (s * S / 2 - (E + S * S) / 3) - h * h * (2 * E - S * S) / 3.
Definition t122 := - q * (2 * E - S * S) / (3 * k) + h * (E + S * S) / 6.
Definition t126 := j / (2 * k) * (S - s * C) + h * h * E * S / 3 - 2 * q * h / k * ((S - s * C) / (2 * k) - E * S / 3).
Definition t166 := h * h * h * (2 * E - S * S) / (6 * k) - h * E - q * h * h / (k * k) * (S * S / 3 + 4 * E / 3 - s * S) + h * j / k * (E - s * S / 2).
Definition t133 := K1 * h * E / 2 + K2 * (E + K1 * (t * t - 2 * E) / D).
Definition t134 := 2 * (c * t - S) * K2 / D.
Definition t144 := - h * E / 2 + (t * t - 2 * E) * K2 / D.
Definition t211 := h * k * C * S - q * (1 + 2 * C) * S / 3 + k * k * h * E * S / 3.
Definition t212 := (- 2 * q - k * h) * (2 * (S * S) - E) / 3 + h * C - h * (C * C - k * (S * S)).
Definition t216 := - h * h * S * (C - k * E) - 2 * k * h * h * E * S / 3 + j * (C * s + S) / 2 - 2 * q * h / k * (C * s / 2 + S / 6 - 2 * C * S / 3).
Definition t222 := - 2 * q * E * S / 3 + (1 + 2 * C) * h * S / 6 - h * S * C.
Definition t226 := j * s * S / 2 + h * h * (2 * (S * S) - E) / 3 - 2 * q * h / k * (s * S / 2 - 2 * (S * S) / 3 + E / 3) - h * h * (S * S + E * C).
Definition t266 := j * h / (2 * k) * (S - s * C) - 2 * (h * h * h) * E * S / 3 - h * S - q * h * h / (k * k) * (S / 3 + 2 * C * S / 3 - C * s).
Definition t233 := K1 * h * S / 2 + K2 * (2 * K1 * (c * t - S) / D + S).
Definition t234 := 2 * (2 * K1 * (t * t) + k * E) * K2 / D.
Definition t244 := 2 * (c * t - S) * K2 / D - h * S / 2.
Definition e52 := (1 - C) * c + 2 * K1 * S * t.
Definition e45 := 2 * E * c - S * t.
Definition e56 := 2 * c * S - (1 + C) * t.
Definition e62 := t / k + (- c * S - 2 * K1 * (1 + C) * t / k) / D.
Definition e71 := (k + 2 * K1) * c * S + K1 * (1 + C) * t.
Definition e75 := c * S - C * t + 2 * K1 * E * t.
Definition e78 := - (1 - C) * c + (k + 2 * K1) * S * t.
Definition e85 := c / k + (- C * c - 2 * K1 * (1 + C) * c / k + K1 * S * t) / D.
Definition t313 := 2 * m * e52 / D - k * K1 * h * e45 / D.
Definition t314 := 2 * m * e56 / D - k * h * e62 + h * t.
Definition t323 := 2 * m * e62 + K1 * h * e56 / D.
Definition t324 := 2 * m * e45 / D + h * e52 / D.
Definition t336 := h * h * K1 * e45 / D - K1 * s * t / 2 + 2 * h * m / k * (s * t / 2 - e52 / D).
Definition t346 := h * h * e62 + (t - c * s) / 2 - 2 * h * m / k * (e56 / D + (t - c * s) / (2 * K1)).
Definition t413 := 2 * m * e71 / D - k * K1 * h * e75 / D - C * K1 * t * h.
Definition t414 := 2 * m * e78 / D - k * h * e85 + h * c - C * h * c.
Definition t423 := 2 * m * e85 + K1 * h * e78 / D - K1 * t * h * S.
Definition t424 := 2 * m * e75 / D + h * e71 / D - h * S * c.
Definition t436 := h * h * K1 * e75 / D - K1 * t * h * h * E - K1 * (c * s + t) / 2 + 2 * h * m / k * (c * s / 2 + t / 2 - e71 / D).
Definition t446 := - K1 * s * t / 2 + 2 * h * m / k * (s * t / 2 - e78 / D) + h * h * e85 - h * h * E * c.
(* path length: the coefficients as they are in the source *)
Definition path2 (x : vec6) : R :=
  sum (fun t => let '(a, b, c, u) := t in if Nat.eq_dec a 5 then u * coord (b - 1) x * coord (c - 1) x else 0)
      (gen_bend_second s h K1 K2 C S (h * E) (- k * S) C (h * S) c t (K1 * t) c).
Definition gen2 (x : vec6) : vec6 :=
  V6 (C * vx x + S * vxp x + h * E * vdp x + t111 * (vx x * vx x) + t112 * (vx x * vxp x) + t116 * (vx x * vdp x) + t122 * (vxp x * vxp x) + t126 * (vxp x * vdp x) + t166 * (vdp x * vdp x)
       + t133 * (vy x * vy x) + t134 * (vy x * vyp x) + t144 * (vyp x * vyp x))
     (- k * S * vx x + C * vxp x + h * S * vdp x + t211 * (vx x * vx x) + t212 * (vx x * vxp x) + t216 * (vx x * vdp x) + t222 * (vxp x * vxp x) + t226 * (vxp x * vdp x) + t266 * (vdp x * vdp x)
       + t233 * (vy x * vy x) + t234 * (vy x * vyp x) + t244 * (vyp x * vyp x))
     (c * vy x + t * vyp x + t313 * (vx x * vy x) + t314 * (vx x * vyp x) + t323 * (vxp x * vy x) + t324 * (vxp x * vyp x) + t336 * (vy x * vdp x) + t346 * (vyp x * vdp x))
     (K1 * t * vy x + c * vyp x + t413 * (vx x * vy x) + t414 * (vx x * vyp x) + t423 * (vxp x * vy x) + t424 * (vxp x * vyp x) + t436 * (vy x * vdp x) + t446 * (vyp x * vdp x))
     (- h * S * vx x - h * E * vxp x + vct x - h * h * (s - S) / k * vdp x + path2 x)
     (vdp x).
End Coefficients.
Ltac open_coefs := unfold t111, t112, t116, t122, t126, t166, t133, t134, t144, t211, t212, t216, t222, t226, t266, t233, t234, t244,
  t313, t314, t323, t324, t336, t346, t413, t414, t423, t424, t436, t446, e52, e45, e56, e62, e71, e75, e78, e85.
Lemma bend_form_values s h K1 : K1 + h * h <> 0 -> let k := K1 + h * h in let C := Cf k s in let S := Sf k s in let E := (1 - C) / k in let c := Cf (- K1) s in let t := Sf (- K1) s in
  exists M, sector_bend 6 s h K1 = Ok M /\ M 0%nat 0%nat = C /\ M 0%nat 1%nat = S /\ M 0%nat 5%nat = h * E /\ M 1%nat 0%nat = - k * S /\ M 1%nat 1%nat = C /\ M 1%nat 5%nat = h * S /\
    M 2%nat 2%nat = c /\ M 2%nat 3%nat = t /\ M 3%nat 2%nat = K1 * t /\ M 3%nat 3%nat = c /\ M 4%nat 0%nat = - h * S /\ M 4%nat 1%nat = - h * E /\ M 4%nat 5%nat = - h * h * (s - S) / k.
Proof.
  intros NZ. cbn zeta. destruct (sbr_form 6 s h K1 (or_intror eq_refl)) as (M & E & F). exists M. split; [exact E|].
  rewrite !F by lia. unfold bend_form, gh. destruct (Reqb_spec (K1 + h * h) 0); [contradiction|]. cbn. unfold Rdiv. repeat split; ring.
Qed.
Lemma gen_second_eq s h K1 K2 : regular h K1 -> let k := K1 + h * h in let C := Cf k s in let S := Sf k s in let E := (1 - C) / k in let c := Cf (- K1) s in let t := Sf (- K1) s in
  exists rest, gen_bend_second s h K1 K2 C S (h * E) (- k * S) C (h * S) c t (K1 * t) c = [(1%nat, 1%nat, 1%nat, t111 h K1 K2 s); (1%nat, 1%nat, 2%nat, t112 h K1 K2 s); (1%nat, 1%nat, 6%nat, t116 h K1 K2 s); (1%nat, 2%nat, 2%nat, t122 h K1 K2 s); (1%nat, 2%nat, 6%nat, t126 h K1 K2 s); (1%nat, 6%nat, 6%nat, t166 h K1 K2 s); (1%nat, 3%nat, 3%nat, t133 h K1 K2 s); (1%nat, 3%nat, 4%nat, t134 h K1 K2 s); (1%nat, 4%nat, 4%nat, t144 h K1 K2 s); (2%nat, 1%nat, 1%nat, t211 h K1 K2 s); (2%nat, 1%nat, 2%nat, t212 h K1 K2 s); (2%nat, 1%nat, 6%nat, t216 h K1 K2 s); (2%nat, 2%nat, 2%nat, t222 h K1 K2 s); (2%nat, 2%nat, 6%nat, t226 h K1 K2 s); (2%nat, 6%nat, 6%nat, t266 h K1 K2 s); (2%nat, 3%nat, 3%nat, t233 h K1 K2 s); (2%nat, 3%nat, 4%nat, t234 h K1 K2 s); (2%nat, 4%nat, 4%nat, t244 h K1 K2 s); (3%nat, 1%nat, 3%nat, t313 h K1 K2 s); (3%nat, 1%nat, 4%nat, t314 h K1 K2 s); (3%nat, 2%nat, 3%nat, t323 h K1 K2 s); (3%nat, 2%nat, 4%nat, t324 h K1 K2 s); (3%nat, 3%nat, 6%nat, t336 h K1 K2 s); (3%nat, 4%nat, 6%nat, t346 h K1 K2 s); (4%nat, 1%nat, 3%nat, t413 h K1 K2 s); (4%nat, 1%nat, 4%nat, t414 h K1 K2 s); (4%nat, 2%nat, 3%nat, t423 h K1 K2 s); (4%nat, 2%nat, 4%nat, t424 h K1 K2 s); (4%nat, 3%nat, 6%nat, t436 h K1 K2 s); (4%nat, 4%nat, 6%nat, t446 h K1 K2 s)] ++ rest /\
    Forall (fun z => let '(a, _, _, _) := z in a = 5%nat) rest.
Proof.
  intros (H1 & H2 & H3 & H4). cbn zeta. assert (H5 : - K1 <> 0) by lra. assert (H6 : K1 + h * h + -4 * - K1 <> 0) by (intros X; apply H4; lra).
  eexists. unfold gen_bend_second. cbn zeta. split.
  - cbn [app]. repeat (apply f_equal2; [apply f_equal; open_coefs; generalize (Cf (K1 + h * h) s) (Sf (K1 + h * h) s) (Cf (- K1) s) (Sf (- K1) s); intros; field; repeat split; auto; lra|]). reflexivity.
  - repeat constructor.
Qed.
Lemma gen_tm_ok w s h K1 K2 p : regular h K1 -> exists m, gen_bend_tm w s h K1 K2 = Ok m /\ rt_apply m p = Ok (mkP (gen2 h K1 K2 s (pv p)) (pid p)).
Proof.
  intros (H1 & H2 & H3 & H4). unfold gen_bend_tm. destruct (bend_form_values s h K1 H3) as (M & EM & V). cbn zeta in V. rewrite EM. cbn [bind].
  destruct (Reqb_spec h 0); [contradiction|]. destruct (Reqb_spec K1 0); [contradiction|]. destruct (Reqb_spec (K1 + h * h) 0); [contradiction|]. destruct (Reqb_spec (K1 + h * h + 4 * K1) 0); [contradiction|]. cbn [orb].
  destruct V as (-> & -> & -> & -> & -> & -> & -> & -> & -> & -> & -> & -> & ->).
  apply rt_result; [numbers|unfold gen_bend_second; numbers|]. intros i Hi. destruct i as [|i]; [lia|]. assert (Hi' : (i < 6)%nat) by lia.
  destruct (Nat.eq_dec i 4) as [->|N4].
  - change (coord (5 - 1) (gen2 h K1 K2 s (pv p))) with (vct (gen2 h K1 K2 s (pv p))). unfold gen2. cbn [vct].
    match goal with |- _ = ?A + ?B => change B with (path2 h K1 K2 s (pv p)) end. generalize (path2 h K1 K2 s (pv p)) (Cf (K1 + h * h) s) (Sf (K1 + h * h) s) (Cf (- K1) s) (Sf (- K1) s). generalize (K1 + h * h). clear. intros. lazy -[Rplus Rmult Ropp Rinv Rdiv Rminus IZR vx vxp vy vyp vct vdp pv]. unfold Rdiv. ring.
  - destruct (gen_second_eq s h K1 K2) as (rest & -> & F5); [repeat split; assumption|]. rewrite sum_app.
    rewrite (sum_ext _ (fun _ => 0) rest).
    + rewrite sum_const, Rmult_0_r. unfold gen2. cbn zeta. generalize (t111 h K1 K2 s) (t112 h K1 K2 s) (t116 h K1 K2 s) (t122 h K1 K2 s) (t126 h K1 K2 s) (t166 h K1 K2 s) (t133 h K1 K2 s) (t134 h K1 K2 s) (t144 h K1 K2 s) (t211 h K1 K2 s) (t212 h K1 K2 s) (t216 h K1 K2 s) (t222 h K1 K2 s) (t226 h K1 K2 s) (t266 h K1 K2 s) (t233 h K1 K2 s) (t234 h K1 K2 s) (t244 h K1 K2 s) (t313 h K1 K2 s) (t314 h K1 K2 s) (t323 h K1 K2 s) (t324 h K1 K2 s) (t336 h K1 K2 s) (t346 h K1 K2 s) (t413 h K1 K2 s) (t414 h K1 K2 s) (t423 h K1 K2 s) (t424 h K1 K2 s) (t436 h K1 K2 s) (t446 h K1 K2 s) (Cf (K1 + h * h) s) (Sf (K1 + h * h) s) (Cf (- K1) s) (Sf (- K1) s) (path2 h K1 K2 s (pv p)). generalize (K1 + h * h). clear - Hi' N4. intros.
      six i; try contradiction; lazy -[Rplus Rmult Ropp Rinv Rdiv Rminus IZR INR vx vxp vy vyp vct vdp pv]; cbn [vx vxp vy vyp vct vdp]; ring.
    + intros [[[a b] c'] u] I. rewrite Forall_forall in F5. specialize (F5 _ I). cbn in F5. destruct (Nat.eq_dec a (S i)); [lia|reflexivity].
Qed.
