(* Bunches made from distributions.  Properties C359-C370. *)
From Verif Require Import RBase Base Optics Bunch BeamMat Distr DistrSpec.
From Coq Require Import ZArith List Lia Lra.
Import ListNotations.
Local Open Scope R_scope.

Lemma place_form t v : uncoupled t -> possible t -> exists s, place t v = Ok s /\
  vx s = sqrt (emit_x t) * (sqrt (beta_x t) * vx v) + Dx t * vdp s /\ vxp s = sqrt (emit_x t) * ((vxp v - alpha_x t * vx v) / sqrt (beta_x t)) + Dxp t * vdp s /\
  vy s = sqrt (emit_y t) * (sqrt (beta_y t) * vy v) + Dy t * vdp s /\ vyp s = sqrt (emit_y t) * ((vyp v - alpha_y t * vy v) / sqrt (beta_y t)) + Dyp t * vdp s /\
  vct s = sqrt (sig_z t) * vct v /\ vdp s = sqrt (sig_dp t) * vdp v.
Proof.
  intros (C1 & C2 & C3 & C4) (BX & BY & EX & EY & SD & SZ). unfold place, scale. rewrite !Rltb_false by lra. cbn [orb bind]. unfold normal_transform. rewrite !Rltb_true by lra. cbn [andb]. eexists. split; [reflexivity|].
  pose proof (sqrt_lt_R0 _ BX) as QX. pose proof (sqrt_lt_R0 _ BY) as QY. rewrite C1, C2, C3, C4. unfold coupling. rewrite Reqb_true by lra.
  unfold matvec. cbn [vx vxp vy vyp vct vdp]. unfold mmul, dispersion, beta_matrix, alpha_matrix, mset, mid. cbn [msum Nat.eqb andb coord vx vxp vy vyp vct vdp].
  repeat split; try ring; field; lra.
Qed.
Lemma made_from w g t f np dfuel : forall fuel i k l, build w g t f np i k dfuel fuel = Ok l ->
  forall p, In p l -> exists k v k' s, draw w g dfuel k = Ok (v, k') /\ place t v = Ok s /\ pv p = vadd s (first_vec t) /\ accepts f (pv p) = Ok true.
Proof.
  induction fuel as [|fuel IH]; intros i k l H p P; cbn [build] in H; destruct (Nat.leb np i); try (injection H as <-; contradiction); try discriminate.
  destruct (draw w g dfuel k) as [[v k']| |] eqn:D; cbn [bind fst snd] in H; try discriminate. destruct (place t v) as [s| |] eqn:S; cbn [bind] in H; try discriminate. destruct (accepts f _) as [[|]| |] eqn:A; cbn [bind] in H; try discriminate; [|eauto].
  destruct (build w g t f np (Datatypes.S i) k' dfuel fuel) as [l'| |] eqn:B; cbn [bind] in H; try discriminate. injection H as <-. destruct P as [<-|P]; [|eauto]. exists k, v, k', s. cbn [pv]. auto.
Qed.
(* a particle of a bunch other than the first comes from a vector of the distribution *)
Lemma particle w g t f np dfuel fuel l q p : uncoupled t -> possible t -> make_bunch w g t f np dfuel fuel = Ok (l, q) -> In p (tl l) ->
  exists k v k', draw w g dfuel k = Ok (v, k') /\ accepts f (pv p) = Ok true /\
    px t (pv p) = sqrt (emit_x t) * (sqrt (beta_x t) * vx v) /\ pxp t (pv p) = sqrt (emit_x t) * ((vxp v - alpha_x t * vx v) / sqrt (beta_x t)) /\
    py t (pv p) = sqrt (emit_y t) * (sqrt (beta_y t) * vy v) /\ pyp t (pv p) = sqrt (emit_y t) * ((vyp v - alpha_y t * vy v) / sqrt (beta_y t)) /\
    vct (pv p) = ct0 t + sqrt (sig_z t) * vct v /\ vdp (pv p) = sqrt (sig_dp t) * vdp v.
Proof.
  intros U P H I. unfold make_bunch in H. destruct (Rltb 0 (p0 t)); try discriminate. destruct (build w g t f np 1 0 dfuel fuel) as [l'| |] eqn:B; cbn [bind] in H; try discriminate. injection H as <- _. cbn [tl] in I.
  destruct (made_from _ _ _ _ _ _ _ _ _ _ B _ I) as (k & v & k' & s & D & S & E & A). destruct (place_form t v U P) as (s' & S' & X & XP & Y & YP & CT & DP). rewrite S in S'. injection S' as <-.
  exists k, v, k'. split; [exact D|]. split; [exact A|]. unfold px, pxp, py, pyp. rewrite E. unfold vadd, vmap2, first_vec. cbn [vx vxp vy vyp vct vdp]. rewrite X, XP, Y, YP, CT. rewrite DP. repeat split; ring.
Qed.
Lemma inv_form e b a x xp : 0 <= e -> 0 < b -> invariant b a (sqrt e * (sqrt b * x)) (sqrt e * ((xp - a * x) / sqrt b)) = e * (x * x + xp * xp).
Proof.
  intros E B. pose proof (sqrt_lt_R0 _ B) as Q. pose proof (sqrt_sqrt e E) as QE. pose proof (sqrt_sqrt b ltac:(lra)) as QB. unfold invariant.
  set (r := sqrt b) in *. set (s := sqrt e) in *. rewrite <- QE, <- QB. field. lra.
Qed.
Ltac drawn H := repeat match type of H with
  | bind ?e _ = _ => let E := fresh "E" in let a := fresh "a" in let k := fresh "k" in destruct e as [[a k]| |] eqn:E; cbn [bind fst snd] in H; [|discriminate|discriminate]
  end; injection H as <- <-.
Lemma circle u s : cos u * s * (cos u * s) + sin u * s * (sin u * s) = s * s.
Proof. pose proof (sin2_cos2 u) as K. unfold Rsqr in K. transitivity ((sin u * sin u + cos u * cos u) * (s * s)); [ring|rewrite K; ring]. Qed.

(** ** C359: in a ring distribution every particle has the emittances of the beam as
    invariants *)
Theorem C359_ring w t f np dfuel fuel l q p : uncoupled t -> possible t -> make_bunch w Ring t f np dfuel fuel = Ok (l, q) -> In p (tl l) ->
  inv_x t (pv p) = emit_x t /\ inv_y t (pv p) = emit_y t.
Proof.
  intros U P H I. destruct (particle _ _ _ _ _ _ _ _ _ _ U P H I) as (k & v & k' & D & _ & X & XP & Y & YP & _). unfold inv_x, inv_y. rewrite X, XP, Y, YP. destruct P as (BX & BY & EX & EY & _). rewrite !inv_form by assumption.
  cbn [draw] in D. drawn D. cbn [vx vxp vy vyp]. pose proof (sin2_cos2 a) as K1. pose proof (sin2_cos2 a0) as K2. unfold Rsqr in K1, K2. split; [transitivity (emit_x t * (sin a * sin a + cos a * cos a)); [ring|rewrite K1; ring]|transitivity (emit_y t * (sin a0 * sin a0 + cos a0 * cos a0)); [ring|rewrite K2; ring]].
Qed.
Print Assumptions C359_ring.

(** ** C360: a halo in one plane has the given amplitude there; the other plane is empty or
    within the cutoffs *)
Lemma reject_bound w c fuel : forall k x k', reject w c fuel k = Ok (x, k') -> Rabs x <= Rabs c /\ exists n, (k + n < k')%nat /\ k' = (k + n + 1)%nat /\ x = gs w (k + n) /\ forall m, (m < n)%nat -> Rabs c < Rabs (gs w (k + m)).
Proof.
  induction fuel as [|fuel IH]; intros k x k' H; cbn [reject] in H; [discriminate|]. destruct (Rltb_spec (Rabs c) (Rabs (gs w k))) as [L|L].
  - destruct (IH _ _ _ H) as (B & n & N & E & X & M). split; [exact B|]. exists (S n). split; [lia|]. split; [lia|]. split; [rewrite X; f_equal; lia|]. intros [|m] LM; [now rewrite PeanoNat.Nat.add_0_r|]. replace (k + S m)%nat with (S k + m)%nat by lia. apply M. lia.
  - injection H as <- <-. split; [lra|]. exists O. rewrite PeanoNat.Nat.add_0_r. split; [lia|]. split; [lia|]. split; [reflexivity|intros; lia].
Qed.
Lemma gauss_bound w c fuel k x k' : gauss w c fuel k = Ok (x, k') -> c <> 0 -> Rabs x <= Rabs c.
Proof. unfold gauss. intros H N. rewrite Reqb_false in H by exact N. eapply reject_bound; eauto. Qed.
Theorem C360_horizontal w s t f np dfuel fuel l q p : uncoupled t -> possible t -> make_bunch w (HorizontalHalo1 s) t f np dfuel fuel = Ok (l, q) -> In p (tl l) ->
  inv_x t (pv p) = s * s * emit_x t /\ py t (pv p) = 0 /\ pyp t (pv p) = 0.
Proof.
  intros U P H I. destruct (particle _ _ _ _ _ _ _ _ _ _ U P H I) as (k & v & k' & D & _ & X & XP & Y & YP & _). unfold inv_x. rewrite X, XP, Y, YP. destruct P as (BX & BY & EX & EY & _). rewrite inv_form by assumption. pose proof (sqrt_lt_R0 _ BY) as QY.
  cbn [draw] in D. drawn D. cbn [vx vxp vy vyp]. split; [rewrite circle; ring|split; [ring|field; lra]].
Qed.
Print Assumptions C360_horizontal.
Theorem C360_vertical w s t f np dfuel fuel l q p : uncoupled t -> possible t -> make_bunch w (VerticalHalo1 s) t f np dfuel fuel = Ok (l, q) -> In p (tl l) ->
  inv_y t (pv p) = s * s * emit_y t /\ px t (pv p) = 0 /\ pxp t (pv p) = 0.
Proof.
  intros U P H I. destruct (particle _ _ _ _ _ _ _ _ _ _ U P H I) as (k & v & k' & D & _ & X & XP & Y & YP & _). unfold inv_y. rewrite X, XP, Y, YP. destruct P as (BX & BY & EX & EY & _). rewrite inv_form by assumption. pose proof (sqrt_lt_R0 _ BX) as QX.
  cbn [draw] in D. drawn D. cbn [vx vxp vy vyp]. split; [rewrite circle; ring|split; [ring|field; lra]].
Qed.
Print Assumptions C360_vertical.
Lemma cut_sq x c : Rabs x <= Rabs c -> x * x <= c * c.
Proof. intros H. apply Rsqr_le_abs_1 in H. unfold Rsqr in H. exact H. Qed.
Theorem C360_horizontal_cut w s c t f np dfuel fuel l q p : uncoupled t -> possible t -> make_bunch w (HorizontalHalo2 s c) t f np dfuel fuel = Ok (l, q) -> In p (tl l) -> vy c <> 0 -> vyp c <> 0 ->
  inv_x t (pv p) = s * s * emit_x t /\ inv_y t (pv p) <= (vy c * vy c + vyp c * vyp c) * emit_y t.
Proof.
  intros U P H I CY CYP. destruct (particle _ _ _ _ _ _ _ _ _ _ U P H I) as (k & v & k' & D & _ & X & XP & Y & YP & _). unfold inv_x, inv_y. rewrite X, XP, Y, YP. destruct P as (BX & BY & EX & EY & _). rewrite !inv_form by assumption.
  cbn [draw] in D. drawn D. cbn [vx vxp vy vyp]. split; [rewrite circle; ring|]. rewrite Rmult_comm. apply Rmult_le_compat_r; [lra|].
  match goal with A : gauss w (vy c) _ _ = _, B : gauss w (vyp c) _ _ = _ |- _ => pose proof (cut_sq _ _ (gauss_bound _ _ _ _ _ _ A CY)); pose proof (cut_sq _ _ (gauss_bound _ _ _ _ _ _ B CYP)) end. lra.
Qed.
Print Assumptions C360_horizontal_cut.
Theorem C360_vertical_cut w s c t f np dfuel fuel l q p : uncoupled t -> possible t -> make_bunch w (VerticalHalo2 s c) t f np dfuel fuel = Ok (l, q) -> In p (tl l) -> vx c <> 0 -> vxp c <> 0 ->
  inv_y t (pv p) = s * s * emit_y t /\ inv_x t (pv p) <= (vx c * vx c + vxp c * vxp c) * emit_x t.
Proof.
  intros U P H I CY CYP. destruct (particle _ _ _ _ _ _ _ _ _ _ U P H I) as (k & v & k' & D & _ & X & XP & Y & YP & _). unfold inv_x, inv_y. rewrite X, XP, Y, YP. destruct P as (BX & BY & EX & EY & _). rewrite !inv_form by assumption.
  cbn [draw] in D. drawn D. cbn [vx vxp vy vyp]. split; [rewrite circle; ring|]. rewrite Rmult_comm. apply Rmult_le_compat_r; [lra|].
  match goal with A : gauss w (vx c) _ _ = _, B : gauss w (vxp c) _ _ = _ |- _ => pose proof (cut_sq _ _ (gauss_bound _ _ _ _ _ _ A CY)); pose proof (cut_sq _ _ (gauss_bound _ _ _ _ _ _ B CYP)) end. lra.
Qed.
Print Assumptions C360_vertical_cut.

(** ** C361: the halo for a hollow lens lies on a circle, or in an annulus, of the given radii in
    units of the beam sizes *)
Definition unit_source (w : source) : Prop := forall k, 0 <= us w k < 1.
Lemma hel_radius t p u r : possible t -> 0 < emit_x t -> 0 < emit_y t -> px t p = sqrt (emit_x t) * (sqrt (beta_x t) * (cos u * r)) -> py t p = sqrt (emit_y t) * (sqrt (beta_y t) * (sin u * r)) -> radius2 t p = r * r.
Proof.
  intros (BX & BY & _) EX EY X Y. unfold radius2. rewrite X, Y. pose proof (sqrt_sqrt _ (Rlt_le _ _ EX)) as Q1. pose proof (sqrt_sqrt _ (Rlt_le _ _ EY)) as Q2. pose proof (sqrt_sqrt _ (Rlt_le _ _ BX)) as Q3. pose proof (sqrt_sqrt _ (Rlt_le _ _ BY)) as Q4.
  pose proof (sqrt_lt_R0 _ BX). pose proof (sqrt_lt_R0 _ BY). pose proof (sqrt_lt_R0 _ EX). pose proof (sqrt_lt_R0 _ EY).
  set (a := sqrt (emit_x t)) in *. set (b := sqrt (emit_y t)) in *. set (c := sqrt (beta_x t)) in *. set (d := sqrt (beta_y t)) in *. rewrite <- Q1, <- Q2, <- Q3, <- Q4. rewrite <- (circle u r). field. lra.
Qed.
Theorem C361_thin w a b t f np dfuel fuel l q p : uncoupled t -> possible t -> 0 < emit_x t -> 0 < emit_y t -> make_bunch w (ThinHEL a b) t f np dfuel fuel = Ok (l, q) -> In p (tl l) -> radius2 t (pv p) = b * b.
Proof.
  intros U P EX EY H I. destruct (particle _ _ _ _ _ _ _ _ _ _ U P H I) as (k & v & k' & D & _ & X & XP & Y & YP & _). cbn [draw] in D. drawn D. cbn [vx vy] in X, Y. eapply hel_radius; eauto.
Qed.
Print Assumptions C361_thin.
Theorem C361_thick w a b t f np dfuel fuel l q p : uncoupled t -> possible t -> 0 < emit_x t -> 0 < emit_y t -> unit_source w -> 0 <= a -> make_bunch w (ThickHEL a b) t f np dfuel fuel = Ok (l, q) -> In p (tl l) ->
  a * a <= radius2 t (pv p) <= b * b.
Proof.
  intros U P EX EY W A H I. destruct (particle _ _ _ _ _ _ _ _ _ _ U P H I) as (k & v & k' & D & _ & X & XP & Y & YP & _). cbn [draw] in D. drawn D. cbn [vx vy] in X, Y.
  match goal with R : uniform w a b _ = Ok (?r, _) |- _ => assert (B : a <= r <= b); [|rewrite (hel_radius _ _ _ r P EX EY X Y)] end.
  - match goal with R : uniform w a b ?k = _ |- _ => unfold uniform in R; destruct (Rltb_spec b a) as [L|L]; [discriminate|]; injection R as <- _; pose proof (W k) as K end.
    match goal with |- _ <= _ + (b - a) * ?x <= _ => assert (0 <= (b - a) * x <= b - a); [|lra] end. split; [apply Rmult_le_pos; lra|]. match goal with |- (b - a) * ?x <= _ => rewrite <- (Rmult_1_r (b - a)) at 2; apply Rmult_le_compat_l; lra end.
  - split; apply Rmult_le_compat; lra.
Qed.
Print Assumptions C361_thick.

(** ** C362: the particles of this halo have no angle.  Refuted: only where alpha vanishes *)
Theorem C362_refuted w a b t f np dfuel fuel l q p : uncoupled t -> possible t -> make_bunch w (ThinHEL a b) t f np dfuel fuel = Ok (l, q) -> In p (tl l) ->
  pxp t (pv p) = - (alpha_x t / beta_x t) * px t (pv p) /\ pyp t (pv p) = - (alpha_y t / beta_y t) * py t (pv p).
Proof.
  intros U P H I. destruct (particle _ _ _ _ _ _ _ _ _ _ U P H I) as (k & v & k' & D & _ & X & XP & Y & YP & _). rewrite X, XP, Y, YP. destruct P as (BX & BY & _). cbn [draw] in D. drawn D. cbn [vx vxp vy vyp].
  pose proof (sqrt_lt_R0 _ BX) as QX. pose proof (sqrt_lt_R0 _ BY) as QY. pose proof (sqrt_sqrt _ (Rlt_le _ _ BX)) as Q1. pose proof (sqrt_sqrt _ (Rlt_le _ _ BY)) as Q2.
  set (c := sqrt (beta_x t)) in *. set (d := sqrt (beta_y t)) in *. rewrite <- Q1, <- Q2. split; field; lra.
Qed.
Print Assumptions C362_refuted.

(** ** C363: a normal distribution with cutoffs keeps every coordinate within them: positions
    within the multiple of the beam size, invariants accordingly *)
Theorem C363_cutoffs w c t f np dfuel fuel l q p : uncoupled t -> possible t -> make_bunch w (Normal c) t f np dfuel fuel = Ok (l, q) -> In p (tl l) ->
  vx c <> 0 -> vxp c <> 0 -> vy c <> 0 -> vyp c <> 0 -> vct c <> 0 -> vdp c <> 0 ->
  Rabs (px t (pv p)) <= Rabs (vx c) * sigma_x t /\ Rabs (py t (pv p)) <= Rabs (vy c) * sigma_y t /\
  inv_x t (pv p) <= (vx c * vx c + vxp c * vxp c) * emit_x t /\ inv_y t (pv p) <= (vy c * vy c + vyp c * vyp c) * emit_y t /\
  Rabs (vct (pv p) - ct0 t) <= Rabs (vct c) * sqrt (sig_z t) /\ Rabs (vdp (pv p)) <= Rabs (vdp c) * sqrt (sig_dp t).
Proof.
  intros U P H I N1 N2 N3 N4 N5 N6. destruct (particle _ _ _ _ _ _ _ _ _ _ U P H I) as (k & v & k' & D & _ & X & XP & Y & YP & CT & DP). unfold inv_x, inv_y. rewrite X, XP, Y, YP, CT, DP. destruct P as (BX & BY & EX & EY & SD & SZ). rewrite !inv_form by assumption.
  cbn [draw] in D. drawn D. cbn [vx vxp vy vyp vct vdp].
  match goal with A1 : gauss w (vx c) _ _ = _, A2 : gauss w (vxp c) _ _ = _, A3 : gauss w (vy c) _ _ = _, A4 : gauss w (vyp c) _ _ = _, A5 : gauss w (vct c) _ _ = _, A6 : gauss w (vdp c) _ _ = _ |- _ =>
    pose proof (gauss_bound _ _ _ _ _ _ A1 N1) as G1; pose proof (gauss_bound _ _ _ _ _ _ A2 N2) as G2; pose proof (gauss_bound _ _ _ _ _ _ A3 N3) as G3; pose proof (gauss_bound _ _ _ _ _ _ A4 N4) as G4; pose proof (gauss_bound _ _ _ _ _ _ A5 N5) as G5; pose proof (gauss_bound _ _ _ _ _ _ A6 N6) as G6 end.
  assert (M : forall e b x c, 0 <= e -> 0 < b -> Rabs x <= Rabs c -> Rabs (sqrt e * (sqrt b * x)) <= Rabs c * sqrt (e * b)).
  { intros e b x c0 EE B G. rewrite sqrt_mult by lra. rewrite <- Rmult_assoc, Rabs_mult, (Rabs_pos_eq (sqrt e * sqrt b)) by (apply Rmult_le_pos; apply sqrt_pos). rewrite Rmult_comm. apply Rmult_le_compat_r; [apply Rmult_le_pos; apply sqrt_pos|exact G]. }
  assert (M1 : forall s x c, Rabs x <= Rabs c -> Rabs (sqrt s * x) <= Rabs c * sqrt s).
  { intros s x c0 G. rewrite Rabs_mult, (Rabs_pos_eq (sqrt s)) by apply sqrt_pos. rewrite Rmult_comm. apply Rmult_le_compat_r; [apply sqrt_pos|exact G]. }
  split; [apply M; auto|]. split; [apply M; auto|]. apply cut_sq in G1, G2, G3, G4. split; [rewrite Rmult_comm; apply Rmult_le_compat_r; lra|]. split; [rewrite Rmult_comm; apply Rmult_le_compat_r; lra|].
  split; [|apply M1; exact G6]. match goal with |- Rabs (ct0 t + ?z - ct0 t) <= _ => replace (ct0 t + z - ct0 t) with z by ring end. apply M1; exact G5.
Qed.
Print Assumptions C363_cutoffs.
(* the cutoff draws the first number within it, and goes on when there is none *)
Theorem C363_first w c fuel k n : c <> 0 -> (n < fuel)%nat -> Rabs (gs w (k + n)) <= Rabs c -> (forall m, (m < n)%nat -> Rabs c < Rabs (gs w (k + m))) -> gauss w c fuel k = Ok (gs w (k + n), (k + n + 1)%nat).
Proof.
  intros N L B M. unfold gauss. rewrite Reqb_false by exact N. revert k n L B M. induction fuel as [|fuel IH]; intros k n L B M; [lia|]. cbn [reject]. destruct n as [|n].
  - rewrite PeanoNat.Nat.add_0_r in *. rewrite Rltb_false by exact B. do 2 f_equal. lia.
  - pose proof (M O ltac:(lia)) as M0. rewrite PeanoNat.Nat.add_0_r in M0. rewrite (Rltb_true _ _ M0). replace (k + S n)%nat with (S k + n)%nat in * by lia. rewrite (IH (S k) n); [reflexivity|lia|exact B|]. intros m LM. replace (S k + m)%nat with (k + S m)%nat by lia. apply M. lia.
Qed.
Print Assumptions C363_first.

(** ** C364: the momentum deviations and the length of a normal bunch have the spreads of the
    beam.  Refuted: their roots *)
Theorem C364_refuted w t np dfuel fuel l q p : uncoupled t -> possible t -> make_bunch w (Normal vzero) t NoFilter np dfuel fuel = Ok (l, q) -> In p (tl l) ->
  exists k, vdp (pv p) = sqrt (sig_dp t) * gs w (k + 4) /\ vct (pv p) - ct0 t = sqrt (sig_z t) * gs w (k + 5).
Proof.
  intros U P H I. destruct (particle _ _ _ _ _ _ _ _ _ _ U P H I) as (k & v & k' & D & _ & _ & _ & _ & _ & CT & DP). rewrite CT, DP. exists k. cbn [draw] in D. unfold gauss, vzero in D. cbn [vx vxp vy vyp vct vdp] in D. rewrite (Reqb_true 0 0 eq_refl) in D. cbn [bind fst snd] in D. injection D as <- _. cbn [vct vdp].
  replace (k + 4)%nat with (S (S (S (S k)))) by lia. replace (k + 5)%nat with (S (S (S (S (S k))))) by lia. split; ring.
Qed.
Print Assumptions C364_refuted.
(* so that a spread of a ten-thousandth becomes one of a hundredth *)
Example C364_example : sqrt (/ 10 ^ 4) = / 100.
Proof. replace (/ 10 ^ 4) with (/ 100 * / 100) by lra. apply sqrt_square. lra. Qed.

(** ** C365: a uniform distribution fills the box of the beam sizes *)
Theorem C365_uniform w t f np dfuel fuel l q p : uncoupled t -> possible t -> unit_source w -> make_bunch w Uniform t f np dfuel fuel = Ok (l, q) -> In p (tl l) ->
  Rabs (px t (pv p)) <= sigma_x t /\ Rabs (py t (pv p)) <= sigma_y t /\ inv_x t (pv p) <= 2 * emit_x t /\ inv_y t (pv p) <= 2 * emit_y t /\ Rabs (vct (pv p) - ct0 t) <= sqrt (sig_z t) /\ Rabs (vdp (pv p)) <= sqrt (sig_dp t).
Proof.
  intros U P W H I. destruct (particle _ _ _ _ _ _ _ _ _ _ U P H I) as (k & v & k' & D & _ & X & XP & Y & YP & CT & DP). unfold inv_x, inv_y. rewrite X, XP, Y, YP, CT, DP. destruct P as (BX & BY & EX & EY & SD & SZ). rewrite !inv_form by assumption.
  assert (UB1 : forall k x k', uniform w (-1) 1 k = Ok (x, k') -> Rabs x <= Rabs 1). { intros j x j' E. unfold uniform in E. rewrite Rltb_false in E by lra. injection E as <- _. pose proof (W j). rewrite (Rabs_pos_eq 1) by lra. apply Rabs_le. lra. }
  cbn [draw] in D. drawn D. cbn [vx vxp vy vyp vct vdp]. repeat match goal with A : uniform w (-1) 1 _ = Ok _ |- _ => apply UB1 in A end.
  assert (M : forall e b x, 0 <= e -> 0 < b -> Rabs x <= Rabs 1 -> Rabs (sqrt e * (sqrt b * x)) <= sqrt (e * b)).
  { intros e b x EE B G. rewrite sqrt_mult by lra. rewrite <- Rmult_assoc, Rabs_mult, (Rabs_pos_eq (sqrt e * sqrt b)) by (apply Rmult_le_pos; apply sqrt_pos). rewrite <- (Rmult_1_r (sqrt e * sqrt b)) at 2. rewrite (Rabs_pos_eq 1) in G by lra. apply Rmult_le_compat_l; [apply Rmult_le_pos; apply sqrt_pos|exact G]. }
  assert (M1 : forall s x, Rabs x <= Rabs 1 -> Rabs (sqrt s * x) <= sqrt s).
  { intros s x G. rewrite Rabs_mult, (Rabs_pos_eq (sqrt s)) by apply sqrt_pos. rewrite <- (Rmult_1_r (sqrt s)) at 2. rewrite (Rabs_pos_eq 1) in G by lra. apply Rmult_le_compat_l; [apply sqrt_pos|exact G]. }
  split; [apply M; auto|]. split; [apply M; auto|]. split; [|split; [|split]].
  - repeat match goal with A : Rabs ?x <= Rabs 1 |- _ => apply cut_sq in A end. rewrite (Rmult_comm 2). apply Rmult_le_compat_l; lra.
  - repeat match goal with A : Rabs ?x <= Rabs 1 |- _ => apply cut_sq in A end. rewrite (Rmult_comm 2). apply Rmult_le_compat_l; lra.
  - match goal with |- Rabs (ct0 t + ?z - ct0 t) <= _ => replace (ct0 t + z - ct0 t) with z by ring end. apply M1; auto.
  - apply M1; auto.
Qed.
Print Assumptions C365_uniform.

(** ** C366: a horizontal halo filter takes the particles beyond the limit from the orbit.
    Refuted for those without angle or at the axis; the others are taken rightly *)
Theorem C366_horizontal v l o : vx v <> 0 -> vxp v <> 0 -> (0 <= l -> accepts (Horizontal (Some l) (Some o)) v = Ok true <-> l < Rabs (vx v - o)) /\ exists b, accepts (Horizontal (Some l) (Some o)) v = Ok b.
Proof.
  intros N1 N2. split; [|cbn [accepts]; eauto]. intros L. cbn [accepts]. rewrite !Reqb_false by assumption. cbn [negb andb]. rewrite Bool.andb_true_r. unfold Rabs. destruct (Rcase_abs (vx v - o)) as [A|A], (Rltb_spec (o + l) (vx v)) as [B|B], (Rltb_spec (vx v) (o - l)) as [C|C]; cbn [orb]; split; intros E; try reflexivity; try discriminate; try lra; exfalso; try lra.
Qed.
Print Assumptions C366_horizontal.
Theorem C366_refuted v l o : vx v = 0 \/ vxp v = 0 -> accepts (Horizontal (Some l) (Some o)) v = Ok false.
Proof. intros [E|E]; cbn [accepts]; rewrite (Reqb_true _ _ E); cbn [negb andb]; now rewrite ?Bool.andb_false_r. Qed.
Print Assumptions C366_refuted.
Theorem C366_vertical v l : accepts (Vertical (Some l)) v = Ok true <-> l < Rabs (vy v).
Proof. cbn [accepts]. destruct (Rltb_spec l (Rabs (vy v))) as [A|A]; split; intros E; auto; try discriminate; lra. Qed.
Print Assumptions C366_vertical.

(** ** C367: construction with a filter which many particles would pass ends.  Refuted: a halo for
    a hollow lens at a symmetry point never passes the horizontal filter, whatever the limit *)
Theorem C367_refuted w a b t l o np dfuel : uncoupled t -> possible t -> alpha_x t = 0 -> Dxp t = 0 -> xp0 t = 0 -> 0 < p0 t -> (2 <= np)%nat ->
  forall fuel, make_bunch w (ThinHEL a b) t (Horizontal (Some l) (Some o)) np dfuel fuel = Throw Running.
Proof.
  intros U P A D X0 P0 N fuel. unfold make_bunch. rewrite (Rltb_true _ _ P0). assert (B : forall k, build w (ThinHEL a b) t (Horizontal (Some l) (Some o)) np 1 k dfuel fuel = Throw Running); [|now rewrite B].
  induction fuel as [|fuel IH]; intros k; cbn [build]; destruct (Nat.leb_spec np 1) as [L|L]; try lia; [reflexivity|]. cbn [draw]. unfold uniform. pose proof PI_RGT_0. rewrite !Rltb_false by lra. cbn [bind fst snd].
  match goal with |- context [place t ?v] => destruct (place_form t v U P) as (s & -> & _ & XP & _) end. cbn [bind vx vxp] in *. rewrite C366_refuted; [cbn [bind]; apply IH|]. right. unfold vadd, vmap2, first_vec. cbn [vxp]. rewrite XP, A, D, X0. unfold Rdiv. ring.
Qed.
Print Assumptions C367_refuted.

(** ** C368: a vertical filter takes particles beyond the limit from the beam.  Refuted: from the
    axis, so that a displaced beam passes as a whole *)
Theorem C368_refuted w t l np dfuel fuel b q : uncoupled t -> possible t -> unit_source w -> l + sigma_y t + Rabs (Dy t) * sqrt (sig_dp t) < y0 t -> 0 < p0 t -> make_bunch w Uniform t NoFilter np dfuel fuel = Ok (b, q) ->
  forall p, In p (tl b) -> accepts (Vertical (Some l)) (pv p) = Ok true.
Proof.
  intros U P W B P0 H p I. destruct (C365_uniform _ _ _ _ _ _ _ _ _ U P W H I) as (_ & Y & _ & _ & _ & DP). apply C366_vertical. unfold py in Y.
  assert (K : Rabs (Dy t * vdp (pv p)) <= Rabs (Dy t) * sqrt (sig_dp t)) by (rewrite Rabs_mult; apply Rmult_le_compat_l; [apply Rabs_pos|exact DP]).
  assert (B2 : forall a b, Rabs a <= b -> - b <= a <= b) by (intros a c LE; unfold Rabs in LE; destruct (Rcase_abs a); lra). apply B2 in Y. apply B2 in K. pose proof (Rle_abs (vy (pv p))). lra.
Qed.
Print Assumptions C368_refuted.

(** ** C369: the bunch as a whole: number, identities, first particle, charge, and without a filter
    each particle from the next numbers of the generator *)
Theorem C369_bunch w g t f np dfuel fuel l q : make_bunch w g t f np dfuel fuel = Ok (l, q) ->
  List.length l = Nat.max 1 np /\ map pid l = map Z.of_nat (seq 0 (Nat.max 1 np)) /\ (exists r, l = mkP (first_vec t) 0 :: r) /\ q * INR (List.length l) = charge t.
Proof.
  unfold make_bunch. destruct (Rltb 0 (p0 t)); try discriminate. destruct (build w g t f np 1 0 dfuel fuel) as [l'| |] eqn:B; cbn [bind]; try discriminate. intros H. injection H as <- <-.
  assert (G : forall fuel i k l, build w g t f np i k dfuel fuel = Ok l -> map pid l = map Z.of_nat (seq i (Nat.max i np - i))).
  { clear. induction fuel as [|fuel IH]; intros i k l H; cbn [build] in H; destruct (Nat.leb_spec np i) as [L|L]; try (injection H as <-; replace (Nat.max i np - i)%nat with O by lia; reflexivity); try discriminate.
    destruct (draw w g dfuel k) as [[v k']| |]; cbn [bind fst snd] in H; try discriminate. destruct (place t v) as [s| |]; cbn [bind] in H; try discriminate. destruct (accepts f _) as [[|]| |]; cbn [bind] in H; try discriminate; [|eauto].
    destruct (build w g t f np (S i) k' dfuel fuel) as [l'| |] eqn:B; cbn [bind] in H; try discriminate. injection H as <-. replace (Nat.max i np - i)%nat with (S (Nat.max (S i) np - S i)) by lia. cbn [map seq pid]. f_equal. eapply IH; eauto. }
  pose proof (G _ _ _ _ B) as M. assert (LN : List.length l' = (Nat.max 1 np - 1)%nat) by (apply (f_equal (@List.length Z)) in M; rewrite !map_length, seq_length in M; exact M).
  split; [cbn [List.length]; lia|]. split; [|split; [eauto|]].
  - cbn [map pid]. rewrite M. replace (Nat.max 1 np) with (S (Nat.max 1 np - 1)) at 2 by lia. reflexivity.
  - match goal with |- _ = charge t => change (charge t / INR (S (List.length l')) * INR (S (List.length l')) = charge t) end. generalize (not_0_INR (S (List.length l')) ltac:(discriminate)). generalize (INR (S (List.length l'))). intros r R0. field. exact R0.
Qed.
Print Assumptions C369_bunch.
(* a generator using c numbers for each vector *)
Theorem C369_sequence w g t np dfuel fuel l q c (v : nat -> vec6) : (forall k, draw w g dfuel k = Ok (v k, (k + c)%nat)) -> make_bunch w g t NoFilter np dfuel fuel = Ok (l, q) ->
  forall n p, nth_error (tl l) n = Some p -> exists s, place t (v (n * c)%nat) = Ok s /\ pv p = vadd s (first_vec t).
Proof.
  intros D. unfold make_bunch. destruct (Rltb 0 (p0 t)); try discriminate. destruct (build w g t NoFilter np 1 0 dfuel fuel) as [l'| |] eqn:B; cbn [bind]; try discriminate. intros H. injection H as <- _. cbn [tl].
  assert (G : forall fuel i k l, build w g t NoFilter np i k dfuel fuel = Ok l -> forall n p, nth_error l n = Some p -> exists s, place t (v (k + n * c)%nat) = Ok s /\ pv p = vadd s (first_vec t)).
  { clear B. induction fuel0 as [|fu IH]; intros i k l H n p N; cbn [build] in H; destruct (Nat.leb np i); try (injection H as <-; destruct n; discriminate); try discriminate.
    rewrite D in H. cbn [bind fst snd] in H. destruct (place t (v k)) as [s| |] eqn:S; cbn [bind accepts] in H; try discriminate. destruct (build w g t NoFilter np (Datatypes.S i) (k + c) dfuel fu) as [l1| |] eqn:B; cbn [bind] in H; try discriminate. injection H as <-.
    destruct n as [|n]; cbn [nth_error] in N; [injection N as <-; exists s; rewrite PeanoNat.Nat.add_0_r; auto|]. replace (k + Datatypes.S n * c)%nat with (k + c + n * c)%nat by lia. eauto. }
  intros n p N. exact (G _ _ _ _ B n p N).
Qed.
Print Assumptions C369_sequence.
(* with a filter those accepted are kept in order, and the others use up their numbers *)
Theorem C369_filtered w g t f np dfuel fuel l q c (v u : nat -> vec6) (b : nat -> bool) : (forall k, draw w g dfuel k = Ok (v k, (k + c)%nat)) -> (forall n, place t (v (n * c)%nat) = Ok (u n)) -> (forall n, accepts f (vadd (u n) (first_vec t)) = Ok (b n)) ->
  make_bunch w g t f np dfuel fuel = Ok (l, q) -> exists m, map pv (tl l) = map (fun n => vadd (u n) (first_vec t)) (List.filter b (seq 0 m)).
Proof.
  intros D PL AC. unfold make_bunch. destruct (Rltb 0 (p0 t)); try discriminate. destruct (build w g t f np 1 0 dfuel fuel) as [l'| |] eqn:B; cbn [bind]; try discriminate. intros H. injection H as <- _. cbn [tl].
  assert (G : forall fuel i n l, build w g t f np i (n * c) dfuel fuel = Ok l -> exists m, map pv l = map (fun n => vadd (u n) (first_vec t)) (List.filter b (seq n m))).
  { clear B. induction fuel0 as [|fu IH]; intros i n l H; cbn [build] in H; destruct (Nat.leb np i); try (injection H as <-; exists O; reflexivity); try discriminate.
    rewrite D in H. cbn [bind fst snd] in H. rewrite PL in H. cbn [bind] in H. rewrite AC in H. cbn [bind] in H. replace (n * c + c)%nat with (Datatypes.S n * c)%nat in H by lia. destruct (b n) eqn:BN.
    - destruct (build w g t f np (Datatypes.S i) (Datatypes.S n * c) dfuel fu) as [l1| |] eqn:B; cbn [bind] in H; try discriminate. injection H as <-. destruct (IH _ _ _ B) as (m & M). exists (Datatypes.S m). cbn [seq List.filter map pv]. rewrite BN. cbn [map]. now rewrite M.
    - destruct (IH _ _ _ H) as (m & M). exists (Datatypes.S m). cbn [seq List.filter]. now rewrite BN. }
  exact (G _ _ O _ B).
Qed.
Print Assumptions C369_filtered.
Theorem C369_draws w dfuel k : let n i := gs w (k + i) in let u i := 2 * us w (k + i) - 1 in let a i := PI * u i in
  draw w (Normal vzero) dfuel k = Ok (V6 (n 0%nat) (n 1%nat) (n 2%nat) (n 3%nat) (n 5%nat) (n 4%nat), (k + 6)%nat) /\
  draw w Uniform dfuel k = Ok (V6 (u 0%nat) (u 1%nat) (u 2%nat) (u 3%nat) (u 5%nat) (u 4%nat), (k + 6)%nat) /\
  draw w Ring dfuel k = Ok (V6 (cos (a 0%nat)) (sin (a 0%nat)) (cos (a 1%nat)) (sin (a 1%nat)) (u 3%nat) (u 2%nat), (k + 4)%nat) /\
  (forall s, draw w (HorizontalHalo1 s) dfuel k = Ok (V6 (cos (a 0%nat) * s) (sin (a 0%nat) * s) 0 0 (u 2%nat) (u 1%nat), (k + 3)%nat)) /\
  (forall s, draw w (VerticalHalo1 s) dfuel k = Ok (V6 0 0 (cos (a 0%nat) * s) (sin (a 0%nat) * s) (u 2%nat) (u 1%nat), (k + 3)%nat)) /\
  (forall s, draw w (HorizontalHalo2 s vzero) dfuel k = Ok (V6 (cos (a 0%nat) * s) (sin (a 0%nat) * s) (n 1%nat) (n 2%nat) (u 4%nat) (u 3%nat), (k + 5)%nat)) /\
  (forall s, draw w (VerticalHalo2 s vzero) dfuel k = Ok (V6 (n 1%nat) (n 2%nat) (cos (a 0%nat) * s) (sin (a 0%nat) * s) (u 4%nat) (u 3%nat), (k + 5)%nat)) /\
  (forall i o, i <= o -> let r := i + (o - i) * us w (k + 1) in draw w (ThickHEL i o) dfuel k = Ok (V6 (cos (a 0%nat) * r) 0 (sin (a 0%nat) * r) 0 (u 3%nat) (u 2%nat), (k + 4)%nat)) /\
  (forall i o, o < i -> draw w (ThickHEL i o) dfuel k = UB) /\
  (forall i o, draw w (ThinHEL i o) dfuel k = Ok (V6 (cos (a 0%nat) * o) 0 (sin (a 0%nat) * o) 0 (u 2%nat) (u 1%nat), (k + 3)%nat)).
Proof.
  assert (UN : forall j, uniform w (-1) 1 j = Ok (2 * us w j - 1, S j)). { intros j. unfold uniform. rewrite Rltb_false by lra. do 2 f_equal. ring. }
  assert (UA : forall j, uniform w (- PI) PI j = Ok (PI * (2 * us w j - 1), S j)). { intros j. unfold uniform. pose proof PI_RGT_0. rewrite Rltb_false by lra. do 2 f_equal. ring. }
  cbv zeta. cbn [draw]. unfold gauss, vzero. cbn [vx vxp vy vyp vct vdp]. rewrite (Reqb_true 0 0 eq_refl). cbn [bind fst snd]. rewrite !UN, !UA. cbn [bind fst snd]. rewrite !UN, !UA. cbn [bind fst snd]. rewrite ?UN, ?UA. cbn [bind fst snd].
  rewrite ?UN. cbn [bind fst snd]. rewrite ?UN. cbn [bind fst snd]. rewrite ?UN. cbn [bind fst snd]. rewrite PeanoNat.Nat.add_0_r.
  replace (k + 1)%nat with (S k) by lia. replace (k + 2)%nat with (S (S k)) by lia. replace (k + 3)%nat with (S (S (S k))) by lia. replace (k + 4)%nat with (S (S (S (S k)))) by lia. replace (k + 5)%nat with (S (S (S (S (S k))))) by lia. replace (k + 6)%nat with (S (S (S (S (S (S k)))))) by lia.
  do 7 (split; [intros; reflexivity|]). split; [|split].
  - intros i o LE. unfold uniform at 1. rewrite Rltb_false by lra. cbn [bind fst snd]. rewrite !UN. cbn [bind fst snd]. rewrite !UN. reflexivity.
  - intros i o LT. unfold uniform at 1. rewrite Rltb_true by lra. reflexivity.
  - intros; reflexivity.
Qed.
Print Assumptions C369_draws.

(** ** C370: a filter whose limit or orbit was not set takes zero.  Refuted: undefined *)
Theorem C370_refuted w g t f np dfuel fuel k v s : f = Horizontal None None \/ (exists l, f = Horizontal (Some l) None) \/ f = Vertical None -> (2 <= np)%nat -> 0 < p0 t -> draw w g dfuel 0 = Ok (v, k) -> place t v = Ok s -> make_bunch w g t f np dfuel (S fuel) = UB.
Proof.
  intros F N P D S. unfold make_bunch. rewrite (Rltb_true _ _ P). cbn [build]. destruct (Nat.leb_spec np 1) as [L|L]; [lia|]. rewrite D. cbn [bind fst snd]. rewrite S. cbn [bind]. destruct F as [->|[(l & ->)| ->]]; reflexivity.
Qed.
Print Assumptions C370_refuted.
(* a beam which is not possible *)
Theorem C370_refused w g t f np dfuel fuel : p0 t <= 0 -> make_bunch w g t f np dfuel fuel = Throw Refused.
Proof. intros H. unfold make_bunch. now rewrite Rltb_false by lra. Qed.
Print Assumptions C370_refused.

(* a small beam and a source which meet the conditions *)
Definition beam1 : beam := mkBeam 4 9 1 0 1 1 0 0 1 0 2 0 0 7 0 0 0 0 0 0 0 0 1.
Definition src1 : source := mkSrc (fun _ => / 2) (fun k => if Nat.eqb k 0 then 3 else 1 / 2).
Example C359_example : uncoupled beam1 /\ possible beam1 /\ unit_source src1 /\ exists l q, make_bunch src1 Ring beam1 NoFilter 3 1 5 = Ok (l, q) /\ List.length (tl l) = 2%nat.
Proof.
  assert (U : uncoupled beam1) by (repeat split). assert (P : possible beam1) by (unfold possible; cbn; lra). split; [exact U|]. split; [exact P|]. split; [intros k; cbn; lra|].
  unfold make_bunch. rewrite (Rltb_true 0 (p0 beam1)) by (cbn; lra). cbn [build Nat.leb]. destruct (C369_draws src1 1 0) as (_ & _ & -> & _). cbn [bind fst snd]. match goal with |- context [place beam1 ?v] => destruct (place_form beam1 v U P) as (s & -> & _) end. cbn [bind accepts].
  destruct (C369_draws src1 1 (0 + 4)) as (_ & _ & -> & _). cbn [bind fst snd]. match goal with |- context [place beam1 ?v] => destruct (place_form beam1 v U P) as (s' & -> & _) end. cbn [bind accepts]. eexists _, _. split; [reflexivity|reflexivity].
Qed.
Example C363_example : gauss src1 1 2 0 = Ok (1 / 2, 2%nat).
Proof.
  rewrite (C363_first src1 1 2 0 1); [reflexivity|lra|lia| |].
  - cbn. rewrite !Rabs_pos_eq by lra. lra.
  - intros [|m] L; [|lia]. cbn. rewrite !Rabs_pos_eq by lra. lra.
Qed.
Example C368_example : 1 / 2 + sigma_y (mkBeam 1 1 0 0 1 1 0 0 0 0 2 0 0 1 0 0 0 0 0 0 0 0 1) + Rabs 0 * sqrt 0 < 2.
Proof. unfold sigma_y. cbn. rewrite Rmult_1_r, sqrt_1, sqrt_0. lra. Qed.
