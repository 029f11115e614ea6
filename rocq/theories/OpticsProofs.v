From Verif Require Import RBase Cov CovProofs Bunch BunchSpec BunchProofs Optics OpticsSpec.
From Coq Require Import ZArith Lia.
Local Open Scope R_scope.

(* ---- circular and hyperbolic functions in one ---- *)
Definition Cf (K l : R) : R := if Reqb K 0 then 1 else if Rltb 0 K then cos (sqrt K * l) else cosh (sqrt (- K) * l).
Definition Sf (K l : R) : R := if Reqb K 0 then l else if Rltb 0 K then sin (sqrt K * l) / sqrt K else sinh (sqrt (- K) * l) / sqrt (- K).

Ltac kcase K := unfold Cf, Sf; destruct (Reqb_spec K 0) as [?|?]; [subst|destruct (Rltb_spec 0 K) as [?|?]];
  [|assert (0 < sqrt K) by (apply sqrt_lt_R0; lra); pose proof (sqrt_sqrt K ltac:(lra))
   |assert (0 < sqrt (- K)) by (apply sqrt_lt_R0; lra); pose proof (sqrt_sqrt (- K) ltac:(lra))].

Lemma cosh_plus x y : cosh (x + y) = cosh x * cosh y + sinh x * sinh y.
Proof. unfold cosh, sinh. rewrite Ropp_plus_distr, !exp_plus. field. Qed.
Lemma sinh_plus x y : sinh (x + y) = sinh x * cosh y + cosh x * sinh y.
Proof. unfold cosh, sinh. rewrite Ropp_plus_distr, !exp_plus. field. Qed.
Lemma cosh_sinh x : cosh x * cosh x - sinh x * sinh x = 1.
Proof.
  assert (E : exp x * exp (- x) = 1) by (rewrite <- exp_plus; replace (x + - x) with 0 by ring; apply exp_0).
  unfold cosh, sinh. set (a := exp x) in *. set (b := exp (- x)) in *.
  replace ((a + b) / 2 * ((a + b) / 2) - (a - b) / 2 * ((a - b) / 2)) with (a * b) by field. exact E.
Qed.
Lemma cos_sin x : cos x * cos x + sin x * sin x = 1.
Proof. pose proof (sin2_cos2 x) as H. unfold Rsqr in H. lra. Qed.

Lemma Cf_0 K : Cf K 0 = 1.
Proof. kcase K; rewrite ?Rmult_0_r; auto using cos_0, cosh_0. Qed.
Lemma Sf_0 K : Sf K 0 = 0.
Proof. kcase K; rewrite ?Rmult_0_r, ?sin_0, ?sinh_0; unfold Rdiv; rewrite ?Rmult_0_l; reflexivity. Qed.
Lemma pyth K l : Cf K l * Cf K l + K * (Sf K l * Sf K l) = 1.
Proof.
  kcase K.
  - ring.
  - rewrite <- (cos_sin (sqrt K * l)). rewrite <- H0 at 3. field. lra.
  - rewrite <- (cosh_sinh (sqrt (- K) * l)). replace K with (- (sqrt (- K) * sqrt (- K))) at 3 by lra. field. lra.
Qed.
Lemma Cf_plus K a b : Cf K (a + b) = Cf K a * Cf K b - K * (Sf K a * Sf K b).
Proof.
  kcase K; rewrite ?Rmult_plus_distr_l, ?cos_plus, ?cosh_plus.
  - ring.
  - rewrite <- H0 at 7. field. lra.
  - replace K with (- (sqrt (- K) * sqrt (- K))) at 7 by lra. field. lra.
Qed.
Lemma Sf_plus K a b : Sf K (a + b) = Sf K a * Cf K b + Cf K a * Sf K b.
Proof. kcase K; rewrite ?Rmult_plus_distr_l, ?sin_plus, ?sinh_plus; [ring| |]; field; lra. Qed.

Lemma dlim_ext f g x l : (forall y, f y = g y) -> derivable_pt_lim f x l -> derivable_pt_lim g x l.
Proof. intros E H e He. destruct (H e He) as (d & D). exists d. intros h A B. rewrite <- !E. now apply D. Qed.
Lemma dlim_eq f x l l' : l = l' -> derivable_pt_lim f x l -> derivable_pt_lim f x l'.
Proof. now intros ->. Qed.
Lemma dlim_lin k x : derivable_pt_lim (fun y => k * y) x k.
Proof. eapply dlim_eq; [|apply (derivable_pt_lim_scal id k x 1), derivable_pt_lim_id]. ring. Qed.
Lemma dlim_comp_lin f f' k x : (forall y, derivable_pt_lim f y (f' y)) -> derivable_pt_lim (fun y => f (k * y)) x (k * f' (k * x)).
Proof.
  intros H. eapply dlim_eq; [|apply (derivable_pt_lim_comp (fun y => k * y) f x k (f' (k * x))); [apply dlim_lin|apply H]]. ring.
Qed.
Lemma dlim_div f c x l : derivable_pt_lim f x l -> derivable_pt_lim (fun y => f y / c) x (l / c).
Proof.
  intros H. apply (dlim_ext (fun y => / c * f y)); [intros; unfold Rdiv; ring|].
  eapply dlim_eq; [|apply (derivable_pt_lim_scal f (/ c) x l H)]. unfold Rdiv. ring.
Qed.
Lemma Cf_deriv K x : derivable_pt_lim (Cf K) x (- K * Sf K x).
Proof.
  kcase K.
  - apply (dlim_eq _ _ 0); [ring|]. apply derivable_pt_lim_const.
  - eapply dlim_eq; [|apply (dlim_comp_lin cos (fun y => - sin y)), derivable_pt_lim_cos].
    rewrite <- H0 at 3. field. lra.
  - eapply dlim_eq; [|apply (dlim_comp_lin cosh sinh), derivable_pt_lim_cosh].
    replace K with (- (sqrt (- K) * sqrt (- K))) at 3 by lra. field. lra.
Qed.
Lemma Sf_deriv K x : derivable_pt_lim (Sf K) x (Cf K x).
Proof.
  kcase K.
  - apply derivable_pt_lim_id.
  - eapply dlim_eq; [|apply dlim_div, (dlim_comp_lin sin cos), derivable_pt_lim_sin]. field. lra.
  - eapply dlim_eq; [|apply dlim_div, (dlim_comp_lin sinh cosh), derivable_pt_lim_sinh]. field. lra.
Qed.

(* ---- finite sums and small indexes ---- *)
Lemma msum_sum f n : msum f n = sum f (seq 0 n).
Proof. induction n as [|n IH]; [reflexivity|]. rewrite seq_S, sum_app, <- IH. cbn. lra. Qed.
Ltac small i := repeat (destruct i as [|i]; [|try (exfalso; lia)]).
Ltac six i := destruct i as [|[|[|[|[|[|i]]]]]]; try (exfalso; lia).
Lemma mid_unit n : meq n mid unit_matrix.
Proof. intros i j _ _. unfold mid, unit_matrix. now destruct (Nat.eqb_spec i j), (Nat.eq_dec i j). Qed.

(* ---- closed forms ---- *)
Definition tbl (rows : list (list R)) : mat := fun i j => nth j (nth i rows []) 0.
(* the curvature that enters the dispersion terms *)
Definition gh (h K : R) : R := if Reqb (K + h * h) 0 then 0 else h.
Definition bend_form (l h K : R) : mat :=
  let k := K + h * h in let g := gh h K in
  let c := Cf k l in let s := Sf k l in let c' := Cf (- K) l in let s' := Sf (- K) l in
  tbl [[c; s; 0; 0; 0; g * (1 - c) / k]; [- k * s; c; 0; 0; 0; g * s]; [0; 0; c'; s'; 0; 0]; [0; 0; K * s'; c'; 0; 0];
       [- g * s; - g * (1 - c) / k; 0; 0; 1; - g * g * (l - s) / k]; [0; 0; 0; 0; 0; 1]].
Lemma plane_form o l K M i j : plane2 o l K M i j =
  if (Nat.eqb i (o + 1) && Nat.eqb j o)%bool then (if Reqb K 0 then M i j else - K * Sf K l)
  else if (Nat.eqb i o && Nat.eqb j (o + 1))%bool then Sf K l
  else if (Nat.eqb i j && (Nat.eqb i o || Nat.eqb i (o + 1)))%bool then (if Reqb K 0 then M i j else Cf K l)
  else M i j.
Proof.
  unfold plane2, mset. kcase K.
  - destruct (Nat.eqb_spec i (o + 1)), (Nat.eqb_spec j o), (Nat.eqb_spec i o), (Nat.eqb_spec j (o + 1)), (Nat.eqb_spec i j); cbn [andb orb]; try reflexivity; lia.
  - assert (E : - sqrt K * sin (sqrt K * l) = - K * (sin (sqrt K * l) / sqrt K)) by (rewrite <- H0 at 3; field; lra).
    rewrite E.
    destruct (Nat.eqb_spec i (o + 1)), (Nat.eqb_spec j o), (Nat.eqb_spec i o), (Nat.eqb_spec j (o + 1)), (Nat.eqb_spec i j); cbn [andb orb]; try reflexivity; lia.
  - assert (E : sqrt (- K) * sinh (sqrt (- K) * l) = - K * (sinh (sqrt (- K) * l) / sqrt (- K))).
    { replace (- K * (sinh (sqrt (- K) * l) / sqrt (- K))) with (sqrt (- K) * sqrt (- K) * (sinh (sqrt (- K) * l) / sqrt (- K))) by (rewrite H0; ring). field. lra. }
    rewrite E.
    destruct (Nat.eqb_spec i (o + 1)), (Nat.eqb_spec j o), (Nat.eqb_spec i o), (Nat.eqb_spec j (o + 1)), (Nat.eqb_spec i j); cbn [andb orb]; try reflexivity; lia.
Qed.
Lemma planes_form l K K' i j : (i < 6)%nat -> (j < 6)%nat -> plane2 2 l K' (plane2 0 l K mid) i j =
  tbl [[Cf K l; Sf K l]; [- K * Sf K l; Cf K l]; [0; 0; Cf K' l; Sf K' l]; [0; 0; - K' * Sf K' l; Cf K' l]; [0; 0; 0; 0; 1; 0]; [0; 0; 0; 0; 0; 1]] i j.
Proof.
  intros Hi Hj. rewrite plane_form, plane_form. six i; six j; cbn; try reflexivity.
  all: try (destruct (Reqb_spec K 0); subst; [|reflexivity]; unfold Cf, mid; cbn; destruct (Reqb_spec 0 0); [ring|lra]).
  all: try (destruct (Reqb_spec K' 0); subst; [|reflexivity]; unfold Cf, mid; cbn; destruct (Reqb_spec 0 0); [ring|lra]).
Qed.
Lemma sbr_form n l h K : n = 4%nat \/ n = 6%nat -> exists M, sbr n l h K mid = Ok M /\ meq n M (bend_form l h K).
Proof.
  intros Hn. assert (n6 : (n <= 6)%nat) by lia. unfold sbr. destruct (Reqb_spec l 0) as [->|NZ].
  { exists mid. split; [reflexivity|]. intros i j Hi Hj. unfold bend_form. rewrite !Cf_0, !Sf_0.
    six i; six j; cbn; unfold Rdiv; ring. }
  assert (L : Nat.leb n 3 = false) by (destruct Hn; subst; reflexivity). rewrite L.
  set (k := K + h * h). set (P := plane2 2 l (- K) (plane2 0 l k mid)).
  assert (EP : forall i j, (i < 6)%nat -> (j < 6)%nat -> P i j = _) by (intros; apply planes_form; assumption).
  destruct (Nat.eqb_spec n 6) as [-> | N6]; cbn [andb].
  2: { assert (n = 4%nat) by lia. subst n. exists P. split; [reflexivity|]. intros i j Hi Hj. rewrite EP by lia. unfold bend_form. fold k.
       do 4 (destruct i as [|i]; [do 4 (destruct j as [|j]; [cbn; try rewrite Ropp_involutive; reflexivity|]); exfalso; lia|]). exfalso; lia. }
  destruct (Reqb_spec h 0) as [->|H0]; cbn [negb andb].
  { exists P. split; [reflexivity|]. intros i j Hi Hj. rewrite EP by lia. unfold bend_form, gh. fold k.
    destruct (Reqb_spec k 0); six i; six j; cbn; try rewrite Ropp_involutive; unfold Rdiv; try reflexivity; ring. }
  unfold bend_form, gh. fold k. destruct (Reqb_spec k 0) as [K0|K0]; cbn [negb].
  { exists P. split; [reflexivity|]. intros i j Hi Hj. rewrite EP by lia.
    six i; six j; cbn; try rewrite Ropp_involutive; unfold Rdiv; try reflexivity; ring. }
  assert (CS : Cf k l = (if Rltb 0 k then cos (sqrt k * l) else cosh (sqrt (- k) * l)) /\
               Sf k l = (if Rltb 0 k then sin (sqrt k * l) / sqrt k else sinh (sqrt (- k) * l) / sqrt (- k))).
  { unfold Cf, Sf. destruct (Reqb_spec k 0); [contradiction|]. now split. }
  destruct CS as [C S].
  destruct (Rltb_spec 0 k) as [Kp|Kn]; eexists; (split; [reflexivity|]); intros i j Hi Hj; six i; six j; unfold mset; cbn; try rewrite Ropp_involutive; rewrite ?EP by lia; cbn; rewrite ?Ropp_involutive; try reflexivity;
   rewrite ?C, ?S.
  all: try (assert (0 < sqrt k) by (apply sqrt_lt_R0; lra)). all: try (assert (0 < sqrt (- k)) by (apply sqrt_lt_R0; lra)).
  all: try (field; lra).
Qed.

(* ---- symplecticity ---- *)
Lemma symplectic_ext n M N : (n = 4 \/ n = 6)%nat -> meq n M N -> symplectic n N -> symplectic n M.
Proof.
  intros Hn E S i j Hi Hj. rewrite <- (S i j Hi Hj). apply sum_ext. intros k Hk. apply in_seq in Hk.
  assert (k < 3)%nat by (destruct Hn; subst; cbn in Hk; lia).
  assert (2 * k + 1 < n)%nat by (destruct Hn; subst; cbn in Hk; lia). rewrite !E by lia. reflexivity.
Qed.
Lemma bend_form_symplectic n l h K : (n = 4 \/ n = 6)%nat -> symplectic n (bend_form l h K).
Proof.
  intros Hn i j Hi Hj. assert (j < 6 /\ i < 6)%nat by lia. unfold bend_form, gh.
  pose proof (pyth (K + h * h) l) as PX. pose proof (pyth (- K) l) as PY.
  set (c := Cf (K + h * h) l) in *. set (s := Sf (K + h * h) l) in *. set (c' := Cf (- K) l) in *. set (s' := Sf (- K) l) in *.
  set (k := K + h * h) in *. clearbody c s c' s' k.
  destruct Hn as [-> | ->]; six i; six j; cbn; destruct (Reqb_spec k 0) as [Z|Z]; try lra.
  all: try (field_simplify_eq; [|exact Z]; nra).
  all: try (unfold Rdiv; nra).
  all: assert (Q : s * s = (1 - c * c) / k) by (field_simplify_eq; lra).
  - replace (s * (h * s)) with (h * (s * s)) by ring. rewrite Q. field. exact Z.
  - replace (h * s * s) with (h * (s * s)) by ring. rewrite Q. field. exact Z.
Qed.

(* ---- two pieces make a whole ---- *)
Lemma times_ext n A A' B B' : meq n A A' -> meq n B B' -> meq n (times n A B) (times n A' B').
Proof. intros H G i j Hi Hj. unfold times. apply sum_ext. intros k Hk. apply in_seq in Hk. rewrite H, G by lia. reflexivity. Qed.
Lemma meq_sym n A B : meq n A B -> meq n B A.
Proof. intros H i j Hi Hj. symmetry. now apply H. Qed.
Lemma meq_trans n A B C : meq n A B -> meq n B C -> meq n A C.
Proof. intros H G i j Hi Hj. rewrite H by assumption. now apply G. Qed.
Lemma bend_form_plus n a b h K : (n = 4 \/ n = 6)%nat ->
  meq n (bend_form (a + b) h K) (times n (bend_form b h K) (bend_form a h K)).
Proof.
  intros Hn i j Hi Hj. assert (j < 6 /\ i < 6)%nat by lia. unfold bend_form, gh, times.
  rewrite !Cf_plus, !Sf_plus.
  set (k := K + h * h) in *. set (c := Cf k a) in *. set (s := Sf k a) in *. set (c1 := Cf (- K) a) in *. set (s1 := Sf (- K) a) in *.
  set (d := Cf k b) in *. set (t := Sf k b) in *. set (d1 := Cf (- K) b) in *. set (t1 := Sf (- K) b) in *.
  clearbody k c s c1 s1 d t d1 t1.
  destruct Hn as [-> | ->]; six i; six j; cbn; destruct (Reqb_spec k 0) as [Z|Z]; try ring.
  all: try (unfold Rdiv; ring). all: try (field; exact Z).
Qed.

(* ---- the equations of motion ---- *)
Lemma dlim_plus f g x a b : derivable_pt_lim f x a -> derivable_pt_lim g x b -> derivable_pt_lim (fun y => f y + g y) x (a + b).
Proof. apply (derivable_pt_lim_plus f g). Qed.
Lemma dlim_minus f g x a b : derivable_pt_lim f x a -> derivable_pt_lim g x b -> derivable_pt_lim (fun y => f y - g y) x (a - b).
Proof. apply (derivable_pt_lim_minus f g). Qed.
Lemma dlim_mult f g x a b : derivable_pt_lim f x a -> derivable_pt_lim g x b -> derivable_pt_lim (fun y => f y * g y) x (a * g x + f x * b).
Proof. apply (derivable_pt_lim_mult f g). Qed.
Lemma dlim_opp f x a : derivable_pt_lim f x a -> derivable_pt_lim (fun y => - f y) x (- a).
Proof. apply (derivable_pt_lim_opp f). Qed.
Ltac dl := lazymatch goal with
  | |- derivable_pt_lim (fun _ => ?c) _ _ => apply (derivable_pt_lim_const c)
  | |- derivable_pt_lim (fun l => Cf ?K l) _ _ => apply Cf_deriv
  | |- derivable_pt_lim (Cf ?K) _ _ => apply Cf_deriv
  | |- derivable_pt_lim (fun l => Sf ?K l) _ _ => apply Sf_deriv
  | |- derivable_pt_lim (Sf ?K) _ _ => apply Sf_deriv
  | |- derivable_pt_lim (fun l => cos (?k * l)) _ _ => apply (dlim_comp_lin cos (fun y => - sin y)), derivable_pt_lim_cos
  | |- derivable_pt_lim (fun l => sin (?k * l)) _ _ => apply (dlim_comp_lin sin cos), derivable_pt_lim_sin
  | |- derivable_pt_lim (fun l => l) _ _ => apply derivable_pt_lim_id
  | |- derivable_pt_lim (fun l => @?f l + @?g l) _ _ => apply (dlim_plus f g); cbv beta; dl
  | |- derivable_pt_lim (fun l => @?f l - @?g l) _ _ => apply (dlim_minus f g); cbv beta; dl
  | |- derivable_pt_lim (fun l => @?f l * @?g l) _ _ => apply (dlim_mult f g); cbv beta; dl
  | |- derivable_pt_lim (fun l => @?f l / ?c) _ _ => apply (dlim_div f c); cbv beta; dl
  | |- derivable_pt_lim (fun l => - @?f l) _ _ => apply (dlim_opp f); cbv beta; dl
  end.
Lemma bend_form_solves n h K : n = 4%nat \/ n = 6%nat /\ (h = 0 \/ K + h * h <> 0) ->
  solves n (bend_motion h K) (fun l => bend_form l h K).
Proof.
  intros Hn. split.
  - intros i j Hi Hj. assert (i < 6 /\ j < 6)%nat by lia. unfold bend_form. rewrite !Cf_0, !Sf_0. unfold unit_matrix.
    six i; six j; cbn; unfold Rdiv; ring.
  - intros i j Hi Hj s. assert (i < 6 /\ j < 6)%nat by lia. unfold bend_form, times, gh.
    set (k := K + h * h).
    six i; six j; cbn -[Rdiv]; (eapply dlim_eq; [|dl]); cbv beta.
    all: destruct Hn as [-> | [-> Hn]]; try lia; cbn; fold k.
    all: try ring. all: destruct (Reqb_spec k 0) as [Z|Z]; try (rewrite ?Z; unfold Rdiv; ring).
    all: try (field; exact Z). all: assert (E0 : h = 0) by (destruct Hn as [?|N]; [assumption|exfalso; apply N; exact Z]). all: clearbody k; rewrite E0; unfold Rdiv; ring.
Qed.

(* ---- solenoid ---- *)
Definition sol_form (l ks : R) : mat :=
  let c := cos (ks / 2 * l) in let s := sin (ks / 2 * l) in
  tbl [[c * c; 2 * (s * c) / ks; s * c; 2 * (s * s) / ks; 0; 0]; [- ks * (s * c) / 2; c * c; - ks * (s * s) / 2; s * c; 0; 0];
       [- (s * c); - 2 * (s * s) / ks; c * c; 2 * (s * c) / ks; 0; 0]; [ks * (s * s) / 2; - (s * c); - ks * (s * c) / 2; c * c; 0; 0];
       [0; 0; 0; 0; 1; 0]; [0; 0; 0; 0; 0; 1]].
(* either no field-free window is hit, or the piece has no length *)
Definition resolved (l ks : R) : Prop := l = 0 \/ eps < Rabs (ks / 2 * l).
Lemma fequal_0 x : fequal x 0 = true <-> Rabs x <= eps.
Proof. pose proof (fequal_spec x 0) as F. rewrite Rminus_0_r in F. destruct F; split; auto; discriminate. Qed.
Lemma sol_ok n l ks : (n = 4 \/ n = 6)%nat -> resolved l ks -> exists M, solenoid n l ks = Ok M /\ meq n M (sol_form l ks).
Proof.
  intros Hn H. unfold solenoid. assert (E : Nat.leb n 3 = false) by (destruct Hn; subst; reflexivity). rewrite E.
  eexists. split; [reflexivity|]. intros i j Hi Hj. assert (i < 6 /\ j < 6)%nat by lia. unfold sol_form, mset.
  destruct H as [-> | H].
  - rewrite Rmult_0_r, sin_0. destruct (fequal 0 0); six i; six j; cbn; unfold Rdiv; ring.
  - destruct (fequal (ks / 2 * l) 0) eqn:F; [apply fequal_0 in F; lra|]. six i; six j; cbn; reflexivity.
Qed.
Lemma sol_small n l ks : (n = 4 \/ n = 6)%nat -> Rabs (ks / 2 * l) <= eps -> exists M, solenoid n l ks = Ok M /\
  M 0%nat 0%nat = cos (ks / 2 * l) * cos (ks / 2 * l) /\ M 0%nat 1%nat = 0 /\ M 1%nat 1%nat = cos (ks / 2 * l) * cos (ks / 2 * l) /\
  M 2%nat 0%nat = - (sin (ks / 2 * l) * cos (ks / 2 * l)) /\ M 3%nat 1%nat = - (sin (ks / 2 * l) * cos (ks / 2 * l)) /\ M 2%nat 1%nat = 0 /\
  M 4%nat 0%nat = 0 /\ M 5%nat 0%nat = 0 /\ M 4%nat 1%nat = 0 /\ M 5%nat 1%nat = 0.
Proof.
  intros Hn H. unfold solenoid. assert (E : Nat.leb n 3 = false) by (destruct Hn; subst; reflexivity). rewrite E.
  eexists. split; [reflexivity|]. apply fequal_0 in H. rewrite H. unfold mset. cbn. repeat split.
Qed.
Lemma resolved_cases l ks : resolved l ks -> sin (ks / 2 * l) = 0 /\ l = 0 \/ ks <> 0.
Proof.
  intros [-> | H]; [left; rewrite Rmult_0_r; split; [apply sin_0|reflexivity]|right; intros ->]. unfold Rdiv in H. rewrite !Rmult_0_l, Rabs_R0 in H.
  pose proof eps_pos. lra.
Qed.
Lemma sol_form_symplectic n l ks : (n = 4 \/ n = 6)%nat -> resolved l ks -> symplectic n (sol_form l ks).
Proof.
  intros Hn R i j Hi Hj. assert (j < 6 /\ i < 6)%nat by lia. apply resolved_cases in R. unfold sol_form.
  pose proof (cos_sin (ks / 2 * l)) as P. set (c := cos (ks / 2 * l)) in *. set (s := sin (ks / 2 * l)) in *. clearbody c s.
  assert (Q : s * s = 1 - c * c) by lra.
  destruct R as [[-> _]|Z].
  { assert (c * c = 1) by lra. destruct Hn as [-> | ->]; six i; six j; cbn; unfold Rdiv; nra. }
  destruct Hn as [-> | ->]; six i; six j; cbn; try ring.
  all: try (field_simplify; [|exact Z]). all: try lra.
  all: replace (c ^ 4) with ((c * c) * (c * c)) by ring; replace (s ^ 4) with ((s * s) * (s * s)) by ring; replace (c ^ 2) with (c * c) by ring; replace (s ^ 2) with (s * s) by ring; rewrite ?Q; try field. all: exact Z.
Qed.
Lemma sol_form_plus n a b ks : (n = 4 \/ n = 6)%nat -> ks <> 0 ->
  meq n (sol_form (a + b) ks) (times n (sol_form b ks) (sol_form a ks)).
Proof.
  intros Hn Z i j Hi Hj. assert (j < 6 /\ i < 6)%nat by lia. unfold sol_form, times.
  rewrite Rmult_plus_distr_l, cos_plus, sin_plus.
  set (c := cos (ks / 2 * a)) in *. set (s := sin (ks / 2 * a)) in *. set (d := cos (ks / 2 * b)) in *. set (t := sin (ks / 2 * b)) in *. clearbody c s d t.
  destruct Hn as [-> | ->]; six i; six j; cbn; try ring; field; exact Z.
Qed.
Lemma sol_form_0 n ks : (n = 4 \/ n = 6)%nat -> meq n (sol_form 0 ks) unit_matrix.
Proof.
  intros Hn i j Hi Hj. assert (j < 6 /\ i < 6)%nat by lia. unfold sol_form, unit_matrix. rewrite Rmult_0_r, cos_0, sin_0.
  six i; six j; cbn; unfold Rdiv; ring.
Qed.
Lemma sol_form_solves n ks : (n = 4 \/ n = 6)%nat -> ks <> 0 -> solves n (solenoid_motion ks) (fun l => sol_form l ks).
Proof.
  intros Hn Z. split; [now apply sol_form_0|].
  intros i j Hi Hj s. assert (i < 6 /\ j < 6)%nat by lia. unfold sol_form, times.
  assert (Q : sin (ks / 2 * s) * sin (ks / 2 * s) = 1 - cos (ks / 2 * s) * cos (ks / 2 * s)) by (pose proof (cos_sin (ks / 2 * s)); lra).
  six i; six j; cbn -[Rdiv]; (eapply dlim_eq; [|dl]); cbv beta.
  all: destruct Hn as [-> | ->]; try lia; cbn.
  all: try ring. all: try (field; exact Z).
  all: set (c := cos (ks / 2 * s)) in *; set (t := sin (ks / 2 * s)) in *; clearbody c t.
  all: field_simplify_eq; [|exact Z]; try ring.
  all: try nra.
Qed.

(* ---- vanishing strength ---- *)
Lemma near0 f f' : derivable_pt_lim f 0 f' -> f 0 = 0 -> forall e, 0 < e ->
  exists d, 0 < d /\ forall u, u <> 0 -> Rabs u < d -> Rabs (f u / u - f') < e.
Proof.
  intros D F e He. destruct (D e He) as ([d Hd] & H). exists d. split; [exact Hd|]. intros u U B. pose proof (H u U B) as X.
  rewrite Rplus_0_l, F, Rminus_0_r in X. exact X.
Qed.
Lemma near1 f f' : derivable_pt_lim f 0 f' -> forall e, 0 < e ->
  exists d, 0 < d /\ forall u, Rabs u < d -> Rabs (f u - f 0) < e.
Proof.
  intros D e He. assert (C : continuity_pt f 0) by (apply derivable_continuous_pt; exists f'; exact D).
  destruct (C e He) as (d & Hd & H). exists d. split; [exact Hd|]. intros u U.
  destruct (Req_dec u 0) as [->|N]; [unfold Rminus; rewrite Rplus_opp_r, Rabs_R0; exact He|].
  apply H. split; [split; [exact I|auto]|]. cbn. unfold R_dist. now rewrite Rminus_0_r.
Qed.
Lemma weak_focus l e : 0 < e -> exists d, 0 < d /\ forall K, Rabs K < d ->
  Rabs (Cf K l - 1) < e /\ Rabs (Sf K l - l) < e /\ Rabs (K * Sf K l) < e.
Proof.
  intros He. pose proof (Rabs_pos l) as L. set (q := e / (Rabs l + 1)).
  assert (Q : 0 < q) by (apply Rdiv_lt_0_compat; lra).
  assert (QL : Rabs l * q < e).
  { unfold q. apply (Rmult_lt_reg_r (Rabs l + 1)); [lra|]. replace (Rabs l * (e / (Rabs l + 1)) * (Rabs l + 1)) with (Rabs l * e) by (field; lra). nra. }
  destruct (near0 sin 1 ltac:(rewrite <- cos_0; apply derivable_pt_lim_sin) sin_0 q Q) as (d1 & P1 & H1).
  destruct (near0 sinh 1 ltac:(rewrite <- cosh_0; apply derivable_pt_lim_sinh) sinh_0 q Q) as (d2 & P2 & H2).
  destruct (near1 cos _ (derivable_pt_lim_cos 0) e He) as (d3 & P3 & H3). rewrite cos_0 in H3.
  destruct (near1 cosh _ (derivable_pt_lim_cosh 0) e He) as (d4 & P4 & H4). rewrite cosh_0 in H4.
  set (m := Rmin (Rmin d1 d2) (Rmin d3 d4)). assert (M : 0 < m) by (unfold m; repeat apply Rmin_pos; assumption).
  assert (M' : m <= d1 /\ m <= d2 /\ m <= d3 /\ m <= d4) by (unfold m, Rmin; repeat destruct Rle_dec; lra).
  set (r := m / (Rabs l + 1)). assert (R0 : 0 < r) by (apply Rdiv_lt_0_compat; lra).
  assert (RL : forall k, 0 < k < r -> Rabs (k * l) < m).
  { intros k Hk. rewrite Rabs_mult, (Rabs_right k) by lra. apply (Rle_lt_trans _ (r * Rabs l)); [nra|].
    unfold r. apply (Rmult_lt_reg_r (Rabs l + 1)); [lra|]. replace (m / (Rabs l + 1) * Rabs l * (Rabs l + 1)) with (m * Rabs l) by (field; lra). nra. }
  set (w := e / (Rabs l + e)). assert (W : 0 < w) by (apply Rdiv_lt_0_compat; lra).
  exists (Rmin (r * r) w). split; [apply Rmin_pos; [nra|exact W]|]. intros K HK.
  assert (KS : Rabs (Sf K l - l) < e -> Rabs (K * Sf K l) < e).
  { intros H. rewrite Rabs_mult. assert (B : Rabs (Sf K l) < Rabs l + e).
    { replace (Sf K l) with (l + (Sf K l - l)) by ring. eapply Rle_lt_trans; [apply Rabs_triang|lra]. }
    assert (Rabs K < w) by (eapply Rlt_le_trans; [exact HK|apply Rmin_r]). pose proof (Rabs_pos K). pose proof (Rabs_pos (Sf K l)).
    apply (Rle_lt_trans _ (Rabs K * (Rabs l + e))); [nra|]. replace e with (w * (Rabs l + e)) at 2 by (unfold w; field; lra). nra. }
  assert (SQ : forall x, 0 < x -> Rabs K = x -> 0 < sqrt x < r).
  { intros x X E. split; [now apply sqrt_lt_R0|]. rewrite <- (sqrt_square r) by lra. apply sqrt_lt_1; try nra.
    rewrite <- E. eapply Rlt_le_trans; [exact HK|apply Rmin_l]. }
  assert (G : Rabs (Cf K l - 1) < e /\ Rabs (Sf K l - l) < e); [|destruct G as [A B]; auto].
  unfold Cf, Sf. destruct (Reqb_spec K 0) as [->|NK].
  { unfold Rminus. rewrite !Rplus_opp_r, !Rabs_R0. lra. }
  destruct (Rltb_spec 0 K) as [KP|KN].
  - assert (S : 0 < sqrt K < r) by (apply SQ; [exact KP|apply Rabs_right; lra]). pose proof (RL _ S) as B. split; [apply H3; lra|].
    destruct (Req_dec l 0) as [->|NL]; [rewrite Rmult_0_r, sin_0; unfold Rdiv; rewrite Rmult_0_l, Rminus_0_r, Rabs_R0; exact He|].
    replace (sin (sqrt K * l) / sqrt K - l) with (l * (sin (sqrt K * l) / (sqrt K * l) - 1)) by (field; lra).
    assert (NU : sqrt K * l <> 0) by (apply Rmult_integral_contrapositive_currified; lra).
    rewrite Rabs_mult. pose proof (H1 _ NU ltac:(lra)). apply (Rle_lt_trans _ (Rabs l * q)); [apply Rmult_le_compat_l; lra|exact QL].
  - assert (S : 0 < sqrt (- K) < r) by (apply SQ; [lra|rewrite Rabs_left; lra]). pose proof (RL _ S) as B. split; [apply H4; lra|].
    destruct (Req_dec l 0) as [->|NL]; [rewrite Rmult_0_r, sinh_0; unfold Rdiv; rewrite Rmult_0_l, Rminus_0_r, Rabs_R0; exact He|].
    replace (sinh (sqrt (- K) * l) / sqrt (- K) - l) with (l * (sinh (sqrt (- K) * l) / (sqrt (- K) * l) - 1)) by (field; lra).
    assert (NU : sqrt (- K) * l <> 0) by (apply Rmult_integral_contrapositive_currified; lra).
    rewrite Rabs_mult. pose proof (H2 _ NU ltac:(lra)). apply (Rle_lt_trans _ (Rabs l * q)); [apply Rmult_le_compat_l; lra|exact QL].
Qed.
Lemma drift_form n l : (n = 4 \/ n = 6)%nat -> meq n (drift n l) (bend_form l 0 0).
Proof.
  intros Hn i j Hi Hj. assert (i < 6 /\ j < 6)%nat by lia. unfold bend_form, gh, Cf, Sf.
  replace (0 + 0 * 0) with 0 by ring. rewrite Ropp_0. destruct (Reqb_spec 0 0); [|lra].
  unfold drift. assert (E : Nat.leb n 2 = false) by (destruct Hn; subst; reflexivity). rewrite E. unfold mset, mid.
  six i; six j; cbn; unfold Rdiv; ring.
Qed.
Lemma quad_weak n l e : (n = 4 \/ n = 6)%nat -> 0 < e -> exists d, 0 < d /\ forall K, Rabs K < d ->
  forall i j, (i < n)%nat -> (j < n)%nat -> Rabs (bend_form l 0 K i j - bend_form l 0 0 i j) < e.
Proof.
  intros Hn He. destruct (weak_focus l e He) as (d & P & H). exists d. split; [exact P|]. intros K HK i j Hi Hj.
  assert (i < 6 /\ j < 6)%nat by lia. unfold bend_form, gh. replace (K + 0 * 0) with K by ring. replace (0 + 0 * 0) with 0 by ring. rewrite Ropp_0.
  destruct (H K HK) as (A & B & C). destruct (H (- K) ltac:(now rewrite Rabs_Ropp)) as (A' & B' & C').
  assert (Z : Cf 0 l = 1 /\ Sf 0 l = l) by (unfold Cf, Sf; destruct (Reqb_spec 0 0); [auto|lra]). destruct Z as [-> ->].
  assert (ZZ : Rabs 0 < e) by (rewrite Rabs_R0; exact He).
  assert (GZ : (if Reqb K 0 then 0 else 0) = 0) by (destruct (Reqb K 0); reflexivity). rewrite GZ.
  assert (GZ' : (if Reqb 0 0 then 0 else 0) = 0) by (destruct (Reqb 0 0); reflexivity). rewrite GZ'.
  six i; six j; cbn; try assumption.
  all: try (match goal with |- Rabs ?x < _ => replace x with 0 by (unfold Rdiv; ring); exact ZZ end).
  - replace (- K * Sf K l - 0 * l) with (- (K * Sf K l)) by ring. now rewrite Rabs_Ropp.
  - replace (K * Sf (- K) l - 0 * l) with (- (- K * Sf (- K) l)) by ring. now rewrite Rabs_Ropp.
Qed.

(* ---- images of particles ---- *)
Lemma coord_vof f i : (i < 6)%nat -> coord i (vof f) = f i.
Proof. intros H. six i; reflexivity. Qed.
Lemma apply_coord n M x i : (i < 6)%nat -> coord i (apply_m n M x) =
  if Nat.ltb i n then sum (fun j => M i j * coord j x) (seq 0 n) else coord i x.
Proof. intros H. unfold apply_m. rewrite coord_vof by exact H. now rewrite msum_sum. Qed.
Lemma sum_sum_mult A B C n m : sum (fun k => A k * sum (fun j => B k j * C j) (seq 0 m)) (seq 0 n) =
  sum (fun j => sum (fun k => A k * B k j) (seq 0 n) * C j) (seq 0 m).
Proof.
  rewrite (sum_ext _ (fun k => sum (fun j => A k * (B k j * C j)) (seq 0 m))) by (intros; now rewrite sum_scal).
  rewrite sum_swap. apply sum_ext. intros j _. rewrite <- sum_scal_r. apply sum_ext. intros. ring.
Qed.
Lemma apply_times n A B x : (n <= 6)%nat -> apply_m n (mmul n A B) x = apply_m n A (apply_m n B x).
Proof.
  intros Hn. apply vec6_eq. intros i Hi. rewrite !apply_coord by exact Hi. destruct (Nat.ltb_spec i n); [|reflexivity].
  rewrite (sum_ext (fun j => A i j * coord j (apply_m n B x)) (fun j => A i j * sum (fun k => B j k * coord k x) (seq 0 n))).
  - rewrite sum_sum_mult. apply sum_ext. intros j _. unfold mmul. now rewrite msum_sum.
  - intros j Hj. apply in_seq in Hj. rewrite apply_coord by lia. destruct (Nat.ltb_spec j n); [reflexivity|lia].
Qed.

(* ---- statistics of linear images ---- *)
Lemma avg_sum {A} c (f : nat -> A -> R) ks l : l <> [] -> avg (fun a => sum (fun k => c k * f k a) ks) l = sum (fun k => c k * avg (f k) l) ks.
Proof.
  intros NE. pose proof (len_pos l NE). unfold avg at 1. rewrite sum_swap. unfold Rdiv. rewrite <- sum_scal_r. apply sum_ext. intros k _.
  rewrite sum_scal. unfold avg. field. lra.
Qed.
Lemma cov_sum_l {A} c (f : nat -> A -> R) g ks l : l <> [] -> cov (fun a => sum (fun k => c k * f k a) ks) g l = sum (fun k => c k * cov (f k) g l) ks.
Proof.
  intros NE. rewrite cov_alt, avg_sum by exact NE.
  rewrite (sum_ext (fun k => c k * cov (f k) g l) (fun k => c k * avg (fun a => f k a * g a) l - c k * avg (f k) l * avg g l))
    by (intros; rewrite cov_alt by exact NE; ring).
  rewrite sum_minus, sum_scal_r. f_equal.
  rewrite <- (avg_sum c (fun k a => f k a * g a)) by exact NE. apply avg_ext. intros a _. rewrite <- sum_scal_r. apply sum_ext. intros; ring.
Qed.
Lemma cov_sum {A} c (f : nat -> A -> R) c' (f' : nat -> A -> R) ks l : l <> [] ->
  cov (fun a => sum (fun k => c k * f k a) ks) (fun a => sum (fun k => c' k * f' k a) ks) l
  = sum (fun k => sum (fun m => c k * cov (f k) (f' m) l * c' m) ks) ks.
Proof.
  intros NE. rewrite cov_sum_l by exact NE. apply sum_ext. intros k _. rewrite cov_sym, cov_sum_l by exact NE. rewrite <- sum_scal. apply sum_ext.
  intros m _. rewrite cov_sym. ring.
Qed.
Definition on (f : vec6 -> vec6) (p : particle) : particle := mkP (f (pv p)) (pid p).
Lemma avg_on i f l : avg (at_ i) (map (on f) l) = avg (fun p => coord i (f (pv p))) l.
Proof. unfold avg. now rewrite sum_map, map_length. Qed.
Lemma cov_on i j f l : cov (at_ i) (at_ j) (map (on f) l) = cov (fun p => coord i (f (pv p))) (fun p => coord j (f (pv p))) l.
Proof. unfold cov. rewrite !avg_on. unfold avg at 1 4. now rewrite sum_map, map_length. Qed.
Lemma congruence_sym n M g i j : (forall a b, g a b = g b a) -> congruence n M g i j = congruence n M g j i.
Proof.
  intros S. unfold congruence. rewrite sum_swap. apply sum_ext. intros k _. apply sum_ext. intros l _. rewrite S. ring.
Qed.
Lemma zero_sized : sized 6 (zero 6).
Proof. reflexivity. Qed.
Lemma transform_holds n M m d g : (n <= 6)%nat -> holds 6 d g -> (forall a b, g a b = g b a) ->
  exists d', transform n M (m, d) = Ok (vof (fun i => if Nat.ltb i n then sum (fun j => M i j * coord j m) (seq 0 n) else 0), d') /\
    holds 6 d' (fun i j => if Nat.ltb i n then congruence n M g i j else 0).
Proof.
  intros Hn H S. unfold transform. cbn [fst snd].
  assert (Z : holds 6 (zero 6) (fun _ _ => 0)).
  { split; [exact zero_sized|]. intros i j B. six i; six j; reflexivity. }
  destruct (modify_ok 6 (fun i j _ => msum (fun k => msum (fun l => M i k * M j l * cel d k l) n) n) (pairs n) (pairs_nodup n)
    (fun i j I => let H := proj1 (pairs_in n i j) I in conj (proj1 H) (Nat.lt_le_trans _ _ _ (proj2 H) Hn)) (zero 6) _ Z) as (d' & E & G).
  exists d'. change (Z.of_nat 6) with 6%Z in E. rewrite E. cbn [bind]. split.
  - do 2 f_equal. unfold vof. now rewrite !msum_sum.
  - eapply holds_ext; [|exact G]. intros i j B. cbn beta.
    destruct in_dec as [I|I], (Nat.ltb_spec i n) as [L|L]; try reflexivity.
    + rewrite msum_sum. unfold congruence. apply sum_ext. intros k Hk. rewrite msum_sum. apply sum_ext. intros l Hl.
      apply in_seq in Hk, Hl. unfold cel. change 6%Z with (Z.of_nat 6). rewrite (holds_sig 6 d g H S) by lia. ring.
    + apply pairs_in in I. lia.
    + exfalso. apply I, pairs_in. lia.
Qed.
Lemma cov_apply n M l i j : l <> [] -> (n <= 6)%nat -> (i < n)%nat -> (j < n)%nat ->
  cov (at_ i) (at_ j) (map (on (apply_m n M)) l) = congruence n M (fun a b => cov (at_ a) (at_ b) l) i j.
Proof.
  intros NE Hn Hi Hj. rewrite cov_on.
  rewrite (cov_ext _ _ (fun p => sum (fun k => M i k * at_ k p) (seq 0 n)) (fun p => sum (fun k => M j k * at_ k p) (seq 0 n))).
  - now apply (cov_sum (M i) at_ (M j) at_).
  - intros p. rewrite apply_coord by lia. destruct (Nat.ltb_spec i n); [reflexivity|lia].
  - intros p. rewrite apply_coord by lia. destruct (Nat.ltb_spec j n); [reflexivity|lia].
Qed.
Lemma avg_apply n M l i : l <> [] -> (n <= 6)%nat -> (i < n)%nat ->
  avg (at_ i) (map (on (apply_m n M)) l) = sum (fun k => M i k * avg (at_ k) l) (seq 0 n).
Proof.
  intros NE Hn Hi. rewrite avg_on.
  rewrite (avg_ext _ (fun p => sum (fun k => M i k * at_ k p) (seq 0 n))); [now apply (avg_sum (M i) at_)|].
  intros p _. rewrite apply_coord by lia. destruct (Nat.ltb_spec i n); [reflexivity|lia].
Qed.
Lemma map_ne {A B} (f : A -> B) l : l <> [] -> map f l <> [].
Proof. now destruct l. Qed.

(* ---- single elements of packed matrices ---- *)
Definition put (g : mat) (i j : nat) (v : R) : mat :=
  fun a b => if ((Nat.eqb a i && Nat.eqb b j) || (Nat.eqb a j && Nat.eqb b i))%bool then v else g a b.
Definition symm (g : mat) : Prop := forall a b, g a b = g b a.
Lemma put_symm g i j v : symm g -> symm (put g i j v).
Proof.
  intros S a b. unfold put. rewrite (S a b).
  destruct (Nat.eqb_spec a i), (Nat.eqb_spec b j), (Nat.eqb_spec a j), (Nat.eqb_spec b i); cbn; try reflexivity; lia.
Qed.
Lemma put_ok N d g i j v : (i < N)%nat -> (j < N)%nat -> holds N d g ->
  exists d', set_sig (Z.of_nat N) d (Z.of_nat i) (Z.of_nat j) v = Ok d' /\ holds N d' (put g i j v).
Proof.
  intros Hi Hj [S G]. destruct (set_sig_ok (Z.of_nat N) d (Z.of_nat i) (Z.of_nat j) v) as (d1 & E & S1 & G1); try lia; auto.
  exists d1. split; [exact E|]. split; [exact S1|]. intros k l B. rewrite G1 by lia. unfold put.
  destruct (Z.eqb_spec (Z.of_nat k) (Z.of_nat i)), (Z.eqb_spec (Z.of_nat l) (Z.of_nat j)),
    (Z.eqb_spec (Z.of_nat k) (Z.of_nat j)), (Z.eqb_spec (Z.of_nat l) (Z.of_nat i)),
    (Nat.eqb_spec k i), (Nat.eqb_spec l j), (Nat.eqb_spec k j), (Nat.eqb_spec l i); cbn; try reflexivity; try lia; now apply G.
Qed.
Lemma modify_cons N f i j ps d g : (i < N)%nat -> (j < N)%nat -> holds N d g -> symm g ->
  exists d', modify (Z.of_nat N) f ((i, j) :: ps) d = modify (Z.of_nat N) f ps d' /\ holds N d' (put g i j (f i j (g i j))).
Proof.
  intros Hi Hj H S. cbn [modify]. rewrite (holds_sig N d g H S) by assumption. cbn [bind].
  destruct (put_ok N d g i j (f i j (g i j)) Hi Hj H) as (d' & E & H'). exists d'. rewrite E. now split.
Qed.
Lemma upd_ok N i j f d g v : (i < N)%nat -> (j < N)%nat -> holds N d g -> symm g ->
  (forall s, (forall a b, (a < N)%nat -> (b < N)%nat -> s a b = g a b) -> f s = v) ->
  exists d', upd_el (Z.of_nat N) i j f d = Ok d' /\ holds N d' (put g i j (g i j + v)).
Proof.
  intros Hi Hj H S F. unfold upd_el. rewrite (holds_sig N d g H S) by assumption.
  rewrite F by (intros a b A B; now rewrite (holds_sig N d g H S)). now apply put_ok.
Qed.
Lemma rescale_holds P0 P1 m d g : holds 6 d g -> symm g ->
  exists d', rescale P0 P1 (m, d) = Ok (with_dp (P0 / P1 * (1 + vdp m) - 1) m, d') /\
    holds 6 d' (fun i j => match i, j with
                           | 5%nat, 5%nat => g 5%nat 5%nat * (P0 / P1 * (P0 / P1))
                           | 5%nat, 4%nat => g 5%nat 4%nat
                           | 5%nat, _ => g i j * (P0 / P1)
                           | _, _ => g i j end).
Proof.
  intros H S. unfold rescale. cbn [fst snd]. change 6%Z with (Z.of_nat 6).
  set (f := fun (_ _ : nat) x => x * (P0 / P1)). set (f2 := fun (_ _ : nat) x => x * (P0 / P1 * (P0 / P1))).
  destruct (modify_cons 6 f 0 5 [(1, 5); (2, 5); (3, 5)]%nat d g ltac:(lia) ltac:(lia) H S) as (d1 & E1 & H1).
  assert (S1 : symm (put g 0 5 (f 0%nat 5%nat (g 0%nat 5%nat)))) by now apply put_symm.
  destruct (modify_cons 6 f 1 5 [(2, 5); (3, 5)]%nat d1 _ ltac:(lia) ltac:(lia) H1 S1) as (d2 & E2 & H2).
  match type of H2 with holds _ _ ?G => assert (S2 : symm G) by now apply put_symm end.
  destruct (modify_cons 6 f 2 5 [(3, 5)]%nat d2 _ ltac:(lia) ltac:(lia) H2 S2) as (d3 & E3 & H3).
  match type of H3 with holds _ _ ?G => assert (S3 : symm G) by now apply put_symm end.
  destruct (modify_cons 6 f 3 5 [] d3 _ ltac:(lia) ltac:(lia) H3 S3) as (d4 & E4 & H4).
  match type of H4 with holds _ _ ?G => assert (S4 : symm G) by now apply put_symm end.
  rewrite E1, E2, E3, E4. change (modify (Z.of_nat 6) f [] d4) with (@Ok cerr (list R) d4). cbn [bind].
  destruct (modify_cons 6 f2 5 5 [] d4 _ ltac:(lia) ltac:(lia) H4 S4) as (d5 & E5 & H5).
  rewrite E5. cbn [modify bind].
  exists d5. split; [reflexivity|]. eapply holds_ext; [|exact H5]. intros i j B.
  six i; six j; unfold put; cbn; try reflexivity; try (rewrite (S _ 5%nat)); reflexivity.
Qed.

(* ---- block maps and drifts of packed moments ---- *)
Lemma assign_cons N i j v l d g : (i < N)%nat -> (j < N)%nat -> holds N d g ->
  exists d', assign (Z.of_nat N) ((i, j, v) :: l) d = assign (Z.of_nat N) l d' /\ holds N d' (put g i j v).
Proof.
  intros Hi Hj H. cbn [assign]. destruct (put_ok N d g i j v Hi Hj H) as (d' & E & H'). exists d'. rewrite E. now split.
Qed.
Definition block (rx ry : r2map) : mat := fun i j =>
  match i, j with
  | 0%nat, 0%nat => r11 rx | 0%nat, 1%nat => r12 rx | 1%nat, 0%nat => r21 rx | 1%nat, 1%nat => r22 rx
  | 2%nat, 2%nat => r11 ry | 2%nat, 3%nat => r12 ry | 3%nat, 2%nat => r21 ry | 3%nat, 3%nat => r22 ry | _, _ => 0 end.
Lemma cel4_holds d g : holds 4 d g -> symm g -> forall i j, (i < 4)%nat -> (j < 4)%nat -> cel4 d i j = g i j.
Proof. intros H S i j Hi Hj. unfold cel4. change 4%Z with (Z.of_nat 4). now rewrite (holds_sig 4 d g H S). Qed.
Lemma r2_all rx ry m d g : holds 4 d g -> symm g -> exists d',
  (do s <- r2_moments rx 0 (m, d); do s' <- r2_moments ry 1 s; r2_coupling rx ry s') = Ok (r2_apply ry 1 (r2_apply rx 0 m), d') /\
  holds 4 d' (congruence 4 (block rx ry) g).
Proof.
  intros H S. unfold r2_moments at 1. cbn [fst snd]. pose proof (cel4_holds d g H S) as C.
  rewrite !C by (cbn; lia). cbn [Nat.mul Nat.add].
  match goal with |- context [assign 4 [(0%nat, 0%nat, ?a); (1%nat, 0%nat, ?b); (1%nat, 1%nat, ?c)] d] =>
    destruct (assign_cons 4 0 0 a [(1, 0, b); (1, 1, c)]%nat d g ltac:(lia) ltac:(lia) H) as (d1 & E1 & H1);
    destruct (assign_cons 4 1 0 b [(1, 1, c)]%nat d1 _ ltac:(lia) ltac:(lia) H1) as (d2 & E2 & H2);
    destruct (assign_cons 4 1 1 c [] d2 _ ltac:(lia) ltac:(lia) H2) as (d3 & E3 & H3) end.
  change (Z.of_nat 4) with 4%Z in *. rewrite E1, E2, E3. change (assign 4 [] d3) with (@Ok cerr (list R) d3). cbn [bind].
  match type of H3 with holds _ _ ?G => set (g3 := G) in *; assert (S3 : symm g3) by now repeat apply put_symm end.
  clear E1 E2 E3 H1 H2.
  unfold r2_moments. cbn [fst snd]. pose proof (cel4_holds d3 g3 H3 S3) as C3.
  rewrite !C3 by (cbn; lia). cbn [Nat.mul Nat.add].
  match goal with |- context [assign 4 [(2%nat, 2%nat, ?a); (3%nat, 2%nat, ?b); (3%nat, 3%nat, ?c)] d3] =>
    destruct (assign_cons 4 2 2 a [(3, 2, b); (3, 3, c)]%nat d3 g3 ltac:(lia) ltac:(lia) H3) as (d4 & E1 & H1);
    destruct (assign_cons 4 3 2 b [(3, 3, c)]%nat d4 _ ltac:(lia) ltac:(lia) H1) as (d5 & E2 & H2);
    destruct (assign_cons 4 3 3 c [] d5 _ ltac:(lia) ltac:(lia) H2) as (d6 & E3 & H6) end.
  change (Z.of_nat 4) with 4%Z in *. rewrite E1, E2, E3. change (assign 4 [] d6) with (@Ok cerr (list R) d6). cbn [bind].
  match type of H6 with holds _ _ ?G => set (g6 := G) in *; assert (S6 : symm g6) by now repeat apply put_symm end.
  clear E1 E2 E3 H1 H2.
  unfold r2_coupling. cbn [fst snd]. pose proof (cel4_holds d6 g6 H6 S6) as C6.
  rewrite !C6 by (cbn; lia).
  match goal with |- context [assign 4 [(0%nat, 2%nat, ?a); (0%nat, 3%nat, ?b); (1%nat, 2%nat, ?c); (1%nat, 3%nat, ?e)] d6] =>
    destruct (assign_cons 4 0 2 a [(0, 3, b); (1, 2, c); (1, 3, e)]%nat d6 g6 ltac:(lia) ltac:(lia) H6) as (d7 & E1 & H1);
    destruct (assign_cons 4 0 3 b [(1, 2, c); (1, 3, e)]%nat d7 _ ltac:(lia) ltac:(lia) H1) as (d8 & E2 & H2);
    destruct (assign_cons 4 1 2 c [(1, 3, e)]%nat d8 _ ltac:(lia) ltac:(lia) H2) as (d9 & E3 & H9);
    destruct (assign_cons 4 1 3 e [] d9 _ ltac:(lia) ltac:(lia) H9) as (d10 & E4 & H10) end.
  change (Z.of_nat 4) with 4%Z in *. rewrite E1, E2, E3, E4. change (assign 4 [] d10) with (@Ok cerr (list R) d10). cbn [bind].
  exists d10. split; [reflexivity|]. eapply holds_ext; [|exact H10]. intros i j B. unfold g6, g3, put, congruence, block.
  do 4 (destruct i as [|i]; [do 4 (try destruct j as [|j]; [cbn; try (rewrite (S 0%nat 1%nat)); try (rewrite (S 2%nat 3%nat)); try (rewrite (S 0%nat 2%nat)); try (rewrite (S 0%nat 3%nat)); try (rewrite (S 1%nat 2%nat)); try (rewrite (S 1%nat 3%nat)); ring|try (exfalso; lia)])|]). exfalso; lia.
Qed.
Lemma holds4 d g : holds 4 d g <-> d = map (fun p => g (fst p) (snd p)) (pairs 4).
Proof.
  split.
  - intros H. apply (holds_unique 4 d _ g H). split; [reflexivity|]. intros i j B. six i; six j; reflexivity.
  - intros ->. split; [reflexivity|]. intros i j B. six i; six j; reflexivity.
Qed.
Lemma holds6 d g : holds 6 d g <-> d = map (fun p => g (fst p) (snd p)) (pairs 6).
Proof.
  split.
  - intros H. apply (holds_unique 6 d _ g H). split; [reflexivity|]. intros i j B. six i; six j; reflexivity.
  - intros ->. split; [reflexivity|]. intros i j B. six i; six j; reflexivity.
Qed.
Lemma drift_moments4_ok z m d g : holds 4 d g -> symm g -> exists d',
  drift_moments4 z (m, d) = Ok (simple_drift z m, d') /\ holds 4 d' (congruence 4 (drift 4 z) g).
Proof.
  intros H S. apply holds4 in H. subst d. eexists. split; [lazy -[IZR simple_drift]; reflexivity|]. apply holds4.
  lazy -[IZR]. rewrite ?(S 0%nat 1%nat), ?(S 0%nat 2%nat), ?(S 0%nat 3%nat), ?(S 1%nat 2%nat), ?(S 1%nat 3%nat), ?(S 2%nat 3%nat).
  repeat (apply f_equal2; [ring|]). reflexivity.
Qed.
Lemma drift_moments6_ok z m d g : holds 6 d g -> symm g -> exists d',
  drift_moments6 z (m, d) = Ok (simple_drift z m, d') /\ holds 6 d' (congruence 6 (drift 6 z) g).
Proof.
  intros H S. apply holds6 in H. subst d. eexists. split; [lazy -[IZR simple_drift]; reflexivity|]. apply holds6.
  lazy -[IZR]. rewrite ?(S 0%nat 1%nat), ?(S 0%nat 2%nat), ?(S 0%nat 3%nat), ?(S 1%nat 2%nat), ?(S 1%nat 3%nat), ?(S 2%nat 3%nat),
    ?(S 0%nat 4%nat), ?(S 0%nat 5%nat), ?(S 1%nat 4%nat), ?(S 1%nat 5%nat), ?(S 2%nat 4%nat), ?(S 2%nat 5%nat), ?(S 3%nat 4%nat), ?(S 3%nat 5%nat), ?(S 4%nat 5%nat).
  repeat (apply f_equal2; [ring|]). reflexivity.
Qed.

(* ---- changing the reference momentum ---- *)
Definition sc (P0 P1 : R) (x : vec6) : vec6 := with_dp (P0 / P1 * (1 + vdp x) - 1) x.
Definition fac (r : R) (i : nat) : R := if Nat.ltb i 5 then 1 else r.
Lemma sc_coord P0 P1 x i : coord i (sc P0 P1 x) = fac (P0 / P1) i * coord i x + (if Nat.ltb i 5 then 0 else P0 / P1 - 1).
Proof. destruct i as [|[|[|[|[|i]]]]]; cbn; unfold fac; cbn; ring. Qed.
Lemma cov_sc P0 P1 l i j : l <> [] ->
  cov (at_ i) (at_ j) (map (on (sc P0 P1)) l) = fac (P0 / P1) i * fac (P0 / P1) j * cov (at_ i) (at_ j) l.
Proof.
  intros NE. eapply cov_affine; [exact NE| |]; intros a; unfold at_, on; cbn [pv]; apply sc_coord.
Qed.
Lemma avg_sc P0 P1 l i : l <> [] ->
  avg (at_ i) (map (on (sc P0 P1)) l) = fac (P0 / P1) i * avg (at_ i) l + (if Nat.ltb i 5 then 0 else P0 / P1 - 1).
Proof. intros NE. eapply avg_affine; [exact NE|]. intros a; unfold at_, on; cbn [pv]; apply sc_coord. Qed.
Lemma apply_p_sc M Pref p0 x : Pref <> 0 -> p0 <> 0 -> eps < Rabs Pref -> (forall j, (j < 6)%nat -> M 5%nat j = unit_matrix 5%nat j) ->
  apply_p 6 M Pref p0 x = sc Pref p0 (apply_m 6 M (sc p0 Pref x)).
Proof.
  intros Z Z' E U. unfold apply_p. destruct (fequal Pref 0) eqn:F; [apply fequal_0 in F; lra|].
  assert (X : with_dp (scaledp Pref p0 (vdp x)) x = sc p0 Pref x) by (unfold scaledp, sc, with_dp; f_equal; field; exact Z). rewrite X.
  unfold sc at 2. f_equal. assert (Y : vdp (apply_m 6 M (sc p0 Pref x)) = vdp (sc p0 Pref x)).
  { change (vdp (apply_m 6 M (sc p0 Pref x))) with (coord 5 (apply_m 6 M (sc p0 Pref x))). rewrite apply_coord by lia. cbn [Nat.ltb Nat.leb].
    rewrite (sum_ext _ (fun j => unit_matrix 5%nat j * coord j (sc p0 Pref x))).
    - cbn. unfold unit_matrix. cbn. ring.
    - intros j Hj. apply in_seq in Hj. rewrite U by lia. reflexivity. }
  rewrite Y. cbn. field. lra.
Qed.
Lemma congruence_ext n M g g' i j : (forall k l, (k < n)%nat -> (l < n)%nat -> M i k <> 0 -> M j l <> 0 -> g k l = g' k l) ->
  congruence n M g i j = congruence n M g' i j.
Proof.
  intros H. unfold congruence. apply sum_ext. intros k Hk. apply sum_ext. intros l Hl. apply in_seq in Hk, Hl.
  destruct (Req_dec (M i k) 0) as [->|A]; [ring|]. destruct (Req_dec (M j l) 0) as [->|B]; [ring|]. rewrite H by (auto; lia). ring.
Qed.
