(* Facts about complex numbers used by the properties *)
From Coq Require Import Psatz.
From Verif Require Import RBase Rot RotProofs Cplx.
Local Open Scope R_scope.

Lemma cx_eq a b : re a = re b -> im a = im b -> a = b.
Proof. destruct a, b; cbn; congruence. Qed.
Lemma atan2_scale k y x : 0 < k -> atan2 (k * y) (k * x) = atan2 y x.
Proof.
  intros K. unfold atan2. assert (Q : x <> 0 -> k * y / (k * x) = y / x) by (intros; field; lra).
  destruct (Rltb_spec 0 x), (Rltb_spec 0 (k * x)); try nra; [rewrite Q by lra; reflexivity|].
  destruct (Rltb_spec x 0), (Rltb_spec (k * x) 0); try nra.
  - rewrite Q by lra. destruct (Rleb_spec 0 y), (Rleb_spec 0 (k * y)); try nra; reflexivity.
  - destruct (Rltb_spec 0 y), (Rltb_spec 0 (k * y)); try nra; auto. destruct (Rltb_spec y 0), (Rltb_spec (k * y) 0); try nra; auto.
Qed.
Lemma polar_form z : polar (cabs z) (carg z) = z.
Proof.
  destruct (Req_dec (csq z) 0) as [Z|Z].
  - assert (re z = 0 /\ im z = 0) as [A B] by (unfold csq in Z; nra). unfold polar, cabs. rewrite Z, sqrt_0. apply cx_eq; cbn; lra.
  - assert (P : 0 < csq z) by (unfold csq in *; nra). assert (S : 0 < sqrt (csq z)) by now apply sqrt_lt_R0. assert (Q : sqrt (csq z) * sqrt (csq z) = csq z) by (apply sqrt_sqrt; lra).
    assert (A : carg z = atan2 (im z / cabs z) (re z / cabs z)).
    { unfold carg. rewrite <- (atan2_scale (/ cabs z)) by (apply Rinv_0_lt_compat; exact S). f_equal; field; unfold cabs; lra. }
    destruct (atan2_unit (re z / cabs z) (im z / cabs z)) as [C D].
    { unfold cabs. replace (re z / sqrt (csq z) * (re z / sqrt (csq z)) + im z / sqrt (csq z) * (im z / sqrt (csq z))) with (csq z / (sqrt (csq z) * sqrt (csq z))) by (unfold csq; field; unfold csq in *; lra). rewrite Q. field. lra. }
    unfold polar. rewrite A, C, D. apply cx_eq; cbn; field; unfold cabs; lra.
Qed.
Fixpoint csum (l : list cx) : cx := match l with [] => mkCx 0 0 | z :: l' => cadd z (csum l') end.
Fixpoint cpow (z : cx) (n : nat) : cx := match n with O => c1 | S n => cmul z (cpow z n) end.
Lemma cx_ring : ring_theory c0 c1 cadd cmul (fun a b => cadd a (copp b)) copp (@eq cx).
Proof. constructor; intros; try reflexivity; apply cx_eq; cbn; ring. Qed.
Add Ring cx : cx_ring.
Definition creal (k : R) : cx := mkCx k 0.
Lemma cscale_mul k a : cscale k a = cmul (creal k) a.
Proof. apply cx_eq; cbn; ring. Qed.
Lemma cdivr_mul a k : cdivr a k = cmul (creal (/ k)) a.
Proof. apply cx_eq; cbn; unfold Rdiv; ring. Qed.
(* derivative of a complex path *)
Definition cderiv (f : R -> cx) (t : R) (d : cx) : Prop := derivable_pt_lim (fun u => re (f u)) t (re d) /\ derivable_pt_lim (fun u => im (f u)) t (im d).
Lemma cderiv_const c t : cderiv (fun _ => c) t c0.
Proof. split; apply derivable_pt_lim_const. Qed.
Lemma cderiv_add f g t a b : cderiv f t a -> cderiv g t b -> cderiv (fun u => cadd (f u) (g u)) t (cadd a b).
Proof. intros [F1 F2] [G1 G2]. split; cbn; apply (derivable_pt_lim_plus _ _ _ _ _); auto. Qed.
Lemma cderiv_mul f g t a b : cderiv f t a -> cderiv g t b -> cderiv (fun u => cmul (f u) (g u)) t (cadd (cmul a (g t)) (cmul (f t) b)).
Proof.
  intros [F1 F2] [G1 G2]. split; cbn.
  - replace (re a * re (g t) - im a * im (g t) + (re (f t) * re b - im (f t) * im b)) with ((re a * re (g t) + re (f t) * re b) - (im a * im (g t) + im (f t) * im b)) by ring. apply (derivable_pt_lim_minus (fun u => re (f u) * re (g u)) (fun u => im (f u) * im (g u))); now apply (derivable_pt_lim_mult).
  - replace (re a * im (g t) + im a * re (g t) + (re (f t) * im b + im (f t) * re b)) with ((re a * im (g t) + re (f t) * im b) + (im a * re (g t) + im (f t) * re b)) by ring. apply (derivable_pt_lim_plus (fun u => re (f u) * im (g u)) (fun u => im (f u) * re (g u))); now apply (derivable_pt_lim_mult).
Qed.
