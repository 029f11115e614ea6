(* Derivatives of the second-order coefficients. *)
From Coq Require Import ZArith Lia.
From Verif Require Import RBase Cov Bunch BunchSpec BunchProofs Optics OpticsSpec OpticsProofs SparseMap SparseMapSpec SparseMapProofs SparseMapProps SympIntSpec BendMap BendMapSpec BendMapProofs GenBendProofs.
Local Open Scope R_scope.
(* (1,1,2) misses h*S; the equations hold with it put back *)
Definition t112' (h K1 K2 s : R) : R := t112 h K1 K2 s + h * Sf (K1 + h * h) s.
Section Derivatives.
Variables (h K1 K2 s : R).
Hypothesis Reg : regular h K1.
Let C := Cf (K1 + h * h) s. Let S := Sf (K1 + h * h) s. Let E := (1 - C) / (K1 + h * h). Let c := Cf (- K1) s. Let t := Sf (- K1) s.
Ltac one :=
  destruct Reg as (R1 & R2 & R3 & R4); unfold t112'; open_coefs; unfold E, C, S, c, t; clear C S E c t; cbn zeta;
  (eapply dlim_eq; [|dl]); cbv beta;
  pose proof (pyth (K1 + h * h) s) as PX; pose proof (pyth (- K1) s) as PY;
  generalize dependent (Cf (K1 + h * h) s); generalize dependent (Sf (K1 + h * h) s); generalize dependent (Cf (- K1) s); generalize dependent (Sf (- K1) s);
  intros t0 c0 PY t1 c1 PX;
  assert (CC : c1 * c1 = 1 - (K1 + h * h) * (t1 * t1)) by lra; assert (cc : c0 * c0 = 1 + K1 * (t0 * t0)) by lra; clear PX PY;
  (field_simplify_eq; [ring [CC cc]|repeat split; auto; lra]).
Lemma d_t111 : derivable_pt_lim (fun s => t111 h K1 K2 s) s (t211 h K1 K2 s + h * C * (- (K1 + h * h) * S)).
Proof. one. Qed.
Lemma d_t112 : derivable_pt_lim (fun s => t112' h K1 K2 s) s (t212 h K1 K2 s + h * (C * C + S * (- (K1 + h * h) * S))).
Proof. one. Qed.
Lemma d_t116 : derivable_pt_lim (fun s => t116 h K1 K2 s) s (t216 h K1 K2 s + h * (C * (h * S) + (h * E) * (- (K1 + h * h) * S))).
Proof. one. Qed.
Lemma d_t122 : derivable_pt_lim (fun s => t122 h K1 K2 s) s (t222 h K1 K2 s + h * S * C).
Proof. one. Qed.
Lemma d_t126 : derivable_pt_lim (fun s => t126 h K1 K2 s) s (t226 h K1 K2 s + h * (S * (h * S) + (h * E) * C)).
Proof. one. Qed.
Lemma d_t166 : derivable_pt_lim (fun s => t166 h K1 K2 s) s (t266 h K1 K2 s + h * (h * E) * (h * S)).
Proof. one. Qed.
Lemma d_t133 : derivable_pt_lim (fun s => t133 h K1 K2 s) s (t233 h K1 K2 s).
Proof. one. Qed.
Lemma d_t134 : derivable_pt_lim (fun s => t134 h K1 K2 s) s (t234 h K1 K2 s).
Proof. one. Qed.
Lemma d_t144 : derivable_pt_lim (fun s => t144 h K1 K2 s) s (t244 h K1 K2 s).
Proof. one. Qed.
Lemma d_t211 : derivable_pt_lim (fun s => t211 h K1 K2 s) s (- (K1 + h * h) * t111 h K1 K2 s - h / 2 * (- (K1 + h * h) * S) * (- (K1 + h * h) * S) - (h * K1 + K2) * C * C).
Proof. one. Qed.
Lemma d_t212 : derivable_pt_lim (fun s => t212 h K1 K2 s) s (- (K1 + h * h) * (t112 h K1 K2 s + h * S) - h / 2 * ((- (K1 + h * h) * S) * C + C * (- (K1 + h * h) * S)) - (h * K1 + K2) * (C * S + S * C)).
Proof. one. Qed.
Lemma d_t216 : derivable_pt_lim (fun s => t216 h K1 K2 s) s (- (K1 + h * h) * t116 h K1 K2 s - h / 2 * ((- (K1 + h * h) * S) * (h * S) + (h * S) * (- (K1 + h * h) * S)) - (h * K1 + K2) * (C * (h * E) + (h * E) * C) + (K1 + h * h) * C).
Proof. one. Qed.
Lemma d_t222 : derivable_pt_lim (fun s => t222 h K1 K2 s) s (- (K1 + h * h) * t122 h K1 K2 s - h / 2 * C * C - (h * K1 + K2) * S * S).
Proof. one. Qed.
Lemma d_t226 : derivable_pt_lim (fun s => t226 h K1 K2 s) s (- (K1 + h * h) * t126 h K1 K2 s - h / 2 * (C * (h * S) + (h * S) * C) - (h * K1 + K2) * (S * (h * E) + (h * E) * S) + (K1 + h * h) * S).
Proof. one. Qed.
Lemma d_t266 : derivable_pt_lim (fun s => t266 h K1 K2 s) s (- (K1 + h * h) * t166 h K1 K2 s - h / 2 * (h * S) * (h * S) - (h * K1 + K2) * (h * E) * (h * E) + (K1 + h * h) * (h * E) - h).
Proof. one. Qed.
Lemma d_t233 : derivable_pt_lim (fun s => t233 h K1 K2 s) s (- (K1 + h * h) * t133 h K1 K2 s - h / 2 * (K1 * t) * (K1 * t) + (K2 + h * K1 / 2) * c * c).
Proof. one. Qed.
Lemma d_t234 : derivable_pt_lim (fun s => t234 h K1 K2 s) s (- (K1 + h * h) * t134 h K1 K2 s - h / 2 * ((K1 * t) * c + c * (K1 * t)) + (K2 + h * K1 / 2) * (c * t + t * c)).
Proof. one. Qed.
Lemma d_t244 : derivable_pt_lim (fun s => t244 h K1 K2 s) s (- (K1 + h * h) * t144 h K1 K2 s - h / 2 * c * c + (K2 + h * K1 / 2) * t * t).
Proof. one. Qed.
Lemma d_t313 : derivable_pt_lim (fun s => t313 h K1 K2 s) s (t413 h K1 K2 s + h * (C * (K1 * t))).
Proof. one. Qed.
Lemma d_t314 : derivable_pt_lim (fun s => t314 h K1 K2 s) s (t414 h K1 K2 s + h * (C * c)).
Proof. one. Qed.
Lemma d_t323 : derivable_pt_lim (fun s => t323 h K1 K2 s) s (t423 h K1 K2 s + h * (S * (K1 * t))).
Proof. one. Qed.
Lemma d_t324 : derivable_pt_lim (fun s => t324 h K1 K2 s) s (t424 h K1 K2 s + h * (S * c)).
Proof. one. Qed.
Lemma d_t336 : derivable_pt_lim (fun s => t336 h K1 K2 s) s (t436 h K1 K2 s + h * ((h * E) * (K1 * t))).
Proof. one. Qed.
Lemma d_t346 : derivable_pt_lim (fun s => t346 h K1 K2 s) s (t446 h K1 K2 s + h * ((h * E) * c)).
Proof. one. Qed.
Lemma d_t413 : derivable_pt_lim (fun s => t413 h K1 K2 s) s (K1 * t313 h K1 K2 s + (h * K1 + 2 * K2) * (C * c)).
Proof. one. Qed.
Lemma d_t414 : derivable_pt_lim (fun s => t414 h K1 K2 s) s (K1 * t314 h K1 K2 s + (h * K1 + 2 * K2) * (C * t)).
Proof. one. Qed.
Lemma d_t423 : derivable_pt_lim (fun s => t423 h K1 K2 s) s (K1 * t323 h K1 K2 s + (h * K1 + 2 * K2) * (S * c)).
Proof. one. Qed.
Lemma d_t424 : derivable_pt_lim (fun s => t424 h K1 K2 s) s (K1 * t324 h K1 K2 s + (h * K1 + 2 * K2) * (S * t)).
Proof. one. Qed.
Lemma d_t436 : derivable_pt_lim (fun s => t436 h K1 K2 s) s (K1 * t336 h K1 K2 s + (h * K1 + 2 * K2) * ((h * E) * c) - K1 * c).
Proof. one. Qed.
Lemma d_t446 : derivable_pt_lim (fun s => t446 h K1 K2 s) s (K1 * t346 h K1 K2 s + (h * K1 + 2 * K2) * ((h * E) * t) - K1 * t).
Proof. one. Qed.
End Derivatives.
