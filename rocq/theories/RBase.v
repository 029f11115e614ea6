(** Real numbers for [double]: tests as booleans, and the tolerance test of
    Merlin++/utils.h 16-19. *)
From Coq Require Export Reals Lra.
From Verif Require Export Base.
Local Open Scope R_scope.

Definition Rltb (x y : R) : bool := if Rlt_dec x y then true else false.
Definition Rleb (x y : R) : bool := if Rle_dec x y then true else false.
Definition Reqb (x y : R) : bool := if Req_EM_T x y then true else false.

Lemma Rltb_spec x y : reflect (x < y) (Rltb x y).
Proof. unfold Rltb. destruct (Rlt_dec x y); constructor; assumption. Qed.
Lemma Rleb_spec x y : reflect (x <= y) (Rleb x y).
Proof. unfold Rleb. destruct (Rle_dec x y); constructor; assumption. Qed.
Lemma Reqb_spec x y : reflect (x = y) (Reqb x y).
Proof. unfold Reqb. destruct (Req_EM_T x y); constructor; assumption. Qed.

Lemma Rltb_true x y : x < y -> Rltb x y = true.
Proof. intros; destruct (Rltb_spec x y); auto; contradiction. Qed.
Lemma Rltb_false x y : y <= x -> Rltb x y = false.
Proof. intros; destruct (Rltb_spec x y); auto; lra. Qed.
Lemma Rleb_true x y : x <= y -> Rleb x y = true.
Proof. intros; destruct (Rleb_spec x y); auto; contradiction. Qed.
Lemma Rleb_false x y : y < x -> Rleb x y = false.
Proof. intros; destruct (Rleb_spec x y); auto; lra. Qed.
Lemma Reqb_true x y : x = y -> Reqb x y = true.
Proof. intros; destruct (Reqb_spec x y); auto; contradiction. Qed.
Lemma Reqb_false x y : x <> y -> Reqb x y = false.
Proof. intros; destruct (Reqb_spec x y); auto; contradiction. Qed.

(** std::numeric_limits<double>::epsilon() *)
Definition eps : R := / 2 ^ 52.
Lemma eps_pos : 0 < eps.
Proof. unfold eps. apply Rinv_0_lt_compat, pow_lt. lra. Qed.
Lemma eps_small : eps < / 1000.
Proof.
  unfold eps. apply Rinv_lt_contravar.
  - apply Rmult_lt_0_compat; [lra|apply pow_lt; lra].
  - apply Rlt_le_trans with (2 ^ 10); [simpl; lra|]. apply Rle_pow; [lra|lia].
Qed.

(** fequal, utils.h 16-19 *)
Definition fequal_tol (x y tol : R) : bool := Rleb (Rabs (x - y)) tol.
Definition fequal (x y : R) : bool := fequal_tol x y eps.

Lemma fequal_tol_spec x y tol : reflect (Rabs (x - y) <= tol) (fequal_tol x y tol).
Proof. apply Rleb_spec. Qed.
Lemma fequal_spec x y : reflect (Rabs (x - y) <= eps) (fequal x y).
Proof. apply Rleb_spec. Qed.
Lemma fequal_refl x : fequal x x = true.
Proof.
  destruct (fequal_spec x x); auto. exfalso. apply n. unfold Rminus.
  rewrite Rplus_opp_r, Rabs_R0. left. apply eps_pos.
Qed.

(** case analysis on every test in the goal *)
Ltac rtest_in t :=
  match t with
  | context [Rltb ?x ?y] => destruct (Rltb_spec x y)
  | context [Rleb ?x ?y] => destruct (Rleb_spec x y)
  | context [Reqb ?x ?y] => destruct (Reqb_spec x y)
  end.
Ltac rtest := match goal with |- ?g => rtest_in g end.
