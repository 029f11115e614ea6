(* Vocabulary of linear optics, independent of the library's code. *)
From Verif Require Import RBase Bunch BunchSpec.
Local Open Scope R_scope.

Notation mtx := (nat -> nat -> R).
Definition meq (n : nat) (A B : mtx) : Prop := forall i j, (i < n)%nat -> (j < n)%nat -> A i j = B i j.
Definition unit_matrix : mtx := fun i j => if Nat.eq_dec i j then 1 else 0.
Definition times (n : nat) (A B : mtx) : mtx := fun i j => sum (fun k => A i k * B k j) (seq 0 n).
(* R S R^T *)
Definition congruence (n : nat) (A S : mtx) : mtx :=
  fun i j => sum (fun k => sum (fun l => A i k * S k l * A j l) (seq 0 n)) (seq 0 n).
(* the matrix preserves the sum over the degrees of freedom of dq dp' - dp dq' *)
Definition symplectic (n : nat) (A : mtx) : Prop :=
  forall i j, (i < n)%nat -> (j < n)%nat ->
    sum (fun k => A (2 * k)%nat i * A (2 * k + 1)%nat j - A (2 * k + 1)%nat i * A (2 * k)%nat j) (seq 0 (n / 2))
    = if Nat.eq_dec (i + 1) j then (if Nat.even i then 1 else 0)
      else if Nat.eq_dec i (j + 1) then (if Nat.even j then -1 else 0) else 0.
(* F(s) is the solution of dF/ds = A F that starts from the unit matrix *)
Definition solves (n : nat) (A : mtx) (F : R -> mtx) : Prop :=
  meq n (F 0) unit_matrix /\
  forall i j, (i < n)%nat -> (j < n)%nat -> forall s,
    derivable_pt_lim (fun l => F l i j) s (times n A (F s) i j).
(* equations of motion about a reference of curvature h in a quadrupole of
   normalised gradient K:  x'' = -(K + h^2) x + h dp,  y'' = K y,  ct' = -h x *)
Definition bend_motion (h K : R) : mtx := fun i j =>
  match i, j with
  | 0%nat, 1%nat => 1 | 1%nat, 0%nat => - (K + h * h) | 1%nat, 5%nat => h | 2%nat, 3%nat => 1 | 3%nat, 2%nat => K | 4%nat, 0%nat => - h | _, _ => 0
  end.
(* a solenoid in canonical coordinates, a = ks/2 *)
Definition solenoid_motion (ks : R) : mtx := fun i j =>
  match i, j with
  | 0%nat, 1%nat => 1 | 0%nat, 2%nat => ks / 2 | 1%nat, 0%nat => - (ks / 2 * (ks / 2)) | 1%nat, 3%nat => ks / 2
  | 2%nat, 3%nat => 1 | 2%nat, 0%nat => - (ks / 2) | 3%nat, 2%nat => - (ks / 2 * (ks / 2)) | 3%nat, 1%nat => - (ks / 2) | _, _ => 0
  end.
Definition drift_motion : mtx := bend_motion 0 0.
(* rotation of the transverse axes by an angle with the given cosine and sine *)
Definition roll (c s : R) : mtx := fun i j =>
  match i, j with
  | 0%nat, 0%nat => c | 1%nat, 1%nat => c | 2%nat, 2%nat => c | 3%nat, 3%nat => c
  | 0%nat, 2%nat => - s | 1%nat, 3%nat => - s | 2%nat, 0%nat => s | 3%nat, 1%nat => s | 4%nat, 4%nat => 1 | 5%nat, 5%nat => 1 | _, _ => 0
  end.
(* thin lens: a kick in each plane proportional to the displacement *)
Definition thin_lens (kx ky : R) : mtx := fun i j =>
  if Nat.eq_dec i j then 1 else match i, j with 1%nat, 0%nat => kx | 3%nat, 2%nat => ky | _, _ => 0 end.
