(* Random vectors with given means and covariances: MultiNormal.h 51-67 (GetRandVec), 70-117
   (constructors), 126-153 (CholeskyDecomp).  Exact reals.  Matrices are functions of the
   indices; the normal numbers are given.  A division by zero leaves infinities or NaN in
   the matrix without an exception; that is the outcome Throw NoNumber. *)
From Verif Require Import RBase Base.
From Coq Require Import Bool PeanoNat.
Local Open Scope R_scope.

Inductive mnerr := Dimension | NegativeRoot | NoNumber.
Definition mtx := nat -> nat -> R.
Definition set_at (m : mtx) (i j : nat) (v : R) : mtx := fun a b => if (Nat.eqb a i && Nat.eqb b j)%bool then v else m a b.
Fixpoint sumf (n : nat) (f : nat -> R) : R := match n with O => 0 | Datatypes.S k => sumf k f + f k end.
(* 135-150 *)
Definition chol_at (m : mtx) (i j : nat) : res mnerr mtx :=
  let stot := sumf j (fun k => m i k * m j k) in
  if Nat.eqb i j then
    let x := m i j - stot in
    if Rltb x 0 then Throw NegativeRoot else Ok (set_at m i j (sqrt x))
  else if Reqb (m j j) 0 then Throw NoNumber else Ok (set_at m i j ((m j i - stot) / m j j)).
(* the inner loop: n columns from j *)
Fixpoint chol_cols (m : mtx) (i j n : nat) : res mnerr mtx :=
  match n with O => Ok m | Datatypes.S n' => do m' <- chol_at m i j ; chol_cols m' i (Datatypes.S j) n' end.
(* the outer loop: n rows from i *)
Fixpoint chol_rows (m : mtx) (i n : nat) : res mnerr mtx :=
  match n with O => Ok m | Datatypes.S n' => do m' <- chol_cols m i 0 (Datatypes.S i) ; chol_rows m' (Datatypes.S i) n' end.
(* the constructor of a matrix of nr by nc and a vector of length ms, 70-80; those at 83-117 copy
   the part on and above the diagonal and do not check nr and nc *)
Definition make_normal (n nr nc ms : nat) (c : mtx) : res mnerr mtx :=
  if (Nat.eqb n 0 || Nat.ltb nc n || negb (Nat.eqb nc nr) || Nat.ltb ms n)%bool then Throw Dimension else chol_rows c 0 n.
(* GetRandVec, 57-65: from the last to the first *)
Definition put_at (x : nat -> R) (i : nat) (v : R) : nat -> R := fun a => if Nat.eqb a i then v else x a.
Fixpoint rand_loop (l : mtx) (mean x : nat -> R) (n : nat) : nat -> R :=
  match n with O => x | Datatypes.S i => rand_loop l mean (put_at x i (x i * l i i + mean i + sumf i (fun j => l i j * x j))) i end.
