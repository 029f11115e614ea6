(* Real matrices and vectors as functions of their indices.  A matrix of n
   rows and m columns is looked at for indices below n and m only. *)
From Verif Require Import RBase.
Local Open Scope R_scope.

Notation mat := (nat -> nat -> R).
Notation vec := (nat -> R).

(* f 0 + ... + f (n-1) *)
Fixpoint sumn (n : nat) (f : nat -> R) : R :=
  match n with O => 0 | Datatypes.S k => sumn k f + f k end.

Definition mmul (n : nat) (A B : mat) : mat := fun i j => sumn n (fun k => A i k * B k j).
Definition mvec (n : nat) (A : mat) (x : vec) : vec := fun i => sumn n (fun k => A i k * x k).
Definition mid : mat := fun i j => if Nat.eqb i j then 1 else 0.
Definition mtr (A : mat) : mat := fun i j => A j i.
Definition madd (A B : mat) : mat := fun i j => A i j + B i j.
Definition msub (A B : mat) : mat := fun i j => A i j - B i j.
Definition meq (n : nat) (A B : mat) : Prop :=
  forall i j, (i < n)%nat -> (j < n)%nat -> A i j = B i j.
Definition inverse_of (n : nat) (B A : mat) : Prop :=
  meq n (mmul n B A) mid /\ meq n (mmul n A B) mid.
Definition invertible (n : nat) (A : mat) : Prop := exists B, inverse_of n B A.

(* Assignment to one element. *)
Definition set1 (v : vec) (i : nat) (x : R) : vec := fun a => if Nat.eqb a i then x else v a.
Definition set2 (M : mat) (i j : nat) (x : R) : mat :=
  fun a b => if Nat.eqb a i && Nat.eqb b j then x else M a b.

(* for(i = lo; i < lo + len; i++) *)
Definition loop {S : Type} (lo len : nat) (f : nat -> S -> S) (s : S) : S :=
  fold_left (fun s i => f i s) (seq lo len) s.
