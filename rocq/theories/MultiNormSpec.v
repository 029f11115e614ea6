(* Ensembles: weights and vectors *)
From Verif Require Import RBase.
From Coq Require Import List.
Import ListNotations.
Local Open Scope R_scope.
Fixpoint av {A} (f : A -> R) (e : list (R * A)) : R := match e with [] => 0 | (w, x) :: r => w * f x + av f r end.
(* vectors of n independent numbers of mean zero and variance one *)
Definition standard (n : nat) (e : list (R * (nat -> R))) : Prop :=
  av (fun _ => 1) e = 1 /\ (forall i, (i < n)%nat -> av (fun z => z i) e = 0) /\
  forall i j, (i < n)%nat -> (j < n)%nat -> av (fun z => z i * z j) e = if Nat.eqb i j then 1 else 0.
