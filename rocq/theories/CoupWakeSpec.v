(* Wakes of couplers as sums over slices *)
From Verif Require Import RBase.
From Coq Require Import List.
Import ListNotations.
Local Open Scope R_scope.
Fixpoint sumn (n : nat) (f : nat -> R) : R := match n with O => 0 | Datatypes.S k => f 0%nat + sumn k (fun j => f (Datatypes.S j)) end.
Fixpoint sums (l : list (R * R)) (g : R * R -> R) : R := match l with [] => 0 | p :: q => g p + sums q g end.
(* the mean of the places of a slice; zero without particles *)
Definition is_mean (l : list (R * R)) (c : R * R) : Prop :=
  match l with [] => c = (0, 0) | _ => fst c * INR (length l) = sums l fst /\ snd c * INR (length l) = sums l snd end.
