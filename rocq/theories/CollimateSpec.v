(* Specification of an aperture check: what happens to each particle on its own. *)
From Verif Require Import RBase Cov Bunch.
From Coq Require Import ZArith.
Local Open Scope R_scope.

(* the fate of the n-th particle: lost, or carried on with these coordinates *)
Fixpoint survivors (fate : nat -> particle -> option vec6) (n : nat) (l : list particle) : list particle :=
  match l with
  | [] => []
  | p :: l' => match fate n p with Some v => mkP v (pid p) :: survivors fate (S n) l' | None => survivors fate (S n) l' end
  end.
Fixpoint casualties (fate : nat -> particle -> option vec6) (n : nat) (l : list particle) : list (nat * particle) :=
  match l with
  | [] => []
  | p :: l' => match fate n p with Some _ => casualties fate (S n) l' | None => (n, p) :: casualties fate (S n) l' end
  end.
(* labels kept along with the particles *)
Fixpoint labels {A} (fate : nat -> particle -> option vec6) (n : nat) (l : list particle) (ix : list A) : list A :=
  match l, ix with
  | p :: l', i :: ix' => match fate n p with Some _ => i :: labels fate (S n) l' ix' | None => labels fate (S n) l' ix' end
  | _, _ => ix
  end.
(* a plain aperture absorbs what is outside *)
Definition plain (inside : vec6 -> bool) (n : nat) (p : particle) : option vec6 := if inside (pv p) then Some (pv p) else None.
Inductive sublist {A} : list A -> list A -> Prop :=
| sub_nil l : sublist [] l
| sub_keep a l m : sublist l m -> sublist (a :: l) (a :: m)
| sub_skip a l m : sublist l m -> sublist l (a :: m).
