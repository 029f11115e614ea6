(* What the materials are to do, without the helpers of the model. *)
From Verif Require Import RBase Material.
From Coq Require Import List Permutation.
Import ListNotations.
Local Open Scope R_scope.

Fixpoint tot {A} (f : A -> R) (l : list A) : R := match l with [] => 0 | a :: r => f a + tot f r end.
(* x is the mean of f over l with the weights w *)
Definition is_mean {A} (l : list A) (w f : A -> R) (x : R) : Prop :=
  tot w l <> 0 /\ x * tot w l = tot (fun a => w a * f a) l.
(* a part of a mixture: a material and its share; its mass is share times A *)
Definition share (c : material * R) : R := snd c.
Definition mass (c : material * R) : R := snd c * mA (fst c).
(* the material of each name is known *)
Definition known (d : db) (ns : list str) (ms : list material) : Prop :=
  Forall2 (fun n m => assoc n d = Some (Some m)) ns ms.

Definition barn : R := / 10 ^ 28.
Definition avogadro : R := 6022 * 10 ^ 20.
(* the mean free path belongs to the cross sections, the density and A *)
Definition path_fits (m : material) : Prop :=
  match mlam m with
  | Unset => False
  | NotFinite => (mST m + mSR m) * mrho m = 0
  | Val x => (mST m + mSR m) * mrho m <> 0 /\ x * ((mST m + mSR m) * barn) * (mrho m * avogadro) = mA m * / 1000
  end.
(* all averaged members agree *)
Definition same_bulk (a b : material) : Prop :=
  mA a = mA b /\ mST a = mST b /\ mSI a = mSI b /\ mSR a = mSR b /\ mdE a = mdE b /\ mX0 a = mX0 b /\
  mrho a = mrho b /\ mZ a = mZ b.
(* the nonzero sums without which the averages are not numbers *)
Definition sound_parts (l : list (material * R)) : Prop :=
  tot share l <> 0 /\ tot mass l <> 0 /\ tot (fun c => mSR (fst c)) l <> 0 /\ tot (fun c => mST (fst c)) l <> 0 /\
  Forall (fun c => mX0 (fst c) <> 0) l /\ tot (fun c => mass c * / mX0 (fst c)) l <> 0.
(* sum of the shares of the first k *)
Fixpoint upto (l : list (R * R)) (k : nat) : R :=
  match k, l with
  | O, _ => 0
  | S k', (_, w) :: r => w + upto r k'
  | S _, [] => 0
  end.
(* strings put together with single spaces *)
Fixpoint join (l : list str) : str :=
  match l with
  | [] => []
  | [a] => a
  | a :: r => a ++ space :: join r
  end.
