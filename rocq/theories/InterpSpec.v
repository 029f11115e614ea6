(** What interpolation means, independent of how it is computed. *)
From Verif Require Import RBase.
Local Open Scope R_scope.

(** [p] and [q] are the neighbours of [x] among the points [l] *)
Definition neighbours (l : list (R * R)) (x : R) (p q : R * R) : Prop :=
  In p l /\ In q l /\ fst p < fst q /\ fst p <= x <= fst q /\
  forall r, In r l -> ~ (fst p < fst r < fst q).
Definition line (p q : R * R) (x : R) : R :=
  snd p + (x - fst p) * (snd q - snd p) / (fst q - fst p).
Definition inside (l : list (R * R)) (x : R) : Prop :=
  (exists p, In p l /\ fst p <= x) /\ (exists q, In q l /\ x <= fst q).

(** the value of a polynomial, constant coefficient first *)
Fixpoint pval (c : list R) (x : R) : R :=
  match c with [] => 0 | a :: c' => a + x * pval c' x end.
(** [c], of degree at most [o], passes through the points *)
Definition through (o : nat) (c : list R) (w : list (R * R)) : Prop :=
  length c = S o /\ forall p, In p w -> pval c (fst p) = snd p.
(** abscissae strictly increasing *)
Definition ascending (d : list (R * R)) : Prop :=
  forall i j p q, (i < j)%nat -> nth_error d i = Some p -> nth_error d j = Some q -> fst p < fst q.
Definition window {A} (d : list A) (i n : nat) : list A := firstn n (skipn i d).
