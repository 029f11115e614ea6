(** Model of NumericalRange<double> (Merlin++/Range.h). *)
From Verif Require Import RBase.
Local Open Scope R_scope.

Record range := mkRange { lower : R; upper : R }.
Inductive check_result := InRange | BelowLower | AboveUpper.

(** lines 100-108: limits are swapped when given the wrong way round *)
Definition range_of (lo hi : R) : range :=
  if Rltb hi lo then mkRange hi lo else mkRange lo hi.
(** lines 50-53 *)
Definition unbounded_range : range := mkRange 1 (-1).
(** lines 58-61 *)
Definition fixed_point (fp : R) : range := mkRange fp fp.
(** lines 110-114 *)
Definition is_unbounded (r : range) : bool := fequal (lower r) 1 && fequal (upper r) (-1).
(** lines 71-74 *)
Definition is_fixed_point (r : range) : bool := Reqb (lower r) (upper r).
(** lines 116-127 *)
Definition contains (r : range) (x : R) : bool :=
  if is_unbounded r then true else Rleb (lower r) x && Rleb x (upper r).
(** lines 129-133, 135-139 *)
Definition range_eq (a b : range) : bool := Reqb (lower a) (lower b) && Reqb (upper a) (upper b).
Definition range_ne (a b : range) : bool := negb (Reqb (lower a) (lower b)) || negb (Reqb (upper a) (upper b)).
(** lines 141-161 *)
Definition check (r : range) (x : R) : check_result :=
  if is_unbounded r then InRange
  else if Rltb x (lower r) then BelowLower
  else if Rleb x (upper r) then InRange
  else AboveUpper.
