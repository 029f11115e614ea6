(* Powers of x + iy and the potential of a mode. *)
From Verif Require Import RBase Bunch CollWake.
From Coq Require Import List.
Import ListNotations.
Local Open Scope R_scope.

(* real and imaginary part of (x + iy)^m *)
Fixpoint zre (m : nat) (x y : R) : R := match m with O => 1 | S n => zre n x y * x - zim n x y * y end
with zim (m : nat) (x y : R) : R := match m with O => 0 | S n => zre n x y * y + zim n x y * x end.
Fixpoint sum_over (f : R -> R -> R) (s : list particle) : R := match s with [] => 0 | p :: q => f (vx (pv p)) (vy (pv p)) + sum_over f q end.
(* potential of mode m at (x, y) for wakes c and s of the cosine and sine moments *)
Definition potential (m : nat) (c s x y : R) : R := c * zre m x y + s * zim m x y.
