(* Specification of the aperture survey. *)
From Verif Require Import RBase Survey.
Local Open Scope R_scope.
(* open up to a and closed from there on *)
Definition open_until (a : R) (inside : R -> bool) : Prop := forall g, 0 <= g -> (g < a -> inside g = true) /\ (a < g -> inside g = false).
Fixpoint total (l : list element) : R := match l with [] => 0 | e :: l => llen e + total l end.
(* the elements follow one another and have positive or no length *)
Fixpoint in_line (s : R) (l : list element) : Prop := match l with [] => True | e :: l => lpos e = s /\ 0 <= llen e /\ in_line (s + llen e) l end.
(* the multiples 0, step, 2 step, ... *)
Definition multiples (step : R) (n : nat) : list R := map (fun i => INR i * step) (seq 0 n).
