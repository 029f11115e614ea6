(* Statistics of a list of particles, stated by their textbook definitions. *)
From Verif Require Import RBase Bunch.
Local Open Scope R_scope.

Fixpoint sum {A} (f : A -> R) (l : list A) : R :=
  match l with [] => 0 | a :: r => f a + sum f r end.
(* arithmetic mean and population covariance *)
Definition avg {A} (f : A -> R) (l : list A) : R := sum f l / INR (length l).
Definition cov {A} (f g : A -> R) (l : list A) : R :=
  avg (fun a => (f a - avg f l) * (g a - avg g l)) l.
(* the value of coordinate i of a particle *)
Definition at_ (i : nat) (p : particle) : R := coord i (pv p).
(* the same displacement, or the same factor, applied to all particles *)
Definition shifted (a : vec6) (p : particle) : particle := mkP (vadd (pv p) a) (pid p).
Definition scaled (k : R) (p : particle) : particle := mkP (vscale k (pv p)) (pid p).

(* what a particle is physically: momentum and arrival time; a particle with
   positive ct is ahead of the reference *)
Definition momentum (b : bunch) (p : particle) : R := p0 b * (1 + vdp (pv p)).
Definition arrival (b : bunch) (p : particle) : R := ct0 b - vct (pv p).

(* weighted statistics of slices *)
Definition wsum (f : slice -> R) (l : list slice) : R := sum (fun s => sq s * f s) l.
Definition charge_sum (l : list slice) : R := sum sq l.
Definition sat (i : nat) (s : slice) : R := coord i (sv s).
Definition smean (i : nat) (l : list slice) : R := wsum (sat i) l / charge_sum l.
(* covariance of the whole: spread of the slice centres plus mean spread inside *)
Definition scovar (i j : nat) (l : list slice) : R :=
  wsum (fun s => (sat i s - smean i l) * (sat j s - smean j l) + slice_sig s i j) l / charge_sum l.
