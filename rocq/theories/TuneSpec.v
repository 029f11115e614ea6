(* The discrete Fourier transform. *)
From Verif Require Import RBase.
From Coq Require Import List Arith.
Import ListNotations.
Local Open Scope R_scope.

Definition cx : Type := R * R.
Definition cadd (a b : cx) : cx := (fst a + fst b, snd a + snd b).
Definition csub (a b : cx) : cx := (fst a - fst b, snd a - snd b).
Definition cmul (a b : cx) : cx := (fst a * fst b - snd a * snd b, fst a * snd b + snd a * fst b).
Definition cis (t : R) : cx := (cos t, sin t).
Fixpoint csum (f : nat -> cx) (n : nat) : cx := match n with O => (0, 0) | S m => cadd (csum f m) (f m) end.
(* with the sign of the exponent of the program *)
Definition dft (n : nat) (x : nat -> cx) (k : nat) : cx := csum (fun r => cmul (x r) (cis (2 * PI * INR (k * r) / INR n))) n.
(* a list of reals holds n complex numbers, real and imaginary part after each other *)
Definition holds (n : nat) (l : list R) (x : nat -> cx) : Prop :=
  List.length l = (2 * n)%nat /\ forall k, (k < n)%nat -> nth_error l (2 * k) = Some (fst (x k)) /\ nth_error l (2 * k + 1) = Some (snd (x k)).
(* |z| *)
Definition cabs (z : cx) : R := sqrt (fst z * fst z + snd z * snd z).
(* the Hanning window of n turns, at the k-th of them counted from 0 *)
Definition window (n k : nat) : R := sin (PI * INR (k + 1) / INR n) ^ 2.
(* a particle on the design ellipse which advances by a fraction p/n of a turn of phase per turn *)
Definition rotating (a : cx) (p n k : nat) : cx := cmul a (cis (- (2 * PI * INR p * INR (k + 1) / INR n))).
(* the values of n turns under the window *)
Definition recorded (n : nat) (f : nat -> cx) : list R := flat_map (fun i => [fst (f i) * window n i; snd (f i) * window n i]) (seq 0 n).
(* a particle which advances by nu turns of phase per turn *)
Definition rotating_at (a : cx) (nu : R) (k : nat) : cx := cmul a (cis (- (2 * PI * nu * INR (k + 1)))).
