(* Energies and transverse momenta of particles. *)
From Verif Require Import RBase Bunch.
From Coq Require Import List.
Import ListNotations.
Local Open Scope R_scope.

Definition energy (b : bunch) (p : particle) : R := p0 b * (1 + vdp (pv p)).
(* transverse momenta *)
Definition px (b : bunch) (p : particle) : R := energy b p * vxp (pv p).
Definition py (b : bunch) (p : particle) : R := energy b p * vyp (pv p).
Fixpoint total (l : list R) : R := match l with [] => 0 | x :: q => x + total q end.
(* field seen by a particle, over the peak field *)
Definition seen (k phi : R) (p : particle) : R := cos (phi - k * vct (pv p)).
