(* Charge, momenta and damping of macro-particles. *)
From Verif Require Import RBase Bunch SMPWake.
From Coq Require Import List.
Import ListNotations.
Local Open Scope R_scope.

Fixpoint total (l : list mp) : R := match l with [] => 0 | p :: q => mq p + total q end.
(* charge times longitudinal momentum for a reference p0 *)
Fixpoint momentum (p0 : R) (l : list mp) : R := match l with [] => 0 | p :: q => mq p * (p0 * (1 + vdp (mv p))) + momentum p0 q end.
Fixpoint timesum (l : list mp) : R := match l with [] => 0 | p :: q => vct (mv p) * mq p + timesum q end.
(* a slice: particles that come less than dz behind its first; the next begins at least dz behind *)
Fixpoint well_cut (dz : R) (l : list (list mp)) : Prop :=
  match l with
  | [] => True
  | s :: q => (exists p t, s = p :: t /\ Forall (fun x => vct (mv x) < vct (mv p) + dz) t /\
                match q with (y :: _) :: _ => vct (mv p) + dz <= vct (mv y) | _ => True end) /\ well_cut dz q
  end.
(* angles smaller by a factor r: diag(1,r,1,r) c diag(1,r,1,r) *)
Definition damped (r : R) (c : cov4) : cov4 :=
  mkC4 (c00 c) (r * c01 c) (c02 c) (r * c03 c) (r * r * c11 c) (r * c12 c) (r * r * c13 c) (c22 c) (r * c23 c) (r * r * c33 c).
