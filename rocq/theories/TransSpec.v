(* What a multipole field does to a particle: strengths, and the change of slope that
   goes with an integrated field. *)
From Coq Require Import ZArith.
From Verif Require Import RBase Cplx Field FieldProps Cov Bunch.
Local Open Scope R_scope.

(* the field at a place of the plane, By + i Bx *)
Definition field_at (f : field) (z : cx) : cx := if is_null f then c0 else cscale (b0 f) (peval (ex f) z).
(* the slopes change by -Re F and Im F *)
Definition pushed (F : cx) (v : vec6) : vec6 := V6 (vx v) (vxp v - re F) (vy v) (vyp v + im F) (vct v) (vdp v).
Definition place (v : vec6) : cx := mkCx (vx v) (vy v).
Definition phase (a : R) : cx := mkCx (cos a) (sin a).
(* The momentum P0 in GeV/c of a particle of charge q is bent by a field B over a length l
   by the angle q B l (c / 10^9) / P0, less for higher momenta. *)
Definition deflection (P0 q : R) (l : R) (v : vec6) (B : cx) : cx := cscale (q * l * (299792458 / 1000000000) / (P0 * (1 + vdp v))) B.
(* the field but for one multipole *)
Definition lacks (n : nat) (f g : field) : Prop := b0 g = b0 f /\ coef g n = c0 /\ forall k, k <> n -> coef g k = coef f k.
(* strength of order n: n! q b_n over the magnetic rigidity *)
Definition kn (P0 q : R) (f : field) (n : nat) : cx := cscale (q * (b0 f * (299792458 / 1000000000) / P0) * INR (fact n)) (coef f n).
