(* What the wake field of a bunch does to its particles, in terms of sums over particles. *)
From Coq Require Import ZArith.
From Verif Require Import RBase Bunch BunchSpec HistProps.
Local Open Scope R_scope.

(* mean and spread along the bunch, and the particles within nsig spreads of the mean *)
Definition ct_mean (l : list particle) : R := avg (at_ 4) l.
Definition ct_spread (l : list particle) : R := sqrt (cov (at_ 4) (at_ 4) l).
Definition central (nsig : R) (l : list particle) : list particle :=
  filter (in_range (ct_mean l - nsig * ct_spread l) (ct_mean l + nsig * ct_spread l)) l.
(* slice number n of a bunch cut from z in steps of dz *)
Definition in_slice (z dz : R) (n : nat) : particle -> bool := in_range (z + INR n * dz) (z + (INR n + 1) * dz).
(* the sum over the particles of slices i and above, each weighted with f and with W at the
   distance of the middle of its slice from the lower end of slice i *)
Definition felt (W : R -> R) (f : particle -> R) (l : list particle) (z dz : R) (nb i : nat) : R :=
  sum (fun j => W ((INR j + 1 / 2 - INR i) * dz) * sum f (filter (in_slice z dz j) l)) (seq i (nb - i)).
(* linear interpolation of values given at z, z + dz, z + 2 dz, ... *)
Definition interpolated (U : nat -> R) (z dz ct : R) : R :=
  let n := Z.to_nat (Int_part ((ct - z) / dz)) in
  U n + (U (S n) - U n) * ((ct - (z + INR n * dz)) / dz).
(* the wake at ct of particles with charge q each, scaled by ev *)
Definition wake_at (q ev : R) (W : R -> R) (f : particle -> R) (l : list particle) (z dz : R) (nb : nat) (ct : R) : R :=
  interpolated (fun i => q * ev * felt W f l z dz nb i) z dz ct.
(* what an impulse with the given longitudinal and transverse fields does to one particle *)
Definition kicked_by (len : R) (Fz Fx Fy : R -> R) (b b' : bunch) (p p' : particle) : Prop :=
  let ct := vct (pv p) in
  pid p' = pid p /\ vx (pv p') = vx (pv p) /\ vy (pv p') = vy (pv p) /\ vct (pv p') = ct /\
  momentum b' p' = momentum b p - len * Fz ct /\
  vxp (pv p') = (vxp (pv p) + len * Fx ct / p0 b) / (1 - len * Fz ct / p0 b) /\
  vyp (pv p') = (vyp (pv p) + len * Fy ct / p0 b) / (1 - len * Fz ct / p0 b).
