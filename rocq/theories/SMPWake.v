(* Wake fields for macro-particles: model of SMPWakeFieldProcess.cpp 30-82 (GetSliceCentroid,
   AWK), 152-194 (ApplyWakefield), 208-229 (PrepLWake), 239-280 (PrepSlices).  Exact reals;
   a quotient by zero is the outcome SNaN, a first particle of an empty bunch UB.  The wake
   functions are arbitrary.  The slices are those of the bunch at the time of the kick: the
   code keeps them between components without bends. *)
From Verif Require Import RBase Base Bunch.
From Coq Require Import List.
Import ListNotations.
Local Open Scope R_scope.

Inductive swerr := SNaN.
Definition swres := res swerr.
(* SliceMacroParticle: centroid, the elements of the symmetric 4x4 matrix, charge *)
Record cov4 := mkC4 { c00 : R; c01 : R; c02 : R; c03 : R; c11 : R; c12 : R; c13 : R; c22 : R; c23 : R; c33 : R }.
Record mp := mkMP { mv : vec6; mc : cov4; mq : R }.
Record bin := mkBin { b_ps : list mp; b_z : R; b_q : R }.
(* the loop of PrepSlices, 255-275; cur is the slice so far, backwards *)
Fixpoint cut (dz z : R) (cur : list mp) (za qt : R) (l : list mp) : swres (list bin) :=
  match l with
  | [] => if Reqb qt 0 then Throw SNaN else Ok [mkBin (rev cur) (za / qt) qt]
  | p :: q =>
    if Rleb z (vct (mv p)) then
      if Reqb qt 0 then Throw SNaN else
      do r <- cut dz (vct (mv p) + dz) [p] (vct (mv p) * mq p) (mq p) q; Ok (mkBin (rev cur) (za / qt) qt :: r)
    else cut dz z (p :: cur) (za + vct (mv p) * mq p) (qt + mq p) q
  end.
Definition prep_slices (dz : R) (l : list mp) : swres (list bin) :=
  match l with [] => UB | p :: _ => cut dz (vct (mv p) + dz) [] (vct (mv p) * mq p) (mq p) l end.
Record wakes := mkW { wl : R -> R; wt : R -> R; wconv : R; inc_tw : bool }.
(* PrepLWake, 216-224: the wake of a slice by itself and the later ones *)
Fixpoint later_l (w : wakes) (z : R) (l : list bin) : R :=
  match l with [] => 0 | b :: q => wl w (b_z b - z) * b_q b * wconv w + later_l w z q end.
Definition wake_z (w : wakes) (b : bin) (q : list bin) : R := (1 / 2) * wl w (b_z b - b_z b) * b_q b * wconv w + later_l w (b_z b) q.
Fixpoint load (w : wakes) (l : list bin) : R := match l with [] => 0 | b :: q => b_q b * wake_z w b q + load w q end.
Fixpoint charge (l : list bin) : R := match l with [] => 0 | b :: q => b_q b + charge q end.
(* 225-228 *)
Definition bload (w : wakes) (l : list bin) : swres R := if Reqb (charge l) 0 then Throw SNaN else Ok (load w l / charge l).
(* GetSliceCentroid, 30-45 *)
Fixpoint sumq (f : vec6 -> R) (l : list mp) : R := match l with [] => 0 | p :: q => f (mv p) * mq p + sumq f q end.
Definition centroid (f : vec6 -> R) (l : list mp) : swres R :=
  let q := sumq (fun _ => 1) l in if Reqb q 0 then Throw SNaN else Ok (sumq f l / q).
(* 177-183 *)
Fixpoint kick_t (w : wakes) (f : vec6 -> R) (z : R) (l : list bin) : swres R :=
  match l with
  | [] => Ok 0
  | b :: q => do c <- centroid f (b_ps b); do r <- kick_t w f z q; Ok (wt w (b_z b - z) * b_q b * c + r)
  end.
(* AWK, 48-82 *)
Definition awk (e0 de px py pz : R) (p : mp) : swres mp :=
  let v := mv p in let c := mc p in
  let ei := e0 * (1 + vdp v) in let ef := ei + pz in
  if Reqb ef 0 then Throw SNaN else if Reqb (e0 + de) 0 then Throw SNaN else
  let er := ei / ef in let er2 := er * er in
  Ok (mkMP (V6 (vx v) ((ei * vxp v + px) / ef) (vy v) ((ei * vyp v + py) / ef) (vct v) (ef / (e0 + de) - 1))
           (mkC4 (c00 c) (c01 c * er) (c02 c) (c03 c * er) (c11 c * er2) (c12 c) (c13 c * er2) (c22 c) (c23 c * er) (c33 c * er2)) (mq p)).
Fixpoint awk_all (e0 de px py pz : R) (l : list mp) : swres (list mp) :=
  match l with [] => Ok [] | p :: q => do p' <- awk e0 de px py pz p; do r <- awk_all e0 de px py pz q; Ok (p' :: r) end.
(* 169-192 *)
Fixpoint kick_bins (w : wakes) (ds e0 de : R) (l : list bin) : swres (list mp) :=
  match l with
  | [] => Ok []
  | b :: q =>
    do kx <- (if inc_tw w then kick_t w vx (b_z b) q else Ok 0);
    do ky <- (if inc_tw w then kick_t w vy (b_z b) q else Ok 0);
    do s <- awk_all e0 de (ds * wconv w * kx) (ds * wconv w * ky) (- ds * wake_z w b q) (b_ps b);
    do r <- kick_bins w ds e0 de q; Ok (s ++ r)
  end.
(* ApplyWakefield, 152-194: the new reference momentum and particles *)
Definition apply (w : wakes) (dz ds p0 : R) (l : list mp) : swres (R * list mp) :=
  do bins <- prep_slices dz l; do b <- bload w bins;
  let de := - b * ds in
  do r <- kick_bins w ds p0 de bins; Ok (p0 + de, r).
