(* Model of wake fields of collimators (Merlin++/CollimatorWakeProcess.cpp 96-234).  The
   bunch is given by its slices.  Exact reals; the tables have room for 1000 slices, more
   is UB; a division by zero is the outcome WNaN.  The read of the entry behind the last
   slice, which is never set and never used, is left out, and so is the new slicing of a
   bunch inside ApplyWakefield. *)
From Verif Require Import RBase Base Rot Bunch.
From Coq Require Import List ZArith.
Import ListNotations.
Local Open Scope R_scope.

Inductive wkerr := WNaN.
Definition wkres := res wkerr.
(* powd, 36-44 *)
Fixpoint powd (x : R) (n : nat) : R := match n with O => 1 | Datatypes.S n' => powd x n' * x end.
Definition radius (v : vec6) : R := sqrt (powd (vx v) 2 + powd (vy v) 2).
Definition azimuth (v : vec6) : R := atan2 (vy v) (vx v).
(* CalculateCm, CalculateSm, 96-119 *)
Fixpoint cm (m : nat) (s : list particle) : R :=
  match s with [] => 0 | p :: q => powd (radius (pv p)) m * cos (INR m * azimuth (pv p)) + cm m q end.
Fixpoint sm (m : nat) (s : list particle) : R :=
  match s with [] => 0 | p :: q => powd (radius (pv p)) m * sin (INR m * azimuth (pv p)) + sm m q end.
(* CalculateWakeT, CalculateWakeL, 122-163: the sum from a slice on, d slices away *)
Fixpoint conv (w : nat -> R) (mom : list particle -> R) (d : nat) (l : list (list particle)) : R :=
  match l with [] => 0 | s :: q => w d * mom s + conv w mom (Datatypes.S d) q end.
Record cwake := mkCW { w_modes : nat; w_dz : R; w_a0 : R; w_p0 : R; w_tw : bool; w_t : R -> nat -> R; w_l : R -> nat -> R }.
(* the body of the loop over particles, 205-229 *)
Definition kick (c : cwake) (m : nat) (ct st cl sl : R) (v : vec6) : wkres vec6 :=
  let r := radius v in let th := azimuth v in
  let m1 := (m - 1)%nat in
  let wxc := cos (INR m1 * th) * ct in let wxs := sin (INR m1 * th) * st in
  let wys := cos (INR m1 * th) * st in let wyc := sin (INR m1 * th) * ct in
  let wx := INR m * powd r m1 * (wxc + wxs) * w_a0 c in
  let wy := INR m * powd r m1 * (wys - wyc) * w_a0 c in
  let wzc := cos (INR m * th) * cl in let wzs := sin (INR m * th) * sl in
  let wz := powd r m * (wzc - wzs) * w_a0 c in
  if Reqb (w_p0 c) 0 then Throw WNaN else
  let ddp := - wz / w_p0 c in
  let dxp := if w_tw c then wx / w_p0 c else 0 in
  let dyp := if w_tw c then wy / w_p0 c else 0 in
  if Reqb (1 + ddp) 0 then Throw WNaN else
  Ok (V6 (vx v) ((vxp v + dxp) / (1 + ddp)) (vy v) ((vyp v + dyp) / (1 + ddp)) (vct v) (vdp v + ddp)).
Fixpoint kick_slice (c : cwake) (m : nat) (ct st cl sl : R) (s : list particle) : wkres (list particle) :=
  match s with
  | [] => Ok []
  | p :: q => do v <- kick c m ct st cl sl (pv p); do r <- kick_slice c m ct st cl sl q; Ok (mkP v (pid p) :: r)
  end.
(* one mode, 191-233; org are the slices before all modes, which give the moments *)
Fixpoint mode_pass (c : cwake) (m : nat) (org cur : list (list particle)) : wkres (list (list particle)) :=
  match org, cur with
  | o :: oq, s :: sq =>
    let wt := fun d => w_t c (INR d * w_dz c) m in let wl := fun d => w_l c (INR d * w_dz c) m in
    do r <- kick_slice c m (conv wt (cm m) 0 (o :: oq)) (conv wt (sm m) 0 (o :: oq)) (conv wl (cm m) 0 (o :: oq)) (conv wl (sm m) 0 (o :: oq)) s;
    do q <- mode_pass c m oq sq; Ok (r :: q)
  | _, _ => Ok []
  end.
Fixpoint modes_from (c : cwake) (m n : nat) (org cur : list (list particle)) : wkres (list (list particle)) :=
  match n with O => Ok cur | Datatypes.S n' => do r <- mode_pass c m org cur; modes_from c (Datatypes.S m) n' org r end.
(* ApplyWakefield, 165-234: the gradient reads the entry behind each slice *)
Definition apply_wake (c : cwake) (slices : list (list particle)) : wkres (list (list particle)) :=
  if Nat.eqb (w_modes c) 0 then Ok slices else
  if Nat.leb 1000 (length slices) then UB else modes_from c 1 (w_modes c) slices slices.
