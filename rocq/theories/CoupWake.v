(* Wakes of couplers (CouplerWakeFieldProcess.cpp 33-45, 105-170) and of tapered collimators
   (CollimatorPotentialModels.cpp 22-49).  Exact reals.  The wake and RF functions of the
   coupler are arbitrary; slices are given as the places of their particles and their charge
   density Qd; u is ElectronCharge * Volt.  A result that is no finite number is CNaN. *)
From Verif Require Import RBase Base.
From Coq Require Import List Bool.
Import ListNotations.
Local Open Scope R_scope.

Inductive cwerr := CNaN.
Definition cwres := res cwerr.
(* GetSliceCentroid, 33-45 *)
Definition centroid (l : list (R * R)) : R * R :=
  let s := fold_left (fun c p => (fst c + fst p, snd c + snd p)) l (0, 0) in
  if Nat.ltb 1 (length l) then (fst s / INR (length l), snd s / INR (length l)) else s.
Record coupler := mkCp { cp_xy : R -> R -> R * R; cp_rf : R -> R -> R -> R * R; cp_t : R -> R }.
(* the cavity and the bunch: GetLength, GetVoltage, GetPhase, GetK; zmin, dz *)
Record cavity := mkCav { ca_len : R; ca_v : R; ca_phi : R; ca_k : R; ca_zmin : R; ca_dz : R }.
(* 152-165; k is j - i *)
Fixpoint sum_wake (w : coupler) (ca : cavity) (cxy : R * R) (k : nat) (l : list (R * (R * R))) (acc : R * R) : R * R :=
  match l with
  | [] => acc
  | (q, c) :: r => let t := q * cp_t w ((INR k + 1 / 2) * ca_dz ca) in
      sum_wake w ca cxy (Datatypes.S k) r (fst acc + t * fst c + q * fst cxy / ca_len ca, snd acc + t * snd c + q * snd cxy / ca_len ca)
  end.
(* 132-169; the entry behind the last slice stays zero *)
Fixpoint wakes_at (w : coupler) (ca : cavity) (a0 : R) (i : nat) (l : list (R * (R * R))) : list (R * R) :=
  match l with
  | [] => [(0 * a0, 0 * a0)]
  | (q, c) :: r =>
      let cxy := cp_xy w (fst c) (snd c) in
      let rf := cp_rf w (fst c) (snd c) (Rabs (ca_phi ca) + ca_k ca * (ca_zmin ca + (INR i + 1 / 2) * ca_dz ca)) in
      let z := sum_wake w ca cxy 0 l (0 + fst rf * ca_v ca / ca_len ca / a0, 0 + snd rf * ca_v ca / ca_len ca / a0) in
      (fst z * a0, snd z * a0) :: wakes_at w ca a0 (Datatypes.S i) r
  end.
(* CalculateWakeT, 105-170; xyc.back() of no slices at 119 is UB *)
Definition coupler_wake (w : coupler) (ca : cavity) (u qtot : R) (qd : list R) (sl : list (list (R * R))) : cwres (list (R * R)) :=
  match sl with
  | [] => UB
  | _ => let a0 := ca_dz ca * Rabs qtot * u in
         if Reqb (ca_len ca) 0 then Throw CNaN else if Reqb a0 0 then Throw CNaN else
         Ok (wakes_at w ca a0 0 (combine qd (map centroid sl)))
  end.

(* TaperedCollimatorPotentials, 22-30 *)
Definition coeff (a b : R) (i : nat) : R := 2 * (1 / a ^ (2 * i) - 1 / b ^ (2 * i)).
(* Wlong and Wtrans, 41-49; nm is the number of modes given, a mode above it is beyond coeff *)
Definition w_long (a b : R) (nm : nat) (z : R) (m : nat) : cwres R :=
  if Rltb 0 z then (if Nat.ltb nm m then UB else Ok (- (INR m / a * coeff a b m / exp (INR m * z / a)))) else Ok 0.
Definition w_trans (a b : R) (nm : nat) (z : R) (m : nat) : cwres R :=
  if Rltb 0 z then (if Nat.ltb nm m then UB else Ok (coeff a b m / exp (INR m * z / a))) else Ok 0.
