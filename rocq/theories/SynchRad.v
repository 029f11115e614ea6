(* Model of synchrotron radiation (Merlin++/SynchRadParticleProcess.cpp).  Exact reals.
   Outcomes: SNaN, a value that is not a number; SAssert, the assertion on the reference
   momentum; UB for a null pointer or a number of steps that is no int.  The numbers of
   photons and their relative energies come from an oracle, one list for each passage of
   a particle.  The magnitude of the field is a function of the position. *)
From Verif Require Import RBase Base Bunch.
From Coq Require Import List ZArith.
Import ListNotations.
Local Open Scope R_scope.

Inductive srerr := SNaN | SAssert.
Definition srres := res srerr.
(* PHOTCONST1, PHOTCONST2, ParticleMassMeV *)
Record consts := mkK { k_1 : R; k_2 : R; k_m : R }.
(* ApplySR::operator(), 61-79: the energy radiated *)
Fixpoint photons (uc : R) (l : list R) (u : R) : R := match l with [] => u | s :: q => photons uc q (u + uc * s) end.
Definition loss (k : consts) (field : R -> R -> R) (dL P0 : R) (quantum : bool) (ph : list R) (v : vec6) : R :=
  let B := field (vx v) (vy v) in
  let g := P0 * (1 + vdp v) / k_m k in
  let uc := k_1 k * B * g * g in
  if quantum then photons uc ph 0 else k_2 k * B * dL * uc.
(* 83-107: the change of the momentum *)
Definition emit (symp : bool) (P0 u : R) (v : vec6) : srres vec6 :=
  if Reqb P0 0 then Throw SNaN else
  if symp then
    let k2 := (1 + vdp v) * (1 + vdp v) - vxp v * vxp v - vyp v * vyp v in
    if Rleb k2 0 then Throw SNaN else
    let ks := sqrt k2 in
    let kx := vxp v / ks in let ky := vyp v / ks in
    let dp := vdp v - u / P0 in
    let kz := (1 + dp) / sqrt (1 + kx * kx + ky * ky) in
    Ok (V6 (vx v) (kx * kz) (vy v) (ky * kz) (vct v) dp)
  else
    if Reqb (1 + u / P0) 0 then Throw SNaN else
    Ok (V6 (vx v) (vxp v / (1 + u / P0)) (vy v) (vyp v / (1 + u / P0)) (vct v) (vdp v - u / P0)).
(* for_each over the bunch; the sum of the losses is meanU *)
Fixpoint radiate (k : consts) (field : R -> R -> R) (dL P0 : R) (symp quantum : bool) (ph : nat -> list R) (n : nat) (l : list particle) (U : R) : srres (list particle * R) :=
  match l with
  | [] => Ok ([], U)
  | p :: q =>
    if Reqb (k_m k) 0 then Throw SNaN else
    let u := loss k field dL P0 quantum (ph n) (pv p) in
    do v <- emit symp P0 u (pv p);
    do r <- radiate k field dL P0 symp quantum ph (Datatypes.S n) q (U + u);
    Ok (mkP v (pid p) :: fst r, snd r)
  end.

(* the process; field None is the null pointer *)
Record srp := mkS { s_ns : Z; s_dsmax : R; s_incq : bool; s_adjust : bool; s_symp : bool; s_quantum : bool;
  s_field : option (R -> R -> R); s_dL : R; s_nk : Z; s_ints : R; s_active : bool }.
(* the constructor, 123-130 *)
Definition new_sr (symp q : bool) : srp := mkS 1 0 false true symp q None 0 0 0 true.
(* 206-219 *)
Definition set_steps (n : Z) (s : srp) : srp := mkS n 0 (s_incq s) (s_adjust s) (s_symp s) (s_quantum s) (s_field s) (s_dL s) (s_nk s) (s_ints s) (s_active s).
Definition set_max_step (d : R) (s : srp) : srp := mkS 0 d (s_incq s) (s_adjust s) (s_symp s) (s_quantum s) (s_field s) (s_dL s) (s_nk s) (s_ints s) (s_active s).
Definition include_quads (b : bool) (s : srp) : srp := mkS (s_ns s) (s_dsmax s) b (s_adjust s) (s_symp s) (s_quantum s) (s_field s) (s_dL s) (s_nk s) (s_ints s) (s_active s).

Inductive kind := KBend (field : R -> R -> R) | KMult (field : R -> R -> R) | KOther.
(* conversion of a double to int: truncation; undefined out of range *)
Definition trunc (x : R) : Z := if Rleb 0 x then (up x - 1)%Z else (- (up (- x) - 1))%Z.
(* SetCurrentComponent, 133-164; bunch: whether there is one.  1 + length / dsMax is a
   double which becomes an int; a division by zero gives no int *)
Definition set_comp (bunch : bool) (c : kind) (len : R) (s : srp) : srres srp :=
  if bunch then
    let f := match c with KBend f => Some f | KMult f => if s_incq s then Some f else None | KOther => None end in
    do ns1 <- (if Z.eqb (s_ns s) 0 then
                 if Reqb (s_dsmax s) 0 then UB else
                 let z := trunc (1 + len / s_dsmax s) in
                 if (Z.leb (- 2 ^ 31) z && Z.ltb z (2 ^ 31))%bool then Ok z else UB
               else Ok (s_ns s));
    if Z.eqb ns1 0 then Throw SNaN else
    Ok (mkS (s_ns s) (s_dsmax s) (s_incq s) (s_adjust s) (s_symp s) (s_quantum s) f (len / IZR ns1) 0 0 (match f with Some _ => true | None => false end))
  else UB.
(* GetMaxAllowedStepSize, 192-196 *)
Definition max_step (s : srp) : R := (IZR (s_nk s) + 1) * s_dL s - s_ints s.
(* DoProcess, 167-189; the number of passages is counted for the oracle *)
Definition do_sr (k : consts) (ph : nat -> list R) (n : nat) (ds : R) (s : srp) (b : bunch) : srres (srp * bunch * nat) :=
  let si := s_ints s + ds in
  do r <- (if fequal si ((IZR (s_nk s) + 1) * s_dL s) then
    match s_field s with
    | None => UB
    | Some field =>
      do rad <- radiate k field (s_dL s) (p0 b) (s_symp s) (s_quantum s) ph n (parts b) 0;
      let b1 := mkB (p0 b) (ct0 b) (qmp b) (fst rad) in
      let n' := (n + length (parts b))%nat in
      if s_adjust s then
        match parts b with
        | [] => Throw SNaN
        | _ =>
          match adjust_ref_momentum (- (snd rad / INR (length (parts b))) / p0 b) b1 with
          | Ok (b2, _) => Ok (b2, (s_nk s + 1)%Z, n')
          | _ => Throw SAssert
          end
        end
      else Ok (b1, (s_nk s + 1)%Z, n')
    end
  else Ok (b, s_nk s, n));
  let '(b', nk, n') := r in
  Ok (mkS (s_ns s) (s_dsmax s) (s_incq s) (s_adjust s) (s_symp s) (s_quantum s) (s_field s) (s_dL s) nk si (negb (Z.eqb nk (s_ns s))), b', n').
(* a component in steps; the process takes part while it is active *)
Fixpoint run_sr (k : consts) (ph : nat -> list R) (n : nat) (l : list R) (s : srp) (b : bunch) : srres (srp * bunch * nat) :=
  match l with
  | [] => Ok (s, b, n)
  | ds :: q => if s_active s then do r <- do_sr k ph n ds s b; let '(s', b', n') := r in run_sr k ph n' q s' b' else Ok (s, b, n)
  end.
