(* Model of the hollow electron lens: Merlin++/HollowElectronLens.cpp 15-119,
   HollowElectronLens.h 70-131, and the process applying it,
   HollowELensProcess.cpp 24-454, with the Lorentz factors of
   PhysicalConstants.cpp 59-70.  Arithmetic is exact; a double which would be an
   infinity or NaN is Throw NotNumber, reading a member which was never set is UB.
   Simplified: the turn counter does not overflow; the random numbers are a
   sequence given from outside and a position in it; printing to the terminal is
   left out; the class is looked at as a component, the drift of the lens is
   tracked elsewhere. *)
From Verif Require Import RBase Rot Bunch.
From Coq Require Import ZArith List.
Import ListNotations.
Local Open Scope R_scope.

Inductive herr := NotNumber.
Definition hres := res herr.
(* HollowElectronLens.h 19-26 *)
Inductive omode := DC | AC | Diffusive | Turnskip.
(* HollowElectronLens.h 154-164: what SetAC sets; the members are unset before *)
Record acp := mkAC { a_tune : R; a_delta : R; a_var : R; a_tps : R; a_mult : R; a_min : R; a_nstep : R }.
(* HollowElectronLens.h 137-172; ac is Some exactly when ACSet *)
Record lens := mkL { current : R; ebeta : R; rigidity : R; elength : R; rmin : option R; rmax : option R; sigma_x : option R;
  xoff : R; yoff : R; mode : option omode; ac : option acp; turns : Z; skip : Z; simple : bool; opposite : bool; lhc : bool }.

(* HollowElectronLens.cpp 15-43 *)
Definition new_lens (m : Z) (cur be rig len : R) : lens :=
  mkL cur be rig len None None None 0 0
      (if Z.eqb m 0 then Some DC else if Z.eqb m 1 then Some AC else if Z.eqb m 2 then Some Diffusive
       else if Z.eqb m 3 then Some Turnskip else None)
      None 0 0 true true false.
(* HollowElectronLens.cpp 67-81 *)
Definition set_radii (a b : R) (l : lens) : lens :=
  mkL (current l) (ebeta l) (rigidity l) (elength l) (Some a) (Some b) (sigma_x l) (xoff l) (yoff l) (mode l) (ac l) (turns l) (skip l) (simple l) (opposite l) (lhc l).
(* the public members of HollowElectronLens.h 147-151 *)
Definition set_sigma (s : R) (l : lens) : lens :=
  mkL (current l) (ebeta l) (rigidity l) (elength l) (rmin l) (rmax l) (Some s) (xoff l) (yoff l) (mode l) (ac l) (turns l) (skip l) (simple l) (opposite l) (lhc l).
Definition set_offsets (x y : R) (l : lens) : lens :=
  mkL (current l) (ebeta l) (rigidity l) (elength l) (rmin l) (rmax l) (sigma_x l) x y (mode l) (ac l) (turns l) (skip l) (simple l) (opposite l) (lhc l).
(* HollowElectronLens.h 95-98 *)
Definition set_mode (m : omode) (l : lens) : lens :=
  mkL (current l) (ebeta l) (rigidity l) (elength l) (rmin l) (rmax l) (sigma_x l) (xoff l) (yoff l) (Some m) (ac l) (turns l) (skip l) (simple l) (opposite l) (lhc l).
(* HollowElectronLens.cpp 88-100; the number of steps of a sweep without a step
   size is not looked at *)
Definition set_ac (tune delta var tps mult : R) (l : lens) : lens :=
  mkL (current l) (ebeta l) (rigidity l) (elength l) (rmin l) (rmax l) (sigma_x l) (xoff l) (yoff l) (Some AC)
      (Some (mkAC tune delta var tps mult (tune - delta) (2 * delta / var + 1))) 0 (skip l) (simple l) (opposite l) (lhc l).
(* HollowElectronLens.cpp 102-106 *)
Definition set_turnskip (n : Z) (l : lens) : lens :=
  mkL (current l) (ebeta l) (rigidity l) (elength l) (rmin l) (rmax l) (sigma_x l) (xoff l) (yoff l) (Some Turnskip) (ac l) (turns l) n (simple l) (opposite l) (lhc l).
(* HollowElectronLens.h 113-120: SetRadialProfile and SetPerfectProfile *)
Definition set_profile (perfect : bool) (l : lens) : lens :=
  mkL (current l) (ebeta l) (rigidity l) (elength l) (rmin l) (rmax l) (sigma_x l) (xoff l) (yoff l) (mode l) (ac l) (turns l) (skip l) perfect (opposite l) (lhc l).
(* HollowElectronLens.h 121-124 *)
Definition set_lhc (l : lens) : lens :=
  mkL (current l) (ebeta l) (rigidity l) (elength l) (rmin l) (rmax l) (sigma_x l) (xoff l) (yoff l) (mode l) (ac l) (turns l) (skip l) (simple l) (opposite l) true.
(* HollowElectronLens.cpp 108-119 *)
Definition set_direction (d : bool) (l : lens) : lens :=
  mkL (current l) (ebeta l) (rigidity l) (elength l) (rmin l) (rmax l) (sigma_x l) (xoff l) (yoff l) (mode l) (ac l) (turns l) (skip l) (simple l) d (lhc l).
(* Turn++, HollowELensProcess.cpp 83 *)
Definition next_turn (l : lens) : lens :=
  mkL (current l) (ebeta l) (rigidity l) (elength l) (rmin l) (rmax l) (sigma_x l) (xoff l) (yoff l) (mode l) (ac l) (turns l + 1) (skip l) (simple l) (opposite l) (lhc l).

(* PhysicalConstants.cpp 22, 28: metres per second and kilogram *)
Definition speed_of_light : R := 299792458.
Definition proton_mass : R := 1672621637 / 10 ^ 36.
(* PhysicalConstants.cpp 67-70 and 59-62; gamma is at least 1 *)
Definition lorentz_gamma (momentum mass : R) : R := sqrt (1 + (momentum / (mass * speed_of_light)) ^ 2).
Definition lorentz_beta (gamma : R) : R := sqrt (1 - 1 / (gamma * gamma)).
(* HollowELensProcess.cpp 48-49 *)
Definition proton_beta (p : R) : R := lorentz_beta (lorentz_gamma p proton_mass).

(* CalcThetaMax, HollowELensProcess.cpp 239-267 *)
Definition theta_max (l : lens) (pb r : R) : hres R :=
  if Reqb r 0 then Ok 0
  else let d := r * 10 ^ 7 * rigidity l * ebeta l * pb in
       if Reqb d 0 then Throw NotNumber
       else if opposite l then Ok ((2 * elength l * current l * (1 + ebeta l * pb)) / d)
       else Ok (- (2 * elength l * current l * (1 - ebeta l * pb)) / d).

Definition times (k : R) (t : hres R) : hres R := match t with Ok v => Ok (k * v) | Throw e => Throw e | UB => UB end.

(* CalcKickSimple(R), HollowELensProcess.cpp 283-302 *)
Definition kick_simple (l : lens) (pb r : R) : hres R :=
  match rmin l, rmax l with
  | Some a, Some b =>
    if Rleb r a then Ok 0
    else if (Rltb r b && Rltb a r)%bool then
      if Reqb (b ^ 2 - a ^ 2) 0 then Throw NotNumber
      else times (- ((r ^ 2 - a ^ 2) / (b ^ 2 - a ^ 2))) (theta_max l pb r)
    else times (- 1) (theta_max l pb r)
  | _, _ => UB
  end.

(* HollowELensProcess.cpp 334-362: the ends of the pieces of the measured profile
   in its own unit, and the density there *)
Definition knot (is_lhc : bool) (i : nat) : R :=
  match i with
  | O => 222.5
  | S O => if is_lhc then 265 else 252.5
  | S (S O) => if is_lhc then 315 else 287
  | S (S (S O)) => if is_lhc then 435 else 364.5
  | _ => if is_lhc then 505 else 426.5
  end.
Definition height (i : nat) : R :=
  match i with O => 0 | S O => 917 | S (S O) => 397 | S (S (S O)) => 228 | _ => 0 end.
(* 364-374: r_i / r0 * Rmin *)
Definition knot_at (is_lhc : bool) (a : R) (i : nat) : R :=
  match i with O => a | _ => knot is_lhc i / knot is_lhc 0 * a end.
(* the cubic of 376-383 and 393-407 belonging to the piece from (u, v) to (u', v') *)
Definition cubic (u v u' v' r : R) : R :=
  (v' - v) / (u' - u) / 3 * r ^ 3 + (v - u * (v' - v) / (u' - u)) * r ^ 2 / 2.
Definition piece (is_lhc : bool) (a : R) (i : nat) (r : R) : R :=
  let u := knot_at is_lhc a i in let u' := knot_at is_lhc a (S i) in
  cubic u (height i) u' (height (S i)) r - cubic u (height i) u' (height (S i)) u.
Definition whole (is_lhc : bool) (a : R) (i : nat) : R := piece is_lhc a i (knot_at is_lhc a (S i)).

(* 376-408; the sums are not looked at when Rmin is 0, where they are NaN, since
   every knot is 0 then *)
Definition fraction (is_lhc : bool) (a r : R) : R :=
  let x := knot_at is_lhc a in
  let n := whole is_lhc a in
  let ntot := n 0%nat + n 1%nat + n 2%nat + n 3%nat in
  if Rltb r (x 0%nat) then 0
  else if Rltb r (x 1%nat) then piece is_lhc a 0 r / ntot
  else if Rltb r (x 2%nat) then (n 0%nat + piece is_lhc a 1 r) / ntot
  else if Rltb r (x 3%nat) then (n 0%nat + n 1%nat + piece is_lhc a 2 r) / ntot
  else if Rltb r (x 4%nat) then (n 0%nat + n 1%nat + n 2%nat + piece is_lhc a 3 r) / ntot
  else 1.
(* CalcKickRadial(R), 319-410 *)
Definition kick_radial (l : lens) (pb r : R) : hres R :=
  match rmin l with
  | Some a => if Rleb r a then Ok 0 else times (- fraction (lhc l) a r) (theta_max l pb r)
  | None => UB
  end.

(* CalcKickSimple(Particle), CalcKickRadial(Particle), 269-281 and 304-317 *)
Definition distance (l : lens) (v : vec6) : R := sqrt ((vx v - xoff l) ^ 2 + (vy v - yoff l) ^ 2).
Definition kick (l : lens) (pb : R) (v : vec6) : hres R :=
  if simple l then kick_simple l pb (distance l v) else kick_radial l pb (distance l v).

(* the inner part of the loops of DoProcess, e.g. 102-108, with the change of the
   angle of 150-161 in AC mode *)
Definition push (t : R) (p : particle) : particle :=
  let v := pv p in let phi := atan2 (vy v) (vx v) in
  mkP (V6 (vx v) (vxp v + t * cos phi) (vy v) (vyp v + t * sin phi) (vct v) (vdp v)) (pid p).
Definition kick_one (l : lens) (pb : R) (f : hres R) (p : particle) : hres particle :=
  match kick l pb (pv p) with
  | Ok t => if Reqb t 0 then Ok p
            else match f with Ok k => Ok (push (k * t) p) | Throw e => Throw e | UB => UB end
  | Throw e => Throw e
  | UB => UB
  end.
Fixpoint kick_all (l : lens) (pb : R) (f : hres R) (ps : list particle) : hres (list particle) :=
  match ps with
  | [] => Ok []
  | p :: r => match kick_one l pb f p with
              | Ok q => match kick_all l pb f r with Ok qs => Ok (q :: qs) | Throw e => Throw e | UB => UB end
              | Throw e => Throw e
              | UB => UB
              end
  end.

(* std::floor and std::fmod *)
Definition rfloor (x : R) : Z := Int_part x.
Definition rtrunc (x : R) : Z := if Rleb 0 x then Int_part x else (- Int_part (- x))%Z.
Definition fmod (x y : R) : R := x - IZR (rtrunc (x / y)) * y.
(* HollowELensProcess.cpp 139-154 *)
Definition op_tune (a : acp) (t : Z) : hres R :=
  if (negb (Reqb (a_var a) 0) && negb (Reqb (a_delta a) 0))%bool then
    if (Reqb (a_tps a) 0 || Reqb (a_nstep a) 0)%bool then Throw NotNumber
    else Ok (a_min a + fmod (IZR (rfloor (IZR t / a_tps a))) (a_nstep a) * a_var a)
  else Ok (a_tune a).
Definition ac_factor (a : acp) (t : Z) : hres R :=
  match op_tune a t with
  | Ok q => Ok (0.5 * (1 + cos (a_mult a * (IZR t * q * 2 * PI))))
  | Throw e => Throw e
  | UB => UB
  end.

(* what DoProcess works on: the lens, the bunch and the position in the random numbers *)
Record hst := mkH { hl : lens; hb : bunch; hpos : nat }.
Definition with_parts (b : bunch) (r : hres (list particle)) : hres bunch :=
  match r with Ok ps => Ok (mkB (p0 b) (ct0 b) (qmp b) ps) | Throw e => Throw e | UB => UB end.
(* DoProcess, 57-232: the particles are moved to another bunch and back (70-73 and
   229-231; swap gets its argument by value and so works on a copy), 75-79 find the
   velocity again; C++'s remainder has the sign of the counter and is 0 when
   Z.rem is *)
Definition do_process (rnd : nat -> R) (pb : R) (s : hst) : hres hst :=
  let b := hb s in
  let pb := if Reqb pb 0 then proton_beta (p0 b) else pb in
  let l := next_turn (hl s) in
  let on f := with_parts b (kick_all l pb f (parts b)) in
  let r := match mode l with
           | Some DC => (on (Ok 1), hpos s)
           | Some AC => (match ac l with Some a => on (ac_factor a (turns l)) | None => Ok b end, hpos s)
           | Some Diffusive => (if Rleb 0 (rnd (hpos s)) then on (Ok 1) else Ok b, S (hpos s))
           | Some Turnskip => (let n := if Z.eqb (skip l) 0 then 2%Z else skip l in
                               if Z.eqb (Z.rem (turns l) n) 0 then on (Ok 1) else Ok b, hpos s)
           | None => (UB, hpos s)
           end in
  match fst r with Ok b' => Ok (mkH l b' (snd r)) | Throw e => Throw e | UB => UB end.

(* SetCurrentComponent, 38-55, followed by one call of DoProcess for each of the
   steps the tracker divides the component into *)
Fixpoint do_steps (rnd : nat -> R) (pb : R) (n : nat) (s : hst) : hres hst :=
  match n with
  | O => Ok s
  | S m => match do_process rnd pb s with Ok s' => do_steps rnd pb m s' | Throw e => Throw e | UB => UB end
  end.
Definition pass (rnd : nat -> R) (n : nat) (s : hst) : hres hst := do_steps rnd (proton_beta (p0 (hb s))) n s.
(* turns of a ring in which nothing but the lens acts: one step each *)
Fixpoint passes (rnd : nat -> R) (k : nat) (s : hst) : hres hst :=
  match k with
  | O => Ok s
  | S m => match pass rnd 1 s with Ok s' => passes rnd m s' | Throw e => Throw e | UB => UB end
  end.

(* OutputProfile, 414-453: rows of r / sigma, the two kicks and their sizes *)
Fixpoint rows (l : lens) (pb s dr : R) (n : nat) (r : R) : hres (list (R * R * R * R * R)) :=
  match n with
  | O => Ok []
  | S m => match kick_radial l pb r, kick_simple l pb r with
           | Ok a, Ok b => match rows l pb s dr m (r + dr) with
                           | Ok t => Ok ((r / s, a, b, sqrt (a ^ 2), sqrt (b ^ 2)) :: t)
                           | Throw e => Throw e | UB => UB end
           | UB, _ => UB | _, UB => UB
           | _, _ => Throw NotNumber
           end
  end.
Definition output_profile (ol : option lens) (e mn mx : R) : hres (list (R * R * R * R * R)) :=
  match ol with
  | None => Ok []
  | Some l =>
    match rmin l, rmax l, sigma_x l with
    | Some _, Some _, Some s =>
      if Reqb s 0 then Throw NotNumber
      else rows l (proton_beta e) s ((mx - mn) / 1000 * s) 999 0
    | _, _, _ => UB
    end
  end.
