(* Model of the tracking of electron spins: SpinParticleProcess.{h,cpp}.
   Doubles are exact reals; a value that would be an infinity or not a number
   is [None], and a step that makes such a spin is [Throw NotNumber].
   Particles and rotations are those of Rot.v; the field of the component is
   a function of x and y (GetBFieldAt at z = 0). *)
From Verif Require Import Rot.
From Coq Require Import ZArith.
Local Open Scope R_scope.

(* PhysicalConstants.cpp:24, 36, 49, PhysicalUnits.cpp:37-39 *)
Definition light_speed : R := 299792458.
Definition ge : R := 1159652181 / 1000000000000.
Definition unit_ev : R := 1 / 1000000000.
Definition unit_mev : R := 1000000 * unit_ev.
Definition electron_mev : R := 510998910 / 1000000000.

(* RotateSpin, SpinParticleProcess.cpp:232-278.  For w = 0 the code divides
   zero by zero. *)
Definition rotate_spin (bend : bool) (b : vec3) (ds : R) (s : vec3) (gamma : R) : option vec3 :=
  let w :=
    if bend
    then mkv (- (1 + ge * gamma) * vx b) (- (ge * gamma) * vy b) (- (1 + ge) * vz b)
    else mkv (- (1 + ge * gamma) * vx b) (- (1 + ge * gamma) * vy b) (- (1 + ge) * vz b) in
  let px := vy w * vz s - vz w * vy s in
  let py := vz w * vx s - vx w * vz s in
  let pz := vx w * vy s - vy w * vx s in
  let sp := vz w * vz s + vy w * vy s + vx w * vx s in
  let w2 := vx w * vx w + vy w * vy w + vz w * vz w in
  let omega := sqrt w2 in
  let dt := ds / light_speed in
  let c := cos (dt * omega) in
  let n := sin (dt * omega) in
  if Reqb w2 0 then None
  else Some (mkv (vx s * c + vx w * sp * (1 - c) / w2 + px * n / omega)
                 (vy s * c + vy w * sp * (1 - c) / w2 + py * n / omega)
                 (vz s * c + vz w * sp * (1 - c) / w2 + pz * n / omega)).

(* the component as the process sees it, :202-206: a sector bend with B0 and the
   rotations of its pole faces, a solenoid with Bz, or anything else *)
Inductive magnet :=
| Plain
| Bend (B0 : R) (entr exit : option R)
| Solen (Bz : R).
Definition is_bend (m : magnet) : bool := match m with Bend _ _ _ => true | _ => false end.

(* the particles, Rot.v; the remaining members are a number *)
Notation part := (ps nat).

(* SpeedOfLight / brho / (1.0 + dp), :307 *)
Definition field_norm (brho dp : R) : option R :=
  if Reqb brho 0 || Reqb (1 + dp) 0 then None else Some (light_speed / brho / (1 + dp)).
(* :308 *)
Definition spin_gamma (P dp : R) : R := P * (1 + dp) / (electron_mev * unit_mev).

(* fringe field of a dipole, :314-326 and :360-372; sz is the sign of b.z *)
Definition bend_edge (B0 : R) (face : option R) (sz : R) (norm : option R) (p : part) (s : vec3) (gamma : R) : option vec3 :=
  match norm with
  | None => None
  | Some n =>
      let theta := match face with Some r => r | None => 0 end in
      let ib := 1 / 2 * B0 * psy p * n in
      let b := mkv (sin theta * ib) 0 (sz * cos theta * ib) in
      if negb (Reqb (vx b) 0) || negb (Reqb (vz b) 0) then rotate_spin true b 1 s gamma else Some s
  end.
(* fringe field of a solenoid, :332-342 and :376-386; sr is the sign of b.x, b.y *)
Definition solen_edge (Bz sr : R) (p : part) (s : vec3) (gamma : R) : option vec3 :=
  let b := mkv (sr * Bz * psx p) (sr * Bz * psy p) 0 in
  if negb (Reqb (vx b) 0) || negb (Reqb (vy b) 0) then rotate_spin false b 1 s gamma else Some s.
(* :310-343 *)
Definition entrance_edge (m : magnet) (norm : option R) (p : part) (s : vec3) (gamma : R) : option vec3 :=
  match m with
  | Plain => Some s
  | Bend B0 e _ => bend_edge B0 e 1 norm p s gamma
  | Solen Bz => solen_edge Bz (-1) p s gamma
  end.
(* :356-387 *)
Definition exit_edge (m : magnet) (norm : option R) (p : part) (s : vec3) (gamma : R) : option vec3 :=
  match m with
  | Plain => Some s
  | Bend B0 _ e => bend_edge B0 e (-1) norm p s gamma
  | Solen Bz => solen_edge Bz 1 p s gamma
  end.
(* :345-354 *)
Definition body (m : magnet) (f : R -> R -> vec3) (ds : R) (norm : option R) (p : part) (s : vec3) (gamma : R) : option vec3 :=
  let b := f (psx p) (psy p) in
  if negb (Reqb (vx b) 0) || negb (Reqb (vy b) 0) || negb (Reqb (vz b) 0)
  then match norm with
       | None => None
       | Some n => rotate_spin (is_bend m) (mkv (vx b * n) (vy b * n) (vz b * n)) ds s gamma
       end
  else Some s.

Definition obind {A B} (o : option A) (f : A -> option B) : option B := match o with Some a => f a | None => None end.

(* the members of the process, SpinParticleProcess.h:80-89; [None] for dL: infinite
   or not a number *)
Record sproc := mkSproc {
  ns : Z; pspin : R; nk1 : Z; dL : option R; intS : R; clength : R;
  mag : magnet; fld : option (R -> R -> vec3); act : bool }.
(* constructor, :185-188; the members it leaves unset are given the value they get
   in SetCurrentComponent *)
Definition new_sproc (n : Z) : sproc := mkSproc n 0 0 None 0 0 Plain None false.
(* :282-285, 400-403 *)
Definition set_spin_momentum (p : R) (st : sproc) : sproc :=
  mkSproc (ns st) p (nk1 st) (dL st) (intS st) (clength st) (mag st) (fld st) (act st).
Definition set_steps (n : Z) (st : sproc) : sproc :=
  mkSproc n (pspin st) (nk1 st) (dL st) (intS st) (clength st) (mag st) (fld st) (act st).
(* SetCurrentComponent, :190-219; [spin]: the bunch is a SpinParticleBunch *)
Definition enter_component (m : magnet) (f : option (R -> R -> vec3)) (len : R) (spin : bool) (st : sproc) : sproc :=
  mkSproc (ns st) (pspin st) 0 (if Z.eqb (ns st) 0 then None else Some (len / IZR (ns st))) 0 len m f
    (match f with Some _ => spin | None => false end).
(* GetMaxAllowedStepSize, :395-398; [None]: no limit (std::min ignores an infinity
   and, as second argument, something that is not a number) *)
Definition allowed (st : sproc) : option R :=
  match dL st with None => None | Some d => Some (IZR (nk1 st + 1) * d - intS st) end.

(* the bunch: reference momentum, particles, spins *)
Record sbunch := mkSB { sP0 : R; sparts : list part; spins : list vec3 }.
Inductive serr := NotNumber.

(* the body of the loop in DoProcess, :307-387 *)
Definition one_spin (st : sproc) (f : R -> R -> vec3) (P0 ds : R) (p : part) (s : vec3) : option vec3 :=
  let brho := P0 / unit_ev / light_speed in
  let P := if Reqb (pspin st) 0 then P0 else pspin st in
  let norm := field_norm brho (psdp p) in
  let gamma := spin_gamma P (psdp p) in
  obind (if Reqb (intS st) 0 then entrance_edge (mag st) norm p s gamma else Some s) (fun s1 =>
  obind (body (mag st) f ds norm p s1 gamma) (fun s2 =>
  if fequal (intS st + ds) (clength st) then exit_edge (mag st) norm p s2 gamma else Some s2)).

(* two iterators moving together, :304-305; the spin iterator is not tested *)
Fixpoint spin_all (g : part -> vec3 -> option vec3) (l : list part) (ss : list vec3) : res serr (list vec3) :=
  match l, ss with
  | [], _ => Ok ss
  | _ :: _, [] => UB
  | p :: l', s :: ss' =>
      do r <- spin_all g l' ss';
      match g p s with Some s' => Ok (s' :: r) | None => Throw NotNumber end
  end.

(* DoProcess, :287-393, on a SpinParticleBunch *)
Definition spin_step (ds : R) (x : sproc * sbunch) : res serr (sproc * sbunch) :=
  let '(st, b) := x in
  let st' := mkSproc (ns st) (pspin st) (nk1 st) (dL st) (intS st + ds) (clength st) (mag st) (fld st) (act st) in
  match fld st with
  | None => match sparts b with [] => Ok (st', b) | _ => UB end
  | Some f =>
      do ss <- spin_all (one_spin st f (sP0 b) ds) (sparts b) (spins b);
      Ok (st', mkSB (sP0 b) (sparts b) ss)
  end.

(* AddParticle, :68-79, push_back, :81-84 *)
Definition sb_add_spin (p : part) (s : vec3) (b : sbunch) : sbunch := mkSB (sP0 b) (sparts b ++ [p]) (spins b ++ [s]).
Definition sb_add (p : part) (b : sbunch) : sbunch := sb_add_spin p (mkv 0 0 1) b.
(* erase, :134-146, of the n-th particle *)
Fixpoint remove_nth {A} (n : nat) (l : list A) {struct l} : option (list A) :=
  match l with
  | [] => None
  | x :: l' => match n with O => Some l' | S n' => match remove_nth n' l' with Some r => Some (x :: r) | None => None end end
  end.
Definition sb_erase (n : nat) (b : sbunch) : res serr sbunch :=
  match remove_nth n (sparts b), remove_nth n (spins b) with
  | Some l, Some ss => Ok (mkSB (sP0 b) l ss)
  | _, _ => UB
  end.
(* SortByCT, :86-93: ParticleBunch.cpp:26-29, 317-320.  std::sort may order equal
   particles in any way; here they keep their order. *)
Fixpoint insert_ct (p : part) (l : list part) : list part :=
  match l with [] => [p] | q :: l' => if Rltb (psct q) (psct p) then q :: insert_ct p l' else p :: l end.
Fixpoint sort_ct (l : list part) : list part := match l with [] => [] | p :: l' => insert_ct p (sort_ct l') end.
Definition sb_sort (b : sbunch) : sbunch := mkSB (sP0 b) (sort_ct (sparts b)) (spins b).
(* ParticleBunch::clear and swap, ParticleBunch.h:319-324, 398-401, as the collimation
   uses them (CollimateParticleProcess.cpp:333-334): not virtual, the spins stay *)
Definition sb_replace (l : list part) (b : sbunch) : sbunch := mkSB (sP0 b) l (spins b).
(* ApplyTransformation, :152-173, ParticleBunch.cpp:308-315 *)
Definition sb_transform (t : tr3) (b : sbunch) : sbunch :=
  let l := if tr_is_identity t then sparts b else ps_apply_all t (sparts b) in
  mkSB (sP0 b) l (if ris_identity (rr t) then spins b else map (rotate (rr t)) (spins b)).
(* GetAverageSpin, :117-132 *)
Definition average_spin (b : sbunch) : option vec3 :=
  let pa := fold_left vadd (spins b) (mkv 0 0 0) in
  match spins b with
  | [] => None
  | _ => let n := INR (length (spins b)) in Some (mkv (vx pa / n) (vy pa / n) (vz pa / n))
  end.

(* anything a program does with the process and the bunch *)
Inductive sop :=
| OAdd (p : part)
| OAddSpin (p : part) (s : vec3)
| OErase (n : nat)
| OSort
| OReplace (l : list part)
| OTransform (t : tr3)
| OSteps (n : Z)
| OMomentum (p : R)
| OEnter (m : magnet) (f : option (R -> R -> vec3)) (len : R)
| OStep (ds : R).
Definition sop_step (o : sop) (x : sproc * sbunch) : res serr (sproc * sbunch) :=
  let '(st, b) := x in
  match o with
  | OAdd p => Ok (st, sb_add p b)
  | OAddSpin p s => Ok (st, sb_add_spin p s b)
  | OErase n => do b' <- sb_erase n b; Ok (st, b')
  | OSort => Ok (st, sb_sort b)
  | OReplace l => Ok (st, sb_replace l b)
  | OTransform t => Ok (st, sb_transform t b)
  | OSteps n => Ok (set_steps n st, b)
  | OMomentum p => Ok (set_spin_momentum p st, b)
  | OEnter m f len => Ok (enter_component m f len true st, b)
  | OStep ds => spin_step ds (st, b)
  end.
Fixpoint sop_run (ops : list sop) (x : sproc * sbunch) : res serr (sproc * sbunch) :=
  match ops with
  | [] => Ok x
  | o :: os => do y <- sop_step o x; sop_run os y
  end.
