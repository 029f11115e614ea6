(* Model of StdIntegrators.cpp: the THIN_LENS integrator set over one step and for one
   particle, and the solenoid, monitor and marker integrators that both this set and the
   default one use.  Arithmetic is exact; a coordinate that becomes not-a-number or infinite
   is [Throw NaN], a failing assert [Throw Assertion].  The cavities of 75-102, 130-176 and
   338-374 are in RFMap.v. *)
From Coq Require Import ZArith.
From Verif Require Import RBase Rot Cplx Field Cov Bunch Optics RFMap SympInt TransInt.
Local Open Scope R_scope.

(* ApplyDrift, 44-50 *)
Definition th_drift (z : R) (v : vec6) : vec6 := if Reqb z 0 then v else psdrift z v.
(* MultipoleKick, 52-72 *)
Definition th_kick (f : field) (len P0 q : R) (v : vec6) : out :=
  if Reqb P0 0 || Reqb (1 + vdp v) 0 then Throw NaN
  else
    do b <- lift_u (field2d f (vx v) (vy v) (-1));
    let F := cscale (/ (1 + vdp v)) (cscale (q * len * eVc / P0) b) in
    Ok (V6 (vx v) (vxp v - re F) (vy v) (vyp v + im F) (vct v) (vdp v)).
(* DriftCI::TrackStep, 126-131 *)
Definition th_drift_step (ds : R) (v : vec6) : vec6 := if Reqb ds 0 then v else th_drift ds v.

(* ---- sector bends ---- *)
(* RMtrx::Apply(p, P0) for a map made with the momentum Pref, MatrixMaps.cpp:76-111; the
   matched momentum of a magnet without curvature is infinite, so the deviation of every
   particle becomes -1 *)
Definition scaled_apply (M : mat) (Pref : option R) (P0 : R) (v : vec6) : vec6 :=
  match Pref with
  | Some P => apply_p 6 M P P0 v
  | None => with_dp (vdp v) (apply_m 6 M (with_dp (-1) v))
  end.
(* SectorBend.cpp:86-93 *)
Definition momentum_of (h q : R) (f : field) : option R := if Reqb h 0 then None else Some (matched_momentum h q f).
(* SectorBendCI::TrackStep, 177-245 *)
Definition th_bend_step (P0 q ds : R) (b : sbend) (v : vec6) : res ierr (vec6 * field) :=
  if Reqb ds 0 then Ok (v, sfield b)
  else
    let h := sh b in
    do v1 <- rolled (stilt b) v;
    let f1 := fst (get_coefficient 0 1 (sfield b)) in
    let np := highest f1 in
    if negb (matched h q f1) then Throw Assertion
    else
      let bz := snd (get_coefficient 0 1 f1) in
      do K1 <- (if Z.ltb 0 np then do k <- lift_u (get_kn f1 1 (P0 / eVc)); Ok (cscale q k) else Ok Cplx.c0);
      let split := nonzero (im bz) || nonzero (im K1) || Z.ltb 1 np in
      let len := if split then ds / 2 else ds in
      do M <- lift (sector_bend 6 len h (re K1));
      let Pref := momentum_of h q f1 in
      let v2 := scaled_apply M Pref P0 v1 in
      do r <- (if split then
          let f2 := fst (get_coefficient 1 1 f1) in
          let b1 := snd (get_coefficient 1 1 f1) in
          let f3 := set_coefficient 1 (mkCx 0 (im b1)) 1 (set_coefficient 0 (mkCx 0 (im bz)) 1 f2) in
          do v3 <- th_kick f3 ds P0 q v2;
          Ok (scaled_apply M Pref P0 v3, set_coefficient 1 b1 1 (set_coefficient 0 bz 1 f3))
        else Ok (v2, f1));
      do v5 <- rolled (- stilt b) (fst r);
      Ok (v5, snd r).
(* ApplyPoleFaceRotation, TrackEntrance, TrackExit, 247-273 *)
Definition th_face (h : R) (pf : option face) (v : vec6) : out :=
  match pf with
  | None => Ok v
  | Some p => do M <- lift (pole_face 4 h (frot p) (fint p) (hgap p)); Ok (apply_m 4 M v)
  end.

(* ---- straight multipoles, RectMultipoleCI::TrackStep, 277-336 ---- *)
(* RdpMtrx M(2): both matrices are zeros until they are filled *)
Definition zeros : mat := fun _ _ => 0.
Definition th_rect_step (P0 q ds : R) (f : field) (v : vec6) : res ierr (vec6 * field) :=
  if Reqb ds 0 then Ok (v, f)
  else
    do k <- lift_u (get_kn f 1 (P0 / eVc));
    let cK1 := cscale q k in
    let f1 := fst (get_coefficient 0 1 f) in
    let split := cnonzero (snd (get_coefficient 0 1 f)) || Z.ltb 1 (highest f1) in
    let len := if split then ds / 2 else ds in
    do MT <- (if cnonzero cK1 then quad_matrices len cK1 else Ok (zeros, zeros));
    let v1 := if cnonzero cK1 then apply_dp 4 (fst MT) (snd MT) v else th_drift len v in
    if split then
      let b1 := snd (get_coefficient 1 1 f1) in
      let f2 := without_gradient f1 in
      do v2 <- th_kick f2 ds P0 q v1;
      (* the second half asks for the coefficient, not for the strength *)
      let v3 := if cnonzero b1 then apply_dp 4 (fst MT) (snd MT) v2 else th_drift len v2 in
      Ok (v3, set_coefficient 1 b1 1 f2)
    else Ok (v1, f1).

(* ---- solenoids, SolenoidCI::TrackStep, 407-442 ---- *)
Definition th_sol_step (P0 q Bz ds : R) (v : vec6) : out :=
  if Reqb ds 0 then Ok v
  else if fequal Bz 0 then Ok (th_drift ds v)
  else if Reqb P0 0 || Reqb (1 + vdp v) 0 then Throw NaN
  else do M <- lift (solenoid 4 ds (q * Bz / (P0 / eVc) / (1 + vdp v))); Ok (apply_m 4 M v).

(* ---- monitors, MonitorCI::TrackStep, 381-404 ---- *)
(* len: length of the monitor, mp: its measurement point, z: length integrated so far.  The
   result is the particle after the step and what it was at the measurement, if one is made *)
Definition mon_step (len mp z ds : R) (v : vec6) : res ierr (vec6 * list vec6) :=
  if Reqb len 0 then (if Reqb ds 0 then Ok (v, [v]) else Throw Assertion)
  else
    let mpt := mp + len / 2 in
    if Rltb mpt (z + ds) then
      let s1 := mpt - z in
      let v1 := th_drift s1 v in
      Ok (th_drift (ds - s1) v1, [v1])
    else Ok (th_drift ds v, []).
(* ComponentIntegrator::Track, ComponentIntegrator.h:172-187: the integrated length grows
   by each step; a monitor does nothing at its ends *)
Fixpoint mon_track (len mp z : R) (l : list R) (v : vec6) : res ierr (vec6 * list vec6) :=
  match l with
  | [] => Ok (v, [])
  | ds :: l =>
      do r <- mon_step len mp z ds v;
      do t <- mon_track len mp (z + ds) l (fst r);
      Ok (fst t, snd r ++ snd t)
  end.
(* MarkerCI::TrackStep, 444-447 *)
Definition marker_step (ds : R) (v : vec6) : vec6 := v.
