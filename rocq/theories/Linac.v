(* Model of the integrator for linac structures (Merlin++/LCAVintegrator.cpp), of that
   for transverse RF structures (TransRFIntegrator.cpp) and of the settings of RF
   structures (RFStructure.cpp, RFAcceleratingField.h, TWRFStructure.cpp,
   TransverseRFStructure.cpp).  Exact reals; a division by zero is the outcome LNaN,
   the assertion on the reference momentum LAssert. *)
From Verif Require Import RBase Base Rot Bunch.
From Coq Require Import List ZArith.
Import ListNotations.
Local Open Scope R_scope.

Inductive lnerr := LNaN | LAssert.
Definition lnres := res lnerr.
Fixpoint each (f : vec6 -> lnres vec6) (l : list particle) : lnres (list particle) :=
  match l with
  | [] => Ok []
  | p :: q => do v <- f (pv p); do r <- each f q; Ok (mkP v (pid p) :: r)
  end.
(* ApplyMap *)
Definition apply_each (f : vec6 -> lnres vec6) (b : bunch) : lnres bunch :=
  do l <- each f (parts b); Ok (mkB (p0 b) (ct0 b) (qmp b) l).

(* EntranceFieldMap, LCAVintegrator.cpp 20-39 *)
Definition end_map (ez k phi0 : R) (x : vec6) : lnres vec6 :=
  if Reqb (1 + vdp x) 0 then Throw LNaN else
  let a := - (1 / 2) * ez * cos (phi0 - k * vct x) / (1 + vdp x) in
  Ok (V6 (vx x) (vxp x + a * vx x) (vy x) (vyp x + a * vy x) (vct x) (vdp x)).
(* DriftMap, 41-55 *)
Definition drift_map (s : R) (x : vec6) : lnres vec6 :=
  Ok (V6 (vx x + vxp x * s) (vxp x) (vy x + vyp x * s) (vyp x) (vct x) (vdp x)).
(* LCAVMap, 57-101 *)
Definition lcav_map (g ds k phi0 e0 : R) (x : vec6) : lnres vec6 :=
  let e1 := e0 + g * ds * cos phi0 in
  let dE := g * ds * cos (phi0 - k * vct x) in
  let ein := e0 * (1 + vdp x) in
  let eout := ein + dE in
  if (Reqb ein 0 || Reqb eout 0 || Reqb e1 0)%bool then Throw LNaN else
  let fact := ein / eout in
  let r12 := ds * (1 - 1 / 2 * dE / ein) in
  Ok (V6 (vx x + r12 * vxp x) (vxp x * fact) (vy x + r12 * vyp x) (vyp x * fact) (vct x) (eout / e1 - 1)).
(* ApplyRFMap, 104-122 *)
Definition rf_map (vn k phi0 ds : R) (x : vec6) : lnres vec6 :=
  Ok (V6 (vx x + ds * vxp x) (vxp x) (vy x + ds * vyp x) (vyp x) (vct x) (vdp x + vn * cos (phi0 - k * vct x))).

(* the settings: RFAcceleratingField.h 100-190, TransRFfield.h; w is the frequency in rad/s *)
Record rfs := mkRf { r_len : R; r_w : R; r_amp : R; r_phi : R; r_theta : R; r_full : bool }.
Definition lightspeed : R := 299792458.
(* GetK *)
Definition get_k (r : rfs) : R := r_w r / lightspeed.
(* ApplyEndField, 134-145 *)
Definition end_field (gsgn : R) (r : rfs) (b : bunch) : lnres bunch :=
  if Reqb (r_amp r) 0 then Ok b else
  if Reqb (p0 b) 0 then Throw LNaN else
  apply_each (end_map (gsgn * r_amp r / p0 b) (get_k r) (r_phi r)) b.
Definition entrance : rfs -> bunch -> lnres bunch := end_field 1.
Definition exit_ : rfs -> bunch -> lnres bunch := end_field (-1).
(* TrackStep, 147-178; SetReferenceMomentum asserts that the momentum is positive *)
Definition lcav_step (r : rfs) (ds : R) (b : bunch) : lnres bunch :=
  if Reqb ds 0 then Ok b else
  if Reqb (r_amp r) 0 then apply_each (drift_map ds) b else
  if r_full r then
    do b' <- apply_each (lcav_map (r_amp r) ds (get_k r) (r_phi r) (p0 b)) b;
    let e1 := p0 b + r_amp r * ds * cos (r_phi r) in
    if Rltb 0 e1 then Ok (mkB e1 (ct0 b') (qmp b') (parts b')) else Throw LAssert
  else if Reqb (p0 b) 0 then Throw LNaN else
    apply_each (rf_map (r_amp r * ds / p0 b) (get_k r) (r_phi r) ds) b.

(* ApplyDriftWithPathLength, RMap.h 419-437 *)
Definition path_drift (s : R) (x : vec6) : lnres vec6 :=
  Ok (V6 (vx x + s * vxp x) (vxp x) (vy x + s * vyp x) (vyp x) (vct x - s * (vxp x * vxp x + vyp x * vyp x) / 2) (vdp x)).
(* TRFMap, TransRFIntegrator.cpp 19-45 *)
Definition trf_map (g ds k phi0 theta e0 : R) (x : vec6) : lnres vec6 :=
  if Reqb (1 + vdp x) 0 then Throw LNaN else
  let dA := g / e0 * ds * cos (phi0 - k * vct x) / (1 + vdp x) in
  let cx1 := cos theta * dA in let cy1 := sin theta * dA in
  let cx2 := 1 / 2 * cx1 * ds in let cy2 := 1 / 2 * cy1 * ds in
  let xp := vxp x + cx1 in let yp := vyp x + cy1 in
  Ok (V6 (vx x + (cx2 + ds * xp)) xp (vy x + (cy2 + ds * yp)) yp (vct x) (vdp x)).
(* TrackStep, 57-79 *)
Definition trf_step (r : rfs) (ds : R) (b : bunch) : lnres bunch :=
  if Reqb ds 0 then Ok b else
  if Reqb (r_amp r) 0 then apply_each (path_drift ds) b else
  if Reqb (p0 b) 0 then Throw LNaN else
  apply_each (trf_map (r_amp r) ds (get_k r) (r_phi r) (r_theta r) (p0 b)) b.

(* a structure in several steps *)
Fixpoint steps (f : R -> bunch -> lnres bunch) (l : list R) (b : bunch) : lnres bunch :=
  match l with [] => Ok b | ds :: q => do b' <- f ds b; steps f q b' end.

(* ---- RFStructure.cpp ---- *)
Definition set_amp (a : R) (r : rfs) : rfs := mkRf (r_len r) (r_w r) a (r_phi r) (r_theta r) (r_full r).
Definition set_phase (p : R) (r : rfs) : rfs := mkRf (r_len r) (r_w r) (r_amp r) p (r_theta r) (r_full r).
Definition set_freq (f : R) (r : rfs) : rfs := mkRf (r_len r) (2 * PI * f) (r_amp r) (r_phi r) (r_theta r) (r_full r).
Definition set_theta (t : R) (r : rfs) : rfs := mkRf (r_len r) (r_w r) (r_amp r) (r_phi r) t (r_full r).
Definition get_freq (r : rfs) : R := r_w r / (2 * PI).
(* GetWavelength, RFAcceleratingField.h *)
Definition get_wavelength (r : rfs) : lnres R := if Reqb (r_w r) 0 then Throw LNaN else Ok (2 * PI * lightspeed / r_w r).
Definition set_wavelength (lambda : R) (r : rfs) : lnres rfs := if Reqb lambda 0 then Throw LNaN else Ok (set_freq (lightspeed / lambda) r).
Definition set_k (k : R) (r : rfs) : rfs := set_freq (lightspeed * k / (2 * PI)) r.
Definition beam_voltage (r : rfs) : R := r_amp r * cos (r_phi r) * r_len r.
Definition voltage (r : rfs) : R := r_amp r * r_len r.
Definition set_voltage (v : R) (r : rfs) : lnres rfs := if Reqb (r_len r) 0 then Throw LNaN else Ok (set_amp (v / r_len r) r).
Definition phasor (r : rfs) : R * R := (voltage r * cos (r_phi r), voltage r * sin (r_phi r)).
Definition set_phasor (re im : R) (r : rfs) : lnres rfs :=
  do r' <- set_voltage (sqrt (re * re + im * im)) r; Ok (set_phase (atan2 im re) r').
(* TransverseRFStructure::RotateY180 *)
Definition turn_trf (r : rfs) : rfs := set_theta (- r_theta r) (set_amp (- r_amp r) r).
(* TWRFStructure::RotateY180, SWRFStructure::RotateY180 *)
Definition turn_rf (r : rfs) : rfs := set_amp (- r_amp r) r.
