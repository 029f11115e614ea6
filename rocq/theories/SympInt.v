(* Model of SymplecticIntegrators.cpp: the maps of the symplectic integrator set and
   their use over one step, for one particle (ParticleBunch: for_each over the bunch).
   Arithmetic is exact; a coordinate that becomes not-a-number or infinite is
   [Throw NaN], a failing assert [Throw Assertion]. *)
From Coq Require Import ZArith.
From Verif Require Import RBase Rot Cplx Field Cov Bunch Optics.
Local Open Scope R_scope.

Inductive ierr := NaN | Assertion | Matrix (e : oerr).
Notation out := (res ierr vec6).
Definition lift {A} (r : res oerr A) : res ierr A := match r with Ok a => Ok a | Throw e => Throw (Matrix e) | UB => UB end.
Definition lift_u {A} (r : res unit A) : res ierr A := match r with Ok a => Ok a | Throw _ => Throw NaN | UB => Throw NaN end.

(* DriftMap, 54-77 *)
Definition drift_map (ds : R) (v : vec6) : out :=
  let d1 := 1 + vdp v in
  let a := d1 * d1 - vxp v * vxp v - vyp v * vyp v in
  if Rleb a 0 then Throw NaN
  else
    let k := sqrt a in
    Ok (V6 (vx v + vxp v * ds / k) (vxp v) (vy v + vyp v * ds / k) (vyp v) (vct v + (ds - d1 * ds / k)) (vdp v)).
(* PoleFaceRotation, 80-105; the angle's cosine is taken to be non-zero *)
Record face := mkFace { frot : R; fint : R; hgap : R }.
Definition pole_face_map (h : R) (pf : face) (v : vec6) : vec6 :=
  let th := frot pf in
  let phi := 2 * fint pf * hgap pf * h * (1 + sin th * sin th) / cos th in
  let r10 := h * tan th in
  let r32 := - h * tan (th - phi) in
  V6 (vx v) (vxp v + r10 * vx v) (vy v) (vyp v + r32 * vy v) (vct v) (vdp v).
(* SectorBendMap, 108-167 *)
Definition bend_map (h ds : R) (v : vec6) : out :=
  let dp := vdp v in let d1 := 1 + dp in
  if Rleb d1 0 || Reqb h 0 then Throw NaN
  else
    let wx := sqrt (h * h / d1) in
    let xs := sin (wx * ds) in let xc := cos (wx * ds) in
    let xs2 := sin (2 * wx * ds) in let xc2 := cos (2 * wx * ds) in
    let x0 := vx v in let px0 := vxp v in let py0 := vyp v in
    let x1 := x0 * xc + px0 * xs * wx / h / h + dp * (1 - xc) / h in
    let px1 := - h * h * x0 * xs / wx + px0 * xc + dp * h * xs / wx in
    let y1 := vy v + py0 * ds / d1 in
    let j2 := h * x0 - dp in
    let c0 := - dp in
    let c1 := - j2 in
    let c2 := - px0 / h in
    let c3 := - px0 * px0 / d1 / d1 / 2 in
    let c4 := px0 * j2 / h / d1 in
    let c5 := - j2 * j2 / d1 / 2 in
    let c6 := - py0 * py0 / d1 / d1 / 2 in
    let ct1 := vct v + (2 * c0 + c3 + c5 + 2 * c6) * ds / 2 + c1 * xs / wx + (c3 - c5) * xs2 / wx / 4 + c2 * (1 - xc) + c4 * (1 - xc2) / 4 in
    Ok (V6 x1 px1 y1 py0 ct1 dp).
(* SectorBendMapEF, 170-217 *)
Definition bend_map_ef (h ds : R) (v : vec6) : out :=
  let dp := vdp v in let d1 := 1 + dp in
  let px0 := vxp v in let py0 := vyp v in
  if Reqb h 0 then Throw NaN
  else
    let r := 1 / h in
    let a := d1 * d1 - px0 * px0 - py0 * py0 in
    if Rltb a 0 then Throw NaN
    else
      let w := sqrt a - h * (r + vx v) in
      let rdpxds := - px0 * sin (ds / r) + w * cos (ds / r) in
      let px1 := px0 * cos (ds / r) + w * sin (ds / r) in
      let b := d1 * d1 - px1 * px1 - py0 * py0 in
      (* a non-positive d1^2 - py0^2 leaves nothing to divide by *)
      if Rltb b 0 || Rleb (d1 * d1 - py0 * py0) 0 then Throw NaN
      else
        let x1 := sqrt b / h - rdpxds / h - r in
        let u := asin (px0 / sqrt (d1 * d1 - py0 * py0)) - asin (px1 / sqrt (d1 * d1 - py0 * py0)) in
        let y1 := vy v + py0 * ds / h / r + py0 * u / h in
        let ct1 := vct v + ds - d1 * ds / h / r - d1 * u / h in
        Ok (V6 x1 px1 y1 py0 ct1 dp).
(* CombinedFunctionSectorBendMap, 218-320. For k1 + h^2 = 0 the coefficients c0, c1, c2
   of ct and xs / wx are not numbers; for k1 = 0 the vertical plane is not. *)
Definition combined_map (h k1 ds : R) (v : vec6) : out :=
  let dp := vdp v in let dp1 := 1 + dp in
  let j1 := k1 + h * h in
  if Rleb dp1 0 || Reqb k1 0 || Reqb j1 0 then Throw NaN
  else
    let wx := sqrt (Rabs (h * h + k1) / dp1) in
    let wy := sqrt (Rabs k1 / dp1) in
    let fx := Rltb 0 (h * h + k1) in
    let xs := if fx then sin (wx * ds) else sinh (wx * ds) in
    let xc := if fx then cos (wx * ds) else cosh (wx * ds) in
    let xs2 := if fx then sin (2 * wx * ds) else sinh (2 * wx * ds) in
    let xc2 := if fx then cos (2 * wx * ds) else cosh (2 * wx * ds) in
    let fy := Rltb 0 k1 in
    let ys := if fy then sinh (wy * ds) else sin (wy * ds) in
    let yc := if fy then cosh (wy * ds) else cos (wy * ds) in
    let ys2 := if fy then sinh (2 * wy * ds) else sin (2 * wy * ds) in
    let yc2 := if fy then cosh (2 * wy * ds) else cos (2 * wy * ds) in
    let x0 := vx v in let px0 := vxp v in let y0 := vy v in let py0 := vyp v in
    let x1 := x0 * xc + px0 * xs * wx / Rabs (k1 + h * h) + dp * h * (1 - xc) / (k1 + h * h) in
    let px1 := - (k1 + h * h) * x0 * xs / wx + px0 * xc + dp * h * xs / wx in
    let y1 := y0 * yc + py0 * ys * wy / Rabs k1 in
    let py1 := k1 * y0 * ys / wy + py0 * yc in
    let j2 := j1 * x0 - h * dp in
    let c0 := - h * h * dp / j1 in
    let c1 := h * h * dp / j1 - h * x0 in
    let c2 := - h * px0 / j1 in
    let c3 := - px0 * px0 / dp1 / dp1 / 2 in
    let c4 := px0 * j2 / j1 / dp1 in
    let c5 := - j2 * j2 / j1 / dp1 / 2 in
    let c6 := - py0 * py0 / dp1 / dp1 / 2 in
    let c7 := - y0 * py0 / dp1 in
    let c8 := - y0 * y0 * k1 / dp1 / 2 in
    let ct1 := vct v + (2 * c0 + c3 + c5 + c6 - c8) * ds / 2 + c1 * xs / wx + (c3 - c5) * xs2 / wx / 4 + c2 * (1 - xc) + c4 * (1 - xc2) / 4
               + (c6 + c8) * ys2 / wy / 4 - c7 * (1 - yc2) / 4 in
    Ok (V6 x1 px1 y1 py1 ct1 dp).
(* QuadrupoleMap, 323-399 *)
Definition quad_map (k1 ds : R) (v : vec6) : out :=
  let dp1 := 1 + vdp v in
  if Rleb dp1 0 || Reqb k1 0 then Throw NaN
  else
    let w := sqrt (Rabs k1 / dp1) in
    let f := Rleb 0 k1 in
    let xs := if f then sin (w * ds) else sinh (w * ds) in
    let xc := if f then cos (w * ds) else cosh (w * ds) in
    let ys := if f then sinh (w * ds) else sin (w * ds) in
    let yc := if f then cosh (w * ds) else cos (w * ds) in
    let xs2 := if f then sin (2 * w * ds) else sinh (2 * w * ds) in
    let xc2 := if f then cos (2 * w * ds) else cosh (2 * w * ds) in
    let ys2 := if f then sinh (2 * w * ds) else sin (2 * w * ds) in
    let yc2 := if f then cosh (2 * w * ds) else cos (2 * w * ds) in
    let x0 := vx v in let px0 := vxp v in let y0 := vy v in let py0 := vyp v in
    let x1 := x0 * xc + px0 * xs * w / Rabs k1 in
    let px1 := - k1 * x0 * xs / w + px0 * xc in
    let y1 := y0 * yc + py0 * ys * w / Rabs k1 in
    let py1 := k1 * y0 * ys / w + py0 * yc in
    let c3 := - px0 * px0 / dp1 / dp1 / 2 in
    let c4 := x0 * px0 / dp1 in
    let c5 := - x0 * x0 * k1 / dp1 / 2 in
    let c6 := - py0 * py0 / dp1 / dp1 / 2 in
    let c7 := - y0 * py0 / dp1 in
    let c8 := - y0 * y0 * k1 / dp1 / 2 in
    let ct1 := vct v + (c3 + c5 + c6 - c8) * ds / 2 + (c3 - c5) * xs2 / w / 4 + c4 * (1 - xc2) / 4 + (c6 + c8) * ys2 / w / 4 - c7 * (1 - yc2) / 4 in
    Ok (V6 x1 px1 y1 py1 ct1 (vdp v)).
(* PhysicalUnits.cpp 37, PhysicalConstants.cpp 24: eV in GeV, the speed of light *)
Definition eVc : R := 1 / 1000000000 * 299792458.
(* MultipoleKick, 402-424 *)
Definition multipole_kick (f : field) (ds P0 q phi : R) (v : vec6) : out :=
  if Reqb P0 0 then Throw NaN
  else
    do b <- lift_u (field2d f (vx v) (vy v) (-1));
    let F := cmul (cscale (q * ds * eVc / P0) (mkCx (cos phi) (sin phi))) b in
    Ok (V6 (vx v) (vxp v - re F) (vy v) (vyp v + im F) (vct v) (vdp v)).
(* the functors that do nothing over no length, 633-647, 654-698 *)
Definition over (ds : R) (f : R -> vec6 -> out) (v : vec6) : out := if Reqb ds 0 then Ok v else f ds v.

(* ---- sector bends, 745-840 and 862-956 (ef) ---- *)
Record sbend := mkSB { sh : R; stilt : R; sfield : field; face_in : option face; face_out : option face }.
(* TrackEntrance, TrackExit, 725-743, 842-860 *)
Definition at_face (h : R) (pf : option face) (v : vec6) : vec6 := match pf with Some f => pole_face_map h f v | None => v end.
(* the linear part over a length, 775-793, 809-827; no gradient and no curvature is a drift *)
Definition straight_part (ef : bool) (h k1 len : R) (v : vec6) : out :=
  over len (fun l v =>
    if Reqb h 0 then (if Reqb k1 0 then drift_map l v else quad_map k1 l v)
    else if Reqb k1 0 then (if ef then bend_map_ef h l v else bend_map h l v)
    else combined_map h k1 l v) v.
(* the momentum the dipole is made for is positive, SectorBend.cpp:86-93; infinite for h = 0 *)
Definition matched (h q : R) (f : field) : bool :=
  let by0 := re (snd (get_coefficient 0 1 f)) * b0 f in
  if Reqb h 0 then Rltb 0 (by0 / q) else Rltb 0 (by0 / h / q).
(* a rotation that Srot leaves alone is the zero matrix the map was made with *)
Definition rolled (tilt : R) (v : vec6) : out :=
  if Reqb tilt 0 then Ok v
  else do M <- lift (srot 6 tilt (fun _ _ => 0)); Ok (apply_m 6 M v).
Definition nonzero (x : R) : bool := negb (Reqb x 0).
Definition sbend_step (ef : bool) (P0 q ds : R) (b : sbend) (v : vec6) : res ierr (vec6 * field) :=
  let h := sh b in
  do v1 <- rolled (stilt b) v;
  let f1 := fst (get_coefficient 0 1 (sfield b)) in
  let np := highest f1 in
  if negb (matched h q f1) then Throw Assertion
  else
    let bz := snd (get_coefficient 0 1 f1) in
    do K1 <- (if Z.ltb 0 np then do k <- lift_u (get_kn f1 1 (P0 / eVc)); Ok (cscale q k) else Ok Cplx.c0);
    let split := nonzero (im bz) || nonzero (im K1) || Z.ltb 1 np in
    let len := if split then ds / 2 else ds in
    do v2 <- straight_part ef h (re K1) len v1;
    do r <- (if split then
      let f2 := fst (get_coefficient 1 1 f1) in
      let b1 := snd (get_coefficient 1 1 f1) in
      let f3 := set_coefficient 1 (mkCx 0 (im b1)) 1 (set_coefficient 0 (mkCx 0 (im bz)) 1 f2) in
      do v3 <- over ds (fun l => multipole_kick f3 l P0 q 0) v2;
      do v4 <- straight_part ef h (re K1) len v3;
      Ok (v4, set_coefficient 1 b1 1 (set_coefficient 0 bz 1 f3))
    else Ok (v2, f1));
    do v5 <- rolled (- stilt b) (fst r);
    Ok (v5, snd r).

(* ---- multipoles, 959-1038 ---- *)
Definition cnonzero (c : cx) : bool := nonzero (re c) || nonzero (im c).
Definition transpose (M : mat) : mat := fun i j => M j i.
(* the chromatic matrices over a length, 990-1004 *)
Definition quad_matrices (len : R) (cK1 : cx) : res ierr (mat * mat) :=
  let K := if Reqb (im cK1) 0 then re cK1 else cabs cK1 in
  do M <- lift (quadrupole 4 len K);
  do T <- lift (quadrupole_t 4 len K);
  if Reqb (im cK1) 0 then Ok (M, T)
  else
    do S <- lift (srot 4 (carg cK1 / 2) (fun _ _ => 0));
    Ok (mmul 4 (mmul 4 S M) (transpose S), mmul 4 (mmul 4 S T) (transpose S)).
Definition without_gradient (f : field) : field := set_coefficient 1 Cplx.c0 1 (fst (get_coefficient 1 1 f)).
Definition rect_step (P0 q comp_len ds : R) (f : field) (v : vec6) : res ierr (vec6 * field) :=
  if Reqb comp_len 0 && Reqb ds 0 && negb (is_null f) then do v' <- multipole_kick f 1 P0 q 0 v; Ok (v', f)
  else if Reqb ds 0 then Ok (v, f)
  else
    do k <- lift_u (get_kn f 1 (P0 / eVc));
    let cK1 := cscale q k in
    let f1 := fst (get_coefficient 0 1 f) in
    let split := cnonzero (snd (get_coefficient 0 1 f)) || Z.ltb 1 (highest f1) in
    let len := if split then ds / 2 else ds in
    do r <- (if cnonzero cK1 then
        do MT <- quad_matrices len cK1;
        let v1 := apply_dp 4 (fst MT) (snd MT) v in
        if split then
          let b1 := snd (get_coefficient 1 1 f1) in
          let f2 := without_gradient f1 in
          do v2 <- multipole_kick f2 ds P0 q (- (carg cK1 / 2)) v1;
          Ok (apply_dp 4 (fst MT) (snd MT) v2, set_coefficient 1 b1 1 f2)
        else Ok (v1, f1)
      else do v1 <- over len drift_map v; Ok (v1, f1));
    if split then
      let f2 := snd r in
      let b1 := snd (get_coefficient 1 1 f2) in
      do v2 <- multipole_kick (without_gradient f2) ds P0 q 0 (fst r);
      do v3 <- over len drift_map v2;
      Ok (v3, set_coefficient 1 b1 1 (without_gradient f2))
    else Ok r.

(* ---- cavities ---- *)
(* RFStructureMap without acceleration of the reference, 427-461, after its matrix *)
Definition rf_kick (vn ve k phi dphi : R) (v : vec6) : vec6 :=
  V6 (vx v) (vxp v) (vy v) (vyp v) (vct v) (vdp v + vn * (1 + ve) * cos (phi + dphi - k * vct v)).
(* TWRFStructureCI, 1041-1064 *)
Definition tw_step (P0 g k phi ds : R) (v : vec6) : out :=
  if Reqb g 0 then over ds drift_map v
  else if Reqb P0 0 then Throw NaN
  else
    do v1 <- over (ds / 2) drift_map v;
    let v2 := rf_kick (g * ds / P0) 0 k phi 0 (apply_m 4 (drift 4 0) v1) in
    over (ds / 2) drift_map v2.
(* RSRFStructureMap, 506-571 *)
Definition sw_matrix (vn phi len : R) : mat :=
  let rt2 := sqrt 2 in let rt8 := 2 * rt2 in
  let vc := vn * cos phi in let d0 := 1 + vc in
  let alpha := ln d0 / cos phi / rt8 in
  let ca := cos alpha in let sa := sin alpha in
  fun i j => match i, j with
  | O, O => ca - rt2 * cos phi * sa
  | O, _ => rt8 * len * cos phi * sa / vc
  | _, O => - (1 - 1 / d0) * (sin phi / rt2 + 1 / cos phi / rt8) * sa / len
  | _, _ => (ca + rt2 * cos phi * sa) / d0
  end.
Definition pz2 (v : vec6) : R := (1 + vdp v) * (1 + vdp v) - vxp v * vxp v - vyp v * vyp v.
Definition sw_map (vn ve k phi dphi len : R) (v : vec6) : out :=
  let vc := vn * cos phi in
  if Rleb (1 + vc) 0 || Reqb (cos phi) 0 || Reqb vc 0 || Reqb len 0 || Rleb (pz2 v) 0 then Throw NaN
  else
    let M := sw_matrix vn phi len in
    let k0 := sqrt (pz2 v) in
    let xp0 := vxp v / k0 in let yp0 := vyp v / k0 in
    let x1 := M 0%nat 0%nat * vx v + M 0%nat 1%nat * xp0 in
    let xp1 := M 1%nat 0%nat * vx v + M 1%nat 1%nat * xp0 in
    let y1 := M 0%nat 0%nat * vy v + M 0%nat 1%nat * yp0 in
    let yp1 := M 1%nat 0%nat * vy v + M 1%nat 1%nat * yp0 in
    let dp := (vdp v + vn * (1 + ve) * cos (phi + dphi - k * vct v) - vc) / (1 + vc) in
    let a := (1 + dp) * (1 + dp) - xp1 * xp1 - yp1 * yp1 in
    if Rltb a 0 then Throw NaN
    else let k1 := sqrt a in Ok (V6 x1 (xp1 * k1) y1 (yp1 * k1) (vct v) dp).
(* SWRFStructureCI, 1066-1092: the particle and the new reference momentum *)
Definition truncate (x : R) : Z := if Rltb x 0 then (- Int_part (- x))%Z else Int_part x.
Definition sw_step (P0 g f phi ds : R) (v : vec6) : res ierr (vec6 * R) :=
  if Reqb g 0 then do v' <- over ds drift_map v; Ok (v', P0)
  else if Reqb f 0 || Reqb P0 0 then Throw NaN
  else
    let half := 299792458 / f / 2 in
    if negb (Reqb (IZR (truncate (ds / half)) * half) ds) then Throw Assertion
    else do v' <- sw_map (g * ds / P0) 0 (2 * PI * f / 299792458) phi 0 ds v; Ok (v', P0 + g * ds * cos phi).
