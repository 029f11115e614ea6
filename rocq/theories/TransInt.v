(* Model of TransportIntegrators.cpp: the default integrator set, over one step and for one
   particle (the maps are applied by for_each over the bunch).  Arithmetic is exact; a
   coordinate that becomes not-a-number or infinite is [Throw NaN], a failing assert
   [Throw Assertion].  The solenoid, monitor, marker and cavity integrators of the set are
   those of StdIntegrators.cpp (ThinInt.v) and of the cavities (RFMap.v). *)
From Coq Require Import ZArith.
From Verif Require Import RBase Rot Cplx Field Cov Bunch Optics SparseMap BendMap SympInt.
Local Open Scope R_scope.

(* MultipoleKick, 57-79 *)
Definition kick_dp (f : field) (len P0 q phi : R) (v : vec6) : out :=
  if Reqb P0 0 || Reqb (1 + vdp v) 0 then Throw NaN
  else
    do b <- lift_u (field2d f (vx v) (vy v) (-1));
    let F := cscale (/ (1 + vdp v)) (cmul (cscale (q * len * eVc / P0) (mkCx (cos phi) (sin phi))) b) in
    Ok (V6 (vx v) (vxp v - re F) (vy v) (vyp v + im F) (vct v) (vdp v)).
(* ApplyMap, 82-94; the coefficients of a map that cannot be made are not numbers *)
Definition lift_map {A} (r : res oerr A) : res ierr A := match r with Ok a => Ok a | Throw e => Throw (Matrix e) | UB => Throw NaN end.
Definition apply_rt (m : rtmap) (v : vec6) : out := do p <- lift (rt_apply m (mkP v 0%Z)); Ok (pv p).
(* ApplyMap1, 97-114 *)
Definition apply_rt_scaled (m : rtmap) (er : R) (v : vec6) : out :=
  do w <- apply_rt m (with_dp (er * (1 + vdp v) - 1) v); Ok (with_dp (vdp v) w).
(* ApplyDrift, 116-132 *)
Definition plain_drift (s : R) (v : vec6) : vec6 :=
  V6 (vx v + s * vxp v) (vxp v) (vy v + s * vyp v) (vyp v) (vct v - s * (vxp v * vxp v + vyp v * vyp v) / 2) (vdp v).
(* RotateBunchAboutZ, 191-196: a 4 by 4 matrix of zeros that Srot fills *)
Definition about_z (phi : R) (v : vec6) : out := do M <- lift (srot 4 phi (fun _ _ => 0)); Ok (apply_m 4 M v).

(* DriftCI::TrackStep, 212-219 *)
Definition tr_drift_step (ds : R) (v : vec6) : out :=
  if Reqb ds 0 then Ok v else do m <- lift_map (drift_tm 0 ds); apply_rt m v.

(* ---- sector bends ---- *)
(* SectorBendTM for an infinite gamma, as for bunches without a mass
   (ParticleBunch.cpp:418-421): beta is 1 and the terms divided by gamma^2 vanish *)
Definition sector_second_massless (s h : R) : list (nat * nat * nat * R) :=
  let cx := cos (h * s) in let sx := sin (h * s) / h in let dx := (1 - cx) / (h * h) in let J1 := (s - sx) / (h * h) in
  let a1 := h * s in let a2 := cos a1 in let a3 := 1 / h in let a4 := sin a1 in let a12 := a4 ^ 2 in let a15 := - a4 / 2 in let a16 := - (a3 * a4) / 2 in
  [(1%nat, 1%nat, 1%nat, - (a12 * h) / 2);
   (1%nat, 1%nat, 2%nat, h * sx * cx);
   (1%nat, 1%nat, 6%nat, a12);
   (1%nat, 2%nat, 2%nat, a2 * a3 * sin (h * s / 2) ^ 2);
   (1%nat, 2%nat, 6%nat, (h * h / 4 * (sx * dx + cx * J1) - 1 / 4 * (sx + s * cx)) * 2);
   (1%nat, 6%nat, 6%nat, - (a12 * a3) / 2);
   (1%nat, 4%nat, 4%nat, (- 1 + a2) * a3 / 2);
   (2%nat, 2%nat, 2%nat, a15); (2%nat, 4%nat, 4%nat, a15); (2%nat, 6%nat, 6%nat, 0);
   (3%nat, 1%nat, 4%nat, a4); (3%nat, 2%nat, 4%nat, a3 * (1 + - a2));
   (3%nat, 4%nat, 6%nat, (h * h * J1 / 2 - (s + s) / 4) * 2);
   (5%nat, 2%nat, 2%nat, a16); (5%nat, 1%nat, 6%nat, 0); (5%nat, 2%nat, 6%nat, 0); (5%nat, 6%nat, 6%nat, 0); (5%nat, 4%nat, 4%nat, a16)].
Definition sector_massless (who : nat) (s h : R) : res oerr rtmap :=
  if Reqb h 0 then UB else rt_make who (sector_tm_linear s h) (sector_second_massless s h).
(* 233-234, 251 *)
Definition bend_rt (P0 mass h len : R) (K1 : cx) : res ierr rtmap :=
  lift_map (if cnonzero K1 then gen_bend_tm 0 len h (re K1) 0
            else if Reqb mass 0 then sector_massless 0 len h
            else sector_tm 0 len h (sqrt (1 + (P0 / mass) * (P0 / mass)))).
(* SectorBend.cpp:86-93, for h and q not zero *)
Definition matched_momentum (h q : R) (f : field) : R := / 1000000000 * 299792458 * (re (snd (get_coefficient 0 1 f)) * b0 f) / h / q.
(* 253-260, 279-286: the tolerance is an absolute one *)
Definition bend_apply (P0 Pref : R) (m : rtmap) (v : vec6) : out :=
  if fequal_tol P0 Pref (/ 1000000) then apply_rt m v else apply_rt_scaled m (P0 / Pref) v.
(* SectorBendCI::TrackStep, 221-292; no curvature gives maps whose coefficients are no numbers *)
Definition tr_bend_step (P0 q mass ds : R) (b : sbend) (v : vec6) : res ierr (vec6 * field) :=
  if Reqb ds 0 then Ok (v, sfield b)
  else
    let h := sh b in
    let f1 := fst (get_coefficient 0 1 (sfield b)) in
    let np := highest f1 in
    if negb (matched h q f1) then Throw Assertion
    else
      let bz := snd (get_coefficient 0 1 f1) in
      do K1 <- (if Z.ltb 0 np then do k <- lift_u (get_kn f1 1 (P0 / eVc)); Ok (cscale q k) else Ok Cplx.c0);
      let split := nonzero (im bz) || nonzero (im K1) || Z.ltb 1 np in
      let len := if split then ds / 2 else ds in
      do m <- bend_rt P0 mass h len K1;
      let Pref := matched_momentum h q f1 in
      do v2 <- bend_apply P0 Pref m v;
      if split then
        let f2 := fst (get_coefficient 1 1 f1) in
        let b1 := snd (get_coefficient 1 1 f1) in
        let f3 := set_coefficient 1 (mkCx 0 (im b1)) 1 (set_coefficient 0 (mkCx 0 (im bz)) 1 f2) in
        do v3 <- kick_dp f3 ds P0 q 0 v2;
        do v4 <- bend_apply P0 Pref m v3;
        Ok (v4, set_coefficient 1 b1 1 (set_coefficient 0 bz 1 f3))
      else Ok (v2, f1).
(* a pole face and its type, SectorBend.h:36-66; ApplyPoleFaceRotation, 317-335: the third
   argument from the right is a bool, any type but 0 is an entrance *)
Record pface := mkPF { pf_face : face; pf_type : R }.
Definition tr_face (P0 h : R) (f : field) (pf : option pface) (v : vec6) : out :=
  do k <- lift_u (get_kn f 1 (P0 / eVc));
  let beta := match pf with Some p => frot (pf_face p) | None => 0 end in
  let hg := match pf with Some p => hgap (pf_face p) | None => 0 end in
  let fi := match pf with Some p => fint (pf_face p) | None => 0 end in
  let ent := match pf with Some p => pf_type p | None => 0 end in
  do m <- lift_map (face_tm 0 h (re k) beta 0 fi hg (nonzero ent));
  apply_rt m v.
(* TrackEntrance, TrackExit, 294-315 *)
Definition tr_entrance (P0 h tilt : R) (f : field) (pf : option pface) (v : vec6) : out :=
  do w <- (if Reqb tilt 0 then Ok v else about_z (- tilt) v); tr_face P0 h f pf w.
Definition tr_exit (P0 h tilt : R) (f : field) (pf : option pface) (v : vec6) : out :=
  do w <- tr_face P0 h f pf v; if Reqb tilt 0 then Ok w else about_z tilt w.

(* ---- straight multipoles, RectMultipoleCI::TrackStep, 337-460 ---- *)
Definition without (n : nat) (f : field) : field := set_coefficient n Cplx.c0 1 (fst (get_coefficient n 1 f)).
(* strength and angle of a multipole of order n, 379-391, 418-428 *)
Definition size_of (K : cx) : R := if Reqb (im K) 0 then re K else cabs K.
Definition angle_of (n : R) (K : cx) : R := if Reqb (im K) 0 then 0 else carg K / n.
Definition unless_zero (phi a : R) (v : vec6) : out := if fequal phi 0 then Ok v else about_z a v.
(* one multipole as a map, the others as a kick: 393-415, 430-451 *)
Definition mapped (P0 q ds phi : R) (split : bool) (m : rtmap) (n : nat) (f : field) (v : vec6) : res ierr (vec6 * field) :=
  do v0 <- unless_zero phi (- phi) v;
  do v1 <- apply_rt m v0;
  do r <- (if split then
      let g := without n f in
      do v2 <- kick_dp g ds P0 q (- phi) v1;
      do v3 <- apply_rt m v2;
      Ok (v3, set_coefficient n (snd (get_coefficient n 1 f)) 1 g)
    else Ok (v1, f));
  do v4 <- unless_zero phi phi (fst r);
  Ok (v4, snd r).
Definition tr_rect_step (P0 q comp_len ds : R) (f : field) (v : vec6) : res ierr (vec6 * field) :=
  if Reqb comp_len 0 && Reqb ds 0 && negb (is_null f) then do v' <- kick_dp f 1 P0 q 0 v; Ok (v', f)
  else if Reqb ds 0 then Ok (v, f)
  else
    do k0 <- lift_u (get_kn f 0 (P0 / eVc)); do k1 <- lift_u (get_kn f 1 (P0 / eVc)); do k2 <- lift_u (get_kn f 2 (P0 / eVc));
    let ch := cscale q k0 in let cK1 := cscale q k1 in let cK2 := cscale q k2 in
    let np := highest f in
    let split := nonzero (cabs ch) || (cnonzero cK1 && Z.ltb 1 np) || Z.ltb 2 np in
    let len := if split then ds / 2 else ds in
    if cnonzero cK1 then
      do m <- lift_map (quadrupole_tm 0 len (size_of cK1));
      mapped P0 q ds (angle_of 2 cK1) split m 1 f v
    else if cnonzero cK2 then
      do m <- lift_map (sextupole_tm 0 len (size_of cK2));
      mapped P0 q ds (angle_of 3 cK2) split m 2 f v
    else
      let v1 := plain_drift len v in
      if split then do v2 <- kick_dp f ds P0 q 0 v1; Ok (plain_drift len v2, f)
      else Ok (v1, f).
