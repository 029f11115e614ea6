(* Model of the accelerating cavities: TransportMatrix.cpp:388-475,
   TransportRMaps.cpp:204-274, 313-385 and the particle integrators
   StdIntegrators.cpp:75-102, 130-176, 338-374.  Arithmetic is exact; the number
   1.0e-16 is the decimal fraction. *)
From Verif Require Import RBase Bunch Optics SparseMap.
From Coq Require Import ZArith.
Local Open Scope R_scope.

Definition tiny : R := / 10 ^ 16.
Definition half (M : mat) : mat := mset 3 3 (M 1%nat 1%nat) (mset 3 2 (M 1%nat 0%nat) (mset 2 3 (M 0%nat 1%nat) (mset 2 2 (M 0%nat 0%nat) M))).
(* TransportMatrix::TWRFCavity, TransportMatrix.cpp:388-440, kwave = 2 pi f/c *)
Definition tw_matrix (n : nat) (length g kwave phi E0 : R) (inc_end_fields : bool) : mat :=
  let dE := length * g in
  let dEc := dE * cos phi in
  let E1 := E0 + dEc in
  let Er := E1 / E0 in
  let L := ln Er in
  let M :=
    if Rltb (Rabs dEc) tiny then mset 0 1 length mid
    else if inc_end_fields then mset 1 1 Er (mset 0 1 (length * E0 * L / dEc) mid)
    else mset 1 1 ((1 + L / 2) / Er) (mset 1 0 (- dEc * L / (4 * E1 * length)) (mset 0 1 (E0 * length * L / dEc) (mset 0 0 (1 - L / 2) mid))) in
  let M := if Nat.ltb 2 n then half M else M in
  if Nat.eqb n 6 then mset 5 5 (1 / Er) (mset 5 4 (kwave * dE * sin phi / E1) M) else M.
(* TransportMatrix::SWRFCavity, TransportMatrix.cpp:442-475; [length] is
   ncells * lambda/2 *)
Definition sw_block (length g phi E0 : R) : r2map :=
  let E1 := E0 + g * length * cos phi in
  let alpha := ln (E1 / E0) / cos phi / sqrt 8 in
  R2 (cos alpha - sqrt 2 * cos phi * sin alpha) (sqrt 8 * E0 * sin alpha / g)
     (- g * (2 + cos (2 * phi)) * sin alpha / E1 / sqrt 8) (E0 * (cos alpha + sqrt 2 * cos phi * sin alpha) / E1).
Definition sw_matrix (n : nat) (length g phi E0 : R) : mat :=
  let B := sw_block length g phi E0 in
  let M := mset 1 1 (r22 B) (mset 1 0 (r21 B) (mset 0 1 (r12 B) (mset 0 0 (r11 B) mid))) in
  if Nat.eqb n 4 then half M else M.

(* LogOnePlusX, TransportRMaps.cpp:17-20 *)
Definition log1p2 (x : R) : R := x * (1 - x / 2).
(* TWRFCavity for one plane, TransportRMaps.cpp:316-369 *)
Definition tw_plane (length g phi E0 : R) (entr exit_ : bool) : r2map :=
  let dEc := length * g * cos phi in
  let E1 := E0 + dEc in
  let Er := E0 / E1 in
  let L := log1p2 (dEc / E0) in
  let r12 := E0 * L / g / cos phi in
  if Reqb dEc 0 then R2 1 length 0 1
  else match entr, exit_ with
       | true, false => R2 (1 - L / 2) r12 (- (g * cos phi / 2 / E1)) Er
       | false, true => R2 1 r12 (g * cos phi / 2 / E1) (Er * (1 + L / 2))
       | true, true => R2 (1 - L / 2) r12 (- (g * L * cos phi / 4 / E1)) (Er * (1 + L / 2))
       | false, false => R2 1 r12 0 Er
       end.
(* one plane of TWRFCavity for a sparse map, TransportRMaps.cpp:204-251 *)
Definition tw_sparse (length g phi E0 : R) (entr exit_ : bool) : r2map :=
  let dEc := length * g * cos phi in
  let E1 := E0 + dEc in
  let Er := E0 / E1 in
  let L := log1p2 (dEc / E0) in
  let r12 := E0 * L / g / cos phi in
  if Reqb dEc 0 then R2 1 length 0 1
  else match entr, exit_ with
       | true, false => R2 (1 - L / 2 / cos phi) r12 (- (g / 2 / E1)) Er
       | false, true => R2 1 r12 (g * cos phi / 2 / E1) (Er * (1 + L / 2 / cos phi))
       | true, true => R2 (1 - L / 2 / cos phi) r12 (- (g * L / 4 / E1 / cos phi)) (Er * (1 + L / 2 / cos phi))
       | false, false => R2 1 r12 0 Er
       end.
(* the terms it adds: the same in both planes, and the unit matrix first when
   there is no acceleration *)
Definition plane_terms (B : r2map) (o : nat) : list (nat * nat * R) :=
  [((o + 1)%nat, (o + 1)%nat, r11 B); ((o + 1)%nat, (o + 2)%nat, r12 B); ((o + 2)%nat, (o + 1)%nat, r21 B); ((o + 2)%nat, (o + 2)%nat, r22 B)].
Definition tw_terms (length g phi E0 : R) (entr exit_ : bool) : list (nat * nat * R) :=
  let B := tw_sparse length g phi E0 entr exit_ in
  plane_terms B 0 ++ plane_terms B 2 ++ (if Reqb (length * g * cos phi) 0 then [(5%nat, 5%nat, 1); (6%nat, 6%nat, 1)] else []).

(* ApplyRFdp, StdIntegrators.cpp:75-102, with full acceleration; RMtrx(2) is a
   4 by 4 matrix without reference momentum *)
Definition rf_dp (Vn kwave phi : R) (M : mat) (x : vec6) : vec6 :=
  let y := apply_m 4 M x in
  with_dp ((vdp y + Vn * (cos (phi - kwave * vct y) - cos phi)) / (1 + Vn * cos phi)) y.
(* psdrift, StdIntegrators.cpp:25-42 *)
Definition psdrift (z : R) (x : vec6) : vec6 := V6 (vx x + vxp x * z) (vxp x) (vy x + vyp x * z) (vyp x) (vct x) (vdp x).
Definition ps_drift (z : R) (b : bunch) : bunch := if Reqb z 0 then b else mkB (p0 b) (ct0 b) (qmp b) (map (fun p => mkP (psdrift z (pv p)) (pid p)) (parts b)).
(* TWRFStructureCI::TrackStep, StdIntegrators.cpp:138-176; CHK_ZERO returns for
   a zero step; IncrReferenceMomentum *)
Definition tw_step (ds g kwave phi : R) (b : bunch) : res oerr bunch :=
  if Reqb ds 0 then Ok b
  else if Reqb g 0 then Ok (ps_drift ds b)
  else if Reqb kwave 0 then Throw OAssert
  else
    let M := tw_matrix 4 ds g kwave phi (p0 b) true in
    Ok (mkB (p0 b + g * ds * cos phi) (ct0 b) (qmp b) (map (fun p => mkP (rf_dp (g * ds / p0 b) kwave phi M (pv p)) (pid p)) (parts b))).
