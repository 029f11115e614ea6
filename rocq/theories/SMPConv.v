(* Macro-particles: frames (SMPTransform3D.cpp 24-102), construction (SMPBunchConstructor.cpp
   17-90, erfcc.cpp 13-17) and from particles (ParticleBunchConverter.cpp 26-108).  Exact
   reals.  The function erfc is arbitrary; the moments of the bunch of particles and their
   roots are given; the table of counts is the function that counts; a conversion to int of
   no number or of a value beyond 2^31 is UB. *)
From Verif Require Import RBase Base Bunch SMPWake.
From Coq Require Import List ZArith Bool.
Import ListNotations.
Local Open Scope R_scope.

Record r2 := mkR2 { r11 : R; r12 : R; r21 : R; r22 : R }.
(* RotateMoments, 24-58 *)
Definition rotate (r : r2) (p : mp) : mp :=
  let v := mv p in let c := mc p in
  let s00 := r11 r * (r11 r * c00 c + r12 r * c02 c) + r12 r * (r11 r * c02 c + r12 r * c22 c) in
  let s10 := r11 r * (r11 r * c01 c + r12 r * c03 c) + r12 r * (r11 r * c12 c + r12 r * c23 c) in
  let s11 := r11 r * (r11 r * c11 c + r12 r * c13 c) + r12 r * (r11 r * c13 c + r12 r * c33 c) in
  let s20 := r11 r * (r21 r * c00 c + r22 r * c02 c) + r12 r * (r21 r * c02 c + r22 r * c22 c) in
  let s21 := r11 r * (r21 r * c01 c + r22 r * c12 c) + r12 r * (r21 r * c03 c + r22 r * c23 c) in
  let s22 := r21 r * (r21 r * c00 c + r22 r * c02 c) + r22 r * (r21 r * c02 c + r22 r * c22 c) in
  let s30 := r11 r * (r21 r * c01 c + r22 r * c03 c) + r12 r * (r21 r * c12 c + r22 r * c23 c) in
  let s31 := r11 r * (r21 r * c11 c + r22 r * c13 c) + r12 r * (r21 r * c13 c + r22 r * c33 c) in
  let s32 := r21 r * (r21 r * c01 c + r22 r * c03 c) + r22 r * (r21 r * c12 c + r22 r * c23 c) in
  let s33 := r21 r * (r21 r * c11 c + r22 r * c13 c) + r22 r * (r21 r * c13 c + r22 r * c33 c) in
  mkMP (V6 (r11 r * vx v + r12 r * vy v) (r11 r * vxp v + r12 r * vyp v) (r21 r * vx v + r22 r * vy v) (r21 r * vxp v + r22 r * vyp v) (vct v) (vdp v))
       (mkC4 s00 s10 s20 s30 s11 s21 s31 s22 s32 s33) (mq p).
(* SMPTransform3D, 64-84: m is the matrix, ident what isIdentity says *)
Record frame := mkFr { fr_ident : bool; fr_m : nat -> nat -> R; fr_x : R; fr_y : R }.
Definition rot2 (f : frame) : r2 := mkR2 (fr_m f 0 0) (fr_m f 0 1) (fr_m f 1 0) (fr_m f 1 1).
(* IsIdentity, RMap.h 240-243, and fequal, utils.h *)
Definition near1 (x : R) : bool := Rleb (Rabs (x - 1)) (/ 1000000).
Definition null2 (r : r2) : bool := andb (near1 (r11 r)) (near1 (r22 r)).
(* Apply, 87-103 *)
Definition transform (f : frame) (p : mp) : mp :=
  let v := mv p in
  let p1 := mkMP (V6 (vx v - fr_x f) (vxp v) (vy v - fr_y f) (vyp v) (vct v) (vdp v)) (mc p) (mq p) in
  if fr_ident f then p1 else
  let p2 := if null2 (rot2 f) then p1 else rotate (rot2 f) p1 in
  let w := mv p2 in mkMP (V6 (vx w) (vxp w + fr_m f 0 2) (vy w) (vyp w + fr_m f 1 2) (vct w) (vdp w)) (mc p2) (mq p2).

(* NormalBin and MakeDistribution; erf stands for erfc(x / root2) *)
Definition normal_bin (erf : R -> R) (a b : R) : R := (1 / 2) * (erf a - erf b).
Fixpoint make_dist (erf : R -> R) (x dx : R) (n : nat) : list R :=
  match n with O => [] | Datatypes.S k => normal_bin erf x (x + dx) :: make_dist erf (x + dx) dx k end.
Record beam := mkBeam { b_charge : R; b_sz : R; b_sdp : R; b_dx : R; b_dxp : R; b_dy : R; b_dyp : R; b_v : vec6; b_c : cov4 }.
(* the inner loop, 74-85 *)
Fixpoint parts_of (b : beam) (z dp ddp qz : R) (l : list R) : list mp :=
  match l with
  | [] => []
  | q :: r => mkMP (V6 (vx (b_v b) + b_dx b * dp) (vxp (b_v b) + b_dxp b * dp) (vy (b_v b) + b_dy b * dp) (vyp (b_v b) + b_dyp b * dp) z dp) (b_c b) (b_charge b * qz * q) :: parts_of b z (dp + ddp) ddp qz r
  end.
Fixpoint slices_of (b : beam) (z dz dp ddp : R) (lz lp : list R) : list mp :=
  match lz with [] => [] | q :: r => parts_of b z dp ddp q lp ++ slices_of b (z + dz) dz dp ddp r lp end.
(* ConstructBunch, 41-91 *)
Definition construct (erf : R -> R) (b : beam) (ns np : nat) (nz ndp : R) : list mp :=
  let zd := make_dist erf (- nz) (2 * nz / INR ns) ns in let pd := make_dist erf (- ndp) (2 * ndp / INR np) np in
  let dz := 2 * nz * b_sz b / INR ns in let ddp := 2 * ndp * b_sdp b / INR np in
  slices_of b (- nz * b_sz b + dz / 2) dz (- ndp * b_sdp b + ddp / 2) ddp zd pd.

(* ParticleBunchConverter *)
(* 38-61 *)
Definition range (f : vec6 -> R) (l : list particle) : R * R :=
  fold_left (fun m p => let x := f (pv p) in ((if Rltb x (fst m) then x else fst m), (if Rltb (snd m) x then x else snd m))) l (0, 0).
Definition limits (f : vec6 -> R) (ns sig : R) (l : list particle) : R * R := if Reqb ns 0 then range f l else (- (ns * sig), ns * sig).
Definition trunc (x : R) : Z := if Rleb 0 x then Int_part x else (- Int_part (- x))%Z.
(* 78, 82 *)
Definition bin_of (mn mx : R) (n : nat) (x : R) : swres Z :=
  if Reqb (mx - mn) 0 then UB else
  let y := (x - mn) * (IZR (Z.of_nat n - 1) / (mx - mn)) in
  if Rltb y (- 2147483648) then UB else if Rltb 2147483647 y then UB else Ok (trunc y).
Definition inside (n : nat) (z : Z) : bool := (Z.leb 0 z && Z.ltb z (Z.of_nat n))%bool.
(* 80-89: the bins of all particles *)
Fixpoint bins_of (c d : R * R) (n m : nat) (l : list particle) : swres (list (Z * Z)) :=
  match l with
  | [] => Ok []
  | p :: q => do a <- bin_of (fst c) (snd c) n (vct (pv p)); do b <- bin_of (fst d) (snd d) m (vdp (pv p)); do r <- bins_of c d n m q;
              Ok (if (inside n a && inside m b)%bool then (a, b) :: r else r)
  end.
Fixpoint count (i j : Z) (l : list (Z * Z)) : nat := match l with [] => O | (a, b) :: q => ((if (Z.eqb a i && Z.eqb b j)%bool then 1 else 0) + count i j q)%nat end.
(* 91-108 *)
Definition place (mn mx : R) (n : nat) (i : nat) : R := mn + (mx - mn) / INR n / 2 + INR i * ((mx - mn) / INR n).
Definition convert (qtot szct szdp nz ndp : R) (v : vec6) (c4 : cov4) (n m : nat) (l : list particle) : swres (list mp) :=
  let c := limits vct nz szct l in let d := limits vdp ndp szdp l in
  do h <- bins_of c d n m l;
  match l with
  | [] => Throw SNaN
  | _ => let q0 := qtot / INR (length l) in
    Ok (flat_map (fun i => map (fun j => mkMP (V6 (vx v) (vxp v) (vy v) (vyp v) (place (fst c) (snd c) n i) (place (fst d) (snd d) m j)) c4 (q0 * INR (count (Z.of_nat i) (Z.of_nat j) h))) (seq 0 m)) (seq 0 n))
  end.
