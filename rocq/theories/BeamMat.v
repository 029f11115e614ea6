(* Beam parameters and beam matrix: NormalTransform.cpp and BeamData.h.  Results that
   are not a number are the outcome NaN; S(i, j) of the packed covariance and the
   action of RMap are those of Cov.v and SparseMap.v.  log is stdlib's ln, atan2(y, x)
   is only needed for 0 <= y.  The last step of SigmaMatrixToBeamData (219-220)
   changes a local copy that is not used any more and is left out. *)
From Verif Require Import RBase Cov Bunch Optics SparseMap TMat.
From Coq Require Import ZArith Ratan.
Local Open Scope R_scope.

Inductive berr := NaN | Asserted.
Notation bres := (res berr).
Definition lift {A} (r : res cerr A) : bres A := match r with Ok x => Ok x | Throw _ => Throw Asserted | UB => UB end.
Definition finite_div (a b : R) : bres R := if Reqb b 0 then Throw NaN else Ok (a / b).
Definition real_sqrt (x : R) : bres R := if Rltb x 0 then Throw NaN else Ok (sqrt x).

(* BeamData.h:19-95 *)
Record beam := mkBeam {
  beta_x : R; beta_y : R; alpha_x : R; alpha_y : R; emit_x : R; emit_y : R; sig_dp : R; sig_z : R;
  x0 : R; xp0 : R; y0 : R; yp0 : R; ct0 : R; p0 : R; c_xy : R; c_xyp : R; c_xpy : R; c_xpyp : R;
  Dx : R; Dxp : R; Dy : R; Dyp : R; charge : R }.
(* BeamData.h:35-38, 45-52, 96-111 *)
Definition beam_ok (t : beam) : bool := Rltb 0 (emit_x t) && Rltb 0 (emit_y t) && Rltb 0 (beta_x t) && Rltb 0 (beta_y t).
Definition gamma_x (t : beam) : R := (1 + alpha_x t * alpha_x t) / beta_x t.
Definition gamma_y (t : beam) : R := (1 + alpha_y t * alpha_y t) / beta_y t.
Definition sigma_x (t : beam) : R := sqrt (emit_x t * beta_x t).
Definition sigma_y (t : beam) : R := sqrt (emit_y t * beta_y t).
Definition sigma_xp (t : beam) : R := sqrt (emit_x t * gamma_x t).
Definition sigma_yp (t : beam) : R := sqrt (emit_y t * gamma_y t).

(* NormalTransform.cpp:20-68 *)
Definition coupling (a b c d : R) : mat :=
  let detB2 := b * c - a * d in
  if Reqb detB2 0 then mid
  else
    let h := if Rltb 0 detB2 then cos (sqrt detB2) else cosh (sqrt (- detB2)) in
    let zeta := if Rltb 0 detB2 then sin (sqrt detB2) / sqrt detB2 else sinh (sqrt (- detB2)) / sqrt (- detB2) in
    let a := a * zeta in let b := b * zeta in let c := c * zeta in let d := d * zeta in
    mset 3 1 (- a) (mset 3 0 (- c) (mset 2 1 b (mset 2 0 d
      (mset 1 3 (- d) (mset 1 2 (- c) (mset 0 3 b (mset 0 2 a
      (mset 3 3 h (mset 2 2 h (mset 1 1 h (mset 0 0 h mid))))))))))).
(* 70-76 *)
Definition alpha_matrix (ax ay : R) : mat := mset 3 2 (- ay) (mset 1 0 (- ax) mid).
(* 78-88; only for positive arguments, see normal_transform *)
Definition beta_matrix (bx by_ : R) : mat :=
  mset 3 3 (1 / sqrt by_) (mset 2 2 (sqrt by_) (mset 1 1 (1 / sqrt bx) (mset 0 0 (sqrt bx) mid))).
(* 90-98 *)
Definition dispersion (dx dxp dy dyp : R) : mat := mset 3 5 dyp (mset 2 5 dy (mset 1 5 dxp (mset 0 5 dx mid))).
(* 118-126; sqrt of a negative number and 1/sqrt(0) are not finite *)
Definition normal_transform (t : beam) : bres mat :=
  if Rltb 0 (beta_x t) && Rltb 0 (beta_y t) then
    Ok (mmul 6 (mmul 6 (mmul 6 (dispersion (Dx t) (Dxp t) (Dy t) (Dyp t)) (beta_matrix (beta_x t) (beta_y t)))
                       (alpha_matrix (alpha_x t) (alpha_y t))) (coupling (c_xy t) (c_xyp t) (c_xpy t) (c_xpyp t)))
  else Throw NaN.

(* RMap(M).Apply(S) on moments and on a covariance *)
Definition map_moments (M : mat) (s : vec6 * list R) : res cerr (vec6 * list R) :=
  match of_matrix 0 6 6 M with Ok m => act_moments 6 m s | _ => UB end.
Definition map_cov (M : mat) (d : list R) : res cerr (list R) :=
  match of_matrix 0 6 6 M with Ok m => act_cov 6 m d | _ => UB end.
(* BeamDataToSigmaMtrx, 128-146: S.zero() is that of PSvector and leaves the covariance *)
Fixpoint set_diag (l : list (Z * R)) (d : list R) : res cerr (list R) :=
  match l with [] => Ok d | (i, x) :: r => do d' <- set_sig 6 d i i x ; set_diag r d' end.
Definition to_sigma (t : beam) (S : vec6 * list R) : bres (vec6 * list R) :=
  do N <- normal_transform t ;
  do d <- lift (set_diag [(0%Z, emit_x t); (1%Z, emit_x t); (2%Z, emit_y t); (3%Z, emit_y t);
                          (4%Z, sig_z t * sig_z t); (5%Z, sig_dp t * sig_dp t)] (snd S)) ;
  do s <- lift (map_moments N (vzero, d)) ;
  Ok (V6 (x0 t) (xp0 t) (y0 t) (yp0 t) (vct (fst s)) (vdp (fst s)), snd s).
(* NormalTransform.h:27-31 *)
Definition beam_sigma (t : beam) : bres (vec6 * list R) := to_sigma t (vzero, zero 6).

(* ProjectedEmittance, 15-18 *)
Definition proj_emit (d : list R) (i j : nat) : bres R := real_sqrt (cel d i i * cel d j j - cel d i j * cel d i j).

(* DecoupleSigma, 148-168; the loop runs at most [fuel] times: None when it has not ended.
   Division by d = 0 makes every later value not a number and ends the loop. *)
Definition coeff (d : list R) : option (R * R * R * R) :=
  let S i j := cel d i j in
  let den := S 2%nat 2%nat * S 3%nat 3%nat - S 2%nat 3%nat * S 2%nat 3%nat - (S 0%nat 0%nat * S 1%nat 1%nat - S 0%nat 1%nat * S 0%nat 1%nat) in
  if Reqb den 0 then None else Some
   ((- S 0%nat 1%nat * S 0%nat 3%nat + S 0%nat 0%nat * S 1%nat 3%nat - S 0%nat 3%nat * S 2%nat 3%nat + S 0%nat 2%nat * S 3%nat 3%nat) / den,
    (S 0%nat 1%nat * S 0%nat 2%nat - S 0%nat 0%nat * S 1%nat 2%nat + S 0%nat 3%nat * S 2%nat 2%nat - S 0%nat 2%nat * S 2%nat 3%nat) / den,
    (S 0%nat 3%nat * S 1%nat 1%nat - S 0%nat 1%nat * S 1%nat 3%nat + S 1%nat 3%nat * S 2%nat 3%nat - S 1%nat 2%nat * S 3%nat 3%nat) / den,
    (- S 0%nat 2%nat * S 1%nat 1%nat + S 0%nat 1%nat * S 1%nat 2%nat - S 1%nat 3%nat * S 2%nat 2%nat + S 1%nat 2%nat * S 2%nat 3%nat) / den).
Fixpoint decouple (fuel : nat) (d : list R) (Q : mat) : option (bres (list R * mat)) :=
  match fuel with
  | O => None
  | Datatypes.S fuel =>
      match coeff d with
      | None => Some (Throw NaN)
      | Some (a, b, c, e) =>
          let Q1 := coupling (- a) (- b) (- c) (- e) in
          match map_cov Q1 d with
          | Ok d1 => if Rleb (1 / 10000000000) (a * a + b * b + c * c + e * e)
                     then decouple fuel d1 (mmul 6 Q1 Q) else Some (Ok (d1, mmul 6 Q1 Q))
          | Throw _ => Some (Throw Asserted)
          | UB => Some UB
          end
      end
  end.

(* atan2(y, x) for y >= 0 *)
Definition atan2_up (y x : R) : R :=
  if Rltb 0 x then atan (y / x) else if Rltb x 0 then atan (y / x) + PI else if Reqb y 0 then 0 else PI / 2.
(* 191-207: the four coupling parameters read off the decoupling matrix; sqrt of a
   negative number cannot occur *)
Definition read_coupling (C : mat) : R * R * R * R :=
  let h := C 0%nat 0%nat in
  let z := if Rltb 1 h then
             let x := sqrt (h * h - 1) in if Reqb x 0 then 0 else ln (h + x) / x
           else
             let s := sqrt (1 - h) in if Reqb s 0 then 0 else atan2_up s h / s in
  (C 0%nat 2%nat * z, C 0%nat 3%nat * z, C 1%nat 2%nat * z, C 1%nat 3%nat * z).

(* SigmaMatrixToBeamData, 170-234 *)
Definition to_beam (fuel : nat) (S0 : vec6 * list R) : option (bres beam) :=
  let d0 := snd S0 in
  let d2 := cel d0 5 5 in
  let dsp i := if Reqb d2 0 then 0 else cel d0 i 5 / d2 in
  match (if Reqb d2 0 then Ok d0
         else do s <- map_moments (dispersion (- dsp 0%nat) (- dsp 1%nat) (- dsp 2%nat) (- dsp 3%nat)) S0 ; Ok (snd s)) with
  | Ok d =>
      match decouple fuel d mid with
      | None => None
      | Some r => Some (
          do dc <- r ;
          let '(d, C) := dc in
          let '(cxy, cxyp, cxpy, cxpyp) := read_coupling C in
          do ex <- proj_emit d 0 1 ; do ey <- proj_emit d 2 3 ;
          do bx <- finite_div (cel d 0 0) ex ; do by_ <- finite_div (cel d 2 2) ey ;
          do ax <- finite_div (- cel d 0 1) ex ; do ay <- finite_div (- cel d 2 3) ey ;
          do sz <- real_sqrt (cel d0 4 4) ; do sd <- real_sqrt d2 ;
          let v := fst S0 in
          Ok (mkBeam bx by_ ax ay ex ey sd sz (vx v) (vxp v) (vy v) (vyp v) (vct v) (vdp v)
                     cxy cxyp cxpy cxpyp (dsp 0%nat) (dsp 1%nat) (dsp 2%nat) (dsp 3%nat) 1))
      end
  | Throw _ => Some (Throw Asserted)
  | UB => Some UB
  end.
(* NormalModeEmittance, 236-241 *)
Definition mode_emittance (fuel : nat) (S0 : vec6 * list R) : option (bres (R * R)) :=
  match to_beam fuel S0 with None => None | Some r => Some (do t <- r ; Ok (emit_x t, emit_y t)) end.
