(* Model of TransportMatrix.cpp and MatrixMaps.cpp/.h: first-order transport
   matrices and their action on particles and on beam moments.  A matrix is a
   function of row and column together with its dimension; entries outside are
   never used.  Arithmetic is exact. *)
From Verif Require Import RBase Cov Bunch.
From Coq Require Import ZArith.
Local Open Scope R_scope.

Notation mat := (nat -> nat -> R).
Inductive oerr := OAssert | ODimension | ORange. (* ORange: subscript out of range, TMatrixLib.h:112-140 *)

(* IdentityMatrix, InitR, TransportMatrix.cpp:20-24 *)
Definition mid : mat := fun i j => if Nat.eqb i j then 1 else 0.
Definition mset (i j : nat) (v : R) (M : mat) : mat :=
  fun a b => if Nat.eqb a i && Nat.eqb b j then v else M a b.

(* one plane of SBR, TransportMatrix.cpp:52-78, 81-107; [o] is 0 or 2 *)
Definition plane2 (o : nat) (length K : R) (M : mat) : mat :=
  if Reqb K 0 then mset o (o + 1) length M
  else if Rltb 0 K then
    let k := sqrt K in let phi := k * length in
    mset (o + 1) o (- k * sin phi) (mset o (o + 1) (sin phi / k) (mset (o + 1) (o + 1) (cos phi) (mset o o (cos phi) M)))
  else
    let k := sqrt (- K) in let phi := k * length in
    mset (o + 1) o (k * sinh phi) (mset o (o + 1) (sinh phi / k) (mset (o + 1) (o + 1) (cosh phi) (mset o o (cosh phi) M))).
(* SBR, TransportMatrix.cpp:38-146, for an nrows x nrows matrix *)
Definition sbr (n : nat) (length h K : R) (M : mat) : res oerr mat :=
  if Reqb length 0 then Ok M
  else if Nat.leb n 3 then Throw OAssert
  else
    let Ky := - K in
    let Kx := K + h * h in
    let M := plane2 2 length Ky (plane2 0 length Kx M) in
    if Nat.eqb n 6 && negb (Reqb h 0) && negb (Reqb Kx 0) then
      if Rltb 0 Kx then
        let k := sqrt Kx in let phi := k * length in
        Ok (mset 4 1 (- h * (1 - cos phi) / Kx) (mset 4 0 (- h * sin phi / k)
           (mset 4 5 (- h * h * (phi - sin phi) / (Kx * k)) (mset 1 5 (h * sin phi / k) (mset 0 5 (h * (1 - cos phi) / Kx) M)))))
      else
        let k := sqrt (- Kx) in let phi := k * length in
        Ok (mset 4 1 (- h * (1 - cosh phi) / Kx) (mset 4 0 (- h * sinh phi / k)
           (mset 4 5 (- h * h * (phi - sinh phi) / (Kx * k)) (mset 1 5 (h * sinh phi / k) (mset 0 5 (h * (1 - cosh phi) / Kx) M)))))
    else Ok M.
(* TransportMatrix.cpp:198-207; R(0,1) needs two columns *)
Definition drift (n : nat) (length : R) : mat :=
  let M := mset 0 1 length mid in if Nat.leb n 2 then M else mset 2 3 length M.
(* TransportMatrix.cpp:209-213, 315-319, TransportMatrix.h:76-79 *)
Definition sector_bend (n : nat) (length h K : R) : res oerr mat := sbr n length h K mid.
Definition quadrupole (n : nat) (length K : R) : res oerr mat := sbr n length 0 K mid.
(* SROT, Srot, TransportMatrix.cpp:30-36, 356-368 *)
Definition srot_cs (n : nat) (c s : R) : res oerr mat :=
  if Nat.leb n 3 then Throw ORange else
  Ok (mset 3 1 s (mset 2 0 s (mset 1 3 (- s) (mset 0 2 (- s) (mset 3 3 c (mset 2 2 c (mset 1 1 c (mset 0 0 c mid)))))))).
(* Srot(phi), TransportMatrix.h:81-84: R is left alone for a tiny angle *)
Definition srot (n : nat) (phi : R) (M : mat) : res oerr mat :=
  if fequal phi 0 then Ok M else srot_cs n (cos phi) (sin phi).
(* PoleFaceRot, TransportMatrix.cpp:370-378 *)
Definition pole_face (n : nat) (h theta fint hgap : R) : res oerr mat :=
  let phi := 2 * fint * hgap * h * (1 + sin theta * sin theta) / cos theta in
  let M := mset 1 0 (h * tan theta) mid in
  if Nat.leb n 3 then Throw ORange else Ok (mset 3 2 (- h * tan (theta - phi)) M).
(* SolR, Solenoid, TransportMatrix.cpp:148-194, 380-386 *)
Definition solenoid (n : nat) (l ks : R) : res oerr mat :=
  if Nat.leb n 3 then Throw ORange else
  let theta := ks / 2 * l in
  let c := cos theta in let s := sin theta in
  let small := fequal theta 0 in
  let b := if small then 0 else 2 * (s * c) / ks in
  let d := if small then 0 else 2 * (s * s) / ks in
  let e := if small then 0 else - 2 * (s * s) / ks in
  let M := mset 3 3 (c * c) (mset 2 2 (c * c) (mset 1 1 (c * c) (mset 0 0 (c * c) mid))) in
  let M := mset 2 3 b (mset 0 1 b M) in
  let M := mset 3 1 (- (s * c)) (mset 2 0 (- (s * c)) (mset 1 3 (s * c) (mset 0 2 (s * c) M))) in
  let M := mset 2 1 e (mset 0 3 d M) in
  let M := mset 3 2 (- ks * (s * c) / 2) (mset 1 0 (- ks * (s * c) / 2) M) in
  Ok (mset 3 0 (ks * (s * s) / 2) (mset 1 2 (- ks * (s * s) / 2) M)).
(* QuadrupoleT, TransportMatrix.cpp:321-354 *)
Definition quadrupole_t (n : nat) (length K : R) : res oerr mat :=
  if Reqb length 0 || Reqb K 0 then Ok mid
  else if Nat.leb n 3 then Throw ORange else
    let k := if Rltb 0 K then sqrt K else sqrt (- K) in
    let phi := length * k in
    let a := phi * sin phi / 2 in
    let b := (sin phi / k - length * cos phi) / 2 in
    let c := k * (phi * cos phi + sin phi) / 2 in
    let a' := - phi * sinh phi / 2 in
    let b' := (sinh phi / k - length * cosh phi) / 2 in
    let c' := - k * (phi * cosh phi + sinh phi) / 2 in
    let fill a b c a' b' c' :=
      mset 3 2 c' (mset 2 3 b' (mset 3 3 a' (mset 2 2 a' (mset 1 0 c (mset 0 1 b (mset 1 1 a (mset 0 0 a mid))))))) in
    Ok (if Rltb K 0 then fill a' b' c' a b c else fill a b c a' b' c').

(* ---- action on particles, MatrixMaps.cpp:65-88, tblas.h:57-96 ---- *)
Fixpoint msum (f : nat -> R) (n : nat) : R := match n with O => 0 | S n => msum f n + f n end.
Definition vof (f : nat -> R) : vec6 := V6 (f 0%nat) (f 1%nat) (f 2%nat) (f 3%nat) (f 4%nat) (f 5%nat).
Definition apply_m (n : nat) (M : mat) (x : vec6) : vec6 :=
  vof (fun i => if Nat.ltb i n then msum (fun j => M i j * coord j x) n else coord i x).
(* EnergyIndependent, scaledp, MatrixMaps.h:245-253 *)
Definition scaledp (Pref P dp : R) : R := P * (1 + dp) / Pref - 1.
Definition with_dp (d : R) (x : vec6) : vec6 := V6 (vx x) (vxp x) (vy x) (vyp x) (vct x) d.
Definition apply_p (n : nat) (M : mat) (Pref p0 : R) (x : vec6) : vec6 :=
  if fequal Pref 0 then apply_m n M x
  else with_dp (vdp x) (apply_m n M (with_dp (scaledp Pref p0 (vdp x)) x)).
(* operator*=, MatrixMaps.cpp:161-165; the product of TMatrixLib.h:1463-1470
   needs equal dimensions *)
Definition mmul (n : nat) (A B : mat) : mat := fun i j => msum (fun k => A i k * B k j) n.
Definition mul_assign (n m : nat) (A B : mat) : res oerr mat := if Nat.eqb n m then Ok (mmul n B A) else Throw ODimension.
(* RdpMtrx, MatrixMaps.cpp:167-187 *)
Definition apply_dp (n : nat) (M T : mat) (x : vec6) : vec6 :=
  vof (fun i => if Nat.ltb i n then msum (fun j => (M i j + T i j * vdp x) * coord j x) n else coord i x).

(* ---- action on moments ---- *)
(* reading an element of the covariance; always inside (MatrixMaps.cpp:29) *)
Definition cel (d : list R) (i j : nat) : R :=
  match sig 6 d (Z.of_nat i) (Z.of_nat j) with Ok x => x | _ => 0 end.
(* TransformMoments, MatrixMaps.cpp:15-45: the result object starts from zeros *)
Definition transform (n : nat) (M : mat) (s : vec6 * list R) : res cerr (vec6 * list R) :=
  do d <- modify 6 (fun i j _ => msum (fun k => msum (fun l => M i k * M j l * cel (snd s) k l) n) n) (pairs n) (zero 6);
  Ok (vof (fun i => if Nat.ltb i n then msum (fun j => M i j * coord j (fst s)) n else 0), d).
(* RescaleMoments, MatrixMaps.cpp:47-61 *)
Definition rescale (P0 P1 : R) (s : vec6 * list R) : res cerr (vec6 * list R) :=
  let ratio := P0 / P1 in
  let m := with_dp (ratio * (1 + vdp (fst s)) - 1) (fst s) in
  do d <- modify 6 (fun _ _ x => x * ratio) [(0, 5); (1, 5); (2, 5); (3, 5)]%nat (snd s);
  do d' <- modify 6 (fun _ _ x => x * (ratio * ratio)) [(5, 5)]%nat d;
  Ok (m, d').
(* RMtrx::Apply(sigma, p0), MatrixMaps.cpp:118-129 *)
Definition transform_p (n : nat) (M : mat) (Pref p0 : R) (s : vec6 * list R) : res cerr (vec6 * list R) :=
  if fequal Pref 0 then transform n M s
  else do a <- rescale p0 Pref s; do b <- transform n M a; rescale Pref p0 b.
(* RdpMtrx::Apply(sigma), MatrixMaps.cpp:226-231 *)
Definition transform_dp (n : nat) (M T : mat) (s : vec6 * list R) : res cerr (vec6 * list R) :=
  transform n (fun i j => M i j + T i j * vdp (fst s)) s.

(* ---- RMap.h:218-414: two by two maps and drifts on four-dimensional moments ---- *)
Record r2map := R2 { r11 : R; r12 : R; r21 : R; r22 : R }.
(* IsIdentity, RMap.h:240-244 *)
Definition r2_is_identity (r : r2map) : bool := fequal_tol (r11 r) 1 (/ 1000000) && fequal_tol (r22 r) 1 (/ 1000000).
(* ApplyR2Map, RMap.h:254-262; plane 0, 1 or 2 *)
Definition r2_apply (r : r2map) (plane : nat) (x : vec6) : vec6 :=
  let p := (2 * plane)%nat in
  let a := r11 r * coord p x + r12 r * coord (p + 1) x in
  let b := r21 r * coord p x + r22 r * coord (p + 1) x in
  vof (fun i => if Nat.eqb i p then a else if Nat.eqb i (p + 1) then b else coord i x).
(* elements of the 4 x 4 covariance *)
Definition cel4 (d : list R) (i j : nat) : R :=
  match sig 4 d (Z.of_nat i) (Z.of_nat j) with Ok x => x | _ => 0 end.
Fixpoint assign (N : Z) (l : list (nat * nat * R)) (d : list R) : res cerr (list R) :=
  match l with [] => Ok d | (i, j, v) :: r => do d' <- set_sig N d (Z.of_nat i) (Z.of_nat j) v; assign N r d' end.
(* RMap.h:266-287 *)
Definition r2_moments (r : r2map) (plane : nat) (s : vec6 * list R) : res cerr (vec6 * list R) :=
  let p := (2 * plane)%nat in
  let S := cel4 (snd s) in
  let a := r11 r * r11 r * S p p + (r12 r * r11 r + r11 r * r12 r) * S (p + 1)%nat p + r12 r * r12 r * S (p + 1)%nat (p + 1)%nat in
  let b := r11 r * r21 r * S p p + (r12 r * r21 r + r11 r * r22 r) * S (p + 1)%nat p + r12 r * r22 r * S (p + 1)%nat (p + 1)%nat in
  let c := r21 r * r21 r * S p p + (r22 r * r21 r + r21 r * r22 r) * S (p + 1)%nat p + r22 r * r22 r * S (p + 1)%nat (p + 1)%nat in
  do d <- assign 4 [(p, p, a); (p + 1, p, b); (p + 1, p + 1, c)]%nat (snd s);
  Ok (r2_apply r plane (fst s), d).
(* RMap.h:291-321 *)
Definition r2_coupling (rx ry : r2map) (s : vec6 * list R) : res cerr (vec6 * list R) :=
  let S := cel4 (snd s) in
  let f a b c d := 0 + a * c * S 0%nat 2%nat + a * d * S 0%nat 3%nat + b * c * S 1%nat 2%nat + b * d * S 1%nat 3%nat in
  do d <- assign 4 [(0, 2, f (r11 rx) (r12 rx) (r11 ry) (r12 ry)); (0, 3, f (r11 rx) (r12 rx) (r21 ry) (r22 ry));
                    (1, 2, f (r21 rx) (r22 rx) (r11 ry) (r12 ry)); (1, 3, f (r21 rx) (r22 rx) (r21 ry) (r22 ry))]%nat (snd s);
  Ok (fst s, d).
(* ApplySimpleDrift, RMap.h:357-414: each line reads the current contents *)
Definition simple_drift (z : R) (x : vec6) : vec6 := V6 (vx x + z * vxp x) (vxp x) (vy x + z * vyp x) (vyp x) (vct x) (vdp x).
Definition upd_el (N : Z) (i j : nat) (f : (nat -> nat -> R) -> R) (d : list R) : res cerr (list R) :=
  let S := fun a b => match sig N d (Z.of_nat a) (Z.of_nat b) with Ok x => x | _ => 0 end in
  set_sig N d (Z.of_nat i) (Z.of_nat j) (S i j + f S).
Definition drift4 (N : Z) (z : R) (d : list R) : res cerr (list R) :=
  do d <- upd_el N 0 0 (fun s => z * (2 * s 0%nat 1%nat + z * s 1%nat 1%nat)) d;
  do d <- upd_el N 0 1 (fun s => z * s 1%nat 1%nat) d;
  do d <- upd_el N 0 2 (fun s => z * (s 0%nat 3%nat + s 1%nat 2%nat + z * s 1%nat 3%nat)) d;
  do d <- upd_el N 0 3 (fun s => z * s 1%nat 3%nat) d;
  do d <- upd_el N 1 2 (fun s => z * s 1%nat 3%nat) d;
  do d <- upd_el N 2 2 (fun s => z * (2 * s 2%nat 3%nat + z * s 3%nat 3%nat)) d;
  upd_el N 2 3 (fun s => z * s 3%nat 3%nat) d.
Definition drift_moments4 (z : R) (s : vec6 * list R) : res cerr (vec6 * list R) :=
  do d <- drift4 4 z (snd s); Ok (simple_drift z (fst s), d).
Definition drift_moments6 (z : R) (s : vec6 * list R) : res cerr (vec6 * list R) :=
  do d <- drift4 6 z (snd s);
  do d <- upd_el 6 0 4 (fun s => z * s 1%nat 4%nat) d;
  do d <- upd_el 6 0 5 (fun s => z * s 1%nat 5%nat) d;
  do d <- upd_el 6 2 4 (fun s => z * s 3%nat 4%nat) d;
  do d <- upd_el 6 2 5 (fun s => z * s 3%nat 5%nat) d;
  Ok (simple_drift z (fst s), d).
