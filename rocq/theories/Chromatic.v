(* SectorBendT, TransportMatrix.cpp:215-313: the chromatic matrix of a combined-function
   bend.  QuadrupoleT is in Optics.v.  Arithmetic is exact. *)
From Verif Require Import RBase Cov Bunch Optics.
Local Open Scope R_scope.

(* 237-259 *)
Definition bend_t_horizontal (l Kx hk : R) (T : mat) : mat :=
  if Reqb Kx 0 then
    let l2 := l * l in let l3 := l * l2 in
    mset 1 1 (hk * l2 / 2) (mset 1 0 (hk * l) (mset 0 1 (hk * l3 / 6) (mset 0 0 (hk * l2 / 2) T)))
  else if Rltb 0 Kx then
    let kx := sqrt Kx in let phi := l * kx in
    let a := hk * l * sin phi / kx / 2 in
    mset 1 0 (hk * (phi * cos phi + sin phi) / kx / 2) (mset 0 1 (- hk * (phi * cos phi - sin phi) / (2 * kx * kx * kx)) (mset 1 1 a (mset 0 0 a T)))
  else
    (* coshphix and sinhphix are cos and sin, 254-255 *)
    let kx := sqrt (- Kx) in let phi := l * kx in
    let a := hk * l * sin phi / kx / 2 in
    mset 1 0 (hk * (phi * cos phi + sin phi) / kx / 2) (mset 0 1 (hk * (phi * cos phi - sin phi) / (2 * kx * kx * kx)) (mset 1 1 a (mset 0 0 a T))).
(* 262-281 *)
Definition bend_t_vertical (l Ky : R) (T : mat) : mat :=
  if Rltb 0 Ky then
    let ky := sqrt Ky in let phi := l * ky in
    let a := phi * sin phi / 2 in
    mset 3 2 (ky * (phi * cos phi + sin phi) / 2) (mset 2 3 ((sin phi / ky - l * cos phi) / 2) (mset 3 3 a (mset 2 2 a T)))
  else if Rltb Ky 0 then
    let ky := sqrt (- Ky) in let phi := l * ky in
    let a := - phi * sinh phi / 2 in
    mset 3 2 (- ky * (phi * cosh phi + sinh phi) / 2) (mset 2 3 ((sinh phi / ky - l * cosh phi) / 2) (mset 3 3 a (mset 2 2 a T)))
  else T.
(* 283-311 *)
Definition bend_t_dispersion (l h K1 Kx hk : R) (T : mat) : mat :=
  let h2 := h * h in
  if Reqb Kx 0 then
    let phi := h * l in let phi2 := phi * phi in
    mset 4 5 (- phi2 * phi * (phi2 - 40) / 120) (mset 1 5 (phi * (phi2 / 6 - 1)) (mset 0 5 (phi * l * (phi2 - 12) / 24) T))
  else if Rltb 0 Kx then
    let kx := sqrt Kx in let phi := l * kx in
    mset 4 5 (h2 * (2 * K1 * phi - hk * phi * cos phi + (2 * h2 - K1) * sin phi) / (2 * kx ^ 5))
      (mset 1 5 (- h * (hk * phi * cos phi + K1 * sin phi) / (2 * kx ^ 3))
      (mset 0 5 (- h * (2 * h2 * (cos phi - 1) + hk * phi * sin phi) / (2 * (Kx * Kx))) T))
  else
    let kx := sqrt (- Kx) in let phi := l * kx in
    mset 4 5 (h2 * (2 * K1 * phi - hk * phi * cosh phi + (2 * h2 - K1) * sinh phi) / (2 * kx ^ 5))
      (mset 1 5 (h * (hk * phi * cosh phi + K1 * sinh phi) / (2 * kx ^ 3))
      (mset 0 5 (h * (2 * h2 * (1 - cosh phi) + hk * phi * sinh phi) / (2 * (Kx * Kx))) T)).
(* 215-313 for an n x n matrix; T(0, 5) and T(4, 5) need six columns *)
Definition sector_bend_t (n : nat) (l h K1 : R) : res oerr mat :=
  if Reqb l 0 || (Reqb K1 0 && Reqb h 0) then Ok mid
  else if Nat.leb n 5 then Throw ORange
  else
    let Kx := h * h + K1 in let hk := 2 * (h * h) + K1 in
    Ok (bend_t_dispersion l h K1 Kx hk (bend_t_vertical l (- K1) (bend_t_horizontal l Kx hk mid))).
