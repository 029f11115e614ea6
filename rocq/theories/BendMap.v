(* Model of the second-order maps of bends and their pole faces
   (BasicTransportMaps.cpp:14-89, 225-531).  Where a coefficient is no number
   (division by zero, root of a negative number) the map is shown as UB.  Some
   quantities the source computes and does not use are left out of SectorBendTM
   and PoleFaceTM; GenSectorBendTM is transcribed whole. *)
From Verif Require Import RBase Bunch Optics SparseMap.
Local Open Scope R_scope.

(* SectorBendTM, 14-89.  Linear part (38-52): [sector_tm_linear]. *)
Definition sector_second (s h gamma : R) : list (nat * nat * nat * R) :=
  let beta := sqrt (1 - 1 / gamma / gamma) in
  let a1 := h * s in let a2 := cos a1 in let a3 := 1 / h in let a4 := sin a1 in let a7 := 1 + - a2 in let a8 := a3 * a7 in
  let a10 := - 1 + a2 in let a12 := a4 ^ 2 in let a13 := h * s / 2 in let a14 := sin a13 in let a15 := - a4 / 2 in let a16 := - (a3 * a4) / 2 in
  let cx := cos (h * s) in let sx := sin (h * s) / h in let dx := (1 - cx) / (h * h) in let J1 := (s - sx) / (h * h) in let sy := s in let cy := 1 in
  [(1%nat, 1%nat, 1%nat, - (a12 * h) / 2);
   (1%nat, 1%nat, 2%nat, h * sx * cx);
   (1%nat, 1%nat, 6%nat, a12);
   (1%nat, 2%nat, 2%nat, a2 * a3 * a14 ^ 2);
   (1%nat, 2%nat, 6%nat, (h * h / (4 * beta) * (sx * dx + cx * J1) - 1 / (4 * beta) * (sx + s * cx)) * 2);
   (1%nat, 6%nat, 6%nat, - (a12 * a3) / 2);
   (1%nat, 4%nat, 4%nat, a10 * a3 / 2);
   (2%nat, 2%nat, 2%nat, a15);
   (2%nat, 4%nat, 4%nat, a15);
   (2%nat, 6%nat, 6%nat, - h * sx / (2 * beta * beta * gamma * gamma));
   (3%nat, 1%nat, 4%nat, a4);
   (3%nat, 2%nat, 4%nat, a8);
   (3%nat, 4%nat, 6%nat, (h * h * J1 * cy / (2 * beta) - (sy + s * cy) / (4 * beta)) * 2);
   (5%nat, 2%nat, 2%nat, a16);
   (5%nat, 1%nat, 6%nat, h * sx / (2 * beta * beta * gamma * gamma) * 2);
   (5%nat, 2%nat, 6%nat, h * dx / (2 * beta * beta * gamma * gamma) * 2);
   (5%nat, 6%nat, 6%nat, 3 * (h * h * J1 - s) / (2 * beta * beta * beta * gamma * gamma));
   (5%nat, 4%nat, 4%nat, a16)].
(* h = 0 divides by zero; |gamma| <= 1 gives a root of a negative number or a
   division by beta = 0 *)
Definition sector_tm (who : nat) (s h gamma : R) : res oerr rtmap :=
  if Reqb h 0 then UB else if Rleb (gamma * gamma) 1 then UB else rt_make who (sector_tm_linear s h) (sector_second s h gamma).

(* GenSectorBendTM, 225-454: the second-order coefficients (251-451) from the first-order
   ones; the names are the source's *)
Definition gen_bend_second (s h K1 K2 cx sx dx cxp sxp dxp cy sy cyp syp : R) : list (nat * nat * nat * R) :=
  let n := - K1 / (h * h) in let a1 := K1 + h * h in let a2 := 1 / h in let a3 := 2 * a2 * dx in let a4 := ((sx) ^ 2) in let a5 := - a4 in
  let a6 := a3 + a5 in let a7 := ((h) ^ 3) in let a8 := 1 / a7 in let a9 := - (a8 * K2) in let a10 := 2 * n in let a11 := - 1 + a10 + a9 in
  let a12 := a2 * dx in let a13 := a12 + a4 in let a14 := ((h) ^ 2) in let a15 := (2 * a11 * a14 * dx * sx) / 3 in let a16 := - n in
  let a17 := 2 + a16 in let a18 := (a14 * a17 * s * sx) / 2 in let a19 := ((h) ^ 4) in let a20 := 1 / a1 in let a21 := (s * sx) / 2 in
  let a22 := - (a2 * dx) in let a23 := - (cx * s) in let a24 := a23 + sx in let a25 := ((h) ^ 5) in let a26 := a1 * a1 in let a27 := 1 / a26 in
  let a28 := - K1 in let a29 := (-4) * a28 in let a30 := a1 + a29 in let a31 := 1 / a30 in let a32 := (-2) * a2 * dx in let a33 := ((sy) ^ 2) in
  let a34 := a32 + a33 in let a35 := - sx in let a36 := cy * sy in let a37 := a35 + a36 in let a38 := 2 * a31 * a37 * K2 in let a39 := 2 * cx in
  let a40 := 1 + a39 in let a41 := 2 * a4 in let a42 := a22 + a41 in let a43 := 2 * a2 * cy * dx in let a44 := - (sx * sy) in let a45 := a43 + a44 in
  let a46 := a8 * K2 in let a47 := a16 + a46 in let a48 := - cx in let a49 := 1 + a48 in let a50 := a49 * cy in let a51 := (-2) * a28 * sx * sy in
  let a52 := a50 + a51 in let a53 := 2 * cy * sx in let a54 := 1 + cx in let a55 := - (a54 * sy) in let a56 := a53 + a55 in let a57 := a20 * sy in
  let a58 := - (cy * sx) in let a59 := 2 * a20 * a28 * a54 * sy in let a60 := a58 + a59 in let a61 := a31 * a60 in let a62 := a57 + a61 in
  let a63 := (a28 * s * sy) / 2 in let a64 := (s * sy) / 2 in let a65 := - (cy * s) in let a66 := a65 + sy in let a67 := (-2) * a28 in
  let a68 := a1 + a67 in let a69 := a68 * cy * sx in let a70 := - (a28 * a54 * sy) in let a71 := a69 + a70 in let a72 := cy * sx in
  let a73 := - (cx * sy) in let a74 := (-2) * a2 * a28 * dx * sy in let a75 := a72 + a73 + a74 in let a76 := - (a49 * cy) in
  let a77 := a68 * sx * sy in let a78 := a76 + a77 in let a79 := a20 * cy in let a80 := - (cx * cy) in let a81 := 2 * a20 * a28 * a54 * cy in
  let a82 := - (a28 * sx * sy) in let a83 := a80 + a81 + a82 in let a84 := a31 * a83 in let a85 := a79 + a84 in let a86 := - (a1 * h) in
  let a87 := (-2) * n in let a88 := 1 + a87 in let a89 := a7 * a88 in let a90 := a86 + a89 + K2 in let a91 := (-2) * K2 in let a92 := 4 * n in
  let a93 := - 2 + a92 in let a94 := a7 * a93 in let a95 := a86 + a91 + a94 in let a96 := - 2 + n in let a97 := - (a1 * a96 * h) in
  let a98 := a91 + a94 + a97 in let a99 := a1 * h in let a100 := 8 * n in let a101 := - 4 + a100 in let a102 := 2 * K2 in let a103 := (-4) * n in
  let a104 := 2 + a103 in let a105 := a104 * a7 in let a106 := a102 + a105 + a99 in let a107 := a1 * a96 * h in let a108 := a102 + a105 + a107 in
  let a109 := ((h) ^ 6) in let kx2 := h * h + K1 in let kx := sqrt (Rabs kx2) in let ky2 := - K1 in let ky := sqrt (Rabs ky2) in
  let sngx := if Rltb kx2 0 then -1 else 1 in let b1 := ((kx) ^ 2) in let b2 := 1 / b1 in let b3 := kx * s in
  let b4 := if Rltb kx2 0 then cosh (b3) else cos (b3) in let b5 := if Rltb kx2 0 then sinh (b3) else sin (b3) in let b6 := ((kx) ^ 3) in
  let b7 := 1 / b6 in let b8 := if Rltb kx2 0 then sinh (2 * b3) else sin (2 * b3) in let b9 := if Rltb kx2 0 then sinh (b3 / 2) else sin (b3 / 2) in
  let b10 := if Rltb ky2 0 then cosh (ky * s) else cos (ky * s) in let b11 := if Rltb ky2 0 then sinh (ky * s) else sin (ky * s) in
  let b12 := if Rltb ky2 0 then sinh (2 * ky * s) else sin (2 * ky * s) in let P1 := b2 * (sngx * (b4 - 1) + b5 * kx * s) in
  let P2 := sngx * (b3 - b5) * b7 * h in let P3 := sngx * b2 * (1 - b4) in let P4 := sngx * b7 * (b5 - b4 * kx * s) in
  let P5 := 2 * h * (/ (kx) ^ 4) * ((b9) ^ 4) in let P6 := - sngx * (b7 * ((-2) * kx * s + b8)) / 4 in let P7 := ((/ (ky) ^ 2) * ((b11) ^ 2)) / 2 in
  let P8 := - ((/ (ky) ^ 3) * ((-2) * ky * s + b8)) / 4 in
  [(1%nat, 1%nat, 1%nat, (a11 * a13 * a7) / 3 + (a1 * a6 * h) / 6);
   (1%nat, 1%nat, 2%nat, a15 - (a1 * dx * sx) / 3);
   (1%nat, 1%nat, 6%nat, a18 + 2 * a11 * a19 * a20 * (a21 + (a22 + a5) / 3) - (a14 * a6) / 3);
   (1%nat, 2%nat, 2%nat, (a11 * a20 * a6 * a7) / 3 + (a13 * h) / 6);
   (1%nat, 2%nat, 6%nat, (a14 * a17 * a20 * a24) / 2 + (dx * h * sx) / 3 + 2 * a11 * a19 * a20 * ((a20 * a24) / 2 - (a2 * dx * sx) / 3));
   (1%nat, 6%nat, 6%nat, (a20 * a6 * a7) / 6 - dx + a11 * a25 * a27 * (a4 / 3 + (4 * a2 * dx) / 3 - s * sx) + a17 * a20 * a7 * (a12 - (s * sx) / 2));
   (1%nat, 3%nat, 3%nat, - (a28 * dx) / 2 + (a12 - a28 * a31 * a34) * K2);
   (1%nat, 3%nat, 4%nat, a38);
   (1%nat, 4%nat, 4%nat, - dx / 2 + a31 * a34 * K2);
   (2%nat, 1%nat, 1%nat, - (cx * cxp * h) + (a11 * a40 * a7 * sx) / 3 + (a26 * dx * sx) / 3);
   (2%nat, 1%nat, 2%nat, (2 * a11 * a42 * a7) / 3 - (a1 * a42 * h) / 3 + h * sxp - h * (cxp * sx + cx * sxp));
   (2%nat, 1%nat, 6%nat, - ((cxp * dx + cx * dxp) * h) - (2 * a1 * dx * h * sx) / 3 + (a14 * a17 * (cx * s + sx)) / 2 + 2 * a11 * a19 * a20 * ((cx * s) / 2 + sx / 6 - (2 * cx * sx) / 3));
   (2%nat, 2%nat, 2%nat, a15 + (a40 * h * sx) / 6 - h * sx * sxp);
   (2%nat, 2%nat, 6%nat, a18 + (a14 * a42) / 3 + 2 * a11 * a19 * a20 * (a21 - (2 * a4) / 3 + (a2 * dx) / 3) - h * (dxp * sx + dx * sxp));
   (2%nat, 6%nat, 6%nat, (a17 * a20 * a24 * a7) / 2 - dx * dxp * h + (a14 * dx * sx) / 3 - h * sx + a11 * a25 * a27 * (a23 + sx / 3 + (2 * cx * sx) / 3));
   (2%nat, 3%nat, 3%nat, - (a28 * h * sx) / 2 + K2 * ((-2) * a28 * a31 * a37 + sx));
   (2%nat, 3%nat, 4%nat, 2 * a31 * ((-2) * a28 * a33 + a1 * a2 * dx) * K2);
   (2%nat, 4%nat, 4%nat, a38 - (h * sx) / 2);
   (3%nat, 1%nat, 3%nat, 2 * a31 * a47 * a52 * a7 + a1 * a28 * a31 * a45 * h);
   (3%nat, 1%nat, 4%nat, 2 * a31 * a47 * a56 * a7 - a1 * a62 * h + h * sy);
   (3%nat, 2%nat, 3%nat, 2 * a47 * a62 * a7 - a28 * a31 * a56 * h);
   (3%nat, 2%nat, 4%nat, 2 * a31 * a45 * a47 * a7 + a31 * a52 * h);
   (3%nat, 3%nat, 6%nat, - (a14 * a28 * a31 * a45) + a63 + 2 * a19 * a20 * a47 * (- (a31 * a52) + a64));
   (3%nat, 4%nat, 6%nat, a14 * a62 + a66 / 2 + 2 * a19 * a20 * a47 * (- (a31 * a56) + a66 / (2 * a28)));
   (4%nat, 1%nat, 3%nat, 2 * a31 * a47 * a7 * a71 + a1 * a28 * a31 * a75 * h - cx * cyp * h);
   (4%nat, 1%nat, 4%nat, 2 * a31 * a47 * a7 * a78 - a1 * a85 * h + h * syp - cx * h * syp);
   (4%nat, 2%nat, 3%nat, 2 * a47 * a7 * a85 - a28 * a31 * a78 * h - cyp * h * sx);
   (4%nat, 2%nat, 4%nat, 2 * a31 * a47 * a7 * a75 + a31 * a71 * h - h * sx * syp);
   (4%nat, 3%nat, 6%nat, - (a14 * a28 * a31 * a75) - cyp * dx * h + (a28 * (cy * s + sy)) / 2 + 2 * a19 * a20 * a47 * ((cy * s) / 2 + sy / 2 + a31 * (- (a68 * cy * sx) + a28 * a54 * sy)));
   (4%nat, 4%nat, 6%nat, a63 + 2 * a19 * a20 * a47 * (a64 - a31 * a78) + a14 * a85 - dx * h * syp);
   (5%nat, 1%nat, 1%nat, ((-2) * a90 * P2 + a95 * h * P6 + 3 * s * ((cxp) ^ 2)) / 6);
   (5%nat, 1%nat, 2%nat, (a95 * P5 + 3 * cxp * s * sxp) / 3);
   (5%nat, 1%nat, 6%nat, (a20 * (6 * a1 * cxp * dxp * s + 4 * a90 * h * P2 + 3 * a14 * a98 * P4 + 4 * a25 * P6 + 2 * a1 * a7 * P6 + 4 * a14 * K2 * P6 - 8 * a25 * n * P6)) / 6);
   (5%nat, 2%nat, 2%nat, (a20 * ((a101 * a7 + a99 - 4 * K2) * P2 + a106 * h * P6 + 3 * a1 * s * ((sxp) ^ 2))) / 6);
   (5%nat, 2%nat, 6%nat, (a27 * (3 * a108 * a14 * P1 + 3 * a14 * a98 * P3 + 2 * a1 * (a106 * h * P5 + 3 * a1 * dxp * s * sxp))) / 6);
   (5%nat, 3%nat, 3%nat, (2 * a28 * h * K2 * P8 + P2 * (a1 * a28 * h - 2 * a1 * K2 + 4 * a28 * K2 - 4 * h * K1 * K1) - a30 * s * ((cyp + syp) ^ 2)) / ((-2) * a1 + 8 * a28));
   (5%nat, 3%nat, 4%nat, 2 * a31 * h * K2 * (- P3 + P6));
   (5%nat, 4%nat, 4%nat, (a31 * (- ((a30 * h + 4 * K2) * P2) + 2 * h * K2 * P8)) / 2);
   (5%nat, 6%nat, 6%nat, (a27 * (2 * h * (a101 * a19 - 3 * a26 - 4 * h * K2 + a1 * a14 * (7 - 3 * n)) * P2 + 3 * a108 * a7 * P4 - 2 * a109 * P6 - a1 * a19 * P6 - 2 * a7 * K2 * P6 + 4 * a109 * n * P6 + 3 * a26 * s * ((dxp) ^ 2))) / 6)].

(* the first-order coefficients are those of TransportMatrix::SectorBend (229-248).
   a2 = 1/h, a20 = 1/(K1+h^2), a31 = 1/(5 K1+h^2) and P8 = 1/ky^3 must exist. *)
Definition gen_bend_tm (who : nat) (s h K1 K2 : R) : res oerr rtmap :=
  do M <- sector_bend 6 s h K1;
  if Reqb h 0 || Reqb K1 0 || Reqb (K1 + h * h) 0 || Reqb (K1 + h * h + 4 * K1) 0 then UB
  else
    rt_make who
      [(1%nat, 1%nat, M 0%nat 0%nat); (1%nat, 2%nat, M 0%nat 1%nat); (1%nat, 6%nat, M 0%nat 5%nat);
       (2%nat, 1%nat, M 1%nat 0%nat); (2%nat, 2%nat, M 1%nat 1%nat); (2%nat, 6%nat, M 1%nat 5%nat);
       (3%nat, 3%nat, M 2%nat 2%nat); (3%nat, 4%nat, M 2%nat 3%nat); (4%nat, 3%nat, M 3%nat 2%nat); (4%nat, 4%nat, M 3%nat 3%nat);
       (5%nat, 1%nat, M 4%nat 0%nat); (5%nat, 2%nat, M 4%nat 1%nat); (5%nat, 5%nat, 1); (5%nat, 6%nat, M 4%nat 5%nat); (6%nat, 6%nat, 1)]
      (gen_bend_second s h K1 K2 (M 0%nat 0%nat) (M 0%nat 1%nat) (M 0%nat 5%nat) (M 1%nat 0%nat) (M 1%nat 1%nat) (M 1%nat 5%nat)
                       (M 2%nat 2%nat) (M 2%nat 3%nat) (M 3%nat 2%nat) (M 3%nat 3%nat)).

(* PoleFaceTM, 456-531.  The fringe angle is singular where cos(beta) = 0. *)
Definition face_second (h K1 beta c : R) (entrance : bool) : list (nat * nat * nat * R) :=
  let a1 := tan beta in let a6 := 1 / cos beta in let a7 := a6 ^ 2 in let a8 := a6 ^ 3 in
  let sig := if entrance then 1 else -1 in
  let hh := sig * / 2 * h in
  [(1%nat, 1%nat, 1%nat, - hh * a1 ^ 2);
   (1%nat, 3%nat, 3%nat, hh * a7);
   (2%nat, 1%nat, 2%nat, hh * a1 ^ 2 * 2);
   (2%nat, 3%nat, 4%nat, - hh * a1 ^ 2 * 2);
   (3%nat, 1%nat, 3%nat, hh * a1 ^ 2 * 2);
   (4%nat, 1%nat, 4%nat, - hh * a1 ^ 2 * 2);
   (4%nat, 2%nat, 3%nat, - (hh * a7) * 2)] ++
  (if entrance then
     [(2%nat, 1%nat, 1%nat, h / 2 * c * a8 + K1 * a1);
      (2%nat, 3%nat, 3%nat, hh * h * a1 ^ 3 - h / 2 * c * a8 + K1 * a1 + (h * a6) ^ 2 * a1 * / 2);
      (4%nat, 1%nat, 3%nat, - (h / 2 * c * a8 + K1 * a1))]
   else
     [(2%nat, 1%nat, 1%nat, h / 2 * c * a8 + K1 * a1 - (h * a1) ^ 2 * a1 * / 2);
      (2%nat, 3%nat, 3%nat, hh * h * a1 ^ 3 - h / 2 * c * a8 + K1 * a1);
      (4%nat, 1%nat, 3%nat, - (h / 2 * c * a8 + K1 * a1) + (h * a6) ^ 2 * a1)]).
Definition fringe_angle (h beta fint hgap : R) : R := 2 * fint * hgap * h * (1 + sin beta * sin beta) / cos beta.
Definition face_tm (who : nat) (h K1 beta c fint hgap : R) (entrance : bool) : res oerr rtmap :=
  if Reqb (cos beta) 0 then UB else
  rt_make who
    [(2%nat, 1%nat, tan beta * h); (4%nat, 3%nat, - (h * tan (beta - fringe_angle h beta fint hgap)));
     (1%nat, 1%nat, 1); (2%nat, 2%nat, 1); (3%nat, 3%nat, 1); (4%nat, 4%nat, 1); (5%nat, 5%nat, 1); (6%nat, 6%nat, 1)]
    (face_second h K1 beta c entrance).
