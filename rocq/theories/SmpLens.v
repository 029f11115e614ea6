(* Model of the quadrupole elements for sliced bunches: SMPStdIntegrators.cpp:
   28-115 (ThickLens with the two by two maps, ThinLensKick), 168-215 (edge
   fields, rotation, drift) and 237-297 (tilted bend). *)
From Verif Require Import RBase Cov Bunch Optics SparseMap.
From Coq Require Import ZArith.
Local Open Scope R_scope.

(* Quadrupole(length, K1, R2Map&), TransportRMaps.cpp:276-311 *)
Definition quad_plane (length K : R) : r2map :=
  if Reqb K 0 then R2 1 length 0 1
  else if Rltb 0 K then let k := sqrt K in R2 (cos (k * length)) (sin (k * length) / k) (- k * sin (k * length)) (cos (k * length))
  else let k := sqrt (- K) in R2 (cosh (k * length)) (sinh (k * length) / k) (k * sinh (k * length)) (cosh (k * length)).
Definition kicked (a b : R) (x : vec6) : vec6 := V6 (vx x) (vxp x + a) (vy x) (vyp x + b) (vct x) (vdp x).
Definition planes (Mx My : r2map) (s : vec6 * list R) : res cerr (vec6 * list R) :=
  do s <- r2_moments Mx 0 s; do s <- r2_moments My 1 s; r2_coupling Mx My s.
Definition restore (ct dp : R) (x : vec6) : vec6 := V6 (vx x) (vxp x) (vy x) (vyp x) ct dp.
(* ThickLens, SMPStdIntegrators.cpp:28-82; the dipole part is k0r + i k0i *)
Definition thick_lens (len k0r k0i k1 : R) (s : vec6 * list R) : res cerr (vec6 * list R) :=
  let ct := vct (fst s) in let dp := vdp (fst s) in
  let dipole := negb (Reqb k0r 0 && Reqb k0i 0) in
  let l := if dipole then len / 2 else len in
  let Mx := quad_plane l (k1 / (1 + dp)) in let My := quad_plane l (- k1 / (1 + dp)) in
  do s <- planes Mx My s;
  do s <- (if dipole then planes Mx My (kicked (- k0r * len / (1 + dp)) (k0i * len / (1 + dp)) (fst s), snd s) else Ok s);
  Ok (restore ct dp (fst s), snd s).
(* ThinLensKick, SMPStdIntegrators.cpp:84-113 *)
Definition thin_terms (k : R) : list (nat * nat * R) := ident_terms 3 ++ [(2%nat, 1%nat, k); (4%nat, 3%nat, - k)].
Definition thin_lens_kick (k0r k0i k1 : R) (s : vec6 * list R) : res cerr (vec6 * list R) :=
  let dpp := 1 / (1 + vdp (fst s)) in
  let s := (kicked (- (dpp * k0r)) (dpp * k0i) (fst s), snd s) in
  if Reqb k1 0 then Ok s
  else match add_all (thin_terms (dpp * k1)) (empty 0) with Ok m => act_moments 4 m s | _ => UB end.
(* ApplyTWRFEdgeField, SMPStdIntegrators.cpp:175-198 *)
Definition edge_terms (a : R) : list (nat * nat * R) := ident_terms 3 ++ [(2%nat, 1%nat, a); (4%nat, 3%nat, a)].
Definition edge_field (p0 g kwave phi : R) (s : vec6 * list R) : res cerr (vec6 * list R) :=
  let a := - (g / p0) / 2 * cos (phi - kwave * vct (fst s)) / (1 + vdp (fst s)) in
  match add_all (edge_terms a) (empty 0) with Ok m => act_moments 4 m s | _ => UB end.
(* RotateBunchAboutZ, SMPStdIntegrators.cpp:200-205, for one slice; Srot(phi) is
   SROT(cos phi, sin phi), TransportRMap.h:28-31 and TransportRMaps.cpp:184-187 *)
Definition rotate_slice (phi : R) (s : vec6 * list R) : res cerr (vec6 * list R) :=
  match add_all (srot_terms (cos phi) (sin phi)) (empty 0) with Ok m => act_moments 4 m s | _ => UB end.
