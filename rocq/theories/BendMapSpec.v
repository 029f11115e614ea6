(* Equations of motion to second order in a bend, and maps that are symplectic
   up to terms of second order. *)
From Verif Require Import RBase Bunch BunchSpec OpticsSpec SparseMapSpec SympIntSpec.
Local Open Scope R_scope.

(* Pure bend of curvature h at high energy, canonical momenta over the reference
   momentum:  x' = (1+hx) px/(1+dp),  px' = h (1+dp) - h (1+hx) - h/2 (px^2+py^2),
   y' = (1+hx) py/(1+dp),  ct' = - hx - (px^2+py^2)/2,  expanded to second order. *)
Definition bend_canonical (h : R) (i : nat) (x : vec6) : R :=
  match i with
  | 0%nat => (h * vx x - vdp x) * vxp x
  | 1%nat => - h / 2 * (vxp x * vxp x + vyp x * vyp x)
  | 2%nat => (h * vx x - vdp x) * vyp x
  | 4%nat => path_term x
  | _ => 0
  end.
(* Bend with gradient K1 and sextupole component K2 (B''/2 over B rho), slopes
   against the reference direction:  x' = (1+hx) a,  a' = h - (1+hx) By/(1+dp) - h (a^2+b^2)/2,
   y' = (1+hx) b,  b' = (1+hx) Bx/(1+dp)  with  By = h + K1 x + K2 x^2 - (K2 + h K1/2) y^2,
   Bx = K1 y + 2 K2 x y. *)
Definition bend_slopes (h K1 K2 : R) (i : nat) (x : vec6) : R :=
  match i with
  | 0%nat => h * vx x * vxp x
  | 1%nat => - h * (vdp x * vdp x) + (K1 + h * h) * vx x * vdp x - h / 2 * (vxp x * vxp x + vyp x * vyp x)
             - (h * K1 + K2) * (vx x * vx x) + (K2 + h * K1 / 2) * (vy x * vy x)
  | 2%nat => h * vx x * vyp x
  | 3%nat => (h * K1 + 2 * K2) * vx x * vy x - K1 * vy x * vdp x
  | 4%nat => path_term x
  | _ => 0
  end.
(* solves2 for some of the coordinates; the others do not enter their equations *)
Definition solves2_for (I : list nat) (A : mtx) (N : nat -> vec6 -> R) (L F : R -> vec6 -> vec6) : Prop :=
  (forall x, F 0 x = x) /\
  forall x i s, In i I ->
    derivable_pt_lim (fun l => coord i (F l x)) s (sum (fun k => A i k * coord k (F s x)) (seq 0 6) + N i (L s x)).

(* the value i, j of J^T S J *)
Definition pairing (A : mtx) (i j : nat) : R :=
  sum (fun k => A (2 * k)%nat i * A (2 * k + 1)%nat j - A (2 * k + 1)%nat i * A (2 * k)%nat j) (seq 0 3).
Definition stretch (t : R) (x : vec6) : vec6 := V6 (t * vx x) (t * vxp x) (t * vy x) (t * vyp x) (t * vct x) (t * vdp x).
(* the map keeps the origin, its derivative there is symplectic, and away from the
   origin it stays so to first order in the coordinates *)
Definition symplectic2 (F : vec6 -> vec6) : Prop :=
  exists J : vec6 -> mtx, (forall x, tangent (fun v => @Ok unit vec6 (F v)) x (J x)) /\ symplectic 6 (J (V6 0 0 0 0 0 0)) /\
    forall x i j, (i < 6)%nat -> (j < 6)%nat -> derivable_pt_lim (fun t => pairing (J (stretch t x)) i j) 0 0.
