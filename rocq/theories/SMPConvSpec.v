(* Moments of weighted ensembles of particles. *)
From Verif Require Import RBase Bunch SMPWake SMPConv.
From Coq Require Import List.
Import ListNotations.
Local Open Scope R_scope.

Definition ensemble := list (R * vec6).
Fixpoint av (f : vec6 -> R) (e : ensemble) : R := match e with [] => 0 | (w, v) :: q => w * f v + av f q end.
Definition cov (f g : vec6 -> R) (e : ensemble) : R := av (fun v => f v * g v) e - av f e * av g e.
(* p has the means and second moments of e, whose weights add up to one *)
Definition describes (p : mp) (e : ensemble) : Prop :=
  av (fun _ => 1) e = 1 /\ vx (mv p) = av vx e /\ vxp (mv p) = av vxp e /\ vy (mv p) = av vy e /\ vyp (mv p) = av vyp e /\
  mc p = mkC4 (cov vx vx e) (cov vx vxp e) (cov vx vy e) (cov vx vyp e) (cov vxp vxp e) (cov vxp vy e) (cov vxp vyp e) (cov vy vy e) (cov vy vyp e) (cov vyp vyp e).
(* a particle in another frame, to first order in the angles *)
Definition seen (f : frame) (v : vec6) : vec6 :=
  let x := vx v - fr_x f in let y := vy v - fr_y f in
  V6 (fr_m f 0 0 * x + fr_m f 0 1 * y) (fr_m f 0 0 * vxp v + fr_m f 0 1 * vyp v + fr_m f 0 2)
     (fr_m f 1 0 * x + fr_m f 1 1 * y) (fr_m f 1 0 * vxp v + fr_m f 1 1 * vyp v + fr_m f 1 2) (vct v) (vdp v).
Definition is_ident (f : frame) : Prop := fr_m f 0 0 = 1 /\ fr_m f 0 1 = 0 /\ fr_m f 0 2 = 0 /\ fr_m f 1 0 = 0 /\ fr_m f 1 1 = 1 /\ fr_m f 1 2 = 0.
Fixpoint charge_of (l : list mp) : R := match l with [] => 0 | p :: q => mq p + charge_of q end.
