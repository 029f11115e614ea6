(* What a user expects of a bunch made from a distribution. *)
From Verif Require Import RBase Bunch BeamMat.
Local Open Scope R_scope.

(* a beam which is possible and has no coupling between the planes *)
Definition uncoupled (t : beam) : Prop := c_xy t = 0 /\ c_xyp t = 0 /\ c_xpy t = 0 /\ c_xpyp t = 0.
Definition possible (t : beam) : Prop := 0 < beta_x t /\ 0 < beta_y t /\ 0 <= emit_x t /\ 0 <= emit_y t /\ 0 <= sig_dp t /\ 0 <= sig_z t.
(* coordinates seen from the centroid, without dispersion *)
Definition px (t : beam) (p : vec6) : R := vx p - x0 t - Dx t * vdp p.
Definition pxp (t : beam) (p : vec6) : R := vxp p - xp0 t - Dxp t * vdp p.
Definition py (t : beam) (p : vec6) : R := vy p - y0 t - Dy t * vdp p.
Definition pyp (t : beam) (p : vec6) : R := vyp p - yp0 t - Dyp t * vdp p.
(* Courant-Snyder invariant for the functions b and a *)
Definition invariant (b a x xp : R) : R := (1 + a * a) / b * (x * x) + 2 * a * (x * xp) + b * (xp * xp).
Definition inv_x (t : beam) (p : vec6) : R := invariant (beta_x t) (alpha_x t) (px t p) (pxp t p).
Definition inv_y (t : beam) (p : vec6) : R := invariant (beta_y t) (alpha_y t) (py t p) (pyp t p).
(* the square of the distance from the centroid in units of the beam size *)
Definition radius2 (t : beam) (p : vec6) : R := (px t p * px t p) / (emit_x t * beta_x t) + (py t p * py t p) / (emit_y t * beta_y t).
