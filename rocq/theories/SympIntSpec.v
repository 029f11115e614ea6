(* Hamiltonian motion and symplectic maps, independent of the integrators. *)
From Verif Require Import RBase Cov Bunch BunchSpec OpticsSpec.
Local Open Scope R_scope.

Definition set_coord (i : nat) (t : R) (v : vec6) : vec6 :=
  match i with
  | O => V6 t (vxp v) (vy v) (vyp v) (vct v) (vdp v)
  | 1%nat => V6 (vx v) t (vy v) (vyp v) (vct v) (vdp v)
  | 2%nat => V6 (vx v) (vxp v) t (vyp v) (vct v) (vdp v)
  | 3%nat => V6 (vx v) (vxp v) (vy v) t (vct v) (vdp v)
  | 4%nat => V6 (vx v) (vxp v) (vy v) (vyp v) t (vdp v)
  | _ => V6 (vx v) (vxp v) (vy v) (vyp v) (vct v) t
  end.
Definition partial (H : vec6 -> R) (i : nat) (v : vec6) (d : R) : Prop := derivable_pt_lim (fun t => H (set_coord i t v)) (coord i v) d.
(* w is the velocity at v: q' = dH/dp and p' = - dH/dq for (x, xp), (y, yp), (ct, dp) *)
Definition velocity (H : vec6 -> R) (v w : vec6) : Prop :=
  forall k, (k < 3)%nat -> partial H (2 * k + 1) v (coord (2 * k) w) /\ partial H (2 * k) v (- coord (2 * k + 1) w).
(* the curve c moves according to H at parameter s *)
Definition moves (H : vec6 -> R) (c : R -> vec6) (s : R) : Prop :=
  exists w, velocity H (c s) w /\ forall i, (i < 6)%nat -> derivable_pt_lim (fun t => coord i (c t)) s (coord i w).
(* F carries v along the motion for every length *)
Definition follows {E} (H : vec6 -> R) (F : R -> vec6 -> res E vec6) (v : vec6) : Prop :=
  exists c, c 0 = v /\ (forall s, F s v = Ok (c s)) /\ forall s, moves H c s.
(* F carries v along the motion for small lengths *)
Definition follows_near {E} (H : vec6 -> R) (F : R -> vec6 -> res E vec6) (v : vec6) : Prop :=
  exists c r, 0 < r /\ c 0 = v /\ (forall s, Rabs s < r -> F s v = Ok (c s)) /\ moves H c 0.

(* the Hamiltonians: free space; bend of curvature h with gradient k1 to second order in
   the transverse momenta; bend in a uniform field, exact *)
Definition H_free (v : vec6) : R := vdp v - sqrt ((1 + vdp v) * (1 + vdp v) - vxp v * vxp v - vyp v * vyp v).
Definition H_bend (h k1 : R) (v : vec6) : R :=
  (vxp v * vxp v + vyp v * vyp v) / (2 * (1 + vdp v)) - h * vx v * vdp v + (k1 + h * h) * (vx v * vx v) / 2 - k1 * (vy v * vy v) / 2.
Definition H_arc (h : R) (v : vec6) : R :=
  vdp v - (1 + h * vx v) * sqrt ((1 + vdp v) * (1 + vdp v) - vxp v * vxp v - vyp v * vyp v) + h * (vx v + h * (vx v * vx v) / 2).

(* a curve through v with velocity u *)
Definition passes (c : R -> vec6) (v u : vec6) : Prop :=
  c 0 = v /\ forall i, (i < 6)%nat -> derivable_pt_lim (fun t => coord i (c t)) 0 (coord i u).
Definition image (M : mtx) (u : vec6) : vec6 :=
  let f i := sum (fun j => M i j * coord j u) (seq 0 6) in V6 (f 0%nat) (f 1%nat) (f 2%nat) (f 3%nat) (f 4%nat) (f 5%nat).
(* near v, F is defined and carries every curve with velocity u to one with velocity M u *)
Definition tangent {E} (F : vec6 -> res E vec6) (v : vec6) (M : mtx) : Prop :=
  forall c u, passes c v u -> exists r c', 0 < r /\ (forall t, Rabs t < r -> F (c t) = Ok (c' t)) /\ passes c' (c' 0) (image M u).
Definition symplectic_at {E} (F : vec6 -> res E vec6) (v : vec6) : Prop := exists M, tangent F v M /\ symplectic 6 M.
(* the steps of a list of lengths, one after the other *)
Fixpoint steps {E} (F : R -> vec6 -> res E vec6) (l : list R) (v : vec6) : res E vec6 :=
  match l with [] => Ok v | s :: l' => do v' <- F s v; steps F l' v' end.
Definition span (l : list R) : R := fold_right Rplus 0 l.
