(* What a hollow electron lens should do: the current flowing within a given radius,
   as an integral of its density, and the deflection by it; the change of a particle
   by a deflection; the turns on which a lens is on. *)
From Verif Require Import RBase Bunch.
From Coquelicot Require Import Coquelicot.
From Coq Require Import ZArith List.
Import ListNotations.
Local Open Scope R_scope.

(* the deflection by a line current, towards it when positive: magnetic constant,
   current, length, velocities, magnetic rigidity and distance; the electrons move
   against the protons or with them *)
Definition mu0 : R := 4 * PI / 10 ^ 7.
Definition line_current (against : bool) (i len be bp brho r : R) : R :=
  let s := if against then 1 else -1 in
  s * (mu0 / (2 * PI)) * i * len * (1 + s * (be * bp)) / (be * bp * brho * r).

(* n is the charge within r, up to a common factor, of a round beam *)
Definition charge_within (rho : R -> R) (r n : R) : Prop := is_RInt (fun u => rho u * u) 0 r n.
(* a beam between two radii which is the same everywhere *)
Definition annulus (a b : R) (u : R) : R := if Rltb a u then if Rltb u b then 1 else 0 else 0.
(* a density given by points: straight lines between them, nothing outside *)
Fixpoint through (pts : list (R * R)) (u : R) : R :=
  match pts with
  | (x, y) :: (((x', y') :: _) as rest) =>
    if Rltb u x then 0 else if Rltb u x' then y + (u - x) * (y' - y) / (x' - x) else through rest u
  | _ => 0
  end.
Definition scaled (k : R) (pts : list (R * R)) : list (R * R) := map (fun p => (k * fst p, snd p)) pts.
(* the measured profiles, micrometres *)
Definition tevatron : list (R * R) := [(222.5, 0); (252.5, 917); (287, 397); (364.5, 228); (426.5, 0)].
Definition lhc_profile : list (R * R) := [(222.5, 0); (265, 917); (315, 397); (435, 228); (505, 0)].

(* the part of the deflection coming from the charge within r; out is any radius
   holding all of it *)
Definition deflects (rho : R -> R) (out full r k : R) : Prop :=
  exists n t, charge_within rho r n /\ charge_within rho out t /\ 0 < t /\ 0 <= n <= t /\ k = - (n / t * full).

(* only the angles of a particle change *)
Definition same_place (p q : particle) : Prop :=
  pid q = pid p /\ vx (pv q) = vx (pv p) /\ vy (pv q) = vy (pv p) /\ vct (pv q) = vct (pv p) /\ vdp (pv q) = vdp (pv p).
(* the particle is deflected by t away from the point (a, b) *)
Definition deflected_from (a b t : R) (p q : particle) : Prop :=
  exists c s, c * c + s * s = 1 /\
  (let d := sqrt ((vx (pv p) - a) * (vx (pv p) - a) + (vy (pv p) - b) * (vy (pv p) - b)) in
   vx (pv p) - a = d * c /\ vy (pv p) - b = d * s) /\
  vxp (pv q) = vxp (pv p) + t * c /\ vyp (pv q) = vyp (pv p) + t * s.
(* the angular momentum about a point *)
Definition moment (a b : R) (p : particle) : R := (vx (pv p) - a) * vyp (pv p) - (vy (pv p) - b) * vxp (pv p).
(* the velocity of a particle of momentum p and rest energy m in the same unit *)
Definition velocity (p m : R) : R := p / sqrt (p * p + m * m).
