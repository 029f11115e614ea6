(* Radiation along the direction of motion. *)
From Verif Require Import RBase Bunch SynchRad.
From Coq Require Import List ZArith.
Import ListNotations.
Local Open Scope R_scope.

Definition en (b : bunch) (p : particle) : R := p0 b * (1 + vdp (pv p)).
Fixpoint total (l : list R) : R := match l with [] => 0 | x :: q => x + total q end.
(* energy radiated by a particle over a length: the classical formula, or the sum of the
   photons, in units of the critical energy k_1 B gamma^2 *)
Definition radiated (k : consts) (B L : R) (quantum : bool) (ph : list R) (E : R) : R :=
  let crit := k_1 k * B * (E / k_m k) ^ 2 in if quantum then crit * total ph else k_2 k * B * L * crit.
(* losses of the particles of a bunch, the first one being passage n *)
Fixpoint losses (k : consts) (field : R -> R -> R) (L : R) (quantum : bool) (ph : nat -> list R) (n : nat) (b : bunch) (l : list particle) : list R :=
  match l with
  | [] => []
  | p :: q => radiated k (field (vx (pv p)) (vy (pv p))) L quantum (ph n) (en b p) :: losses k field L quantum ph (S n) b q
  end.
(* momentum along the orbit, over the reference momentum, in the variables px/P0, py/P0 *)
Definition pz2 (v : vec6) : R := (1 + vdp v) ^ 2 - vxp v ^ 2 - vyp v ^ 2.
(* steps from the position pos after nk radiations at distance dL: each ends at the next
   point of radiation or clearly before it *)
Fixpoint allowed (dL : R) (nk : Z) (pos : R) (l : list R) : Prop :=
  match l with
  | [] => True
  | ds :: q => 0 <= ds /\ ((pos + ds = (IZR nk + 1) * dL /\ allowed dL (nk + 1) (pos + ds) q) \/ (pos + ds < (IZR nk + 1) * dL - eps /\ allowed dL nk (pos + ds) q))
  end.
