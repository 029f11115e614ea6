(* Turns of a machine with crab cavities around two interaction points. *)
From Verif Require Import RBase Bunch CCFail.
From Coq Require Import List ZArith.
Import ListNotations.
Local Open Scope R_scope.

(* number of markers of a list in a region *)
Definition region_eqb (a b : region) : bool := match a, b with IP5up, IP5up | IP5down, IP5down | IP1down, IP1down | IP1up, IP1up => true | _, _ => false end.
Fixpoint markers (r : region) (l : list R) : nat :=
  match l with [] => O | s :: q => (match region_of s with Some r' => if region_eqb r r' then 1 else 0 | None => 0 end + markers r q)%nat end.
(* a turn: four markers before and behind each point, in any order *)
Definition full_turn (l : list R) : Prop := length l = 16%nat /\ markers IP5up l = 4%nat /\ markers IP5down l = 4%nat /\ markers IP1down l = 4%nat /\ markers IP1up l = 4%nat.
(* particles that differ by an angle only *)
Definition same_but (h : bool) (p q : particle) : Prop :=
  pid q = pid p /\ vx (pv q) = vx (pv p) /\ vy (pv q) = vy (pv p) /\ vct (pv q) = vct (pv p) /\ vdp (pv q) = vdp (pv p) /\ (if h then vyp (pv q) = vyp (pv p) else vxp (pv q) = vxp (pv p)).
Definition angle (h : bool) (v : vec6) : R := if h then vxp v else vyp v.
(* a particle kicked by a voltage at a phase *)
Definition kicked (h : bool) (energy omega c phi v : R) (p q : particle) : Prop :=
  same_but h p q /\ energy <> 0 /\ angle h (pv q) = angle h (pv p) - v * sin (phi + vct (pv p) * omega / c) / energy.
(* strength of a failing cavity: full for the first turns, then down in ft steps *)
Definition strength (on : bool) (nft ft t : Z) : R := if (Z.leb nft t && on)%bool then 1 - IZR (t + 1 - nft) / IZR ft else 1.
