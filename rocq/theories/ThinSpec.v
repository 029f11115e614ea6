(* Vocabulary for the steps of a particle under linear maps. *)
From Verif Require Import RBase Cov Bunch BunchSpec OpticsSpec.
Local Open Scope R_scope.

(* the first n coordinates are carried along by a matrix, the others stay *)
Definition carried (n : nat) (A : mtx) (v : vec6) : vec6 :=
  let c i := if Nat.ltb i n then sum (fun j => A i j * coord j v) (seq 0 n) else coord i v in
  V6 (c 0%nat) (c 1%nat) (c 2%nat) (c 3%nat) (c 4%nat) (c 5%nat).
(* the same particle seen with another relative momentum deviation *)
Definition with_deviation (d : R) (v : vec6) : vec6 := V6 (vx v) (vxp v) (vy v) (vyp v) (vct v) d.
(* carried by a matrix written for the momentum Pd, for a bunch of momentum P0 *)
Definition about_design (P0 Pd : R) (A : mtx) (v : vec6) : vec6 :=
  with_deviation (vdp v) (carried 6 A (with_deviation (P0 * (1 + vdp v) / Pd - 1) v)).
(* a field free length *)
Definition straight_on (l : R) (v : vec6) : vec6 := V6 (vx v + l * vxp v) (vxp v) (vy v + l * vyp v) (vyp v) (vct v) (vdp v).
(* how many of the ends of successive steps lie beyond a place *)
Fixpoint ends (z : R) (l : list R) : list R := match l with [] => [] | d :: l => (z + d) :: ends (z + d) l end.
Definition beyond (p : R) (l : list R) : nat := length (filter (fun e => Rltb p e) l).
Definition total_length (l : list R) : R := fold_right Rplus 0 l.
