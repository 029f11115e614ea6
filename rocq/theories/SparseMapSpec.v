(* What a list of matrix terms stands for. *)
From Verif Require Import RBase Bunch BunchSpec OpticsSpec SparseMap.
Local Open Scope R_scope.

(* the matrix whose element (i,j) is the sum of the terms at that place *)
Definition amount (l : list term) : mtx :=
  fun i j => sum (fun t => if Nat.eq_dec (ti t) i then if Nat.eq_dec (tj t) j then tv t else 0 else 0) l.
Definition inside (l : list term) : Prop := Forall (fun t => (ti t < 6)%nat /\ (tj t < 6)%nat) l.
(* no place is mentioned twice *)
Definition once (l : list term) : Prop := NoDup (map (fun t => (ti t, tj t)) l).
(* value i of the image of x under an n by n matrix *)
Definition image (n : nat) (M : mtx) (x : vec6) (i : nat) : R := sum (fun j => M i j * coord j x) (seq 0 n).
(* the interface counts from one *)
Definition stored (l : list (nat * nat * R)) : list term := map (fun p => mkT (fst (fst p) - 1) (snd (fst p) - 1) (snd p)) l.

(* Second order in the initial coordinates: F(s) x is the solution, up to terms
   of second order, of  dX/ds = A X + N(X)  with X(0) = x, where L(s) x is the
   first-order solution and N is quadratic. *)
Definition solves2 (A : mtx) (N : nat -> vec6 -> R) (L F : R -> vec6 -> vec6) : Prop :=
  (forall x, F 0 x = x) /\
  forall x i s, (i < 6)%nat ->
    derivable_pt_lim (fun l => coord i (F l x)) s (sum (fun k => A i k * coord k (F s x)) (seq 0 6) + N i (L s x)).
(* path length difference from the slopes *)
Definition path_term (x : vec6) : R := - (vxp x * vxp x + vyp x * vyp x) / 2.
(* a quadrupole acts less on higher momenta *)
Definition quad_second (K : R) (i : nat) (x : vec6) : R :=
  match i with 1%nat => K * vx x * vdp x | 3%nat => - K * vy x * vdp x | 4%nat => path_term x | _ => 0 end.
(* sextupole of strength k (d2B/dx2 over Brho) *)
Definition sext_second (k : R) (i : nat) (x : vec6) : R :=
  match i with 1%nat => - k / 2 * (vx x * vx x - vy x * vy x) | 3%nat => k * vx x * vy x | 4%nat => path_term x | _ => 0 end.
