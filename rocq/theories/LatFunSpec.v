(* Specification for LatFun.v: motion along a lattice, its slopes, and what the columns of a
   table of lattice functions are. *)
From Coq Require Import ZArith.
From Verif Require Import RBase Bunch BunchSpec Orbit OrbitSpec LatFun.
Local Open Scope R_scope.

Definition idx (c : lcol) : Z * Z * Z := (ci c, cj c, ck c).
Definition at_row (c : lcol) (r : nat) : R := nth r (cval c) 0.
(* a particle that starts as p, in front of component r; the way there *)
Definition arrives (scale : R) (m : list lcomp) (r : nat) (p : vec6) : vec6 := journey (map (fun c => moved scale None (lc c)) (firstn r m)) p.
Definition way (m : list lcomp) (r : nat) : R := all_length (map lc (firstn r m)).
(* coordinate j larger by d *)
Definition nudge (j : nat) (d : R) (p : vec6) : vec6 :=
  match j with
  | 0 => V6 (vx p + d) (vxp p) (vy p) (vyp p) (vct p) (vdp p)
  | 1 => V6 (vx p) (vxp p + d) (vy p) (vyp p) (vct p) (vdp p)
  | 2 => V6 (vx p) (vxp p) (vy p + d) (vyp p) (vct p) (vdp p)
  | 3 => V6 (vx p) (vxp p) (vy p) (vyp p + d) (vct p) (vdp p)
  | 4 => V6 (vx p) (vxp p) (vy p) (vyp p) (vct p + d) (vdp p)
  | 5 => V6 (vx p) (vxp p) (vy p) (vyp p) (vct p) (vdp p + d)
  | _ => p
  end%nat.
(* how the coordinates at component r change with those at the start *)
Definition slopes (scale : R) (m : list lcomp) (r : nat) (d : R) (p : vec6) : nat -> nat -> R :=
  fun i j => (coord i (arrives scale m r (nudge j d p)) - coord i (arrives scale m r p)) / d.
(* no change of the reference momentum *)
Definition coasting (m : list lcomp) : Prop := Forall (fun c => lgain c = 1) m.
(* where the particle of a table starts: as told, or on the closed orbit *)
Definition starts (factor : fact) (m : list lcomp) (t : table) (scale : R) (transverse : bool) (pi : option vec6) (p : vec6) : Prop :=
  match pi with
  | Some q => p = q
  | None => exists w it, find_orbit factor (map lc m) (co_set_scale scale (co_transverse transverse (co_set_delta (tdelta t) new_co))) 0 vzero = Ok (p, w, it)
  end.
Definition same_mat (n : nat) (A B : nat -> nat -> R) : Prop := forall i j, (i < n)%nat -> (j < n)%nat -> A i j = B i j.
Definition has_inverse (n : nat) (A : nat -> nat -> R) : Prop :=
  exists B, same_mat n (product n A B) delta_ /\ same_mat n (product n B A) delta_.
(* what EigenSystem says about the matrix M: the flag and the vectors re + i im *)
Definition says (eig : eigsys) (M : nat -> nat -> R) (ok : bool) (re im : nat -> nat -> R) : Prop :=
  forall B, same_mat 6 B M -> eig B = Some (ok, re, im).
Definition dim (ok : bool) : nat := if ok then 6 else 4.
(* the vector u + i v of plane k is turned by the angle mu *)
Definition turns (n : nat) (M : nat -> nat -> R) (u v : nat -> R) (mu : R) : Prop :=
  forall i, (i < n)%nat -> act n M u i = cos mu * u i - sin mu * v i /\ act n M v i = sin mu * u i + cos mu * v i.
(* the sum over the planes of the area spanned by two displacements *)
Definition area (u v : nat -> R) : R := tot 3 (fun p => u (2 * p)%nat * v (2 * p + 1)%nat - u (2 * p + 1)%nat * v (2 * p)%nat).
Definition keeps_area (A : nat -> nat -> R) : Prop := forall u v, area (act 6 A u) (act 6 A v) = area u v.
(* the matrix of one turn a table works with *)
Definition turn_of (t : table) (m : list lcomp) (scale : R) (Mi : option (nat -> nat -> R)) (p : vec6) : nat -> nat -> R :=
  let M := match Mi with Some M => M | None => slopes scale m (length m) (tdelta t) p end in
  if tforce t then fun i j => if Nat.eqb i 4 && Nat.eqb j 4 then 1 - / 10 ^ 12 else M i j else M.
(* the columns that make sense if n coordinates are followed *)
Definition legal (n : nat) (x : Z * Z * Z) : Prop :=
  let '(i, j, k) := x in
  (i <= 6 /\ (j = 0 /\ k = 0 \/ i <= Z.of_nat n /\ j <= Z.of_nat n) /\ 2 * k <= Z.of_nat n)%Z.
(* all coordinates below n times a *)
Definition swell (n : nat) (a : R) (v : vec6) : vec6 :=
  let f i x := if Nat.ltb i n then a * x else x in
  V6 (f 0%nat (vx v)) (f 1%nat (vxp v)) (f 2%nat (vy v)) (f 3%nat (vyp v)) (f 4%nat (vct v)) (f 5%nat (vdp v)).
Definition gains (m : list lcomp) (r : nat) : R := fold_right (fun c g => lgain c * g) 1 (firstn r m).
(* the operations that change the columns of a table or its settings *)
Inductive tabop := TAdd (i j k : Z) | TRemoveAll | TOrbit | TDefault | TDelta (d : R) | TScale (s : R) | TSymp (f : bool) | TForce (f : bool).
Definition tabdo (o : tabop) : table -> table :=
  match o with
  | TAdd i j k => add_function i j k | TRemoveAll => remove_all | TOrbit => use_orbit | TDefault => use_default
  | TDelta d => set_delta d | TScale s => scale_bends s | TSymp f => make_symplectic f | TForce f => force_stable f
  end.
Definition history (os : list tabop) : table := fold_left (fun t o => tabdo o t) os new_table.
