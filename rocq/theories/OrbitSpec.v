(* Specification for Orbit.v: motion along a lattice, linear machines, closed orbits and
   what a singular value decomposition is. *)
From Coq Require Import ZArith.
From Verif Require Import RBase Bunch BunchSpec Orbit.
Local Open Scope R_scope.

Definition tot (n : nat) (f : nat -> R) : R := sum f (seq 0 n).
(* what a component does to a particle; bends lengthen the path by a fraction of their length *)
Definition moved (scale : R) (r : option rad) (c : comp) (v : vec6) : vec6 :=
  let u := cmap c r v in if cbend c then V6 (vx u) (vxp u) (vy u) (vyp u) (vct u + scale * clen c) (vdp u) else u.
Definition journey (fs : list (vec6 -> vec6)) (v : vec6) : vec6 := fold_left (fun v f => f v) fs v.
(* once around from the component n; from the component n1 to the component n2 *)
Definition lap (scale : R) (r : option rad) (m : list comp) (n : nat) : vec6 -> vec6 := journey (map (moved scale r) (skipn n m ++ firstn n m)).
Definition stretch (scale : R) (r : option rad) (m : list comp) (n1 n2 : nat) : vec6 -> vec6 :=
  journey (map (moved scale r) (firstn (n2 + 1 - n1) (skipn n1 m))).
(* T is the matrix A and a constant *)
Definition affine (A : nat -> nat -> R) (k : nat -> R) (T : vec6 -> vec6) : Prop :=
  forall v i, (i < 6)%nat -> coord i (T v) = tot 6 (fun j => A i j * coord j v) + k i.
Definition closed (n : nat) (T : vec6 -> vec6) (p : vec6) : Prop := forall i, (i < n)%nat -> coord i (T p) = coord i p.
(* the same longitudinal coordinates (n = 4), or nothing at all (n = 6) *)
Definition same_from (n : nat) (p q : vec6) : Prop := forall i, (n <= i < 6)%nat -> coord i p = coord i q.

(* ---- linear algebra ---- *)
Definition delta_ (i j : nat) : R := if Nat.eqb i j then 1 else 0.
Definition act (n : nat) (A : nat -> nat -> R) (x : nat -> R) : nat -> R := fun i => tot n (fun j => A i j * x j).
Definition norm2 (n : nat) (x : nat -> R) : R := tot n (fun i => x i * x i).
Definition orthogonal (n : nat) (U : nat -> nat -> R) : Prop :=
  forall i j, (i < n)%nat -> (j < n)%nat -> tot n (fun k => U k i * U k j) = delta_ i j /\ tot n (fun k => U i k * U j k) = delta_ i j.
Definition is_svd (n : nat) (A U : nat -> nat -> R) (w : nat -> R) (V : nat -> nat -> R) : Prop :=
  orthogonal n U /\ orthogonal n V /\ (forall i, (i < n)%nat -> 0 <= w i) /\
  (forall i j, (i < n)%nat -> (j < n)%nat -> A i j = tot n (fun k => U i k * w k * V j k)).
(* the factorisation does what its name says for the matrix A *)
Definition right (factor : fact) (n : nat) (A : nat -> nat -> R) : Prop :=
  forall B, (forall i j, (i < n)%nat -> (j < n)%nat -> B i j = A i j) -> exists U w V, factor n B = Some (U, w, V) /\ is_svd n B U w V.
(* no direction is shrunk to less than a millionth of the largest stretch *)
Definition tame (n : nat) (A : nat -> nat -> R) : Prop :=
  exists s, 0 < s /\ (forall x, norm2 n (act n A x) <= s * s * norm2 n x) /\
    (forall x, 0 < norm2 n x -> (s / 1000000) * (s / 1000000) * norm2 n x < norm2 n (act n A x)).
Definition less_one (A : nat -> nat -> R) : nat -> nat -> R := fun i j => A i j - delta_ i j.
Definition product (n : nat) (A B : nat -> nat -> R) : nat -> nat -> R := fun i j => tot n (fun k => A i k * B k j).
(* the radiation steps a process is set to *)
Inductive radiates : bool -> option R -> option Z -> option rad -> Prop :=
| rad_off s n : radiates false s n None
| rad_size s n : s <> 0 -> radiates true (Some s) n (Some (StepSize s))
| rad_steps n : radiates true (Some 0) (Some n) (Some (Steps n)).
(* where a particle is before the first component and after each *)
Fixpoint visits (m : list comp) (p : vec6) : list vec6 := p :: match m with [] => [] | c :: m => visits m (cmap c None p) end.
(* mean over the length of the square of f, taken half way between the ends of each component *)
Fixpoint squares (f : vec6 -> R) (m : list comp) (vs : list vec6) : R :=
  match m, vs with
  | c :: m, u :: ((v :: _) as vs) => clen c * Rsqr ((f u + f v) / 2) + squares f m vs
  | _, _ => 0
  end.
Definition all_length (m : list comp) : R := fold_right (fun c s => clen c + s) 0 m.
