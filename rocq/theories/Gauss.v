(* Matrix inversion and symplectification, LinearAlgebra.cpp:47-110, 237-285,
   for exact real elements. *)
From Verif Require Import RBase Mat.
Local Open Scope R_scope.

Inductive la_error := NonSquareMatrix | SingularMatrix.

(* LinearAlgebra.cpp:63-77: the search for the largest element outside the
   rows and columns that are done; (largest, prow, pcol). *)
Definition look (a : mat) (j k : nat) (s : R * nat * nat) : R * nat * nat :=
  let '(lg, pr, pc) := s in
  if Rleb lg (Rabs (a j k)) then (Rabs (a j k), j, k) else s.
Definition search (n : nat) (a : mat) (done : nat -> bool) (pr pc : nat) : R * nat * nat :=
  loop 0 n (fun j s =>
    if done j then s
    else loop 0 n (fun k s => if done k then s else look a j k s) s) (0, pr, pc).

(* LinearAlgebra.cpp:80-85, for all columns at once *)
Definition swap_rows (p q : nat) (a : mat) : mat :=
  fun i j => if Nat.eqb i p then a q j else if Nat.eqb i q then a p j else a i j.
(* row(p) *= c *)
Definition scale_row (p : nat) (c : R) (a : mat) : mat :=
  fun i j => if Nat.eqb i p then a i j * c else a i j.
(* LinearAlgebra.cpp:98-105; d: column p of a before it is set to zero.  Row p
   is not changed, so the rows can be treated at once. *)
Definition sweep (p : nat) (d : nat -> R) (a : mat) : mat :=
  fun i j => if Nat.eqb i p then a i j else a i j - d i * a p j.
Definition clear_column (p : nat) (a : mat) : mat :=
  fun i j => if negb (Nat.eqb i p) && Nat.eqb j p then 0 else a i j.

Record gstate := mkG
  { ga : mat; gb : mat; gdone : nat -> bool; gmin : R; grow : nat; gcol : nat }.

(* The body of the loop, LinearAlgebra.cpp:63-105 *)
Definition gstep (n : nat) (s : gstate) : res la_error gstate :=
  let '(_, r, c) := search n (ga s) (gdone s) (grow s) (gcol s) in
  let done' := fun k => if Nat.eqb k c then true else gdone s k in
  let a1 := if Nat.eqb r c then ga s else swap_rows r c (ga s) in
  let b1 := if Nat.eqb r c then gb s else swap_rows r c (gb s) in
  let m1 := Rmin (gmin s) (Rabs (a1 c c)) in
  if Reqb m1 0 then Throw SingularMatrix
  else
    let pivinv := 1 / a1 c c in
    let a2 := scale_row c pivinv (set2 a1 c c 1) in
    let b2 := scale_row c pivinv b1 in
    let d := fun i => a2 i c in
    Ok (mkG (sweep c d (clear_column c a2)) (sweep c d b2) done' m1 r c).

Fixpoint gsteps (n k : nat) (s : gstate) : res la_error gstate :=
  match k with
  | O => Ok s
  | Datatypes.S k' => do s1 <- gsteps n k' s ; gstep n s1
  end.

(* Inverse, LinearAlgebra.cpp:47-109: the inverse and the smallest pivot *)
Definition inverse (nr nc : nat) (a : mat) : res la_error (mat * R) :=
  if Nat.eqb nr nc then
    do s <- gsteps nr nr (mkG a mid (fun _ => false) 1000000000 0 0) ;
    Ok (gb s, gmin s)
  else Throw NonSquareMatrix.

(* LinearAlgebra.cpp:241-249 *)
Definition symp_s : mat := fun i j =>
  if Nat.even i && Nat.eqb j (i + 1) then 1
  else if Nat.odd i && Nat.eqb i (j + 1) then -1 else 0.

(* Symplectify, LinearAlgebra.cpp:237-269; inv: the matrix inversion *)
Definition symp_with (inv : mat -> res la_error (mat * R)) (a : mat) : res la_error mat :=
  do r <- inv (madd mid a) ;
  let v := mmul 6 (mmul 6 symp_s (msub mid a)) (fst r) in
  let w := fun i j => (v i j + v j i) / 2 in
  let sw := mmul 6 symp_s w in
  do r2 <- inv (msub mid sw) ;
  Ok (mmul 6 (fst r2) (madd mid sw)).
Definition symplectify (a : mat) : res la_error mat := symp_with (inverse 6 6) a.
