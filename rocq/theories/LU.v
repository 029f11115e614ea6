(* LU factorisation with implicit scaling and partial pivoting, and the
   substitutions that solve a linear system with it, TLASimp.h:29-98, 230-351,
   for exact real elements. *)
From Verif Require Import RBase Mat Gauss.
Local Open Scope R_scope.

Inductive lu_error := LUDimensionError | LUSingularMatrix | LURangeError.

(* std::numeric_limits<double>::epsilon() *)
Definition dbl_eps : R := / 2 ^ 52.

(* TLASimp.h:244-256: the scales, or a row of zeros *)
Definition row_max (n : nat) (M : mat) (i : nat) : R :=
  loop 0 n (fun j big => Rmax (Rabs (M i j)) big) 0.
Fixpoint scales (n m : nat) (M : mat) : res lu_error vec :=
  match m with
  | O => Ok (fun _ => 0)
  | Datatypes.S k =>
      do sc <- scales n k M ;
      if Reqb (row_max n M k) 0 then Throw LUSingularMatrix
      else Ok (set1 sc k (1 / row_max n M k))
  end.

(* M[i][j] -= M[i][k] * M[k][j] for k < m *)
Definition reduce (i j m : nat) (M : mat) : mat :=
  loop 0 m (fun k M => set2 M i j (M i j - M i k * M k j)) M.
(* TLASimp.h:259-265 *)
Definition upper (j : nat) (M : mat) : mat := loop 0 j (fun i M => reduce i j i M) M.
(* TLASimp.h:266-279; (M, big, imax) *)
Definition lower (n j : nat) (scale : vec) (M : mat) : mat * R * nat :=
  loop j (n - j) (fun i s =>
    let '(M, big, imax) := s in
    let M1 := reduce i j j M in
    let howbig := scale i * Rabs (M1 i j) in
    if Rleb big howbig then (M1, howbig, i) else (M1, big, imax)) (M, 0, 0%nat).

Record lus := mkLU { lm : mat; lscale : vec; lpivot : list nat; lsign : R }.

(* One column, TLASimp.h:257-304.  imax always is at least j here: the first
   candidate is accepted. *)
Definition column (n j : nat) (s : lus) : res lu_error lus :=
  let '(M1, _, imax) := lower n j (lscale s) (upper j (lm s)) in
  let same := Nat.eqb j imax in
  let M2 := if same then M1 else swap_rows imax j M1 in
  let sign := if same then lsign s else - lsign s in
  let scale := if same then lscale s else set1 (lscale s) imax (lscale s j) in
  if Nat.ltb j (length (lpivot s)) then
    let M3 := if Reqb (M2 j j) 0 then set2 M2 j j dbl_eps else M2 in
    let dum := 1 / M3 j j in
    let M4 := loop (j + 1) (n - (j + 1)) (fun i M => set2 M i j (M i j * dum)) M3 in
    Ok (mkLU M4 scale (firstn j (lpivot s) ++ imax :: skipn (j + 1) (lpivot s)) sign)
  else UB.
Fixpoint columns (n m : nat) (s : lus) : res lu_error lus :=
  match m with
  | O => Ok s
  | Datatypes.S k => do s1 <- columns n k s ; column n k s1
  end.

(* LUfactor, TLASimp.h:230-306: factors, pivots and sign *)
Definition lufactor (nr nc : nat) (M : mat) (pivot : list nat) : res lu_error (mat * list nat * R) :=
  if Nat.eqb nc nr then
    do sc <- scales nc nc M ;
    do s <- columns nc nc (mkLU M sc pivot 1) ;
    Ok (lm s, lpivot s, lsign s)
  else Throw LUDimensionError.

(* LUsolve, TLASimp.h:309-351: v has nv elements; first: index of the first
   element that is not zero *)
Definition forward1 (nv : nat) (M : mat) (pivot : list nat) (i : nat) (st : vec * option nat)
  : res lu_error (vec * option nat) :=
  let '(v, first) := st in
  do p <- match nth_error pivot i with Some p => Ok p | None => UB end ;
  if Nat.ltb p nv then
    if Nat.ltb i nv then
      let sum := v p in
      let v1 := set1 v p (v i) in
      match first with
      | Some f =>
          let sum1 := loop f (i - f) (fun j s => s - M i j * v1 j) sum in
          Ok (set1 v1 i sum1, first)
      | None => Ok (set1 v1 i sum, if Reqb sum 0 then None else Some i)
      end
    else Throw LURangeError
  else Throw LURangeError.
Fixpoint forward (nv m : nat) (M : mat) (pivot : list nat) (v : vec) : res lu_error (vec * option nat) :=
  match m with
  | O => Ok (v, None)
  | Datatypes.S k => do st <- forward nv k M pivot v ; forward1 nv M pivot k st
  end.
(* for(i = n-1; i >= 0; i--): the elements m-1, ..., 0 *)
Definition back1 (n : nat) (M : mat) (i : nat) (v : vec) : vec :=
  set1 v i (loop (i + 1) (n - (i + 1)) (fun j s => s - M i j * v j) (v i) / M i i).
Fixpoint back (n m : nat) (M : mat) (v : vec) : vec :=
  match m with
  | O => v
  | Datatypes.S k => back n k M (back1 n M k v)
  end.
Definition lusolve (n nv : nat) (M : mat) (pivot : list nat) (v : vec) : res lu_error vec :=
  do st <- forward nv n M pivot v ; Ok (back n n M (fst st)).

(* LUMatrix, TLASimp.h:37-61: the vector of pivots is empty *)
Definition lumatrix (nr nc : nat) (M : mat) := lufactor nr nc M [].
(* det(), TLASimp.h:79-87 *)
Definition ludet (n : nat) (f : mat * list nat * R) : R :=
  let '(M, _, sign) := f in loop 0 n (fun i d => d * M i i) sign.
