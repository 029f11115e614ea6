(* Vectors and matrices as stored by TMatrixLib.h (row by row in one array), views of
   their rows, columns and blocks, and the products of tblas.h.  Elements are exact
   reals; subscripts are size_t, taken as natural numbers.  TLAS_NO_RANGE_CHECKING is
   not defined. *)
From Verif Require Import RBase.
Local Open Scope R_scope.

Inductive tl_error := DimensionError | RangeError.
Notation tres := (res tl_error).

(* std::valarray: access out of range is undefined *)
Definition aget (a : list R) (i : nat) : tres R :=
  match nth_error a i with Some x => Ok x | None => UB end.
Definition aset (a : list R) (i : nat) (x : R) : tres (list R) :=
  match upd a i x with Some a' => Ok a' | None => UB end.

(* TMatrixLib.h:112-140 *)
Definition in_range (i n : nat) : tres unit := if Nat.leb n i then Throw RangeError else Ok tt.
Definition equal_length (a b : nat) : tres unit := if Nat.eqb a b then Ok tt else Throw DimensionError.
Definition range_in (r : nat * nat) (n : nat) : tres unit :=
  if Nat.leb n (fst r) || Nat.leb n (snd r) then Throw RangeError else Ok tt.

(* for(k = 0; k < n; k++) *)
Fixpoint mfor {S : Type} (n : nat) (f : nat -> S -> tres S) (s : S) : tres S :=
  match n with O => Ok s | Datatypes.S k => do s1 <- mfor k f s ; f k s1 end.

(* ---- Vector ---- *)
(* operator[], operator(): 262-284 *)
Definition vec_get (v : list R) (i : nat) : tres R := do _ <- in_range i (length v) ; aget v i.
Definition vec_set (v : list R) (i : nat) (x : R) : tres (list R) := do _ <- in_range i (length v) ; aset v i x.
(* operator=(const Vector&), 218-226; copy, 229-240 *)
Definition vec_assign (v u : list R) : tres (list R) := do _ <- equal_length (length v) (length u) ; Ok u.
Definition vec_copy (v u : list R) : list R := u.
(* operator==, 311-321; operator!=, 323-326 *)
Fixpoint all_equal (v u : list R) : bool :=
  match v, u with x :: v', y :: u' => if Reqb x y then all_equal v' u' else false | _, _ => true end.
Definition vec_eq (v u : list R) : tres bool := do _ <- equal_length (length v) (length u) ; Ok (all_equal v u).
Definition vec_ne (v u : list R) : tres bool := do b <- vec_eq v u ; Ok (negb b).
(* op= with a scalar, 329-348, and with a vector, 351-374 *)
Definition vec_scalar (op : R -> R -> R) (v : list R) (s : R) : list R := map (fun x => op x s) v.
Fixpoint zip (op : R -> R -> R) (v u : list R) : list R :=
  match v, u with x :: v', y :: u' => op x y :: zip op v' u' | _, _ => [] end.
Definition vec_vector (op : R -> R -> R) (v u : list R) : tres (list R) :=
  do _ <- equal_length (length v) (length u) ; Ok (zip op v u).
(* binary operators, 412-502 *)
Definition vec_add := vec_vector Rplus.
Definition vec_sub := vec_vector Rminus.
Definition vec_div := vec_vector Rdiv.
Definition scalar_plus (s : R) (v : list R) := vec_scalar Rplus v s.
Definition vec_plus (v : list R) (s : R) := vec_scalar Rplus v s.
Definition scalar_minus (s : R) (v : list R) := vec_scalar Rplus (vec_scalar Rmult v (-1)) s.
Definition vec_minus (v : list R) (s : R) := vec_scalar Rplus v s.
Definition vec_times (v : list R) (s : R) := vec_scalar Rmult v s.
Definition vec_over (v : list R) (s : R) := vec_scalar Rdiv v s.
(* tdot, tblas.h:18-26; operator*, TMatrixLib.h:437-441 *)
Definition dot (u v : list R) : tres R :=
  mfor (length u) (fun i al => do x <- vec_get u i ; do y <- vec_get v i ; Ok (al + x * y)) 0.

(* ---- views: std::slice of an array; the length is computed in size_t and wraps
   when the range is reversed (None: longer than any array) ---- *)
Record view := mkView { vstart : nat; vlen : option nat; vstride : nat }.
Definition range_length (r : nat * nat) : option nat :=
  if Nat.leb (fst r) (snd r + 1) then Some (snd r + 1 - fst r)%nat else None.
Definition in_view (i : nat) (w : view) : tres unit :=
  match vlen w with Some n => in_range i n | None => Ok tt end.
(* SubVector::operator(), operator[]: 527-537, 630-652 *)
Definition view_get (a : list R) (w : view) (i : nat) : tres R :=
  do _ <- in_view i w ; aget a (vstart w + i * vstride w).
Definition view_set (a : list R) (w : view) (i : nat) (x : R) : tres (list R) :=
  do _ <- in_view i w ; aset a (vstart w + i * vstride w) x.
(* conversion to Vector, 542-545, 749-752 *)
Definition view_vector (a : list R) (w : view) : tres (list R) :=
  match vlen w with
  | None => UB
  | Some n => mfor n (fun i l => do x <- aget a (vstart w + i * vstride w) ; Ok (l ++ [x])) []
  end.
(* assignment of a Vector, 657-662; of a scalar, 665-669; op= with scalar and Vector,
   679-741: element i of the view becomes f i (old value) *)
Definition view_update (a : list R) (w : view) (f : nat -> R -> tres R) : tres (list R) :=
  match vlen w with
  | None => UB
  | Some n => mfor n (fun i a => do x <- aget a (vstart w + i * vstride w) ; do y <- f i x ;
                                 aset a (vstart w + i * vstride w) y) a
  end.
Definition view_assign (a : list R) (w : view) (v : list R) : tres (list R) :=
  do _ <- match vlen w with Some n => equal_length n (length v) | None => Throw DimensionError end ;
  view_update a w (fun i _ => aget v i).
Definition view_fill (a : list R) (w : view) (s : R) : tres (list R) := view_update a w (fun _ _ => Ok s).
Definition view_scalar (op : R -> R -> R) (a : list R) (w : view) (s : R) : tres (list R) :=
  view_update a w (fun _ x => Ok (op x s)).
Definition view_op (op : R -> R -> R) (a : list R) (w : view) (v : list R) : tres (list R) :=
  do _ <- match vlen w with Some n => equal_length n (length v) | None => Throw DimensionError end ;
  view_update a w (fun i x => do y <- aget v i ; Ok (op x y)).
(* Vector::operator()(Range), 286-308 *)
Definition vec_range (v : list R) (r : nat * nat) : tres view :=
  do _ <- range_in r (length v) ; Ok (mkView (fst r) (range_length r) 1).

(* ---- Matrix ---- *)
Record tmat := mkTM { tnr : nat; tnc : nat; tarr : list R }.
(* 1047-1093 *)
Definition tm_fill (n m : nat) (x : R) : tmat := mkTM n m (repeat x (n * m)).
Definition tm_identity (n : nat) : tres tmat :=
  do a <- view_fill (repeat 0 (n * n)) (mkView 0 (Some n) (n + 1)) 1 ; Ok (mkTM n n a).
(* index, 1047-1052 *)
Definition tm_index (A : tmat) (i j : nat) : tres nat :=
  do _ <- in_range i (tnr A) ; do _ <- in_range j (tnc A) ; Ok (i * tnc A + j)%nat.
Definition tm_get (A : tmat) (i j : nat) : tres R := do k <- tm_index A i j ; aget (tarr A) k.
Definition tm_set (A : tmat) (i j : nat) (x : R) : tres tmat :=
  do k <- tm_index A i j ; do a <- aset (tarr A) k x ; Ok (mkTM (tnr A) (tnc A) a).
(* 1217-1346 *)
Definition tm_row (A : tmat) (i : nat) : tres view :=
  do _ <- in_range i (tnr A) ; Ok (mkView (i * tnc A) (Some (tnc A)) 1).
Definition tm_column (A : tmat) (j : nat) : tres view :=
  do _ <- in_range j (tnc A) ; Ok (mkView j (Some (tnr A)) (tnc A)).
Definition tm_row_range (A : tmat) (i : nat) (r : nat * nat) : tres view :=
  do _ <- in_range i (tnr A) ; do _ <- range_in r (tnc A) ; Ok (mkView (tnc A * i + fst r) (range_length r) 1).
Definition tm_col_range (A : tmat) (r : nat * nat) (j : nat) : tres view :=
  do _ <- range_in r (tnr A) ; do _ <- in_range j (tnc A) ; Ok (mkView (j + fst r * tnc A) (range_length r) (tnc A)).
(* std::gslice: start, two lengths, strides *)
Record block := mkBlock { bstart : nat; brows : option nat; bcols : option nat; bstride : nat }.
Definition tm_block (A : tmat) (rr cr : nat * nat) : tres block :=
  do _ <- range_in rr (tnr A) ; do _ <- range_in cr (tnc A) ; do k <- tm_index A (fst rr) (fst cr) ;
  Ok (mkBlock k (range_length rr) (range_length cr) (tnc A)).
Definition in_opt (i : nat) (n : option nat) : tres unit :=
  match n with Some n => in_range i n | None => Ok tt end.
(* SubMatrix::operator(), 888-910 *)
Definition block_get (a : list R) (b : block) (i j : nat) : tres R :=
  do _ <- in_opt i (brows b) ; do _ <- in_opt j (bcols b) ; aget a (bstart b + i * bstride b + j).
Definition block_set (a : list R) (b : block) (i j : nat) (x : R) : tres (list R) :=
  do _ <- in_opt i (brows b) ; do _ <- in_opt j (bcols b) ; aset a (bstart b + i * bstride b + j) x.
(* array[gl] op= m.array: the k-th element of the block and of m; 915-991 *)
Definition block_update (a : list R) (b : block) (f : nat -> nat -> R -> tres R) : tres (list R) :=
  match brows b, bcols b with
  | Some n, Some m =>
      mfor n (fun i a => mfor m (fun j a =>
        do x <- aget a (bstart b + i * bstride b + j) ; do y <- f i j x ;
        aset a (bstart b + i * bstride b + j) y) a) a
  | _, _ => UB
  end.
Definition block_dim (b : block) (A : tmat) : tres unit :=
  match brows b, bcols b with
  | Some n, Some m => if Nat.eqb n (tnr A) && Nat.eqb m (tnc A) then Ok tt else Throw DimensionError
  | _, _ => Throw DimensionError
  end.
Definition block_assign (a : list R) (b : block) (M : tmat) : tres (list R) :=
  do _ <- block_dim b M ; block_update a b (fun i j _ => aget (tarr M) (i * tnc M + j)).
(* conversion to Matrix, 998-1001 *)
Definition block_matrix (a : list R) (b : block) : tres tmat :=
  match brows b, bcols b with
  | Some n, Some m =>
      do l <- mfor n (fun i l => mfor m (fun j l =>
        do x <- aget a (bstart b + i * bstride b + j) ; Ok (l ++ [x])) l) [] ;
      Ok (mkTM n m l)
  | _, _ => UB
  end.

(* equal_dimension *)
Definition same_dim (A B : tmat) : tres unit :=
  if Nat.eqb (tnr A) (tnr B) && Nat.eqb (tnc A) (tnc B) then Ok tt else Throw DimensionError.
(* operator=, 1133-1141 *)
Definition tm_assign (A B : tmat) : tres tmat := do _ <- same_dim A B ; Ok B.
(* op= with a scalar, 1360-1382; with a matrix, 1386-1412 *)
Definition tm_scalar (op : R -> R -> R) (A : tmat) (s : R) : tmat := mkTM (tnr A) (tnc A) (map (fun x => op x s) (tarr A)).
Definition tm_op (op : R -> R -> R) (A B : tmat) : tres tmat :=
  do _ <- same_dim A B ; Ok (mkTM (tnr A) (tnc A) (zip op (tarr A) (tarr B))).
Definition tm_add := tm_op Rplus.
Definition tm_sub := tm_op Rminus.

(* tgemv, tblas.h:56-97 *)
Definition tgemv (t : bool) (alpha : R) (A : tmat) (x : list R) (beta : R) (y : list R) : tres (list R) :=
  do y1 <- (if negb (fequal beta 1) then
              mfor (tnr A) (fun i y => do z <- vec_get y i ; vec_set y i (z * beta)) y
            else Ok y) ;
  if negb (fequal alpha 0) then
    let body i j y := do a <- (if t then tm_get A j i else tm_get A i j) ;
                      do b <- vec_get x j ; do z <- vec_get y i ; vec_set y i (z + alpha * a * b) in
    if t then mfor (tnc A) (fun i y => mfor (tnr A) (body i) y) y1
    else mfor (tnr A) (fun i y => mfor (tnc A) (body i) y) y1
  else Ok y1.
(* tgemm, tblas.h:123-173 *)
Definition tgemm (tpa tpb : bool) (alpha : R) (A B : tmat) (beta : R) (C : tmat) : tres tmat :=
  let C1 := if fequal beta 0 then mkTM (tnr C) (tnc C) (map (fun _ => 0) (tarr C))
            else if negb (fequal beta 1) then tm_scalar Rmult C beta else C in
  if fequal alpha 0 then Ok C1
  else
    let klim := if tpa then tnr A else tnc A in
    mfor (tnr C) (fun i C => mfor (tnc C) (fun j C => mfor klim (fun k C =>
      do a <- (if tpa then tm_get A k i else tm_get A i k) ;
      do b <- (if tpb then tm_get B j k else tm_get B k j) ;
      do c <- tm_get C i j ; tm_set C i j (c + alpha * a * b)) C) C) C1.
(* operator*(Matrix, Matrix), TMatrixLib.h:1463-1470 *)
Definition tm_times (A B : tmat) : tres tmat :=
  if Nat.eqb (tnr A) (tnc B) && Nat.eqb (tnc A) (tnr B)
  then tgemm false false 1 A B 1 (tm_fill (tnr A) (tnc B) 0)
  else Throw DimensionError.
(* operator*(Matrix, Vector), 1475-1482 *)
Definition tm_apply (A : tmat) (v : list R) : tres (list R) :=
  do _ <- equal_length (tnc A) (length v) ; tgemv false 1 A v 1 (repeat 0 (tnr A)).
(* operator<<, 1484-1496: the lines of numbers written *)
Definition tm_print (A : tmat) : tres (list (list R)) :=
  mfor (tnc A) (fun i out => do l <- mfor (tnr A) (fun j l => do x <- tm_get A i j ; Ok (l ++ [x])) [] ; Ok (out ++ [l])) [].
(* tgemr, tblas.h:176-190: R M R^T *)
Definition tgemr (Q M C : tmat) : tres tmat :=
  let n := tnr Q in
  mfor n (fun i C => mfor n (fun j C =>
    do C0 <- tm_set C i j 0 ;
    mfor n (fun k C => mfor n (fun l C =>
      do a <- tm_get Q i k ; do b <- tm_get Q j l ; do m <- tm_get M k l ;
      do c <- tm_get C i j ; tm_set C i j (c + a * b * m)) C) C0) C) C.
