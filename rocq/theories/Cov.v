(* Model of TCovMtrx.h: a symmetric matrix packed into an array.  Indexes are
   ints; an access outside the array is [UB], a failed assert [Throw]. *)
From Verif Require Import RBase.
From Coq Require Import ZArith.
Local Open Scope Z_scope.

Inductive cerr := AssertFailed.

(* offset, TCovMtrx.h:27-34 (division of ints truncates) *)
Definition offset2 (i j : Z) : Z :=
  if j <? i then j + Z.quot (i * (i + 1)) 2 else i + Z.quot (j * (j + 1)) 2.
Definition offset1 (i : Z) : Z := Z.quot (i * (i + 3)) 2.
(* the array has N(1+N)/2 elements, TCovMtrx.h:124 *)
Definition room (N : Z) : nat := Z.to_nat (Z.quot (N * (1 + N)) 2).
(* Zero, TCovMtrx.h:105-108 *)
Definition zero (N : Z) : list R := repeat 0%R (room N).

Definition rd (d : list R) (k : Z) : res cerr R :=
  if k <? 0 then UB else match nth_error d (Z.to_nat k) with Some x => Ok x | None => UB end.
Definition wr (d : list R) (k : Z) (x : R) : res cerr (list R) :=
  if k <? 0 then UB else match upd d (Z.to_nat k) x with Some d' => Ok d' | None => UB end.

(* var, sig for reading, TCovMtrx.h:60-63, 70-73, macros 14-15 *)
Definition var (N : Z) (d : list R) (n : Z) : res cerr R :=
  if n <? N then rd d (offset1 n) else Ok 0%R.
Definition sig (N : Z) (d : list R) (i j : Z) : res cerr R :=
  if (i <? N) && (j <? N) then rd d (offset2 i j) else Ok 0%R.
(* assignment through var, sig and operator(), TCovMtrx.h:64-68, 75-79, 93-96 *)
Definition set_var (N : Z) (d : list R) (n : Z) (x : R) : res cerr (list R) :=
  if n <? N then wr d (offset1 n) x else Throw AssertFailed.
Definition set_sig (N : Z) (d : list R) (i j : Z) (x : R) : res cerr (list R) :=
  if (i <? N) && (j <? N) then wr d (offset2 i j) x else Throw AssertFailed.
(* std, r_ij, TCovMtrx.h:52-55, 84-87 *)
Definition std (N : Z) (d : list R) (n : Z) : res cerr R :=
  if n <? N then do v <- var N d n; Ok (R_sqrt.sqrt v) else Ok 0%R.
Definition r_ij (N : Z) (d : list R) (i j : Z) : res cerr R :=
  if (i <? N) && (j <? N) then
    do s <- sig N d i j; do a <- var N d i; do b <- var N d j; Ok (s / R_sqrt.sqrt (a * b))%R
  else Ok 0%R.
(* operator==, TCovMtrx.h:127-142 *)
Fixpoint same (a b : list R) : bool :=
  match a, b with
  | x :: a', y :: b' => Reqb x y && same a' b'
  | _, _ => true
  end.
Definition cov_eqb (a b : list R) : bool := same a b.
