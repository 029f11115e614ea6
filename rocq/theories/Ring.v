(** Model of ring_iterator (Merlin++/ring_iterator.h): an iterator into a
    sequence of N elements is a position 0..N, N being end().  Moving end() or
    dereferencing it is undefined. *)
From Verif Require Import Base.

Record ring_it := mkRing { cont_size : nat; curr : nat }.

(** ++curr on the underlying iterator *)
Definition it_next (r : ring_it) : res Empty_set ring_it :=
  if Nat.ltb (curr r) (cont_size r) then Ok (mkRing (cont_size r) (S (curr r))) else UB.
(** --curr on the underlying iterator *)
Definition it_prev (r : ring_it) : res Empty_set ring_it :=
  match curr r with O => UB | S k => Ok (mkRing (cont_size r) k) end.

(** operator++(), lines 37-44 *)
Definition pre_inc (r : ring_it) : res Empty_set ring_it :=
  do r1 <- it_next r;
  Ok (if Nat.eqb (curr r1) (cont_size r1) then mkRing (cont_size r1) 0 else r1).
(** operator++(int), lines 46-54: moved iterator and returned copy *)
Definition post_inc (r : ring_it) : res Empty_set (ring_it * ring_it) :=
  do r1 <- it_next r;
  Ok ((if Nat.eqb (curr r1) (cont_size r1) then mkRing (cont_size r1) 0 else r1), r).
(** operator--(), lines 56-64 *)
Definition pre_dec (r : ring_it) : res Empty_set ring_it :=
  it_prev (if Nat.eqb (curr r) 0 then mkRing (cont_size r) (cont_size r) else r).
(** operator--(int), lines 66-75 *)
Definition post_dec (r : ring_it) : res Empty_set (ring_it * ring_it) :=
  do r1 <- it_prev (if Nat.eqb (curr r) 0 then mkRing (cont_size r) (cont_size r) else r);
  Ok (r1, r).
(** operator*, lines 97-100 *)
Definition deref {A} (l : list A) (r : ring_it) : res Empty_set A :=
  match nth_error l (curr r) with Some a => Ok a | None => UB end.

(** make_ring_iterator(cont), lines 114-118 *)
Definition ring_begin {A} (l : list A) : ring_it := mkRing (length l) 0.

Fixpoint inc_n (n : nat) (r : ring_it) : res Empty_set ring_it :=
  match n with O => Ok r | S m => do r1 <- inc_n m r; pre_inc r1 end.
Fixpoint dec_n (n : nat) (r : ring_it) : res Empty_set ring_it :=
  match n with O => Ok r | S m => do r1 <- dec_n m r; pre_dec r1 end.

(** reading [n] elements with *it++ *)
Fixpoint read_n {A} (l : list A) (n : nat) (r : ring_it) : res Empty_set (list A * ring_it) :=
  match n with
  | O => Ok ([], r)
  | S m => do x <- post_inc r; do a <- deref l (snd x);
           do y <- read_n l m (fst x); Ok (a :: fst y, snd y)
  end.
