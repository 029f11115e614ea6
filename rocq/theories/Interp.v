(** Model of the one-dimensional interpolators (Merlin++/Interpolation.cpp,
    Interpolation.h).

    double is R (division by zero, which the code reaches only for equal
    abscissae, is left unspecified).  std::sort on abscissae is insertion sort;
    the order of points with equal abscissae is unspecified in C++, so the
    theorems ask for distinct ones.  Out of range element accesses are [UB]. *)
From Verif Require Import RBase.
Local Open Scope R_scope.

Inductive ierr := BadRange.
Notation point := (R * R)%type.

(** sort with sort_x, lines 69-72, 86 *)
Fixpoint insert_pt (p : point) (l : list point) : list point :=
  match l with
  | [] => [p]
  | q :: l' => if Rltb (fst p) (fst q) then p :: l else q :: insert_pt p l'
  end.
Fixpoint sort_pts (l : list point) : list point :=
  match l with [] => [] | p :: l' => insert_pt p (sort_pts l') end.

(** ArbSpacedData, lines 20-43 *)
Record arb := mkArb { pts : list point; ord : Z; polys : list (list R); seen : nat }.

Definition px (d : list point) (i : nat) : R := fst (nth i d (0, 0)).

(** one row of the Neville scheme, lines 119-134: polynomial through points i..i+k
    from those through i..i+k-1 and i+1..i+k (coefficients, constant first) *)
Definition combine (xi xk : R) (p q : list R) (k : nat) : list R :=
  map (fun j =>
    (if Nat.ltb j k then (- xk * nth j p 0 + xi * nth j q 0) / (xi - xk) else 0)
    + (if Nat.ltb 0 j then (nth (j - 1) p 0 - nth (j - 1) q 0) / (xi - xk) else 0))
    (seq 0 (S k)).
Definition neville_step (d : list point) (k : nat) (ps : list (list R)) : list (list R) :=
  map (fun i => combine (px d i) (px d (i + k)) (nth i ps []) (nth (i + 1) ps []) k)
    (seq 0 (length d - k)).
(** lines 103-142: after order k *)
Fixpoint neville (d : list point) (k : nat) : list (list R) :=
  match k with
  | O => map (fun p => [snd p]) d
  | S k' => neville_step d k (neville d k')
  end.

(** constructor, lines 77-144 (Q stays empty when the order is below 1) *)
Definition arb_make (l : list point) (order : Z) : arb :=
  let d := sort_pts l in
  let n := Z.of_nat (length l) in
  let o := if Z.gtb order (n - 1) then (n - 1)%Z else order in
  mkArb d o (if Z.leb o 0 then [] else neville d (Z.to_nat o)) 0.

(** evaluatepoly, Interpolation.h 52-60: p[n-1], then s*x + p[n-j] *)
Definition evalpoly (x : R) (p : list R) : res ierr R :=
  match rev p with
  | [] => UB
  | c :: cs => Ok (fold_left (fun s a => s * x + a) cs c)
  end.

(** lines 186-187 *)
Fixpoint walk_up (fuel : nat) (d : list point) (x : R) (l : nat) : res ierr nat :=
  match nth_error d l with
  | None => UB
  | Some p => if Rltb (fst p) x
              then match fuel with O => UB | S f => walk_up f d x (S l) end
              else Ok l
  end.
(** lines 188-189 *)
Fixpoint walk_down (d : list point) (x : R) (l : nat) : res ierr nat :=
  match nth_error d l with
  | None => UB
  | Some p => if Rltb x (fst p)
              then match l with O => UB | S l' => walk_down d x l' end
              else Ok l
  end.

(** lines 206-219; [fuel] bounds the number of halvings *)
Fixpoint bisect (fuel : nat) (d : list point) (x : R) (jl ju : nat) : res ierr nat :=
  if Nat.leb (ju - jl) 1 then Ok jl else
  match fuel with
  | O => UB
  | S f =>
      let jm := Nat.div2 (ju + jl) in
      match nth_error d jm with
      | None => UB
      | Some p => if Rltb (fst p) x then bisect f d x jm ju else bisect f d x jl jm
      end
  end.

Definition zget {A} (l : list A) (i : Z) : res ierr A :=
  if Z.ltb i 0 then UB else match nth_error l (Z.to_nat i) with Some a => Ok a | None => UB end.

(** ArbSpacedData::ValueAt, lines 172-222: value, and the remembered position *)
Definition arb_value (a : arb) (x : R) : res ierr R * arb :=
  match pts a with
  | [] => (UB, a)
  | p0 :: _ =>
      if Rltb x (fst p0) || Rltb (fst (last (pts a) p0)) x then (Throw BadRange, a)
      else if Z.gtb (ord a) 1 then
        match (do u <- walk_up (length (pts a)) (pts a) x (seen a); walk_down (pts a) x u) with
        | Ok l =>
            let a' := mkArb (pts a) (ord a) (polys a) l in
            let iw := Z.max 0 (Z.of_nat l - Z.quot (ord a + 1) 2 - 1) in
            let iw := Z.min iw (Z.of_nat (length (polys a)) - 2) in
            ((do q1 <- zget (polys a) iw; do q2 <- zget (polys a) (iw + 1);
              do v1 <- evalpoly x q1; do v2 <- evalpoly x q2; Ok ((v1 + v2) / 2)), a')
        | Throw e => (Throw e, a)
        | UB => (UB, a)
        end
      else
        ((do jl <- bisect (length (pts a)) (pts a) x 0 (length (pts a));
          match nth_error (pts a) jl, nth_error (pts a) (S jl) with
          | Some p, Some q => Ok (snd p + (x - fst p) * ((snd q - snd p) / (fst q - fst p)))
          | _, _ => UB
          end), a)
  end.

(** a history of evaluations *)
Fixpoint arb_values (a : arb) (xs : list R) : list (res ierr R) :=
  match xs with
  | [] => []
  | x :: xs' => let (v, a') := arb_value a x in v :: arb_values a' xs'
  end.

(** EqualSpacedData, lines 47-65, 227-247.  The construction asserts dx > 0.
    size_t arithmetic below zero ends in an access out of range. *)
Record equ := mkEqu { ys : list R; xmin : R; dx : R }.
Definition xmax (e : equ) : R := xmin e + INR (length (ys e) - 1) * dx e.
Definition trunc (r : R) : nat := Z.to_nat (Int_part r).
Definition equ_value (e : equ) (x : R) : res ierr R :=
  match ys e with
  | [] => UB
  | _ =>
    let n := if Rltb x (xmin e) then 0%nat
             else if Rltb (xmax e) x then (length (ys e) - 2)%nat
             else trunc ((x - xmin e) / dx e) in
    match nth_error (ys e) (S n), nth_error (ys e) n with
    | Some y1, Some y0 => Ok (y0 + (y1 - y0) / dx e * (x - (xmin e + dx e * INR n)))
    | _, _ => UB
    end
  end.
