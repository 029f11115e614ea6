(* Model of LatticeFunctions.cpp (LatticeFunction, LatticeFunctionTable) and of the counting of
   PhaseAdvance.cpp 45-97, 129-183.

   A component is what it does to one particle (Orbit.v) and the factor by which the
   reference momentum is larger behind it.  EigenSystem (LinearAlgebra.cpp 120-235) is a
   parameter: for a matrix of six rows it gives the flag and the real and imaginary parts of
   the three vectors, or [None] where an inversion on the way fails.  The matrices written to
   files are left out.  A table whose calculation ends in an exception is not looked at.
   RemoveFunction is declared (LatticeFunctions.h 45) and not defined.  Arithmetic is exact. *)
From Coq Require Import ZArith.
From Verif Require Import RBase Bunch Optics Orbit.
From Verif Require Mat Gauss Rot.
Local Open Scope R_scope.

Inductive lerr := OfOrbit (e : oberr) | NoInverse | Illegal | Exit1 | NotNumber | OutOfRange | NoEigen.
Definition of_orbit {A} (r : res oberr A) : res lerr A := match r with Ok a => Ok a | Throw e => Throw (OfOrbit e) | UB => UB end.
Definition of_la {A} (r : res Gauss.la_error A) : res lerr A := match r with Ok a => Ok a | Throw _ => Throw NoInverse | UB => UB end.
Record lcomp := mkL { lc : comp; lgain : R }.
(* LatticeFunction: the indices and the values *)
Record lcol := mkCol { ci : Z; cj : Z; ck : Z; cval : list R }.
Record table := mkTab { tcols : list lcol; torbit : bool; tdelta : R; tscale : R; tsymp : bool; tforce : bool }.

(* ---- the columns: 145-196 ---- *)
Definition with_cols (cs : list lcol) (t : table) : table := mkTab cs (torbit t) (tdelta t) (tscale t) (tsymp t) (tforce t).
Definition add_function (i j k : Z) (t : table) : table :=
  mkTab (tcols t ++ [mkCol i j k []]) (if Z.eqb k 0 then torbit t else false) (tdelta t) (tscale t) (tsymp t) (tforce t).
Definition remove_all (t : table) : table :=
  mkTab [mkCol 0 0 0 []] true (tdelta t) (tscale t) (tsymp t) (tforce t).
Definition add_all (l : list (Z * Z * Z)) (t : table) : table := fold_left (fun t x => let '(i, j, k) := x in add_function i j k t) l t.
Definition use_orbit (t : table) : table := add_all [(1, 0, 0); (2, 0, 0); (3, 0, 0); (4, 0, 0)]%Z (remove_all t).
Definition use_default (t : table) : table :=
  add_all [(1, 0, 0); (2, 0, 0); (3, 0, 0); (4, 0, 0); (5, 0, 0); (6, 0, 0);
           (1, 1, 1); (1, 2, 1); (3, 3, 2); (3, 4, 2); (1, 6, 3); (2, 6, 3); (3, 6, 3); (4, 6, 3); (6, 6, 3)]%Z (remove_all t).
(* the constructor 100-104 and the settings 125-143 *)
Definition new_table : table := use_default (mkTab [] true (/ 100000000) 0 false false).
Definition set_delta (d : R) (t : table) : table := mkTab (tcols t) (torbit t) d (tscale t) (tsymp t) (tforce t).
Definition scale_bends (s : R) (t : table) : table := mkTab (tcols t) (torbit t) (tdelta t) s (tsymp t) (tforce t).
Definition make_symplectic (f : bool) (t : table) : table := mkTab (tcols t) (torbit t) (tdelta t) (tscale t) f (tforce t).
Definition force_stable (f : bool) (t : table) : table := mkTab (tcols t) (torbit t) (tdelta t) (tscale t) (tsymp t) f.

(* ---- one value: CalculateLatticeFunction 225-264; n: the size of N ---- *)
Definition tiny : R := / 1000000000.
Definition value_of (n : nat) (ok : bool) (s : R) (p : vec6) (N : mat) (i j k : Z) : res lerr R :=
  let a := Z.to_nat (2 * k - 2) in let b := Z.to_nat (2 * k - 1) in
  if Z.eqb k 3 && negb ok then Throw Illegal
  else if Z.eqb i 0 && Z.eqb j 0 && Z.ltb 0 k then
    if Z.leb (2 * k) (Z.of_nat n) then
      let v := Rot.atan2 (N a b) (N a a) / (2 * PI) in
      Ok (if negb (Z.eqb k 3) && Rltb v (- tiny) then v + 1 else v)
    else UB
  else if Z.eqb i 0 && Z.eqb j 0 && Z.eqb k 0 then Ok s
  else if Z.ltb 0 i && Z.eqb j 0 && Z.eqb k 0 then
    if Z.leb i 6 then Ok (coord (Z.to_nat (i - 1)) p) else UB
  else if Z.ltb 0 i && Z.ltb 0 j && Z.ltb 0 k then
    if Z.leb i (Z.of_nat n) && Z.leb j (Z.of_nat n) && Z.leb (2 * k) (Z.of_nat n) then
      let r := Z.to_nat (i - 1) in let q := Z.to_nat (j - 1) in
      Ok (N r a * N q a + N r b * N q b)
    else UB
  else Ok 0.
Definition append_value (v : R) (c : lcol) : lcol := mkCol (ci c) (cj c) (ck c) (cval c ++ [v]).
Definition clear_values (c : lcol) : lcol := mkCol (ci c) (cj c) (ck c) [].
Fixpoint calc_row (n : nat) (ok : bool) (s : R) (p : vec6) (N : mat) (cs : list lcol) : res lerr (list lcol) :=
  match cs with
  | [] => Ok []
  | c :: cs =>
      do v <- value_of n ok s p N (ci c) (cj c) (ck c);
      do r <- calc_row n ok s p N cs;
      Ok (append_value v c :: r)
  end.

(* ---- DoCalculate 321-506 ---- *)
Definition eigsys := mat -> option (bool * mat * mat).
(* 382-391: columns 2k and 2k+1 are the real and the imaginary part of the vector k *)
Definition norm_matrix (re im : mat) : mat :=
  fun row c => sqrt 2 * (if Nat.even c then re (Nat.div2 c) row else im (Nat.div2 c) row).
(* 396-405 *)
Definition phase_matrix (N : mat) : mat :=
  fun row c =>
    let i := (2 * Nat.div2 row)%nat in
    let theta := - Rot.atan2 (N i (i + 1)%nat) (N i i) in
    if Nat.eqb (Nat.div2 row) (Nat.div2 c) then
      if Nat.eqb row c then cos theta else if Nat.even row then sin theta else - sin theta
    else 0.
(* row < Nsize: p[row] *= sqrt(e1 / e0) *)
Definition grow_by (n : nat) (g : R) (v : vec6) : vec6 :=
  if Reqb g 1 then v else vof (fun i => if Nat.ltb i n then coord i v * sqrt g else coord i v).
(* 445-499; the row for the place reached is made first.  g: the momentum over the momentum at
   the row before.  The probes are changed in the bunch (466), the reference (457) is a copy *)
Fixpoint walk (n : nat) (delta scale : R) (symp ok : bool) (l : list lcomp) (pref : vec6) (probes : nat -> vec6)
    (M1 N : mat) (s g : R) (cs : list lcol) : res lerr (list lcol) :=
  let pref2 := grow_by n g pref in
  let pr k := grow_by n g (probes k) in
  let M2 : mat := fun row col => (coord row (pr col) - coord row pref2) / delta in
  let M21 := Mat.mmul n M2 M1 in
  do i <- of_la (Gauss.inverse n n M2);
  do M <- if symp then if Nat.eqb n 6 then of_la (Gauss.symplectify M21) else UB else Ok M21;
  let N1 := Mat.mmul n M N in
  do cs1 <- calc_row n ok s pref N1 cs;
  match l with
  | [] => Ok cs1
  | c :: l =>
      walk n delta scale symp ok l (pass scale None (lc c) pref) (fun k => pass scale None (lc c) (pr k))
        (fst i) N1 (s + clen (lc c)) (lgain c) cs1
  end.
Definition turn_matrix (t : table) (m : list lcomp) (scale : R) (Mi : option mat) (p : vec6) : res lerr mat :=
  match Mi with
  | Some M => Ok M
  | None => of_orbit (find_tm_at (map lc m) (tm_set_scale scale (tm_set_delta (tdelta t) new_tm)) p)
  end.
(* 353-366: exit(1), or M(4,4) = 1 - 1e-12 *)
Definition forced (t : table) (M : mat) : res lerr mat :=
  if tforce t then
    if Rltb (/ 100000000) (Rabs (M 4%nat 4%nat - 1)) then Throw Exit1 else Ok (mset 4 4 (1 - / 1000000000000) M)
  else Ok M.
(* the table and the momentum deviation of the orbit *)
Definition do_calculate (factor : fact) (eig : eigsys) (m : list lcomp) (t : table) (scale : R) (pi : option vec6) (Mi : option mat) : res lerr (table * R) :=
  do p <- match pi with
          | Some p => Ok p
          | None => do o <- of_orbit (find_orbit factor (map lc m) (co_set_scale scale (co_transverse true (co_set_delta (tdelta t) new_co))) 0 vzero); Ok (fst (fst o))
          end;
  do M <- turn_matrix t m scale Mi p;
  do M <- forced t M;
  do M <- if tsymp t then of_la (Gauss.symplectify M) else Ok M;
  match eig M with
  | None => Throw NoEigen
  | Some (ok, re, im) =>
      let n := (if ok then 6 else 4)%nat in
      let N := norm_matrix re im in
      if Reqb (tdelta t) 0 then Throw NotNumber
      else match m with
      | [] => UB
      | _ =>
          do cs <- walk n (tdelta t) scale (tsymp t) ok m p (fun k => bump k (tdelta t) p) Mat.mid (Mat.mmul n N (phase_matrix N)) 0 1 (map clear_values (tcols t));
          Ok (with_cols cs t, vdp p)
      end
  end.
(* ---- DoCalculateOrbitOnly 508-556: no row is made behind the last component.  N1 has no
   values, and no column reads it ---- *)
Fixpoint walk_orbit (scale : R) (l : list lcomp) (pref : vec6) (s : R) (cs : list lcol) : res lerr (list lcol) :=
  match l with
  | [] => Ok cs
  | c :: l =>
      do cs1 <- calc_row 6 true s pref (fun _ _ => 0) cs;
      walk_orbit scale l (pass scale None (lc c) pref) (s + clen (lc c)) cs1
  end.
Definition do_orbit (factor : fact) (m : list lcomp) (t : table) (scale : R) (pi : option vec6) : res lerr (table * R) :=
  do p <- match pi with
          | Some p => Ok p
          | None => do o <- of_orbit (find_orbit factor (map lc m) (co_set_scale scale (co_set_delta (tdelta t) new_co)) 0 vzero); Ok (fst (fst o))
          end;
  match m with
  | [] => UB
  | _ => do cs <- walk_orbit scale m p 0 (map clear_values (tcols t)); Ok (with_cols cs t, vdp p)
  end.
(* Calculate 268-278 *)
Definition calculate (factor : fact) (eig : eigsys) (m : list lcomp) (t : table) (pi : option vec6) (Mi : option mat) : res lerr table :=
  do r <- if torbit t then do_orbit factor m t (tscale t) pi else do_calculate factor eig m t (tscale t) pi Mi;
  Ok (fst r).

(* ---- CalculateEnergyDerivative 298-319, Derivative 73-98 ---- *)
Fixpoint derivs (path : bool) (dp : R) (vm vp : list R) : res lerr (list R) :=
  match vp, vm with
  | [], _ => Ok []
  | _ :: _, [] => UB
  | p :: vp, m :: vm =>
      do v <- if path then Ok m else if Reqb dp 0 then Throw NotNumber else Ok ((p - m) / dp);
      do r <- derivs path dp vm vp;
      Ok (v :: r)
  end.
Fixpoint deriv_cols (dp : R) (cm cp : list lcol) : res lerr (list lcol) :=
  match cm, cp with
  | m :: cm, p :: cp =>
      do v <- derivs (Z.eqb (ci m) 0 && Z.eqb (cj m) 0 && Z.eqb (ck m) 0) dp (cval m) (cval p);
      do r <- deriv_cols dp cm cp;
      Ok (mkCol (ci m) (cj m) (ck m) v :: r)
  | _, _ => Ok []
  end.
Definition energy_derivative (factor : fact) (eig : eigsys) (m : list lcomp) (t : table) : res lerr table :=
  let go t s := if torbit t then do_orbit factor m t s None else do_calculate factor eig m t s None None in
  do rp <- go t (tscale t);
  do rm <- go (fst rp) (- tscale t);
  do cs <- deriv_cols (snd rp - snd rm) (tcols (fst rm)) (tcols (fst rp));
  Ok (with_cols cs t).

(* ---- reading the table ---- *)
Definition col_at (c : lcol) (n : Z) : res lerr R :=
  if Z.ltb n 0 then Throw OutOfRange else match nth_error (cval c) (Z.to_nat n) with Some v => Ok v | None => Throw OutOfRange end.
(* 577-580, 184-188 *)
Definition rows_of (t : table) : res lerr Z := match tcols t with [] => UB | c :: _ => Ok (Z.of_nat (length (cval c))) end.
Definition size_of (t : table) : res lerr (Z * Z) := do r <- rows_of t; Ok (r, Z.of_nat (length (tcols t))).
(* GetColumn 621-636, Value 615-619: a column that is not there is the end of the list *)
Fixpoint get_column (i j k : Z) (cs : list lcol) : option lcol :=
  match cs with
  | [] => None
  | c :: cs => if Z.eqb i (ci c) && Z.eqb j (cj c) && Z.eqb k (ck c) then Some c else get_column i j k cs
  end.
Definition table_value (i j k n : Z) (t : table) : res lerr R :=
  match get_column i j k (tcols t) with None => UB | Some c => col_at c n end.
(* GetSPosIndex 602-613 *)
Fixpoint spos_from (vs : list R) (s : R) (n : Z) : Z :=
  match vs with [] => (-1)%Z | v :: vs => if Rleb s v then n else spos_from vs s (n + 1) end.
Definition spos_index (s : R) (t : table) : res lerr Z :=
  match tcols t with [] => UB | c :: _ => Ok (spos_from (cval c) s 0) end.
(* the rows meant by n1 and n2: 584-593, 642-651, 670-679 *)
Definition row_range (rows n1 n2 : Z) : Z * Z :=
  let a := if Z.ltb n1 0 then 0%Z else n1 in
  (a, if Z.leb rows n2 || Z.ltb n2 a then (rows - 1)%Z else n2).
(* the loop of Mean 653-661 and RMS 681-690: f is what is taken of the two values *)
Fixpoint mean_loop (f : R -> R -> R) (sc : lcol) (c : option lcol) (fuel : nat) (row n2 : Z) (sums sumv : R) : res lerr (R * R) :=
  match fuel with
  | O => Ok (sums, sumv)
  | S fuel =>
      if Z.ltb row n2 then
        do s1 <- col_at sc (row + 1);
        do s0 <- col_at sc row;
        match c with
        | None => UB
        | Some c =>
            do v1 <- col_at c (row + 1);
            do v0 <- col_at c row;
            mean_loop f sc (Some c) fuel (row + 1) n2 (sums + (s1 - s0)) (sumv + 1 / 2 * (s1 - s0) * f v1 v0)
        end
      else Ok (sums, sumv)
  end.
Definition averages (f : R -> R -> R) (i j k n1 n2 : Z) (t : table) : res lerr (R * R) :=
  match tcols t with
  | [] => UB
  | sc :: _ =>
      let r := row_range (Z.of_nat (length (cval sc))) n1 n2 in
      mean_loop f sc (get_column i j k (tcols t)) (Z.to_nat (snd r - fst r)) (fst r) (snd r) 0 0
  end.
(* 638-664 *)
Definition mean (i j k n1 n2 : Z) (t : table) : res lerr R :=
  do r <- averages (fun v1 v0 => v1 + v0) i j k n1 n2 t;
  if Reqb (fst r) 0 then Throw NotNumber else Ok (snd r / fst r).
(* 666-693 *)
Definition rms (i j k n1 n2 : Z) (t : table) : res lerr R :=
  do r <- averages (fun v1 v0 => v0 * v0 + v1 * v1) i j k n1 n2 t;
  if Reqb (fst r) 0 then Throw NotNumber
  else if Rltb (snd r / fst r) 0 then Throw NotNumber else Ok (sqrt (snd r / fst r)).
(* PrintTable 582-600: the values of the rows printed *)
Fixpoint print_cols (row : Z) (cs : list lcol) : res lerr (list R) :=
  match cs with [] => Ok [] | c :: cs => do v <- col_at c row; do r <- print_cols row cs; Ok (v :: r) end.
Fixpoint print_rows (fuel : nat) (row n2 : Z) (cs : list lcol) : res lerr (list (list R)) :=
  match fuel with
  | O => Ok []
  | S fuel => if Z.leb row n2 then do a <- print_cols row cs; do r <- print_rows fuel (row + 1) n2 cs; Ok (a :: r) else Ok []
  end.
Definition print_table (n1 n2 : Z) (t : table) : res lerr (list (list R)) :=
  do rows <- rows_of t;
  let r := row_range rows n1 n2 in
  print_rows (Z.to_nat (snd r - fst r + 1)) (fst r) (snd r) (tcols t).

(* ---- PhaseAdvance ---- *)
(* one plane of CalcIntegerPart, PhaseAdvance.cpp 139-183: the loop i = 1 .. n-1 *)
Definition almost : R := 9999 / 10000.
Fixpoint count_turns (k : Z) (t : table) (fuel : nat) (i : Z) (last : R) (turns : Z) : res lerr Z :=
  match fuel with
  | O => Ok turns
  | S fuel =>
      do v <- table_value 0 0 k i t;
      let more := if Reqb v last || Rleb v 0 then false else Rltb v last && Rltb (v / last) almost in
      count_turns k t fuel (i + 1) v (if more then turns + 1 else turns)%Z
  end.
Definition phase_at (k n : Z) (t : table) : res lerr R :=
  do c <- count_turns k t (Z.to_nat (n - 1)) 1 0 0;
  do v <- table_value 0 0 k n t;
  Ok (IZR c + v).
Definition calc_integer_part (n : Z) (t : table) : res lerr (R * R) :=
  do x <- phase_at 1 n t; do y <- phase_at 2 n t; Ok (x, y).
(* 45-97 *)
Definition phase_between (n1 n2 : Z) (horizontal : bool) (t : table) : res lerr R :=
  do a <- calc_integer_part n1 t;
  do b <- calc_integer_part n2 t;
  Ok (if horizontal then fst b - fst a else snd b - snd a).
