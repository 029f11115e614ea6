(* Model of MultipoleField.h (205-226) and MultipoleField.cpp (17-181): the scale B0
   and the expansion in powers of x+iy. Zero divided by zero is [None]; division of a
   non-zero value by zero is not modelled (theorems require non-zero radii). *)
From Coq Require Import ZArith.
From Verif Require Import RBase Rot Cplx.
Local Open Scope R_scope.

Record field := mkF { b0 : R; ex : list cx }.
(* vector::resize(n, 0) when growing, and indexed assignment *)
Definition grow (n : nat) (l : list cx) : list cx := l ++ repeat c0 (n - length l).
Definition put (l : list cx) (n : nat) (c : cx) : list cx := match upd l n c with Some l' => l' | None => l end.
(* factorial, 20-28 *)
Fixpoint fact_loop (f : R) (n : nat) : R := match n with S (S _ as m) => fact_loop (f * INR n) m | _ => f end.
Definition factorial (n : nat) : R := let f := fact_loop (INR n) (n - 1) in if Reqb f 0 then 1 else f.
(* constructors: 205-208; 32-39; 41-46; 48-52 *)
Definition null_field (scale : R) (nt : nat) : field := mkF scale (repeat c0 nt).
Definition single_ba (np : nat) (bn an r0 : R) : option field :=
  let z := mkCx bn an in
  let b := cabs z in
  if Reqb b 0 then None else Some (mkF (b / r0 ^ np) (put (repeat c0 (np + 1)) np (cdivr z b))).
Definition unit_of (skew : bool) : cx := if skew then mkCx 0 1 else c1.
Definition single_r (np : nat) (bn r0 : R) (skew : bool) : field := mkF (bn / r0 ^ np) (put (repeat c0 (np + 1)) np (unit_of skew)).
Definition single_n (np : nat) (bn : R) (skew : bool) : field := mkF (bn / factorial np) (put (repeat c0 (np + 1)) np (unit_of skew)).
Definition set_scale (s : R) (f : field) : field := mkF s (ex f).
Definition is_null (f : field) : bool := fequal (b0 f) 0.
(* GetKn, 64-68 *)
Definition get_kn (f : field) (np : nat) (rig : R) : res unit cx :=
  if Reqb rig 0 then UB
  else Ok (if Nat.ltb np (length (ex f)) then cscale (b0 f / rig * factorial np) (nth np (ex f) c0) else c0).
(* GetField2D, 70-99 *)
Fixpoint terms (l : list cx) (z0 z acc : cx) : cx := match l with [] => acc | c :: l' => terms l' z0 (cmul z z0) (cadd acc (cmul c z)) end.
Fixpoint start_power (z0 : cx) (n : nat) (z : cx) : cx := match n with O => z | S n => start_power z0 n (cmul z z0) end.
Definition field2d (f : field) (x y : R) (exclude : Z) : res unit cx :=
  let e := (exclude + 1)%Z in
  if is_null f || Z.ltb (Z.of_nat (length (ex f))) e then Ok c0
  else if Z.ltb e 0 then UB
  else
    let z0 := mkCx x y in
    Ok (cscale (b0 f) (terms (skipn (Z.to_nat e) (ex f)) z0 (start_power z0 (Z.to_nat e) c1) c0)).
(* GetBFieldAt 101-105, GetForceAt 112-118 *)
Record v3 := mkV3 { cx_ : R; cy_ : R; cz_ : R }.
Definition b_at (f : field) (p : v3) : res unit v3 := do b <- field2d f (cx_ p) (cy_ p) (-1) ; Ok (mkV3 (im b) (re b) 0).
Definition force_at (f : field) (p v : v3) (q : R) : res unit v3 :=
  do b <- field2d f (cx_ p) (cy_ p) (-1) ;
  let qbx := q * im b in let qby := q * re b in
  Ok (mkV3 (- qby * cz_ v) (qbx * cz_ v) (qby * cx_ v - qbx * cy_ v)).
(* RotateY180, 120-139 *)
Fixpoint rotate_loop (even : bool) (l : list cx) : list cx :=
  match l with
  | [] => []
  | z :: l' => (if even then mkCx (re z) (- im z) else mkCx (- re z) (im z)) :: rotate_loop (negb even) l'
  end.
Definition rotate_y (f : field) : field := mkF (b0 f) (rotate_loop false (ex f)).
(* SetComponent 148-158, GetComponent 160-163, GetCoefficient 165-173, SetCoefficient 175-182 *)
Definition set_component (np : nat) (bn an r0 : R) (f : field) : res unit field :=
  if Reqb (b0 f) 0 then UB else Ok (mkF (b0 f) (put (grow (np + 1) (ex f)) np (cdivr (mkCx bn an) (b0 f * r0 ^ np)))).
Definition get_coefficient (np : nat) (r0 : R) (f : field) : field * cx :=
  let l := grow (np + 1) (ex f) in (mkF (b0 f) l, cscale (r0 ^ np) (nth np l c0)).
Definition get_component (np : nat) (r0 : R) (f : field) : field * cx := let '(f', c) := get_coefficient np r0 f in (f', cscale (b0 f) c).
Definition set_coefficient (np : nat) (b : cx) (r0 : R) (f : field) : field := mkF (b0 f) (put (grow (np + 1) (ex f)) np (cdivr b (r0 ^ np))).
(* HighestMultipole 215-218, LowestMultipole 220-226 *)
Definition highest (f : field) : Z := (Z.of_nat (length (ex f)) - 1)%Z.
Fixpoint lowest_loop (l : list cx) (n : nat) : res unit nat :=
  match l with [] => UB | z :: l' => if Reqb (re z) 0 && Reqb (im z) 0 then lowest_loop l' (S n) else Ok n end.
Definition lowest (f : field) : res unit nat := lowest_loop (ex f) 0.
