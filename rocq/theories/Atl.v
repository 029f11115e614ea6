(* Ground motion: ATL2D.cpp and SimpleATL.cpp.  A normally distributed number
   of standard deviation s is s times a number handed to the step, so that the
   random generator is any source of numbers.  A negative variance, whose
   square root is not a number, is the outcome None. *)
From Verif Require Import RBase Rot Support.
Local Open Scope R_scope.

Inductive mode := Increment | Absolute.

(* sum of f 0 .. f (n-1) *)
Fixpoint rsum (n : nat) (f : nat -> R) : R :=
  match n with O => 0 | Datatypes.S k => rsum k f + f k end.

(* ATL2D, ATL2D.h:30-130 (the members used here) *)
Record atl := mkA
  { tm : R; aA : R; vv : R; amode : mode; sups : list support;
    evecs : nat -> nat -> R; evals : nat -> R }.

Definition sup_at (l : list support) (n : nat) : support := nth n l new_support.

(* Distance, ATL2D.cpp:240-257 *)
Definition dist (a b : support) : R :=
  sqrt ((sx a - sx b) * (sx a - sx b) + (sz a - sz b) * (sz a - sz b)).
Definition dist_pt (a : support) (x z : R) : R :=
  sqrt ((sx a - x) * (sx a - x) + (sz a - z) * (sz a - z)).

(* ATL2D.cpp:119-124: the matrix handed to the eigensystem routine *)
Definition atl_matrix (l : list support) (x z : R) (i j : nat) : R :=
  let row := Nat.min i j in let col := Nat.max i j in
  (dist_pt (sup_at l col) x z + dist_pt (sup_at l row) x z
   - dist (sup_at l row) (sup_at l col)) / 2.

(* ATL2D.cpp:92-130; e and la are what EigenSystemSymmetricMatrix leaves
   (not modelled). *)
Definition new_atl (A : R) (l : list support) (e : nat -> nat -> R) (la : nat -> R) : atl :=
  mkA 0 A 0 Absolute l e la.

(* SetATLMode, ATL2D.cpp:198-207 *)
Definition set_mode (md : mode) (a : atl) : bool * atl :=
  match amode a with
  | Increment =>
      if Rltb 0 (vv a) then (false, a)
      else (true, mkA (tm a) (aA a) (vv a) md (sups a) (evecs a) (evals a))
  | Absolute => (true, mkA (tm a) (aA a) (vv a) md (sups a) (evecs a) (evals a))
  end.
(* SetVibration, ATL2D.cpp:209-218 *)
Definition set_vibration (v : R) (a : atl) : bool * atl :=
  match amode a with
  | Increment => (false, a)
  | Absolute => (true, mkA (tm a) (aA a) (v * v) (amode a) (sups a) (evecs a) (evals a))
  end.
(* Reset, ATL2D.cpp:136-140 *)
Definition reset (a : atl) : atl :=
  mkA 0 (aA a) (vv a) (amode a) (map reset_support (sups a)) (evecs a) (evals a).

(* ATL2D.cpp:150-151; yy starts as zeros *)
Definition amplitude (v z : R) : R := if Reqb v 0 then 0 else sqrt v * z.
(* ApplyATL, ATL2D.cpp:36-50; w: the noise numbers *)
Definition apply_atl (md : mode) (dy : nat -> R) (vib : R) (w : nat -> R)
    (n : nat) (s : support) : support :=
  match md with
  | Increment => increment_offset (mkv 0 (dy n) 0) s
  | Absolute => set_offset (mkv 0 (dy n + (if Reqb vib 0 then 0 else sqrt vib * w n)) 0) s
  end.
Fixpoint apply_all (f : nat -> support -> support) (n : nat) (l : list support) : list support :=
  match l with [] => [] | s :: l' => f n s :: apply_all f (Datatypes.S n) l' end.
(* DoStep, ATL2D.cpp:142-159 *)
Definition do_step (dt : R) (z w : nat -> R) (a : atl) : option (R * atl) :=
  let at_ := match amode a with Increment => aA a * dt | Absolute => aA a * tm a end in
  let N := length (sups a) in
  if forallb (fun n => Rleb 0 (at_ * evals a n)) (seq 0 N) then
    let yy := fun k => amplitude (at_ * evals a k) (z k) in
    let dy := fun n => rsum N (fun k => evecs a n k * yy k) in
    let l' := apply_all (apply_atl (amode a) dy (vv a) w) 0 (sups a) in
    Some (tm a + dt, mkA (tm a + dt) (aA a) (vv a) (amode a) l' (evecs a) (evals a))
  else None.

(* RecordEigenSystem, ATL2D.cpp:220-238: the eigenvectors written, row by row *)
Definition record_evecs (n : nat) (e : nat -> nat -> R) : list (list R) :=
  map (fun row => map (e row) (seq row (n - row))) (seq 0 n).
(* ATL2D.cpp:102-110: and read back.  Simplified: the rows are kept apart; the
   rounding to six digits is not modelled. *)
Definition read_evecs (rows : list (list R)) (i j : nat) : R :=
  let row := Nat.min i j in let col := Nat.max i j in
  nth (col - row) (nth row rows []) 0.

(* SimpleATL, SimpleATL.h; gm is atlgm *)
Record satl := mkSA { stm : R; sA : R; svv : R; gm : list R; ssup : list support }.
(* SimpleATL.cpp:88-93; sort: std::sort by arc position *)
Definition new_satl (sort : list support -> list support) (A : R) (l : list support) (vrms : R)
  : satl := mkSA 0 A (vrms * vrms) (repeat 0 (length l)) (sort l).
(* Reset, SimpleATL.cpp:99-104 *)
Definition sreset (a : satl) : satl :=
  mkSA 0 (sA a) (svv a) (map (fun _ => 0) (gm a)) (map reset_support (ssup a)).
(* ApplyATL over the supports, SimpleATL.cpp:31-62; n counts the supports *)
Fixpoint walk (AT vib : R) (zs ws : nat -> R) (n : nat) (y z : R)
    (l : list support) (g : list R) : option (list support * list R) :=
  match l, g with
  | [], _ => Some ([], g)
  | s :: l', g0 :: g' =>
      let v := AT * (s_pos s - z) in
      if Rltb v 0 then None
      else
        let y1 := y + amplitude v (zs n) in
        let g1 := g0 + y1 in
        let s1 := set_offset (mkv 0 (g1 + (if Reqb vib 0 then 0 else sqrt vib * ws n)) 0) s in
        match walk AT vib zs ws (Datatypes.S n) y1 (s_pos s) l' g' with
        | Some (l1, g1') => Some (s1 :: l1, g1 :: g1')
        | None => None
        end
  | _ :: _, [] => None
  end.
(* DoStep, SimpleATL.cpp:106-110 *)
Definition sdo_step (dt : R) (zs ws : nat -> R) (a : satl) : option (R * satl) :=
  match walk (sA a * dt) (svv a) zs ws 0 0 0 (ssup a) (gm a) with
  | Some (l, g) => Some (stm a + dt, mkSA (stm a + dt) (sA a) (svv a) g l)
  | None => None
  end.
