(* Model of Klystron.cpp (15-137) with the voltage functions of RFStructure.cpp
   (74-94). Dividing by the complex number zero gives not-a-number: [None]. *)
From Verif Require Import RBase Rot Cplx.
Local Open Scope R_scope.

(* RFStructure: peak field, phase and length *)
Record cavity := mkCav { amp : R; phase : R; clength : R }.
Definition voltage (c : cavity) : R := amp c * clength c.
Definition set_voltage (v : R) (c : cavity) : cavity := mkCav (v / clength c) (phase c) (clength c).
Definition set_phase (p : R) (c : cavity) : cavity := mkCav (amp c) p (clength c).
Definition phasor (c : cavity) : cx := polar (voltage c) (phase c).
Definition set_phasor (z : cx) (c : cavity) : cavity := set_phase (carg z) (set_voltage (cabs z) c).

Inductive mode := Balanced | VectorSum.
Record klystron := mkK { cavs : list cavity; kmode : mode; vk : R; phik : R }.
Definition vector_sum (l : list cavity) : cx := fold_left (fun z c => cadd z (phasor c)) l (mkCx 0 0).
(* set_cavity, 32-48 *)
Definition set_cavity (v p : R) (c : cavity) : cavity := set_phase p (set_voltage v c).
(* constructor, 67-78 *)
Definition make (l : list cavity) (m : mode) : klystron :=
  let z0 := vector_sum l in
  let v := cabs z0 in let p := carg z0 in
  mkK (match m with Balanced => map (set_cavity (v / INR (length l)) p) l | VectorSum => l end) m v p.
(* AdjustVectorSum, 131-137 *)
Definition adjust_vector_sum (v p : R) (k : klystron) : option klystron :=
  match cdiv (polar v p) (polar (vk k) (phik k)) with
  | None => None
  | Some s => Some (mkK (map (fun c => set_phasor (cmul s (phasor c)) c) (cavs k)) (kmode k) v p)
  end.
(* AdjustCavities, 99-110 *)
Definition adjust (k : klystron) : option klystron :=
  match kmode k with
  | Balanced => Some (mkK (map (set_cavity (vk k / INR (length (cavs k))) (phik k)) (cavs k)) Balanced (vk k) (phik k))
  | VectorSum => adjust_vector_sum (vk k) (phik k) k
  end.
(* 80-97 *)
Inductive kop := SetV (v : R) | SetPhi (p : R) | SetZ (z : cx).
Definition kstep (o : kop) (k : klystron) : option klystron :=
  match o with
  | SetV v => adjust (mkK (cavs k) (kmode k) v (phik k))
  | SetPhi p => adjust (mkK (cavs k) (kmode k) (vk k) p)
  | SetZ z => adjust (mkK (cavs k) (kmode k) (cabs z) (carg z))
  end.
Definition kphasor (k : klystron) : cx := polar (vk k) (phik k).
