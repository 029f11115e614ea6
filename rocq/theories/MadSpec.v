(* What a table of optics should give: places, strengths and frames. *)
From Coq Require Import String ZArith.
From Verif Require Import RBase StringPattern Cplx Field Lattice Mad.
Local Open Scope R_scope.

Definition total (l : list R) : R := fold_right Rplus 0 l.
(* the components of a lattice, in order *)
Definition components (l : lattice) : list comp := flat_map (fun f => match fcomp f with Some c => [c] | None => [] end) l.
(* each component stands behind the sum of the lengths before it *)
Definition in_line (z : R) (cs : list comp) : Prop := forall k c, nth_error cs k = Some c -> cpos c = z + total (map clen (firstn k cs)).
Definition len_of (r : row) : R := match get_d $"L" r with Ok x => x | _ => 0 end.
Definition name_of (r : row) : str := match get_s $"NAME" r with Ok x => x | _ => [] end.
Definition keyword (r : row) : str := match get_s $"KEYWORD" r with Ok x => x | _ => [] end.
(* rows whose length in the table is the length of what is made of them; [kw]: the keyword after the overrides *)
Definition half_wave (r : row) : R := match get_d $"FREQ" r with Ok f => light / (f * MHz) / 2 | _ => 0 end.
Definition faithful_length (kw : str) (r : row) : Prop :=
  (exists k, lookup kw factory = Some k) /\
  (kw = $"MARKER" -> len_of r = 0) /\
  (kw = $"MONITOR" -> firstn 2 (name_of r) = $"WS" -> len_of r = 0) /\
  (kw = $"RFCAVITY" -> exists n : Z, len_of r = IZR n * half_wave r).
Definition regular (s : mad) (r : row) : Prop :=
  keyword r <> $"LINE" /\ keyword r <> $"SROT" /\ forall r', overrides (drift_types s) (single_cell s) r = Ok r' -> faithful_length (keyword r') r'.

(* nested lines: rows of components and pairs of LINE rows *)
Inductive items := Nil | Row (r : row) (rest : items) | Line (r1 r2 : row) (sub rest : items).
Fixpoint rows_of (i : items) : list row :=
  match i with Nil => [] | Row r i' => r :: rows_of i' | Line r1 r2 s i' => r1 :: rows_of s ++ r2 :: rows_of i' end.
(* both LINE rows carry the same name, which is not that of the line around them *)
Fixpoint nested (outer : option str) (i : items) : Prop :=
  match i with
  | Nil => True
  | Row r i' => keyword r <> $"LINE" /\ nested outer i'
  | Line r1 r2 s i' => keyword r1 = $"LINE" /\ keyword r2 = $"LINE" /\ name_of r1 = name_of r2 /\ outer <> Some (name_of r1) /\
                       nested (Some (name_of r1)) s /\ nested outer i'
  end.
(* the frame a line stands for: F_, S_, G_, M_ and, if honoured, every other name *)
Definition shown (flat hon : bool) (name : str) : option (fkind * str) :=
  if flat then None else
  match name with
  | a :: b :: rest =>
      if Ascii.eqb b "_" then
        if Ascii.eqb a "F" then Some (Sequence, rest) else if Ascii.eqb a "S" then Some (Simple, rest)
        else if Ascii.eqb a "G" then Some (Girder, rest) else if Ascii.eqb a "M" then Some (Mover, rest) else None
      else if hon then Some (Sequence, name) else None
  | _ => if hon then Some (Sequence, name) else None
  end.
(* what a row leaves in its frame: components of that name, at most a drift behind *)
Definition from_row (r : row) (fs : list cframe) : Prop :=
  forall f, In f fs -> match fcomp f with Some c => cname c = name_of r \/ cname c = $"Drift_" ++ name_of r | None => fname f = name_of r end.
Inductive mirrors (flat hon : bool) (fr : list (nat * fkind * str)) : items -> list ftree -> Prop :=
| M_nil : mirrors flat hon fr Nil []
| M_row r i fs ts : from_row r fs -> mirrors flat hon fr i ts -> mirrors flat hon fr (Row r i) (map FComp fs ++ ts)
| M_frame r1 r2 s i id k n ts1 ts : shown flat hon (name_of r1) = Some (k, n) -> In (id, k, n) fr -> mirrors flat hon fr s ts1 -> mirrors flat hon fr i ts ->
    mirrors flat hon fr (Line r1 r2 s i) (FSeq id ts1 :: ts)
| M_through r1 r2 s i ts1 ts : shown flat hon (name_of r1) = None -> mirrors flat hon fr s ts1 -> mirrors flat hon fr i ts ->
    mirrors flat hon fr (Line r1 r2 s i) (ts1 ++ ts).

(* integrated strength of order n of a field seen with rigidity b *)
Definition strength (f : field) (n : nat) (b len : R) : option cx := match get_kn f n b with Ok z => Some (cscale len z) | _ => None end.
(* the multipoles of the table: keyword, type made, order, column, skew *)
Definition multipoles : list (str * str * nat * str * bool) :=
  [($"QUADRUPOLE", $"Quadrupole", 1%nat, $"K1L", false); ($"SKEWQUAD", $"SkewQuadrupole", 1%nat, $"K1L", true);
   ($"SEXTUPOLE", $"Sextupole", 2%nat, $"K2L", false); ($"SKEWSEXT", $"SkewSextupole", 2%nat, $"K2L", true);
   ($"OCTUPOLE", $"Octupole", 3%nat, $"K3L", false)].
