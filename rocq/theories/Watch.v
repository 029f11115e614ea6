(* Model of the check for coordinates that are not finite (Merlin++/NANCheckProcess.cpp),
   of the process which writes the bunch at named elements (MonitorProcess.cpp) and of
   the random errors of frames (AcceleratorErrors.h, .cpp).  A coordinate is a real or
   None, which stands for all values that are not finite.  Identities are integers; the
   set of identities reported is kept as doubles in the code, which is exact below 2^53. *)
From Verif Require Import RBase Base StringPattern Lattice.
From Coq Require Import List ZArith Ascii String DecimalString.
Import ListNotations.
Local Open Scope R_scope.

(* ---- NANCheckProcess ---- *)
Notation coord := (option R).
Record wpart := mkW { w_x : coord; w_xp : coord; w_y : coord; w_yp : coord; w_ct : coord; w_dp : coord; w_id : Z }.
Definition finite (c : coord) : bool := match c with Some _ => true | None => false end.
(* is_good, 27-31 *)
Definition is_good (p : wpart) : bool :=
  finite (w_x p) && finite (w_y p) && finite (w_ct p) && finite (w_xp p) && finite (w_yp p) && finite (w_dp p).
(* lines written: the entry found, the three positions and the announced halt *)
Inductive line := LFound (index : nat) (id : Z) (at_ : str) | LPrev (p : wpart) | LStart (p : wpart) | LCurrent (p : wpart) | LHalt.
Record chk := mkChk { c_detailed : bool; c_cull : bool; c_halt : bool; c_prev : list wpart; c_start : list wpart; c_reported : list Z }.
Definition new_check : chk := mkChk false false false [] [] [].
Definition set_detailed (v : bool) (c : chk) : chk := mkChk v (c_cull c) (c_halt c) (c_prev c) (c_start c) (c_reported c).
Definition set_cull (v : bool) (c : chk) : chk := mkChk (c_detailed c) v (c_halt c) (c_prev c) (c_start c) (c_reported c).
Definition set_halt (v : bool) (c : chk) : chk := mkChk (c_detailed c) (c_cull c) v (c_prev c) (c_start c) (c_reported c).
(* SetCurrentComponent, 116-126 *)
Definition set_component (b : list wpart) (c : chk) : chk :=
  if c_detailed c then mkChk (c_detailed c) (c_cull c) (c_halt c) (c_start c) b (c_reported c) else c.
(* the parameter of Report is an int *)
Definition to_int (z : Z) : Z := ((z + 2 ^ 31) mod 2 ^ 32 - 2 ^ 31)%Z.
Definition find_id (id : Z) (l : list wpart) : option wpart := find (fun p => Z.eqb (w_id p) id) l.
(* Report, 68-92; None: an iterator at the end is read *)
Definition report (c : chk) (b : list wpart) (id : Z) : option (list line) :=
  let id := to_int id in
  let cur := match find_id id b with Some p => Some [LCurrent p] | None => None end in
  if c_detailed c then
    match find_id id (c_start c), cur with
    | Some s, Some k => Some ((match find_id id (c_prev c) with Some p => [LPrev p] | None => [] end) ++ LStart s :: k)
    | _, _ => None
    end
  else cur.
Inductive wout := WRun (c : chk) (b : list wpart) (out : list line) | WAbort (out : list line) | WUB.
Definition add_reported (id : Z) (c : chk) : chk := mkChk (c_detailed c) (c_cull c) (c_halt c) (c_prev c) (c_start c) (id :: c_reported c).
(* the loop of DoProcess, 38-61 *)
Fixpoint check_loop (name : str) (all l : list wpart) (count : nat) (doc : bool) (c : chk) (out : list line) : wout * bool :=
  match l with
  | [] => (WRun c all out, doc)
  | p :: q =>
    if existsb (Z.eqb (w_id p)) (c_reported c) then check_loop name all q count doc c out
    else if is_good p then check_loop name all q (Datatypes.S count) doc c out
    else match report c all (w_id p) with
    | None => (WUB, doc)
    | Some r =>
      let out' := out ++ LFound count (w_id p) name :: r in
      let doc' := if c_cull c then true else doc in
      if c_halt c then (WAbort (out' ++ [LHalt]), doc')
      else check_loop name all q (Datatypes.S count) doc' (add_reported (w_id p) c) out'
    end
  end.
(* DoProcess 33-66 with DoCull 94-109 *)
Definition do_check (name : str) (c : chk) (b : list wpart) : wout :=
  match check_loop name b b 0 false c [] with
  | (WRun c' b' out, true) => WRun c' (filter is_good b') out
  | (o, _) => o
  end.

(* ---- MonitorProcess ---- *)
Record monitor := mkMon { m_prefix : str; m_at : list str; m_count : nat; m_active : bool; m_bunch : bool }.
(* the constructor, 16-22; no bunch yet *)
Definition new_monitor (prefix : str) : monitor := mkMon prefix [] 1 true false.
Definition set_prefix (p : str) (m : monitor) : monitor := mkMon p (m_at m) (m_count m) (m_active m) (m_bunch m).
Definition add_element (e : str) (m : monitor) : monitor := mkMon (m_prefix m) (m_at m ++ [e]) (m_count m) (m_active m) (m_bunch m).
(* InitialiseProcess, 34-40; whether the bunch is one of particles *)
Definition init_monitor (particles : bool) (m : monitor) : monitor :=
  mkMon (m_prefix m) (m_at m) (m_count m) (if particles then m_active m else false) particles.
(* SetCurrentComponent, 73-81 *)
Definition mon_component (name : str) (m : monitor) : monitor :=
  mkMon (m_prefix m) (m_at m) (m_count m) (existsb (fun s => str_eqb s name) (m_at m)) (m_bunch m).
(* std::to_string of an unsigned; the wrap of the counter is not modelled *)
Definition to_string (n : nat) : str := of_string (NilZero.string_of_uint (Nat.to_uint n)).
Definition file_name (m : monitor) (name : str) : str := (m_prefix m ++ name ++ "_"%char :: to_string (m_count m))%list.
Inductive mev := ESetPrefix (p : str) | EAdd (e : str) | EInit (particles : bool) | EElement (name : str) (nsteps : nat).
Inductive mout := MRun (m : monitor) (files : list str) | MNull.
(* DoProcess, 42-66: called for each step in an element when the process is active; without bunch a null pointer is read *)
Fixpoint dumps (name : str) (n : nat) (m : monitor) (files : list str) : mout :=
  match n with
  | O => MRun m files
  | Datatypes.S n' => if m_active m then (if m_bunch m then dumps name n' (mkMon (m_prefix m) (m_at m) (Datatypes.S (m_count m)) (m_active m) (m_bunch m)) (files ++ [file_name m name]) else MNull) else MRun m files
  end.
Definition mon_event (e : mev) (m : monitor) (files : list str) : mout :=
  match e with
  | ESetPrefix p => MRun (set_prefix p m) files
  | EAdd x => MRun (add_element x m) files
  | EInit b => MRun (init_monitor b m) files
  | EElement name n => dumps name n (mon_component name m) files
  end.
Fixpoint mon_run (l : list mev) (m : monitor) (files : list str) : mout :=
  match l with
  | [] => MRun m files
  | e :: q => match mon_event e m files with MRun m' f' => mon_run q m' f' | MNull => MNull end
  end.

(* ---- AcceleratorErrors ---- *)
(* changes of the local transformation of a frame since it was last the identity *)
Inductive move := Shift (x y z : R) | RotX (a : R) | RotY (a : R) | RotZ (a : R).
Record eframe := mkE { e_name : str; e_moves : list move }.
Record errs := mkErrs { vx2 : R; vy2 : R; vz2 : R; e_mx : R; e_my : R; e_mz : R; e_clear : bool }.
Definition no_errors : errs := mkErrs 0 0 0 0 0 0 false.
(* SetErrors, AcceleratorErrors.h 45-55; AddErrors, 69-79 *)
Definition set_errors (xr yr zr mx my mz : R) : errs := mkErrs (xr * xr) (yr * yr) (zr * zr) mx my mz true.
Definition add_errors (xr yr zr mx my mz : R) : errs := mkErrs (xr * xr) (yr * yr) (zr * zr) mx my mz false.
(* the errors, 40-42; z n is the n-th standard normal number *)
Definition draw (z : nat -> R) (n : nat) (v m : R) : R * nat :=
  if fequal v 0 then (m, n) else (m + sqrt v * z n, Datatypes.S n).
(* operator(), 30-74 *)
Definition disturb (z : nat -> R) (e : errs) (pat : str) (trans : bool) (f : option eframe) (n : nat) : option eframe * nat :=
  match f with
  | None => (None, n)
  | Some f =>
    if pmatch ("*"%char :: "."%char :: pat) (e_name f) then
      let base := if e_clear e then [] else e_moves f in
      let (ex, n1) := draw z n (vx2 e) (e_mx e) in
      let (ey, n2) := draw z n1 (vy2 e) (e_my e) in
      let (ez, n3) := draw z n2 (vz2 e) (e_mz e) in
      let ms := if trans then [Shift ex ey ez] else
        ((if fequal ex 0 then [] else [RotX ex]) ++ (if fequal ey 0 then [] else [RotY ey]) ++ (if fequal ez 0 then [] else [RotZ ez]))%list in
      (Some (mkE (e_name f) (base ++ ms)), n3)
    else (Some f, n)
  end.
(* ApplyShifts, ApplyRotations, 85-93 *)
Fixpoint apply_errors (z : nat -> R) (e : errs) (pat : str) (trans : bool) (l : list (option eframe)) (n : nat) : list (option eframe) * nat :=
  match l with
  | [] => ([], n)
  | f :: q => let (f', n1) := disturb z e pat trans f n in let (q', n2) := apply_errors z e pat trans q n1 in (f' :: q', n2)
  end.
Definition apply_shifts z e pat := apply_errors z e pat true.
Definition apply_rotations z e pat := apply_errors z e pat false.
