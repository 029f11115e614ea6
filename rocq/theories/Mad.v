(* Model of MADInterface.cpp: building an accelerator from the rows of an optics
   table. The table has been read (DataTable.v, the TFS reader); a row is its list
   of named cells. Numbers are exact; a division by zero, which would put an
   infinite or undefined number into the model, is [Raise NaN] and not followed
   further. The conversion of the number of cells to int is taken to be in range.
   Logging and the warnings are left out. *)
From Coq Require Import String ZArith.
From Verif Require Import RBase StringPattern Cplx Field Lattice.
Local Open Scope R_scope.

Inductive cell := CD (x : R) | CS (s : str).
Notation row := (list (str * cell)).
Notation "$ s" := (of_string s) (at level 1, format "$ s").

(* exceptions of the table (no such column, other type), and NaN as above *)
Inductive merr := NoColumn | NaN.
Notation mres := (res merr).

(* DataTableRow::Get_d, Get_s, Set_s, HasCol; DataTable.cpp 107-160, 334 *)
Fixpoint cell_of (n : str) (r : row) : option cell :=
  match r with [] => None | (m, c) :: r' => if str_eqb m n then Some c else cell_of n r' end.
Definition get_d (n : str) (r : row) : mres R := match cell_of n r with Some (CD x) => Ok x | _ => Throw NoColumn end.
Definition get_s (n : str) (r : row) : mres str := match cell_of n r with Some (CS s) => Ok s | _ => Throw NoColumn end.
Definition has_col (n : str) (r : row) : bool := match cell_of n r with Some _ => true | None => false end.
Fixpoint set_s (n s : str) (r : row) : row :=
  match r with [] => [] | (m, c) :: r' => if str_eqb m n then (m, CS s) :: r' else (m, c) :: set_s n s r' end.

(* PhysicalUnits.cpp 37-53, PhysicalConstants.cpp 24 *)
Definition eV : R := 1 / 1000000000.
Definition MV : R := 1 / 1000.
Definition MHz : R := 1000000.
Definition light : R := 299792458.
(* MADInterface.cpp 123, 170 *)
Definition rigidity (p : R) : R := p / eV / light.
(* SRdE, 88-93 *)
Definition sr_loss (h len e : R) : R := 885 / 10000000 / (2 * PI) * e ^ 4 * h * h * len.
Definition quot (x y : R) : mres R := if Reqb y 0 then Throw NaN else Ok (x / y).
(* std::round *)
Definition round (x : R) : Z := if Rltb x 0 then (- Int_part (- x + 1 / 2))%Z else Int_part (x + 1 / 2).

(* what is known of a component beside its name and length; fields as in Field.v *)
Inductive device :=
| Drift_ | Bend (h : R) (f : field) (e1 e2 : option R) (tilt : R) | Mult (f : field)
| Sol (bz : R) | Cavity (ncells : Z) (freq e0 phase : R) | CrabRF | CrabMark (mux muy : R) | Coll | Hel
| Bpm_ | Profile (angle : R) | Mark.
Record made := mkM { mtype : str; mname : str; mlen : R; mdev : device }.

(* the entries of TypeFactoryInit, 652-675 *)
Inductive kind := KDrift | KRBend | KSBend | KQuad | KSkewQuad | KSext | KSkewSext | KOct | KYCor | KXCor | KVKick | KHKick | KSol
| KCav | KCav1 | KCrabMark | KCrabRF | KColl | KHel | KMon | KMark.
Definition factory : list (str * kind) :=
  [($"DRIFT", KDrift); ($"RBEND", KRBend); ($"SBEND", KSBend); ($"QUADRUPOLE", KQuad); ($"SKEWQUAD", KSkewQuad); ($"SEXTUPOLE", KSext);
   ($"SKEWSEXT", KSkewSext); ($"OCTUPOLE", KOct); ($"YCOR", KYCor); ($"XCOR", KXCor); ($"VKICKER", KVKick); ($"HKICKER", KHKick); ($"SOLENOID", KSol);
   ($"RFCAVITY", KCav); ($"RFCAVITY_SingleCell", KCav1); ($"CRABMARKER", KCrabMark); ($"CRABRF", KCrabRF); ($"COLLIMATOR", KColl); ($"HEL", KHel);
   ($"MONITOR", KMon); ($"MARKER", KMark)].
Fixpoint lookup {A} (n : str) (l : list (str * A)) : option A :=
  match l with [] => None | (m, a) :: l' => if str_eqb m n then Some a else lookup n l' end.

(* a rectangular multipole, StandardMultipoles.cpp 11-13 with RectMultipole.cpp 19-23 *)
Definition rect (ty name : str) (len : R) (np : nat) (b : R) (skew : bool) : made := mkM ty name len (Mult (single_n np b skew)).
Definition thick (ty : str) (np : nat) (col : str) (skew : bool) (r : row) (brho : R) : mres (list made) :=
  do name <- get_s $"NAME" r; do len <- get_d $"L" r; do k <- get_d col r; do b <- quot (brho * k) len; Ok [rect ty name len np b skew].
(* pole faces, 379-385, 415-421: none if both angles are zero; if only one is zero,
   SetPoleFaceInfo writes through a null pointer (SectorBend.h 96-103) *)
Definition faces (e1 e2 : R) : mres (option R * option R) :=
  if Reqb e1 0 then (if Reqb e2 0 then Ok (None, None) else UB) else (if Reqb e2 0 then UB else Ok (Some e1, Some e2)).
(* SectorBend.cpp 43-46, 100-103 *)
Definition bend_field (b0 : R) (b1 : option R) : mres field :=
  match b1 with
  | None => Ok (single_r 0 b0 1 false)
  | Some b => match set_component 1 b 0 1 (single_r 0 b0 1 false) with Ok f => Ok f | _ => Throw NaN end
  end.
(* RBendComponent 361-387 and SBendComponent 389-423: they differ in the column of the angle *)
Definition bend (angle : mres R) (r : row) (brho : R) : mres (list made) :=
  do name <- get_s $"NAME" r; do len <- get_d $"L" r; do a <- angle; do k1l <- get_d $"K1L" r; do tilt <- get_d $"TILT" r;
  do h <- quot a len;
  do f <- bend_field (brho * h) (if Reqb k1l 0 then None else Some (brho * k1l / len));
  do e1 <- get_d $"E1" r; do e2 <- get_d $"E2" r;
  do pf <- faces e1 e2;
  Ok [mkM $"SectorBend" name len (Bend h f (fst pf) (snd pf) tilt)].
(* VKickerComponent 491-503, HKickerComponent 505-517 *)
Definition kicker (ty : str) (col : str) (sign : R) (skew : bool) (r : row) (brho : R) : mres (list made) :=
  do name <- get_s $"NAME" r; do len <- get_d $"L" r; do kick <- get_d col r;
  let scale := if Rltb 0 len then brho / len else brho in
  Ok [rect ty name len 0 (sign * scale * kick) skew].
Definition plain (ty : str) (d : device) (r : row) : mres (list made) :=
  do name <- get_s $"NAME" r; do len <- get_d $"L" r; Ok [mkM ty name len d].
Definition phase_of (lag : R) : R := 2 * PI * (lag - 1 / 4).
(* RFCavityComponent 562-587; the length of the structure is SWRFStructure.cpp 25-27 *)
Definition cavity (r : row) : mres (list made) :=
  do name <- get_s $"NAME" r; do len <- get_d $"L" r; do fr <- get_d $"FREQ" r; do lag <- get_d $"LAG" r; do volts <- get_d $"VOLT" r;
  let freq := fr * MHz in
  do half0 <- quot light freq;
  let half := half0 / 2 in
  let n := round (len / half) in
  do e0 <- quot (volts * MV) len;
  Ok [mkM $"SWRFStructure" name (light / freq * IZR n / 2) (Cavity n freq e0 (phase_of lag))].
(* RFCavityComponentSingleCell 528-560 *)
Definition cavity1 (r : row) : mres (list made) :=
  do name <- get_s $"NAME" r; do len <- get_d $"L" r; do fr <- get_d $"FREQ" r; do lag <- get_d $"LAG" r; do volts <- get_d $"VOLT" r;
  let freq := fr * MHz in
  do half0 <- quot light freq;
  let half := half0 / 2 in
  let n := round (half / half) in
  do _ <- quot half len;
  do e0 <- quot (volts * MV) half;
  Ok [mkM $"SWRFStructure" name (light / freq * IZR n / 2) (Cavity n freq e0 (phase_of lag));
      mkM $"Drift" ($"Drift_" ++ name) (len - half) Drift_].
(* MonitorComponent 618-627: RMSProfileMonitor takes the angle before the length (RMSProfileMonitor.h 63) *)
Definition monitor (r : row) : mres (list made) :=
  do name <- get_s $"NAME" r; do len <- get_d $"L" r;
  Ok [if str_eqb (firstn 2 name) $"WS" then mkM $"RMSProfileMonitor" name 0 (Profile len) else mkM $"BPM" name len Bpm_].

(* TypeFactory::GetInstance 636-645; DriftComponent 350-359; the others 425-489, 519-526, 589-616, 629-634 *)
Definition instance (k : kind) (r : row) (brho : R) : mres (list made) :=
  match k with
  | KDrift => do name <- get_s $"NAME" r; do len <- get_d $"L" r; Ok (if Reqb len 0 then [] else [mkM $"Drift" name len Drift_])
  | KRBend => bend (get_d $"ANGLE" r) r brho
  | KSBend => bend (if has_col $"ANGLE" r then get_d $"ANGLE" r else get_d $"K0L" r) r brho
  | KQuad => thick $"Quadrupole" 1 $"K1L" false r brho
  | KSkewQuad => thick $"SkewQuadrupole" 1 $"K1L" true r brho
  | KSext => thick $"Sextupole" 2 $"K2L" false r brho
  | KSkewSext => thick $"SkewSextupole" 2 $"K2L" true r brho
  | KOct => thick $"Octupole" 3 $"K3L" false r brho
  | KYCor => do name <- get_s $"NAME" r; do len <- get_d $"L" r; Ok [rect $"YCor" name len 0 0 true]
  | KXCor => do name <- get_s $"NAME" r; do len <- get_d $"L" r; Ok [rect $"XCor" name len 0 0 false]
  | KVKick => kicker $"YCor" $"VKICK" 1 true r brho
  | KHKick => kicker $"XCor" $"HKICK" (-1) false r brho
  | KSol => do name <- get_s $"NAME" r; do len <- get_d $"L" r; do ks <- get_d $"KS" r; do b <- quot (brho * ks) len; Ok [mkM $"Solenoid" name len (Sol b)]
  | KCav => cavity r
  | KCav1 => cavity1 r
  | KCrabMark => do mux <- get_d $"MUX" r; do muy <- get_d $"MUY" r; plain $"CrabMarker" (CrabMark mux muy) r
  | KCrabRF => plain $"TransverseRFStructure" CrabRF r
  | KColl => plain $"Collimator" Coll r
  | KHel => plain $"HollowElectronLens" Hel r
  | KMon => monitor r
  | KMark => do name <- get_s $"NAME" r; Ok [mkM $"Marker" name 0 Mark]
  end.
Definition get_instance (r : row) (brho : R) : mres (list made) :=
  do ty <- get_s $"KEYWORD" r;
  match lookup ty factory with Some k => instance k r brho | None => Ok [] end.

(* TypeOverrides, 194-207: each test but the last looks at the keyword as read *)
Definition mem (x : str) (l : list str) : bool := existsb (str_eqb x) l.
Definition overrides (drifts : list str) (single_cell : bool) (r : row) : mres row :=
  do kw <- get_s $"KEYWORD" r;
  let r1 := if mem kw drifts then set_s $"KEYWORD" $"DRIFT" r else r in
  let r2 := if str_eqb kw $"LCAV" then set_s $"KEYWORD" $"RFCAVITY" r1 else r1 in
  let r3 := if str_eqb kw $"RCOLLIMATOR" || str_eqb kw $"ECOLLIMATOR" then set_s $"KEYWORD" $"COLLIMATOR" r2 else r2 in
  do r4 <- (if str_eqb kw $"RBEND" then do k0 <- get_d $"K0L" r3; Ok (if Reqb k0 0 then r3 else set_s $"KEYWORD" $"SBEND" r3) else Ok r3);
  if single_cell then do kw' <- get_s $"KEYWORD" r4; Ok (if str_eqb kw' $"RFCAVITY" then set_s $"KEYWORD" $"RFCAVITY_SingleCell" r4 else r4)
  else Ok r4.

(* GetMutipoleType, 209-222; never used *)
Definition multipole_type (r : row) : mres str :=
  do k0 <- get_d $"K0L" r; if Reqb k0 0 then Ok $"SBEND" else
  do k1 <- get_d $"K1L" r; if Reqb k1 0 then Ok $"QUADRUPOLE" else
  do k2 <- get_d $"K2L" r; if Reqb k2 0 then Ok $"SEXTUPOLE" else
  do k3 <- get_d $"K3L" r; if Reqb k3 0 then Ok $"OCTUPOLE" else
  do k4 <- get_d $"K4L" r; if Reqb k4 0 then Ok $"DECAPOLE" else Ok $"DRIFT".

(* MADInterface.h 160-185. [mc]: the constructor pointer; [next]: identity of the next
   frame; [frames]: kinds and names of the frames made; [placed]: the components made *)
Inductive fkind := Sequence | Simple | Girder | Mover.
Inductive handle := Null | Live (k : constr).
Record mad := mkMad {
  mom : R; inc_sr : bool; flat_ : bool; zpos : R; single_cell : bool; honour : bool; appending : bool;
  zero_types : list str; drift_types : list str; mc : handle; fstack : list str;
  next : nat; frames : list (nat * fkind * str); placed : list made }.
Inductive out (A : Type) := Fin (a : A) | Raise (e : merr) (s : mad) | Stop | Bad.
Arguments Fin {A}. Arguments Raise {A}. Arguments Stop {A}. Arguments Bad {A}.
Definition lift {A B} (s : mad) (x : mres A) (f : A -> out B) : out B := match x with Ok a => f a | Throw e => Raise e s | UB => Bad end.
Definition liftl {A B} (x : res lerr A) (f : A -> out B) : out B := match x with Ok a => f a | Throw _ => Stop | UB => Bad end.
Definition with_mc (s : mad) (k : constr) : mad :=
  mkMad (mom s) (inc_sr s) (flat_ s) (zpos s) (single_cell s) (honour s) (appending s) (zero_types s) (drift_types s) (Live k) (fstack s) (next s) (frames s) (placed s).
Definition with_stack (s : mad) (st : list str) : mad :=
  mkMad (mom s) (inc_sr s) (flat_ s) (zpos s) (single_cell s) (honour s) (appending s) (zero_types s) (drift_types s) (mc s) st (next s) (frames s) (placed s).
Definition with_mom (s : mad) (p : R) : mad :=
  mkMad p (inc_sr s) (flat_ s) (zpos s) (single_cell s) (honour s) (appending s) (zero_types s) (drift_types s) (mc s) (fstack s) (next s) (frames s) (placed s).

(* constructor and init, 42-79 *)
Definition default_drifts : list str := [$"INSTRUMENT"; $"PLACEHOLDER"; $"VMONITOR"; $"HMONITOR"; $"KICKER"; $"TKICKER"; $"MATRIX"].
Definition fresh (p : R) : mad := mkMad p false false 0 false false false [$"RCOLLIMATOR"] default_drifts Null [] 1 [] [].

(* ConstructNewFrame, 224-273 *)
Definition frame_kind (hon : bool) (name : str) : out (option (fkind * str)) :=
  match name with
  | [] => Bad
  | c :: rest =>
      if match rest with u :: _ => Ascii.eqb u "_" | [] => false end then
        (if Ascii.eqb c "F" then Fin (Some (Sequence, tl rest))
         else if Ascii.eqb c "S" then Fin (Some (Simple, tl rest))
         else if Ascii.eqb c "G" then Fin (Some (Girder, tl rest))
         else if Ascii.eqb c "M" then Fin (Some (Mover, tl rest))
         else Stop)
      else if hon then Fin (Some (Sequence, name)) else Fin None
  end.
Definition omap {A B} (x : out A) (f : A -> out B) : out B := match x with Fin a => f a | Raise e s => Raise e s | Stop => Stop | Bad => Bad end.
Definition open_frame (s : mad) (name : str) : out mad :=
  omap (frame_kind (honour s) name) (fun o =>
  match o with
  | None => Fin s
  | Some (k, n) =>
      match mc s with
      | Null => Bad
      | Live c => liftl (new_frame (next s) c) (fun c' =>
          Fin (mkMad (mom s) (inc_sr s) (flat_ s) (zpos s) (single_cell s) (honour s) (appending s) (zero_types s) (drift_types s) (Live c') (fstack s)
                 (S (next s)) (frames s ++ [(next s, k, n)]) (placed s)))
      end
  end).
(* EndFrame, 275-289 *)
Definition close_frame (s : mad) (name : str) : out mad :=
  match name with
  | [] => if honour s then match mc s with Null => Bad | Live c => liftl (end_frame c) (fun c' => Fin (with_mc s c')) end else Bad
  | _ :: rest =>
      if negb (honour s) && negb (match rest with u :: _ => Ascii.eqb u "_" | [] => false end) then Fin s
      else match mc s with Null => Bad | Live c => liftl (end_frame c) (fun c' => Fin (with_mc s c')) end
  end.

(* 174-179; the position is written after the component has been appended, the model
   stores the component with it *)
Definition place (s : mad) (m : made) : out mad :=
  match mc s with
  | Null => Bad
  | Live c =>
      let cp := mkC (mtype m) (mname m) (mlen m) (zpos s) in
      liftl (append_component (mkF (next s) (qualified cp) (Some cp) 0 0) 0 0 c) (fun c' =>
        Fin (mkMad (mom s) (inc_sr s) (flat_ s) (zpos s + mlen m) (single_cell s) (honour s) (appending s) (zero_types s) (drift_types s) (Live c') (fstack s)
               (S (next s)) (frames s) (placed s ++ [m])))
  end.
Fixpoint place_all (s : mad) (ms : list made) : out mad :=
  match ms with [] => Fin s | m :: ms' => omap (place s m) (fun s' => place_all s' ms') end.
(* 154 with ConstructSrot.cpp 11-16 *)
Definition place_patch (s : mad) (name : str) : out mad :=
  match mc s with
  | Null => Bad
  | Live c => liftl (append_component_frame (mkF (next s) name None 0 0) c) (fun c' =>
      Fin (mkMad (mom s) (inc_sr s) (flat_ s) (zpos s) (single_cell s) (honour s) (appending s) (zero_types s) (drift_types s) (Live c') (fstack s)
             (S (next s)) (frames s) (placed s)))
  end.
(* 167-171 *)
Definition radiate (s : mad) (type : str) (len : R) (r : row) : mres R :=
  if inc_sr s && (str_eqb type $"SBEND" || str_eqb type $"RBEND") then
    do a <- get_d $"ANGLE" r; do h <- quot a len; Ok (mom s - sr_loss h len (mom s))
  else Ok (mom s).
(* one row, 127-180 *)
Definition step (s : mad) (r : row) : out mad :=
  lift s (get_s $"KEYWORD" r) (fun type =>
  lift s (get_d $"L" r) (fun len =>
  if Reqb len 0 && mem type (zero_types s) then lift s (get_s $"NAME" r) (fun _ => Fin s)
  else
  lift s (overrides (drift_types s) (single_cell s) r) (fun r' =>
  if str_eqb type $"LINE" then
    if flat_ s then Fin s
    else lift s (get_s $"NAME" r') (fun name =>
      match fstack s with
      | top :: st => if str_eqb name top then close_frame (with_stack s st) name else open_frame (with_stack s (name :: fstack s)) name
      | [] => open_frame (with_stack s (name :: fstack s)) name
      end)
  else if str_eqb type $"SROT" then lift s (get_s $"NAME" r') (fun name => place_patch s name)
  else
    lift s (get_instance r' (rigidity (mom s))) (fun ms =>
    lift s (radiate s type len r') (fun p => place_all (with_mom s p) ms))))).
Fixpoint steps (s : mad) (rs : list row) : out mad := match rs with [] => Fin s | r :: rs' => omap (step s r) (fun s' => steps s' rs') end.

(* ConstructModel, 95-192 *)
Notation model := (ftree * lattice * list elem)%type.
Definition construct_model (s : mad) (rs : list row) : out (model * mad) :=
  match mc s, appending s with
  | Live _, false => Bad (* deleted, then used: 108-115 *)
  | _, app =>
      let s0 := match mc s with Null => if app then s else with_mc s new_model | Live _ => s end in
      omap (steps s0 rs) (fun s1 =>
      match mc s1 with
      | Null => Bad
      | Live c => liftl (get_model c) (fun '(t, l, e, _) =>
          Fin ((t, l, e), mkMad (mom s1) (inc_sr s1) (flat_ s1) (zpos s1) (single_cell s1) (honour s1) (appending s1) (zero_types s1) (drift_types s1) Null
                            (fstack s1) (next s1) (frames s1) (placed s1)))
      end)
  end.
(* AppendModel, 291-317: the model made is dropped *)
Definition append_model (s : mad) (rs : list row) (p : R) : out mad :=
  let s1 := match mc s with Null => with_mc s new_model | Live _ => s end in
  let s2 := mkMad p (inc_sr s1) (flat_ s1) (zpos s1) (single_cell s1) (honour s1) true (zero_types s1) (drift_types s1) (mc s1) (fstack s1) (next s1) (frames s1) (placed s1) in
  omap (construct_model s2 rs) (fun '(_, s3) => Fin s3).
(* GetModel, 319-336: asserts *)
Definition get_model_of (s : mad) : out model :=
  match mc s with Null => Stop | Live c => liftl (get_model c) (fun '(t, l, e, _) => Fin (t, l, e)) end.
