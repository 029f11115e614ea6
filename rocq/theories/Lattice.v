(** Model of the flat lattice of AcceleratorModel (AcceleratorModel.cpp/.h),
    of ComponentFrame (ComponentFrame.h) as far as the lattice uses it, and of
    AcceleratorModelConstructor (AcceleratorModelConstructor.cpp/.h).

    A frame is a record with an identity; a component is its type, name, length
    and lattice position.  Geometry is in Frames.v.  Failed assert, exit(1) and
    C++ exceptions are [Throw]; iterators past the ends and empty stacks [UB].
    The deletion of unfinished models is not modelled. *)
From Verif Require Import RBase StringPattern.
Local Open Scope R_scope.

Record comp := mkC { ctype : str; cname : str; clen : R; cpos : R }.
(** [fidx] is blI, [flocal] the local position *)
Record cframe := mkF { fid : nat; fname : str; fcomp : option comp; flocal : R; fidx : nat }.

Inductive lerr := BadRange | BadComponent | NotZeroLength | OutOfRangeAt | NotADrift | AssertFailed.

(** ModelElement::GetQualifiedName, ModelElement.h *)
Definition qualified (c : comp) : str := ctype c ++ "."%char :: cname c.
Definition is_drift (c : comp) : bool := str_eqb (ctype c) (of_string "Drift").
(** StringPattern with its default wild-card *)
Definition pmatch (pat id : str) : bool :=
  match Match (mk_pattern "*" pat) id with Ok b => b | _ => false end.
(** the name compared in lines 140 *)
Definition frame_id (f : cframe) : str :=
  match fcomp f with Some c => qualified c | None => fname f end.

(** * Beamlines, AcceleratorModel.h 52-212 *)
Record beamline := mkB { bfirst : nat; blast : nat; bfirst_i : nat; blast_i : nat }.
Notation lattice := (list cframe).

(** lines 107-112: end() moved back by one *)
Definition whole (l : lattice) : res lerr beamline :=
  match length l with O => UB | S n => Ok (mkB 0 n 0 n) end.
(** lines 114-126: advance past end() is undefined *)
Definition get_beamline (l : lattice) (n1 n2 : nat) : res lerr beamline :=
  if Nat.leb (length l) n2 then Throw BadRange
  else if Nat.ltb (length l) n1 then UB
  else Ok (mkB n1 n2 n1 n2).

(** iteration from begin() to end() = last + 1 as in Track (99-107) and
    GetIndexes: dereferencing end() of the lattice is undefined *)
Fixpoint iterate (fuel : nat) (l : lattice) (i stop : nat) : res lerr (list cframe) :=
  if Nat.eqb i stop then Ok [] else
  match fuel with
  | O => UB
  | S f => match nth_error l i with
           | None => UB
           | Some x => do xs <- iterate f l (S i) stop; Ok (x :: xs)
           end
  end.
Definition frames_of (l : lattice) (b : beamline) : res lerr (list cframe) :=
  iterate (S (length l)) l (bfirst b) (S (blast b)).
(** IsReversed, line 90 *)
Definition is_reversed (b : beamline) : bool := Nat.ltb (blast b) (bfirst b).
(** GetReversedBeamline, lines 168-173 *)
Definition reversed (l : lattice) : res lerr beamline :=
  match length l with O => UB | S n => Ok (mkB n 0 n 0) end.

(** loop of lines 138-151; [i1], [i2] are the positions found so far *)
Fixpoint find_pair (p1 p2 : str -> bool) (n1 n2 : nat) (l : lattice) (ni nn1 nn2 : nat)
  (i1 i2 : option nat) : option nat * option nat :=
  match l with
  | [] => (i1, i2)
  | f :: l' =>
      if Nat.eqb nn1 n1 && Nat.eqb nn2 n2 then (i1, i2) else
      let id := frame_id f in
      let c1 := Nat.ltb nn1 n1 && p1 id in
      let nn1' := if c1 then S nn1 else nn1 in
      if c1 && Nat.eqb nn1' n1 then find_pair p1 p2 n1 n2 l' (S ni) nn1' nn2 (Some ni) i2
      else
        let c2 := Nat.ltb nn2 n2 && p2 id in
        let nn2' := if c2 then S nn2 else nn2 in
        find_pair p1 p2 n1 n2 l' (S ni) nn1' nn2' i1 (if c2 && Nat.eqb nn2' n2 then Some ni else i2)
  end.
(** lines 128-159 *)
Definition get_beamline_pat (l : lattice) (pat1 pat2 : str) (n1 n2 : nat) : res lerr beamline :=
  if Nat.eqb n1 0 || Nat.eqb n2 0 then Throw AssertFailed else
  match find_pair (pmatch pat1) (pmatch pat2) n1 n2 l 0 0 0 None None with
  | (Some i1, Some i2) => Ok (mkB i1 i2 i1 i2)
  | _ => Throw BadRange
  end.

(** GetIndexes, lines 340-360 *)
Fixpoint index_matches (pat : str) (n0 : nat) (fs : list cframe) : list nat :=
  match fs with
  | [] => []
  | f :: fs' =>
      match fcomp f with
      | Some c => if pmatch pat (qualified c) then n0 :: index_matches pat (S n0) fs'
                  else index_matches pat (S n0) fs'
      | None => index_matches pat (S n0) fs'
      end
  end.
Definition get_indexes (l : lattice) (b : beamline) (pat : str) : res lerr (list nat) :=
  do fs <- frames_of l b; Ok (index_matches pat (bfirst b) fs).
(** lines 328-331 *)
Definition get_indexes_all (l : lattice) (pat : str) : res lerr (list nat) :=
  do b <- whole l; get_indexes l b pat.

(** ExtractComponents, lines 175-195, MatchName 28-40 *)
Fixpoint extract_loop (pat : str) (l : lattice) : res lerr (list cframe) :=
  match l with
  | [] => Ok []
  | f :: l' =>
      match fcomp f with
      | None => Throw BadComponent
      | Some c => do r <- extract_loop pat l'; Ok (if pmatch pat (qualified c) then f :: r else r)
      end
  end.
Definition extract_components (l : lattice) (pat : str) : res lerr (list cframe) :=
  if str_eqb pat (of_string "*") then Ok l else extract_loop pat l.

(** * The repository, as the set of things added to it *)
Inductive elem := EFrame (f : nat) | EComp (c : comp) | ESeq (s : nat).

(** * InstallModelElement, lines 232-303 *)
(** lines 248-263: position in the lattice and the sum [s] behind it *)
Fixpoint find_at (l : lattice) (at_ s : R) (i : nat) : res lerr (nat * comp * R) :=
  match l with
  | [] => Throw OutOfRangeAt
  | f :: l' =>
      match fcomp f with
      | None => Throw BadComponent
      | Some c => let s' := s + clen c in
                  if Rltb at_ s' then Ok (i, c, s') else find_at l' at_ s' (S i)
      end
  end.
(** std::vector as contents and capacity.  insert at an iterator: a
    reallocation (size = capacity) makes earlier iterators dangle.  (The
    standard already invalidates iterators at the place of insertion; the model
    only fails where memory has moved.) *)
Record vec := mkV { items : lattice; cap : nat }.
Definition insert_at (i : nat) (f : cframe) (l : lattice) : lattice := firstn i l ++ f :: skipn i l.
(** new vector and whether the old iterators survive *)
Definition vinsert (i : nat) (f : cframe) (v : vec) : vec * bool :=
  if Nat.ltb (length (items v)) (cap v) then (mkV (insert_at i f (items v)) (cap v), true)
  else (mkV (insert_at i f (items v)) (2 * cap v + 1), false).
Definition verase (i : nat) (v : vec) : vec :=
  mkV (firstn i (items v) ++ skipn (S i) (items v)) (cap v).

(** [ids]: identities of the three new frames; result: lattice and new elements *)
Definition install (v : vec) (el : comp) (at_ : R) (ids : nat * nat * nat) : res lerr (vec * list elem) :=
  if negb (Reqb (clen el) 0) then Throw NotZeroLength else
  do x <- find_at (items v) at_ 0 0;
  let '(i, c, s) := x in
  if negb (is_drift c) then Throw NotADrift else
  let len1 := at_ - s + clen c in
  let len2 := s - at_ in
  let d1 := mkC (ctype c) (cname c ++ of_string "_part1") len1 (at_ - len1) in
  let d2 := mkC (ctype c) (cname c ++ of_string "_part2") len2 at_ in
  let e := mkC (ctype el) (cname el) (clen el) at_ in
  let '(k1, k2, k3) := ids in
  let f1 := mkF k1 (qualified d1) (Some d1) (at_ - len1) 0 in
  let f2 := mkF k2 (qualified d2) (Some d2) at_ 0 in
  let fe := mkF k3 (qualified e) (Some e) at_ 0 in
  let v0 := verase i v in
  let (v1, ok1) := vinsert i f2 v0 in
  if negb ok1 then UB else
  let (v2, ok2) := vinsert i fe v1 in
  if negb ok2 then UB else
  let (v3, _) := vinsert i f1 v2 in
  Ok (v3, [EFrame k1; EFrame k2; EFrame k3]).

(** * AcceleratorModelConstructor *)
Inductive ftree := FComp (f : cframe) | FSeq (id : nat) (subs : list ftree).

(** the component frames met by Traverse (SequenceFrame.cpp 448-458), in order *)
Fixpoint leaves (t : ftree) : list cframe :=
  match t with
  | FComp f => [f]
  | FSeq _ subs => flat_map leaves subs
  end.
(** everything MEExtractor adds to the repository, lines 56-77 *)
Fixpoint visited (t : ftree) : list elem :=
  match t with
  | FComp f => EFrame (fid f) :: match fcomp f with Some c => [EComp c] | None => [] end
  | FSeq i subs => ESeq i :: flat_map visited subs
  end.

(** open frames, innermost first: identity and sub-frames so far; [None] after
    GetModel *)
Record constr := mkK { stack : list (nat * list ftree); flat : lattice; repo : list elem; live : bool }.

(** lines 99-114; 0 is GLOBAL *)
Definition new_model : constr := mkK [(O, [])] [] [] true.

(** frameStack.top()->AppendFrame *)
Definition append_top (t : ftree) (s : list (nat * list ftree)) : res lerr (list (nat * list ftree)) :=
  match s with [] => UB | (i, subs) :: s' => Ok ((i, subs ++ [t]) :: s') end.

Definition set_idx (n : nat) (f : cframe) : cframe := mkF (fid f) (fname f) (fcomp f) (flocal f) n.

(** lines 191-202.  The index is written after the pointer is stored; the model
    stores the updated frame. *)
Definition append_component_frame (f : cframe) (k : constr) : res lerr constr :=
  if negb (live k) then Throw AssertFailed else
  let f' := set_idx (length (flat k)) f in
  do s <- append_top (FComp f') (stack k);
  Ok (mkK s (flat k ++ [f'])
     (repo k ++ EFrame (fid f) :: match fcomp f with Some c => [EComp c] | None => [] end) true).
(** lines 142-146; [id]: the frame created *)
Definition drift_frame (id : nat) (d : R) : cframe :=
  let c := mkC (of_string "Drift") (of_string "UNNAMED") d 0 in mkF id (qualified c) (Some c) 0 0.
Definition append_drift (id : nat) (d : R) (k : constr) : res lerr constr :=
  append_component_frame (drift_frame id d) k.
(** AcceleratorModelConstructor.h 62-70; [idd]: the frame of the drift *)
Definition append_component (f : cframe) (idd : nat) (d : R) (k : constr) : res lerr constr :=
  do k1 <- (if fequal d 0 then Ok k else append_drift idd d k); append_component_frame f k1.
(** lines 176-189 *)
Definition append_frame (t : ftree) (k : constr) : res lerr constr :=
  if negb (live k) then Throw AssertFailed else
  do s <- append_top t (stack k);
  Ok (mkK s (flat k ++ leaves t) (repo k ++ visited t) true).
(** lines 128-133 *)
Definition new_frame (id : nat) (k : constr) : res lerr constr :=
  if negb (live k) then Throw AssertFailed else
  Ok (mkK ((id, []) :: stack k) (flat k) (repo k ++ [ESeq id]) true).
(** lines 135-140 *)
Definition end_frame (k : constr) : res lerr constr :=
  match stack k with
  | [] => UB
  | (i, subs) :: s' => do s <- append_top (FSeq i subs) s'; Ok (mkK s (flat k) (repo k) (live k))
  end.
(** lines 116-126: global frame, lattice and repository of the finished model;
    layout of the frames is in Frames.v *)
Definition get_model (k : constr) : res lerr (ftree * lattice * list elem * constr) :=
  match stack k with
  | [] => UB
  | (i, subs) :: s' =>
      if negb (live k && match s' with [] => true | _ => false end) then Throw AssertFailed
      else Ok (FSeq i subs, flat k, repo k, mkK [] [] [] false)
  end.
(** lines 103-106 *)
Definition depth (k : constr) : nat := length (stack k) - 1.

Inductive call :=
| NewFrame (id : nat) | EndFrame | AppendComponent (f : cframe) (idd : nat) (d : R)
| AppendComponentFrame (f : cframe) | AppendDrift (id : nat) (d : R) | AppendFrame (t : ftree).
Definition do_call (c : call) (k : constr) : res lerr constr :=
  match c with
  | NewFrame id => new_frame id k
  | EndFrame => end_frame k
  | AppendComponent f idd d => append_component f idd d k
  | AppendComponentFrame f => append_component_frame f k
  | AppendDrift id d => append_drift id d k
  | AppendFrame t => append_frame t k
  end.
Fixpoint do_calls (cs : list call) (k : constr) : res lerr constr :=
  match cs with [] => Ok k | c :: cs' => do k1 <- do_call c k; do_calls cs' k1 end.
Definition construct (cs : list call) : res lerr (ftree * lattice * list elem * constr) :=
  do k <- do_calls cs new_model; get_model k.
