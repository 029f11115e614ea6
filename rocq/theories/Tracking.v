(* Model of TrackingSimulation.cpp, TTrackSim.h (Track, TTrnsProc) as the
   sequence of effects on the bunch.  Tracking a component may end with an
   exception; [fails log] says whether the component about to be tracked does,
   and whether the transport process is then still inside the component. *)
From Verif Require Import Base Ring StringPattern.

(* ComponentFrame / PatchFrame: identity, qualified name of the component (None:
   no component), patches at entrance and exit *)
Record frame := mkFr { fid : nat; fname : option str; fpin : bool; fpout : bool }.
Definition is_component (f : frame) : bool := match fname f with Some _ => true | None => false end.

Inductive xerr := Merlin | Foreign.   (* MerlinException, or another exception *)
Record failure := mkX { xkind : xerr; xinside : bool }.

Inductive tev :=
| EConstruct (b : nat)                     (* bunch constructed *)
| ERecInit (b : option nat) | ERecFinal (b : option nat)
| EInit (b : nat)                          (* processes initialised *)
| EEnter (b f : nat) | EPatchIn (b f : nat) | ETrack (b f : nat)
| EPatchOut (b f : nat) | EExit (b f : nat) | ERec (b f : nat).

Inductive kind := Line (l : list frame) | RingAt (l : list frame) (start : nat) | NoLattice.
(* SimulationOutput *)
Record output := mkO { o_all : bool; o_initial : bool; o_final : bool; o_ids : list str }.

Record sim := mkS {
  s_bunch : option nat; s_ctor : bool; s_next : nat;
  s_kind : kind; s_incx : bool; s_onaxis : bool; s_handle : bool; s_out : option output;
  s_busy : bool;                   (* transport stopped inside a component *)
  s_rest : option (list frame);    (* frames not yet stepped over; None: no stepper *)
  s_log : list tev }.
Inductive outcome := Done | Raised (e : xerr) | Assert | Undef.

Definition add (e : list tev) (s : sim) : sim :=
  mkS (s_bunch s) (s_ctor s) (s_next s) (s_kind s) (s_incx s) (s_onaxis s) (s_handle s) (s_out s)
      (s_busy s) (s_rest s) (s_log s ++ e).
Definition set_busy (b : bool) (s : sim) : sim :=
  mkS (s_bunch s) (s_ctor s) (s_next s) (s_kind s) (s_incx s) (s_onaxis s) (s_handle s) (s_out s)
      b (s_rest s) (s_log s).
Definition set_bunch (b : option nat) (s : sim) : sim :=
  mkS b (s_ctor s) (s_next s) (s_kind s) (s_incx s) (s_onaxis s) (s_handle s) (s_out s)
      (s_busy s) (s_rest s) (s_log s).
Definition set_rest (r : option (list frame)) (s : sim) : sim :=
  mkS (s_bunch s) (s_ctor s) (s_next s) (s_kind s) (s_incx s) (s_onaxis s) (s_handle s) (s_out s)
      (s_busy s) r (s_log s).
Definition construct_bunch (s : sim) : sim :=
  mkS (Some (s_next s)) (s_ctor s) (S (s_next s)) (s_kind s) (s_incx s) (s_onaxis s) (s_handle s) (s_out s)
      (s_busy s) (s_rest s) (s_log s ++ [EConstruct (s_next s)]).

(* SimulationOutput::IsMember, TrackingSimulation.cpp:295-305.  Match always
   answers (C01). *)
Definition is_member (ids : list str) (name : str) : bool :=
  existsb (fun p => match Match (mk_pattern "*"%char p) name with Ok b => b | _ => false end) ids.
(* DoRecord, TrackingSimulation.cpp:312-323 *)
Definition recorded (o : option output) (f : frame) : bool :=
  match o, fname f with
  | Some o, Some n => o_all o || is_member (o_ids o) n
  | _, _ => false
  end.
(* DoRecordInitialBunch, DoRecordFinalBunch, TrackingSimulation.cpp:325-339 *)
Definition rec_initial (s : sim) : list tev :=
  match s_out s with Some o => if o_initial o then [ERecInit (s_bunch s)] else [] | None => [] end.
Definition rec_final (s : sim) : list tev :=
  match s_out s with Some o => if o_final o then [ERecFinal (s_bunch s)] else [] | None => [] end.

Section with_failures.
Variable fails : list tev -> option failure.

(* ProcessStepManager::Track of a component with the transport process:
   choosing the integrator fails if the previous component was left unfinished
   (ComponentTracker.cpp:131) *)
Definition track_component (b : nat) (f : frame) (s : sim) : sim * outcome :=
  if s_busy s then (s, Assert) else
  let s1 := add [ETrack b (fid f)] s in
  match fails (s_log s) with
  | None => (s1, Done)
  | Some x => (set_busy (xinside x) s1, Raised (xkind x))
  end.

(* the body of PerformTracking, TrackingSimulation.cpp:22-58 *)
Definition visit (b : nat) (fb : bool) (f : frame) (s : sim) : sim * outcome :=
  let s := if s_incx s && negb (fb && s_onaxis s) then add [EEnter b (fid f)] s else s in
  let s := if fpin f then add [EPatchIn b (fid f)] s else s in
  let '(s, o) := if is_component f then track_component b f s else (s, Done) in
  match o with
  | Done =>
      let s := if fpout f then add [EPatchOut b (fid f)] s else s in
      let s := if s_incx s then add [EExit b (fid f)] s else s in
      let s := if recorded (s_out s) f then add [ERec b (fid f)] s else s in
      (s, Done)
  | _ => (s, o)
  end.

(* PerformTracking over begin()..end(), TrackingSimulation.cpp:16-60; an empty
   range is dereferenced all the same *)
Fixpoint perform_line (b : nat) (fb : bool) (l : list frame) (s : sim) : sim * outcome :=
  match l with
  | [] => (s, Undef)
  | f :: l' =>
      let '(s, o) := visit b fb f s in
      match o, l' with
      | Done, [] => (s, Done)
      | Done, _ => perform_line b false l' s
      | _, _ => (s, o)
      end
  end.
(* ... over a ring, from an iterator to itself *)
Fixpoint perform_ring (fuel : nat) (b : nat) (fb : bool) (l : list frame) (r start : ring_it) (s : sim)
  : sim * outcome :=
  match fuel with
  | O => (s, Undef)
  | S n =>
      match deref l r with
      | Ok f =>
          let '(s, o) := visit b fb f s in
          match o with
          | Done =>
              match pre_inc r with
              | Ok r' => if Nat.eqb (curr r') (curr start) then (s, Done)
                         else perform_ring n b false l r' start s
              | _ => (s, Undef)
              end
          | _ => (s, o)
          end
      | _ => (s, Undef)
      end
  end.

(* DoRun, TrackingSimulation.cpp:120-183 *)
Definition do_run (new_bunch do_init : bool) (s : sim) : sim * outcome :=
  let init := new_bunch || do_init || match s_bunch s with None => true | _ => false end in
  if new_bunch && negb (s_ctor s) then (s, Assert) else
  let s := if new_bunch then construct_bunch s else s in
  let s := add (rec_initial s) s in
  match s_bunch s with
  | None => (s, Undef)
  | Some b =>
      let s := if init then add [EInit b] s else s in
      let '(s, o) :=
        match s_kind s with
        | Line l => perform_line b true l s
        | RingAt l k => perform_ring (length l) b true l (mkRing (length l) k) (mkRing (length l) k) s
        | NoLattice => (s, Undef)
        end in
      match o with
      | Done => (add (rec_final s) s, Done)
      | Raised Merlin => if s_handle s then (add (rec_final s) s, Done) else (s, o)
      | _ => (s, o)
      end
  end.
(* Run, Continue, TrackingSimulation.cpp:185-193 *)
Definition run (s : sim) := do_run true true s.
Definition continue (s : sim) := do_run false false s.
(* TTrackSim::Track, TTrackSim.h:266-287 (a failed assert ends the program) *)
Definition track_bunch (b : nat) (s : sim) : sim * outcome :=
  let '(s, o) := do_run false true (set_bunch (Some b) s) in
  (set_bunch None s, o).

(* InitStepper(bool), TrackingSimulation.cpp:220-244 *)
Definition init_stepper (gen : bool) (s : sim) : sim * outcome :=
  if negb (s_ctor s) then (s, Assert) else
  let s := if gen || match s_bunch s with None => true | _ => false end then construct_bunch s else s in
  match s_bunch s with
  | None => (s, Undef)
  | Some b =>
      let s := add [EInit b] s in
      match s_kind s with
      | Line [] => (s, Undef)
      | Line l => (set_rest (Some l) s, Done)
      | _ => (set_rest None s, Done)
      end
  end.
(* StepComponent, TrackingSimulation.cpp:266-286, NextFrame 71-76; the answer
   is whether frames are left *)
Definition step_component (s : sim) : sim * outcome * bool :=
  match s_rest s with
  | None | Some [] => (s, Assert, false)
  | Some (f :: l') =>
      match s_bunch s with
      | None => (s, Undef, false)
      | Some b =>
          let s := if s_incx s then add [EEnter b (fid f)] s else s in
          if negb (is_component f) then (s, Undef, false) else
          let '(s, o) := track_component b f s in
          match o with
          | Done =>
              let s := if s_incx s then add [EExit b (fid f)] s else s in
              let s := if recorded (s_out s) f then add [ERec b (fid f)] s else s in
              (set_rest (Some l') s, Done, match l' with [] => false | _ => true end)
          | _ => (s, o, false)
          end
      end
  end.
End with_failures.
