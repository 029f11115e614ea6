(* Model of the tracking of one component:
   ComponentTracker.{h,cpp}, ComponentIntegrator.h, ComponentStepper.cpp and
   MonitorCI of StdIntegrators.cpp.
   The body of an integrator is an event (position and length of the step).
   A failed assert is [Throw AssertFailed], a null pointer or a cast to the
   wrong class [UB]. *)
From Verif Require Import RBase Ranges.
Local Open Scope R_scope.

Inductive terr := AssertFailed | UnknownComponent.

(* ComponentTracker.h:49-56 *)
Inductive tstate := Undefined | Initialised | Tracking | Finished.
Definition state_num (s : tstate) : R :=
  match s with Undefined => 0 | Initialised => 1 | Tracking => 2 | Finished => 3 end.

(* A component: identity, GetLength(), and the class indexes PrepareTracker
   tries, its own first, AcceleratorComponent last. *)
Record component := mkC { cid : nat; clen : R; classes : list nat }.

(* What an integrator does to the bunch. *)
Inductive ev :=
| EvEntrance (intg c : nat)
| EvBody (intg c : nat) (from ds : R)
| EvExit (intg c : nat).

(* ComponentIntegrator: cur_S, tot_S, component (ComponentIntegrator.h:122-128) *)
Record integ := mkI { itag : option nat; icomp : component; icur : R; itot : R }.

(* The map of integrators; None stands for DefaultMarkerIntegrator, which is
   not an integrator of a bunch. *)
Notation iset := (list (nat * option nat)).
Record tracker := mkT { tst : tstate; tint : option integ; tset : iset; tlog : list ev }.

(* IntegratorSet::GetIntegrator, ComponentTracker.cpp:59-63 *)
Fixpoint lookup (n : nat) (s : iset) : option (option nat) :=
  match s with
  | [] => None
  | (k, i) :: s' => if Nat.eqb k n then Some i else lookup n s'
  end.
(* IntegratorSet::Add, ComponentTracker.cpp:44-57: true if one was replaced *)
Fixpoint set_add (n : nat) (i : option nat) (s : iset) : iset * bool :=
  match s with
  | [] => ([(n, i)], false)
  | (k, j) :: s' =>
      if Nat.eqb k n then ((n, i) :: s', true)
      else let '(r, b) := set_add n i s' in ((k, j) :: r, b)
  end.
(* Register, ComponentTracker.cpp:148-156 *)
Definition register (n : nat) (i : nat) (t : tracker) : tracker * bool :=
  let '(s, b) := set_add n (Some i) (tset t) in (mkT (tst t) (tint t) s (tlog t), b).

(* Marker::ID *)
Definition marker_id : nat := 1.
(* ComponentTracker(), ComponentTracker.cpp:75-79 *)
Definition base_tracker : tracker := mkT Undefined None [(marker_id, None)] [].
(* TBunchCMPTracker(iset), ComponentTracker.h:292-305 *)
Definition new_tracker (init : list (nat * nat)) : tracker :=
  fold_left (fun t x => fst (register (fst x) (snd x) t)) init base_tracker.
(* ClearIntegratorSet then Init, ComponentTracker.h:148-155, TTrackSim.h:90-94 *)
Definition set_integrator_set (init : list (nat * nat)) (t : tracker) : tracker :=
  fold_left (fun t x => fst (register (fst x) (snd x) t)) init (mkT (tst t) (tint t) [] (tlog t)).

(* GetRemainingLength, ComponentIntegrator.h:161-165 *)
Definition remaining (i : integ) : R :=
  let s := itot i - icur i in if fequal s 0 then 0 else s.
(* IsValidStep, GetValidStepRange, ComponentIntegrator.h:167-170, 200-203 *)
Definition is_valid_step (i : integ) (ds : R) : bool :=
  contains (range_of 0 (remaining i)) ds.
(* AtEntrance, AtExit, ComponentIntegrator.h:190-198 *)
Definition at_entrance (i : integ) : bool := fequal (icur i) 0.
Definition at_exit (i : integ) : bool := fequal (0 + icur i) (itot i).

(* ComponentIntegrator::Track, ComponentIntegrator.h:172-188: the events, then
   the remaining length *)
Definition intg_track (i : integ) (tag : nat) (ds : R) : integ * list ev * R :=
  let c := cid (icomp i) in
  let e1 := if at_entrance i then [EvEntrance tag c] else [] in
  let i' := mkI (itag i) (icomp i) (icur i + ds) (itot i) in
  let e3 := if at_exit i' then [EvExit tag c] else [] in
  (i', e1 ++ [EvBody tag c (icur i) ds] ++ e3, remaining i').

(* SelectIntegrator with the InitialiseIntegrator of a bunch tracker,
   ComponentTracker.cpp:129-146, ComponentTracker.h:323-327 *)
Definition select (n : nat) (c : component) (t : tracker) : res terr (tracker * bool) :=
  match tst t with
  | Undefined | Finished =>
      match lookup n (tset t) with
      | None => Ok (mkT (tst t) None (tset t) (tlog t), false)
      | Some None => UB
      | Some (Some i) =>
          Ok (mkT Initialised (Some (mkI (Some i) c 0 (clen c))) (tset t) (tlog t), true)
      end
  | _ => Throw AssertFailed
  end.
(* PrepareTracker: _PREPTRACK, ComponentTracker.h:353, AcceleratorComponent.cpp:38-44 *)
Fixpoint prepare_classes (ks : list nat) (c : component) (t : tracker) : res terr tracker :=
  match ks with
  | [] => Throw UnknownComponent
  | k :: ks' =>
      do r <- select k c t;
      if snd r then Ok (fst r) else prepare_classes ks' c (fst r)
  end.
Definition prepare (c : component) (t : tracker) : res terr tracker :=
  prepare_classes (classes c) c t.

(* TrackStep, ComponentTracker.cpp:101-109: it answers the state *)
Definition track_step (ds : R) (t : tracker) : res terr (tracker * R) :=
  match tst t with
  | Initialised | Tracking =>
      match tint t with
      | None => UB
      | Some i =>
          if negb (is_valid_step i ds) then Throw AssertFailed else
          match itag i with
          | None => UB
          | Some tag =>
              let '(i', es, rem) := intg_track i tag ds in
              let st := if fequal rem 0 then Finished else Tracking in
              Ok (mkT st (Some i') (tset t) (tlog t ++ es), state_num st)
          end
      end
  | _ => Throw AssertFailed
  end.
(* Track, ComponentTracker.cpp:94-99, ComponentIntegrator.h:144-147 *)
Definition track (t : tracker) : res terr tracker :=
  match tst t with
  | Initialised =>
      match tint t with
      | None => UB
      | Some i =>
          match itag i with
          | None => UB
          | Some tag =>
              let '(i', es, _) := intg_track i tag (clen (icomp i)) in
              Ok (mkT Finished (Some i') (tset t) (tlog t ++ es))
          end
      end
  | _ => Throw AssertFailed
  end.
(* Reset, ComponentTracker.cpp:111-115 *)
Definition reset (t : tracker) : tracker := mkT Undefined None (tset t) (tlog t).
(* GetRemainingLength, GetIntegratedLength, ComponentTracker.cpp:117-127 *)
Definition get_remaining (t : tracker) : res terr R :=
  match tst t with
  | Undefined => Throw AssertFailed
  | _ => match tint t with None => UB | Some i => Ok (remaining i) end
  end.
Definition get_integrated (t : tracker) : res terr R :=
  match tst t with
  | Undefined => Throw AssertFailed
  | _ => match tint t with None => UB | Some i => Ok (icur i) end
  end.

(* MonitorCI::TrackStep, StdIntegrators.cpp:381-404.  [mp] is
   GetMeasurementPt(), measured from the centre. *)
Inductive mev := MDrift (ds : R) | MMeasure.
Definition monitor_step (len mp cur ds : R) : res terr (list mev) :=
  if Reqb len 0 then
    if Reqb ds 0 then Ok [MMeasure] else Throw AssertFailed
  else
    let mpt := mp + len / 2 in
    if Rltb mpt (cur + ds) then
      let s1 := mpt - cur in Ok [MDrift s1; MMeasure; MDrift (ds - s1)]
    else Ok [MDrift ds].
(* a passage divided into steps *)
Fixpoint monitor_run (len mp cur : R) (steps : list R) : res terr (list mev) :=
  match steps with
  | [] => Ok []
  | ds :: r =>
      do e <- monitor_step len mp cur ds;
      do e' <- monitor_run len mp (cur + ds) r;
      Ok (e ++ e')
  end.

(* ComponentDivider, ComponentStepper.cpp:12-51.  Conversion of the quotient to
   int truncates; a quotient by zero or beyond the range of int is undefined. *)
Record divider := mkD { ds_ : R; dnext : R; ddelta : R; dmin : R; dn : Z }.
Definition int_max : Z := 2147483647.
Definition new_divider (ns : Z) (min_step : R) : divider := mkD 0 0 0 min_step ns.
Definition trunc (x : R) : Z := if Rltb x 0 then (- Int_part (- x))%Z else Int_part x.
Definition set_component (l : R) (d : divider) : res terr divider :=
  if Reqb l 0 then Ok (mkD 0 0 (ddelta d) (dmin d) (dn d))
  else if Z.eqb (dn d) 0 then UB
  else
    let delta := l / IZR (dn d) in
    if Rltb delta (dmin d) then
      if Reqb (dmin d) 0 then UB else
      let ns := trunc (l / dmin d + 1) in
      if Z.ltb int_max ns || Z.ltb ns (- int_max - 1) || Z.eqb ns 0 then UB else
      let delta' := l / IZR ns in Ok (mkD 0 delta' delta' (dmin d) (dn d))
    else Ok (mkD 0 delta delta (dmin d) (dn d)).
Definition increment (ds : R) (d : divider) : divider * bool :=
  let s := ds_ d + ds in
  if fequal s (dnext d) then (mkD s (dnext d + ddelta d) (ddelta d) (dmin d) (dn d), true)
  else (mkD s (dnext d) (ddelta d) (dmin d) (dn d), false).
Definition distance (d : divider) : R := dnext d - ds_ d.
