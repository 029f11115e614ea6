(** Model of ProcessStepManager (Merlin++/ProcessStepManager.cpp) and of the
    part of BunchProcess it uses (BunchProcess.h).

    Table: a process is an identity (its pointer) and a priority, taken to be
    fixed while it is registered.  Tracking: a process is what the manager can
    see of it, as functions of the state of the world [W] (bunch, component and
    all processes); logging is dropped. *)
From Verif Require Import RBase.

(** * The table *)
Record entry := mkE { pid : nat; prio : Z }.

(** lines 155-171 *)
Fixpoint insert_at (p : entry) (t : list entry) : list entry :=
  match t with
  | [] => [p]
  | q :: t' => if Z.leb (prio q) (prio p) then q :: insert_at p t' else p :: t
  end.
Definition add_process (p : entry) (t : list entry) : list entry :=
  if Z.ltb (prio p) 0 then t ++ [p] else insert_at p t.

(** lines 173-178: find, erase, compare with end(); erasing end() is undefined *)
Fixpoint remove_process (p : nat) (t : list entry) : res Empty_set (list entry * bool) :=
  match t with
  | [] => UB
  | q :: t' =>
      if Nat.eqb (pid q) p then Ok (t', match t' with [] => false | _ => true end)
      else do r <- remove_process p t'; Ok (q :: fst r, snd r)
  end.

Inductive table_op := Add (p : entry) | Remove (p : nat) | Clear.
Definition table_step (o : table_op) (t : list entry) : res Empty_set (list entry) :=
  match o with
  | Add p => Ok (add_process p t)
  | Remove p => do r <- remove_process p t; Ok (fst r)
  | Clear => Ok []                                            (* 180-184 *)
  end.
Fixpoint table_run (ops : list table_op) (t : list entry) : res Empty_set (list entry) :=
  match ops with
  | [] => Ok t
  | o :: os => do t1 <- table_step o t; table_run os t1
  end.

(** * Tracking *)
Local Open Scope R_scope.
Section Track.
Context {W : Type}.

Record proc := mkP {
  active : W -> bool;             (* IsActive() *)
  max_step : W -> R;              (* GetMaxAllowedStepSize() *)
  set_component : W -> W;         (* SetCurrentComponent(component) *)
  do_process : R -> W -> W }.     (* DoProcess(ds) *)

(** CalcStepSize, lines 59-74, with for_each *)
Definition calc_step (ps : list proc) (smax : R) (w : W) : R :=
  fold_left (fun ds p => if active p w then Rmin ds (max_step p w) else ds) ps smax.

(** DoProc, lines 88-101, with for_each; also the numbers of the processes run *)
Fixpoint do_all (ps : list proc) (i : nat) (ds : R) (w : W) : W * list nat :=
  match ps with
  | [] => (w, [])
  | p :: ps' =>
      if active p w
      then let (w', l) := do_all ps' (S i) ds (do_process p ds w) in (w', i :: l)
      else do_all ps' (S i) ds w
  end.

(** SetCmpnt, lines 45-57 *)
Definition enter (ps : list proc) (w : W) : W := fold_left (fun w p => set_component p w) ps w.

(** one turn of the loop: state before it, position, step, processes run *)
Record tstep := mkStep { st_w : W; st_s : R; st_ds : R; st_run : list nat }.

(** the do-while loop, lines 139-145; [None]: still running after [fuel] turns *)
Fixpoint loop (fuel : nat) (ps : list proc) (sc s : R) (w : W) : option (W * list tstep) :=
  match fuel with
  | O => None
  | S f =>
      let ds := calc_step ps (sc - s) w in
      let (w1, l) := do_all ps 0 ds w in
      let r := mkStep w s ds l in
      if fequal sc (s + ds) then Some (w1, [r])
      else match loop f ps sc (s + ds) w1 with
           | None => None
           | Some (w2, rs) => Some (w2, r :: rs)
           end
  end.

(** Track, lines 132-148: also the new integrated length *)
Definition track (fuel : nat) (ps : list proc) (sc total : R) (w : W) : option (W * list tstep * R) :=
  match loop fuel ps sc 0 (enter ps w) with
  | None => None
  | Some (w', rs) => Some (w', rs, total + sc)
  end.
(** a sequence of components; total_s starts from Initialise, lines 126-130 *)
Fixpoint track_all (fuel : nat) (cs : list (list proc * R)) (total : R) (w : W) : option (W * R) :=
  match cs with
  | [] => Some (w, total)
  | (ps, sc) :: cs' =>
      match track fuel ps sc total w with
      | None => None
      | Some (w', _, t') => track_all fuel cs' t' w'
      end
  end.
End Track.
Arguments proc : clear implicits.
Arguments tstep : clear implicits.
