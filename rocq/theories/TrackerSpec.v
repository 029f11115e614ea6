(* What tracking one component should do, described on the history of calls. *)
From Verif Require Import RBase Ranges Tracker.
Local Open Scope R_scope.

Inductive call :=
| CSelect (n : nat) (c : component) | CPrepare (c : component) | CStep (ds : R)
| CTrack | CReset | CRemaining | CIntegrated.
Inductive answer := AUnit | ABool (b : bool) | AReal (r : R).

(* The calls as the library executes them. *)
Definition do_call (k : call) (t : tracker) : res terr (tracker * answer) :=
  match k with
  | CSelect n c => do r <- select n c t; Ok (fst r, ABool (snd r))
  | CPrepare c => do r <- prepare c t; Ok (r, AUnit)
  | CStep ds => do r <- track_step ds t; Ok (fst r, AReal (snd r))
  | CTrack => do r <- track t; Ok (r, AUnit)
  | CReset => Ok (reset t, AUnit)
  | CRemaining => do r <- get_remaining t; Ok (t, AReal r)
  | CIntegrated => do r <- get_integrated t; Ok (t, AReal r)
  end.
Fixpoint do_calls (ks : list call) (t : tracker) : res terr (tracker * list answer) :=
  match ks with
  | [] => Ok (t, [])
  | k :: ks' =>
      do r <- do_call k t;
      do r' <- do_calls ks' (fst r);
      Ok (fst r', snd r :: snd r')
  end.

(* The integrator for a class: the one registered last; markers have a
   built-in one, which a bunch tracker cannot use. *)
Inductive handler := HNone | HBuiltin | HIntg (i : nat).
Definition handler_of (init : list (nat * nat)) (n : nat) : handler :=
  match find (fun x => Nat.eqb (fst x) n) (rev init) with
  | Some x => HIntg (snd x)
  | None => if Nat.eqb n marker_id then HBuiltin else HNone
  end.
(* for a component: of the most derived class that has one *)
Definition handler_for (init : list (nat * nat)) (c : component) : handler :=
  match find (fun n => match handler_of init n with HNone => false | _ => true end) (classes c) with
  | Some n => handler_of init n
  | None => HNone
  end.

(* Where the tracker is: nothing chosen; a choice failed after a component was
   done; integrator [i] on component [c] after these steps. *)
Inductive phase := PIdle | PGone | POn (i : nat) (c : component) (steps : list R).
Definition sum (l : list R) : R := fold_right Rplus 0 l.
Definition near (x y : R) : bool := if Rle_dec (Rabs (x - y)) eps then true else false.
Definition exhausted (c : component) (steps : list R) : bool :=
  match steps with [] => false | _ => near (sum steps) (clen c) end.
Definition left_over (c : component) (steps : list R) : R :=
  if near (sum steps) (clen c) then 0 else clen c - sum steps.
Definition between (a b x : R) : Prop := a <= x <= b \/ b <= x <= a.
Definition between_dec (a b x : R) : {between a b x} + {~ between a b x}.
Proof.
  unfold between. destruct (Rle_dec a x), (Rle_dec x b), (Rle_dec b x), (Rle_dec x a);
    (left; tauto) || (right; tauto).
Defined.

Definition free (p : phase) : bool :=
  match p with PIdle | PGone => true | POn _ c steps => exhausted c steps end.
Definition passed (i : nat) (c : component) (steps : list R) (ds : R) : list ev :=
  (if near (sum steps) 0 then [EvEntrance i (cid c)] else []) ++
  [EvBody i (cid c) (sum steps) ds] ++
  (if near (sum steps + ds) (clen c) then [EvExit i (cid c)] else []).
Definition dropped (p : phase) : phase := match p with PIdle => PIdle | _ => PGone end.

Definition choose (h : handler) (c : component) (p : phase)
    (none : res terr (phase * answer * list ev)) (some : answer) : res terr (phase * answer * list ev) :=
  if free p then
    match h with HNone => none | HBuiltin => UB | HIntg i => Ok (POn i c [], some, []) end
  else Throw AssertFailed.

Definition spec_call (init : list (nat * nat)) (k : call) (p : phase) : res terr (phase * answer * list ev) :=
  match k with
  | CSelect n c => choose (handler_of init n) c p (Ok (dropped p, ABool false, [])) (ABool true)
  | CPrepare c =>
      match classes c with
      | [] => Throw UnknownComponent
      | _ => choose (handler_for init c) c p (Throw UnknownComponent) AUnit
      end
  | CStep ds =>
      match p with
      | POn i c steps =>
          if exhausted c steps then Throw AssertFailed
          else if between_dec 0 (left_over c steps) ds
          then Ok (POn i c (steps ++ [ds]),
                   AReal (if near (sum (steps ++ [ds])) (clen c) then 3 else 2),
                   passed i c steps ds)
          else Throw AssertFailed
      | _ => Throw AssertFailed
      end
  | CTrack =>
      match p with
      | POn i c [] => Ok (POn i c [clen c], AUnit, passed i c [] (clen c))
      | _ => Throw AssertFailed
      end
  | CReset => Ok (PIdle, AUnit, [])
  | CRemaining =>
      match p with
      | PIdle => Throw AssertFailed | PGone => UB
      | POn _ c steps => Ok (p, AReal (left_over c steps), [])
      end
  | CIntegrated =>
      match p with
      | PIdle => Throw AssertFailed | PGone => UB
      | POn _ c steps => Ok (p, AReal (sum steps), [])
      end
  end.
Fixpoint spec_calls (init : list (nat * nat)) (ks : list call) (p : phase) : res terr (list answer * list ev) :=
  match ks with
  | [] => Ok ([], [])
  | k :: ks' =>
      match spec_call init k p with
      | Ok (p', a, es) =>
          do r <- spec_calls init ks' p'; Ok (a :: fst r, es ++ snd r)
      | Throw e => Throw e
      | UB => UB
      end
  end.

(* Division of a passage into steps: what should happen. *)
Fixpoint bodies (i c : nat) (from : R) (steps : list R) : list ev :=
  match steps with
  | [] => []
  | ds :: r => EvBody i c from ds :: bodies i c (from + ds) r
  end.

(* Monitor: the place reached by the drifts, and the places of the
   measurements. *)
Fixpoint places (at_ : R) (es : list mev) : list R :=
  match es with
  | [] => []
  | MDrift d :: r => places (at_ + d) r
  | MMeasure :: r => at_ :: places at_ r
  end.
Fixpoint drifted (es : list mev) : R :=
  match es with [] => 0 | MDrift d :: r => d + drifted r | MMeasure :: r => drifted r end.
(* steps that end beyond a place *)
Fixpoint ends_beyond (m cur : R) (steps : list R) : nat :=
  match steps with
  | [] => O
  | ds :: r => ((if Rlt_dec m (cur + ds) then 1 else 0) + ends_beyond m (cur + ds) r)%nat
  end.

(* Divider: a sequence of increments, none beyond the next boundary, and how
   often it triggered. *)
Fixpoint increments (l : list R) (d : divider) : option (divider * nat) :=
  match l with
  | [] => Some (d, O)
  | x :: r =>
      if Rle_dec 0 x then if Rle_dec x (distance d) then
        let '(d', b) := increment x d in
        match increments r d' with
        | Some (d'', n) => Some (d'', ((if b then 1 else 0) + n)%nat)
        | None => None
        end
      else None else None
  end.
