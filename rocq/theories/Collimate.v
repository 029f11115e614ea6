(* Model of CollimateParticleProcess.cpp: the aperture check of a bunch with the
   search for the place of loss (203-478), the sequence of checks in a component
   (87-161, 480-515) and the turn counter (87-99). The scattering of a particle
   and the transport of lost particles through the component are arguments. *)
From Verif Require Import RBase Cov Bunch.
From Coq Require Import ZArith.
Local Open Scope R_scope.

Inductive lerr := Excessive (lost start : nat).
Record cstate := mkC { bunch : list particle; index : option (list nat); input : list particle; nlost : nat; nstart : nat }.

Section Check.
(* CheckWithinApertureBoundaries(x, y, s) of the component's aperture *)
Variable ap : R -> R -> R -> bool.
(* is_collimator: scattering is on and the aperture is a collimator's *)
Variable coll : bool.
Variable bin : R.
(* DoScatter for the n-th particle: absorbed or not, and the particle afterwards *)
Variable scatter : nat -> vec6 -> bool * vec6.
(* transport through the component from a position by a step *)
Variable advance : R -> R -> vec6 -> vec6.

Definition back (v : vec6) : vec6 := V6 (vx v - bin * vxp v) (vxp v) (vy v - bin * vyp v) (vyp v) (vct v) (vdp v).
Definition forth (v : vec6) : vec6 := V6 (vx v + bin * vxp v) (vxp v) (vy v + bin * vyp v) (vyp v) (vct v) (vdp v).
Definition with_ct (c : R) (v : vec6) : vec6 := V6 (vx v) (vxp v) (vy v) (vyp v) c (vdp v).
Definition placed (p : particle) : vec6 := if coll then back (pv p) else pv p.
Definition outside (s : R) (v : vec6) : bool := negb (ap (vx v) (vy v) s).
(* 212-242: number of the first particle found outside *)
Fixpoint first_out (s : R) (n : nat) (l : list particle) : option nat :=
  match l with [] => None | p :: l' => if outside s (placed p) then Some n else first_out s (S n) l' end.

(* the iterator ip, 294-298 and 308-311: at the end of the list it cannot be read
   or advanced *)
Definition next_index (ix : option (list nat)) : res lerr (option (nat * list nat)) :=
  match ix with None => Ok None | Some [] => UB | Some (i :: r) => Ok (Some (i, r)) end.
Record sifted := mkSift { kept : list particle; kept_ix : option (list nat); gone : list particle; gone_ix : list nat; gone_pos : list nat }.
(* 270-331 *)
Fixpoint sift (s : R) (first n : nat) (l : list particle) (ix : option (list nat)) : res lerr sifted :=
  match l with
  | [] => Ok (mkSift [] ix [] [] [])
  | p :: l' =>
      do nx <- next_index ix;
      let rest := match nx with None => None | Some (_, r) => Some r end in
      do r <- sift s first (S n) l' rest;
      let keep q := Ok (mkSift (mkP q (pid p) :: kept r) (match nx with None => kept_ix r | Some (i, _) => option_map (cons i) (kept_ix r) end) (gone r) (gone_ix r) (gone_pos r)) in
      let v := placed p in
      if Nat.leb first n && outside s v then
        let '(absorbed, v') := if coll then scatter n v else (true, v) in
        if absorbed then
          Ok (mkSift (kept r) (kept_ix r) (mkP (if coll then with_ct (vct v' + (s - bin)) v' else v') (pid p) :: gone r)
                (match nx with None => gone_ix r | Some (i, _) => i :: gone_ix r end) (n :: gone_pos r))
        else keep v'
      else keep (if coll then forth v else v)
  end.

(* 394-403 *)
Definition lost_at (len z : R) (p : particle) : particle :=
  let c := vct (pv p) + z in mkP (with_ct (if Rltb c 0 then 0 else if Rltb len c then len else c) (pv p)) (pid p).
(* 443-448 *)
Definition left_over (len z : R) (p : particle) : particle :=
  let c := vct (pv p) + z in mkP (with_ct (if Rltb len c then len else c) (pv p)) (pid p).
(* the loop 369-434 from integrated length z, and the leftovers 436-450; the
   second list is what the outputs get to see; [n] bounds the number of turns *)
Fixpoint relose (n : nat) (len z : R) (lb : list particle) : res lerr (list particle * list (R * particle)) :=
  let rest := len - z in
  let finish l := Ok (map (left_over len z) l, []) in
  if Rleb 0 rest && negb (Nat.eqb (length lb) 0) then
    match n with
    | O => UB
    | S n =>
        let step := if Rltb (rest - bin) 0 then rest else bin in
        let out := map (lost_at len z) (filter (fun p => outside z (pv p)) lb) in
        let inn := filter (fun p => negb (outside z (pv p))) lb in
        do r <- (if Rltb 0 rest then
                   let inn' := map (fun p => mkP (advance z step (pv p)) (pid p)) inn in
                   if Reqb (len - (z + step)) 0 then Ok (map (left_over len (z + step)) inn', []) else relose n len (z + step) inn'
                 else if Reqb rest 0 then finish inn else relose n len z inn);
        Ok (out ++ fst r, map (fun p => (z, p)) out ++ snd r)
    end
  else finish lb.

(* InputArray[*p], 355-358 *)
Fixpoint pick (input : list particle) (ps : list nat) : res lerr (list particle) :=
  match ps with [] => Ok [] | n :: ps' => do p <- vget input n; do r <- pick input ps'; Ok (p :: r) end.

(* double(nlost) / double(nstart) >= lossThreshold, 473 *)
Definition too_many (thr : R) (lost start : nat) : bool :=
  if Nat.eqb start 0 then negb (Nat.eqb lost 0) else Rleb thr (INR lost / INR start).
(* DoCollimation, 203-478; the charge per macro particle of the bunch stays *)
Definition check (turns : nat) (thr s len : R) (st : cstate) : res lerr (cstate * list (R * particle)) :=
  match first_out s 0 (bunch st) with
  | None => Ok (st, [])
  | Some first =>
      do r <- sift s first 0 (bunch st) (index st);
      do t <- (if negb (Nat.eqb (length (gone_pos r)) 0) && negb coll && negb (Reqb len 0) then
                 do lb <- pick (input st) (gone_pos r); relose turns len 0 lb
               else Ok (gone r, []));
      let n := (nlost st + length (fst t))%nat in
      if too_many thr n (nstart st) then Throw (Excessive n (nstart st))
      else Ok (mkC (kept r) (kept_ix r) [] n (nstart st), snd t)
  end.
End Check.

(* InitialiseProcess, 68-85 *)
Definition initialise (indexing : bool) (l : list particle) (st : cstate) : cstate :=
  mkC l (if indexing then Some (seq 0 (length l)) else None) (input st) 0 (length l).
(* SetCurrentComponent, 131-134 *)
Definition enter_component (coll : bool) (st : cstate) : cstate :=
  mkC (bunch st) (index st) (if coll then input st else bunch st) (nlost st) (nstart st).
(* other processes and the tracker move the particles *)
Definition transport (f : particle -> vec6) (st : cstate) : cstate :=
  mkC (map (fun p => mkP (f p) (pid p)) (bunch st)) (index st) (input st) (nlost st) (nstart st).

(* ---- when checks happen: 110-123, 143-173, 480-515 ---- *)
Record sched := mkS { pos : R; goal : R; at_entr : bool; at_cent : bool; at_exit : bool; is_coll : bool; active : bool }.
(* SetNextS *)
Definition set_next (bin len : R) (c : sched) : sched :=
  let c := if at_entr c then mkS (pos c) 0 false (at_cent c) (at_exit c) (is_coll c) (active c)
           else if at_cent c then mkS (pos c) (len / 2) false false (at_exit c) (is_coll c) (active c)
           else if at_exit c then mkS (pos c) len false false false (is_coll c) (active c)
           else mkS (pos c) (goal c) false false false (is_coll c) false in
  if is_coll c then mkS (pos c) (if Rltb len (pos c + bin) then len else pos c + bin) (at_entr c) (at_cent c) (at_exit c) true true else c.
Definition start_component (coll entr cent exit : bool) (bin len : R) : sched :=
  set_next bin len (if coll then mkS 0 0 false false true true true else mkS 0 0 entr cent exit false true).
(* DoProcess: the new state and whether a check was made *)
Definition do_process (bin len ds : R) (c : sched) : sched * bool :=
  let c := mkS (pos c + ds) (goal c) (at_entr c) (at_cent c) (at_exit c) (is_coll c) (active c) in
  if fequal (pos c) (goal c) then (set_next bin len c, true) else (c, false).
(* GetMaxAllowedStepSize *)
Definition max_step (bin : R) (c : sched) : R := if is_coll c then bin else goal c - pos c.

(* ---- the turn counter, 89-99 ---- *)
Definition count_turn (st : option (str * R) * nat) (c : str * R) : option (str * R) * nat :=
  match fst st with
  | None => (Some c, 1%nat)
  | Some f => if str_eqb (fst c) (fst f) && Reqb (snd c) (snd f) then (Some f, S (snd st)) else st
  end.
