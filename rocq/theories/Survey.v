(* Model of ApertureSurvey.cpp:35-191 *)
From Coq Require Import ZArith.
From Verif Require Import RBase.
Local Open Scope R_scope.

(* the while loop of CheckAperture, 68-83; [n] bounds the number of turns *)
Fixpoint bisect (n : nat) (delta : R) (inside : R -> bool) (below above : R) : res unit (R * R) :=
  if Rltb delta (above - below) then
    match n with
    | O => UB
    | S n => let guess := (above + below) / 2 in
             if inside guess then bisect n delta inside guess above else bisect n delta inside below guess
    end
  else Ok (below, above).
Definition delta : R := / 1000000.
(* CheckAperture, 35-85: 0 below 1 above, four directions *)
Definition limit (n : nat) (inside : R -> bool) : res unit R := do p <- bisect n delta inside 0 1; Ok ((snd p + fst p) / 2).
Definition check_aperture (n : nat) (within : R -> R -> R -> bool) (s : R) : res unit (list R) :=
  do a <- limit n (fun g => within (1 * g) (0 * g) s);
  do b <- limit n (fun g => within (-1 * g) (0 * g) s);
  do c <- limit n (fun g => within (0 * g) (1 * g) s);
  do d <- limit n (fun g => within (0 * g) (-1 * g) s);
  Ok [a; b; c; d].

(* ---- where the aperture is sampled, 137-163 ---- *)
Inductive smode := PointsPerElement | Distance | AbsDistance.
Record element := EL { lpos : R; llen : R }.
Inductive serr := SExit.
(* points_per_element, 141-148 *)
Definition points_of (points : nat) (len : R) : list R := 0 :: map (fun i => INR i * len * (1 / INR (points - 1))) (seq 1 (points - 1)).
(* distance, 149-155; [n] bounds the number of turns *)
Fixpoint steps_of (n : nat) (step len sample : R) : res serr (list R) :=
  if Rleb sample len then match n with O => UB | S n => do l <- steps_of n step len (sample + step); Ok (sample :: l) end else Ok [].
(* abs_distance, 156-162 *)
Fixpoint abs_of (n : nat) (step s len last : R) : res serr (list R * R) :=
  if Rltb (last + step) (s + len) then
    match n with O => UB | S n => do r <- abs_of n step s len (last + step); Ok ((last + step - s) :: fst r, snd r) end
  else Ok ([], last).
Definition samples (n points : nat) (m : smode) (step s len last : R) : res serr (list R * R) :=
  match m with
  | PointsPerElement => Ok (points_of points len, last)
  | Distance => do l <- steps_of n step len 0; Ok (l ++ [len], last)
  | AbsDistance => abs_of n step s len last
  end.
(* the loop over the beamline, 114-191: the positions s + z printed for every
   element, with the element's number *)
Fixpoint survey (n points : nat) (m : smode) (step s last : R) (k : nat) (l : list element) : res serr (list (nat * R)) :=
  match l with
  | [] => Ok []
  | e :: l' =>
      if Reqb (llen e) 0 then survey n points m step s last (S k) l'
      else if Rltb (/ 1000000) (Rabs (s - lpos e)) then Throw SExit
      else do r <- samples n points m step s (llen e) last;
           do t <- survey n points m step (s + llen e) (snd r) (S k) l';
           Ok (map (fun z => (k, s + z)) (fst r) ++ t)
  end.
(* 92-116; [points] is size_t(step) *)
Definition run_survey (n points : nat) (m : smode) (step : R) (l : list element) : res serr (list (nat * R)) :=
  match m with
  | PointsPerElement => if Nat.ltb points 1 then Throw SExit else survey n points m step 0 (0 - step) 0 l
  | _ => if Rleb step 0 then Throw SExit else survey n points m step 0 (0 - step) 0 l
  end.
