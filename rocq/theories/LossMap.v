(* Model of LossMapCollimationOutput.cpp (13-166) and DetailedCollimationOutput.cpp
   (17-40, 60-63). The record's count of lost particles is a nat, the particle is
   its phase space vector; reset (CollimationOutput.h 53-64) is part of the
   constructor calls; std::sort is any sorted rearrangement (Compare_LossData,
   CollimationOutput.h 126-129). *)
From Verif Require Import RBase StringPattern Bunch.
Local Open Scope R_scope.

Inductive temp := TCollimator | TCold | TWarm | TUndefined.
Record lrec := LR { lname : str; ls : R; linterval : R; lposition : R; llength : R; lost : nat; ltemp : temp; lturn : Z; lp : vec6 }.
(* the component: qualified name, name, position in the lattice, length, and whether
   its type is "Collimator" *)
Record comp := mkComp { cqname : str; cname : str; cz : R; clen : R; ccoll : bool }.

(* the search for the 10 cm bin, 31-45; [None] when it has not ended after [n] turns *)
Fixpoint find_interval (n : nat) (inter pos : R) : option R :=
  match n with
  | O => None
  | S n => if Rleb inter pos && Rltb pos (inter + 1 / 10) then Some inter else find_interval n (inter + 1 / 10) pos
  end.
(* 48-66 *)
Definition temperature (warm : list (R * R)) (c : comp) : temp :=
  fold_left (fun t w => if negb (ccoll c) && Rleb (fst w) (cz c) && Rleb (cz c) (snd w) then TWarm else t) warm (if ccoll c then TCollimator else TCold).
(* Dispose, 13-72 *)
Definition dispose (n : nat) (warm : list (R * R)) (c : comp) (pos : R) (p : vec6) (dead : list lrec) : option (list lrec) :=
  match find_interval n 0 pos with
  | None => None
  | Some i => Some (dead ++ [LR (cqname c) (cz c) i (pos + cz c) (clen c) 1 (temperature warm c) 0 p])
  end.

(* Compare_LossData: both sides add the interval of the first argument *)
Definition before (a b : lrec) : bool := Rltb (ls a + lposition a + linterval a) (ls b + lposition b + linterval a).

Inductive omode := Nearest | Precise | TenCm.
Definition with_lost (n : nat) (d : lrec) : lrec := LR (lname d) (ls d) (linterval d) (lposition d) (llength d) n (ltemp d) (lturn d) (lp d).
(* the tests 102, 125 and 148 *)
Definition matches (m : omode) (d o : lrec) : bool :=
  match m with
  | Nearest => str_eqb (lname d) (lname o)
  | Precise => Reqb (lposition d) (lposition o)
  | TenCm => str_eqb (lname d) (lname o) && Reqb (linterval d) (linterval o)
  end.
Definition put (outs : list lrec) (i : nat) (d : lrec) : res unit (list lrec) := match upd outs i d with Some l => Ok l | None => UB end.
(* one turn of the loops 92-112, 115-135, 138-160 *)
Definition merge_one (m : omode) (st : list lrec * nat) (d : lrec) : res unit (list lrec * nat) :=
  let '(outs, i) := st in
  match m with
  | TenCm =>
      match outs with
      | [] => do o <- put [d] i (with_lost 1 d); Ok (o, i)
      | _ => do o <- vget outs i;
             if matches m d o then do l <- put outs i (with_lost (S (lost o)) o); Ok (l, i)
             else do l <- put (outs ++ [d]) (S i) (match nth_error (outs ++ [d]) (S i) with Some e => with_lost 1 e | None => d end); Ok (l, S i)
      end
  | _ =>
      let outs := match outs with [] => [d] | _ => outs end in
      do o <- vget outs i;
      if matches m d o then do l <- put outs i (with_lost (S (lost o)) o); Ok (l, i)
      else Ok (outs ++ [d], S i)
  end.
Fixpoint merge_all (m : omode) (st : list lrec * nat) (l : list lrec) : res unit (list lrec * nat) :=
  match l with [] => Ok st | d :: l' => do st' <- merge_one m st d; merge_all m st' l' end.
(* Finalise, 79-166, on the sorted records *)
Definition finalise (m : omode) (outs sorted : list lrec) : res unit (list lrec) :=
  do r <- merge_all m (outs, 0%nat) sorted; Ok (fst r).

(* DetailedCollimationOutput::Dispose, 17-40: any_of over the identifiers *)
Fixpoint any_match (ids : list pattern) (name : str) : res unit bool :=
  match ids with [] => Ok false | p :: r => do b <- Match p name; if b then Ok true else any_match r name end.
Definition dispose_detailed (ids : list pattern) (c : comp) (pos : R) (p : vec6) (turn : Z) (dead : list lrec) : res unit (list lrec) :=
  do b <- any_match ids (cname c);
  Ok (if b then dead ++ [LR (cname c) (cz c) 0 pos (clen c) 1 TUndefined turn p] else dead).
