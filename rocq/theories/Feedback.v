(* Model of LinearFBSystem.cpp (26-31, 57-125, 150-172) over the channels of
   Channels.v. The pseudo-inverse of the response matrix is a function on
   vectors; vector arithmetic checks lengths (TMatrixLib.h, DimensionError). *)
From Coq Require Import ZArith.
From Verif Require Import RBase Channels.
Local Open Scope R_scope.

Definition vop (f : R -> R -> R) (a b : list R) : res unit (list R) :=
  if Nat.eqb (length a) (length b) then Ok (map (fun p => f (fst p) (snd p)) (combine a b)) else Throw tt.
Section Feedback.
Context {M : Type}.
Record fb := mkFB { sigs : list (chan M); acts : list (chan M); gain : R; setp : list R; queue : option (list (list R)); cached : option (list R); minv : list R -> list R }.
(* constructor, 26-31: gain one, setpoints zero, no queue, nothing stored *)
Definition make_fb (s a : list (chan M)) (mi : list R -> list R) : fb := mkFB s a 1 (repeat 0 (length s)) None None mi.
(* 57-60 *)
Definition signals_to_setpoints (f : fb) (m : M) : res unit fb :=
  do v <- read_all (length (setp f)) (sigs f) m ; Ok (mkFB (sigs f) (acts f) (gain f) v (queue f) (cached f) (minv f)).
(* 62-71 *)
Definition store (f : fb) (m : M) : res unit fb :=
  do v <- read_all (length (acts f)) (acts f) m ; Ok (mkFB (sigs f) (acts f) (gain f) (setp f) (queue f) (Some v) (minv f)).
(* 73-77 *)
Definition restore (f : fb) (m : M) : res unit M :=
  match cached f with None => UB | Some v => write_all (acts f) v m end.
(* 89-92 *)
Definition set_gain (g : R) (f : fb) : fb := mkFB (sigs f) (acts f) g (setp f) (queue f) (cached f) (minv f).
(* 121-125 *)
Definition set_setpoints (s : list R) (f : fb) : res unit fb :=
  if Nat.eqb (length s) (length (setp f)) then Ok (mkFB (sigs f) (acts f) (gain f) s (queue f) (cached f) (minv f)) else UB.
(* 99-119 *)
Definition apply_fb (f : fb) (m : M) : res unit (fb * M) :=
  do s <- read_all (length (sigs f)) (sigs f) m ;
  do d <- vop Rminus s (setp f) ;
  do a <- read_all (length (acts f)) (acts f) m ;
  do new <- vop Rplus a (map (fun x => - gain f * x) (minv f d)) ;
  match queue f with
  | Some q =>
      match q ++ [new] with
      | [] => UB
      | front :: rest => do m' <- write_all (acts f) front m ; Ok (mkFB (sigs f) (acts f) (gain f) (setp f) (Some rest) (cached f) (minv f), m')
      end
  | None => do m' <- write_all (acts f) new m ; Ok (f, m')
  end.
(* 150-172 *)
Definition set_delay (n : Z) (f : fb) : res unit fb :=
  if Z.leb n 0 then UB
  else if Z.eqb n 1 then Ok (mkFB (sigs f) (acts f) (gain f) (setp f) None (cached f) (minv f))
  else Ok (mkFB (sigs f) (acts f) (gain f) (setp f) (Some (repeat (repeat 0 (length (acts f))) (Z.to_nat (n - 1)))) (cached f) (minv f)).
(* GetSignalRMS, 132-138; an empty system divides zero by zero *)
Definition signal_rms (f : fb) (m : M) : res unit R :=
  do s <- read_all (length (sigs f)) (sigs f) m ;
  do d <- vop Rminus s (setp f) ;
  Ok (sqrt (fold_right Rplus 0 (map (fun x => x * x) d) / INR (length d))).
End Feedback.
Arguments fb M : clear implicits.
