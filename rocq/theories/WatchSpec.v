(* What the check for finite coordinates, the monitor and the errors of frames should do. *)
From Verif Require Import RBase Base Watch.
From Coq Require Import List ZArith Ascii.
Import ListNotations.
Local Open Scope R_scope.

Definition bad (p : wpart) : Prop := In None [w_x p; w_xp p; w_y p; w_yp p; w_ct p; w_dp p].
(* identities announced in the output *)
Fixpoint founds (l : list line) : list Z :=
  match l with [] => [] | LFound _ i _ :: q => i :: founds q | _ :: q => founds q end.
(* histories: checks of any bunches, entries of elements, switches *)
Inductive wop := OCheck (name : str) (b : list wpart) | OElement (b : list wpart) | ODetailed (v : bool) | OCull (v : bool) | OHalt (v : bool).
Fixpoint history (l : list wop) (c : chk) : option (chk * list line) :=
  match l with
  | [] => Some (c, [])
  | o :: q =>
    match o with
    | OCheck name b => match do_check name c b with WRun c' _ out => match history q c' with Some (d, out') => Some (d, (out ++ out')%list) | None => None end | _ => None end
    | OElement b => history q (set_component b c)
    | ODetailed v => history q (set_detailed v c)
    | OCull v => history q (set_cull v c)
    | OHalt v => history q (set_halt v c)
    end
  end.
(* the error of a coordinate with the given rms and mean, z a standard normal number *)
Definition gauss (rms mean z : R) : R := mean + Rabs rms * z.
