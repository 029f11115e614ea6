(* Corrector windings on magnets: CorrectorWinding.cpp 15-45.  Exact reals; a division by
   a length of zero gives no number and is Throw. *)
From Verif Require Import RBase Rot Cplx Field.
Local Open Scope R_scope.

(* the magnet: its field and length *)
Record magnet := mkMag { mg_f : field; mg_len : R }.
(* SetBx, 15-24 *)
Definition set_bx (v : R) (m : magnet) : res unit magnet :=
  if Reqb (b0 (mg_f m)) 0 then Ok m else
  if Reqb (mg_len m) 0 then Throw tt else do f <- set_component 0 0 (v / mg_len m) 1 (mg_f m) ; Ok (mkMag f (mg_len m)).
(* SetBy, 26-35 *)
Definition set_by (v : R) (m : magnet) : res unit magnet :=
  if Reqb (b0 (mg_f m)) 0 then Ok m else
  if Reqb (mg_len m) 0 then Throw tt else do f <- set_component 0 (v / mg_len m) 0 1 (mg_f m) ; Ok (mkMag f (mg_len m)).
(* GetBx, 37-40; GetBy, 42-45: the growth of the expansion on reading is left out, see Field.v *)
Definition get_bx (m : magnet) : R := im (snd (get_component 0 1 (mg_f m))) * mg_len m.
Definition get_by (m : magnet) : R := re (snd (get_component 0 1 (mg_f m))) * mg_len m.
(* SetFieldStrength of the magnet, RectMultipole.h 98-101 *)
Definition set_strength (s : R) (m : magnet) : magnet := mkMag (set_scale s (mg_f m)) (mg_len m).
