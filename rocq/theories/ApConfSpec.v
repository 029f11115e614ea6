(* What a user of ApertureConfiguration relies on, stated without the functions of the
   model. *)
From Verif Require Import RBase Aper AperSpec ApConf.
From Coq Require Import String List.
Import ListNotations.
Local Open Scope string_scope.
Local Open Scope list_scope.
Local Open Scope R_scope.

(* not decreasing *)
Inductive ordered : list arow -> Prop :=
| ord_nil : ordered []
| ord_cons r l : (forall q, In q l -> a_s r <= a_s q) -> ordered l -> ordered (r :: l).
(* a row of the file has an aperture *)
Definition has_aperture (r : arow) : Prop := a_1 r <> 0 \/ a_2 r <> 0 \/ a_3 r <> 0 \/ a_4 r <> 0.
(* the elements of a file follow each other: each begins at or behind the end of those
   before; s is the end, L the length *)
Inductive follows : R -> list (arow * R) -> Prop :=
| fol_nil s0 : follows s0 []
| fol_cons s0 r L l : 0 <= L -> s0 <= a_s r - L -> follows (a_s r) l -> follows s0 ((r, L) :: l).
(* the same row elsewhere *)
Definition moved (d : R) (r q : arow) : Prop :=
  a_t q = a_t r /\ a_s q = a_s r - d /\ a_1 q = a_1 r /\ a_2 q = a_2 r /\ a_3 q = a_3 r /\ a_4 q = a_4 r.
(* r is the first row at or behind p *)
Definition first_from (p : R) (t : list arow) (r : arow) : Prop :=
  exists u v, t = u ++ r :: v /\ (forall q, In q u -> a_s q < p) /\ p <= a_s r.
(* the aperture of the row *)
Definition describes (r : arow) (a : option ap) : Prop := a = option_map Plain (make_aperture (a_t r) (a_1 r) (a_2 r) (a_3 r) (a_4 r)).
Definition alike (r q : arow) : Prop := a_1 q = a_1 r /\ a_2 q = a_2 r /\ a_3 q = a_3 r /\ a_4 q = a_4 r.
(* the row is at the position or clearly apart *)
Definition apart (p : R) (r : arow) : Prop := a_s r = p \/ 5 * / 10 ^ 7 < Rabs (a_s r - p).
(* the surroundings of a drift: the last row before it, the rows along it, the next row *)
Definition around (t : list arow) (p len : R) (b : arow) (m : list arow) (n : arow) : Prop :=
  (exists u v, t = u ++ b :: m ++ n :: v) /\ a_s b < p /\ (forall q, In q m -> p <= a_s q <= p + len) /\ p + len < a_s n /\ 0 <= len.
(* the rows used for it: the one before only when none is at its beginning *)
Definition kept (p : R) (b : arow) (m : list arow) (n : arow) (l : list arow) : Prop :=
  (exists q, In q m /\ a_s q = p) /\ l = m ++ [n] \/ (forall q, In q m -> a_s q <> p) /\ l = b :: m ++ [n].
(* a particle at (x, y), z behind the beginning of the element, is inside *)
Definition tests (a : ap) (x y z : R) (ok : bool) : Prop :=
  match a with Plain a => within a x y = ok | Interp k l => within_interpolated k l x y z = Ok ok end.
(* the addresses of the apertures of the elements *)
Fixpoint addresses (l : list (option nat)) : list nat :=
  match l with [] => [] | Some a :: l' => a :: addresses l' | None :: l' => addresses l' end.
