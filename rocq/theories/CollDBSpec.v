(* What a user of CollimatorDatabase relies on, stated without the functions of the
   model. *)
From Verif Require Import RBase Base Aper AperSpec CollDB.
From Coq Require Import String List.
Import ListNotations.
Local Open Scope string_scope.
Local Open Scope list_scope.
Local Open Scope R_scope.

(* a line of the file: name, numbers, material *)
Record line := mkLine { l_name : string; l_nums : list R; l_mat : string }.
Definition written (k : nat) (l : line) (ts : list token) : Prop :=
  exists a ns b, ts = a :: ns ++ [b] /\ text a = l_name l /\ map num ns = map Some (l_nums l) /\ List.length ns = k /\ text b = l_mat l.
(* the data of a line: gaps, or multiples of the beam size *)
Definition gap_record (db : string -> option nat) (l : line) (d : cdata) : Prop :=
  d_name d = l_name l /\ [d_xgap d; d_ygap d; d_tilt d; d_xoff d; d_yoff d; d_j1 d; d_j2 d; d_len d] = map Some (l_nums l) /\ d_mat d = db (l_mat l).
Definition sigma_record (db : string -> option nat) (l : line) (d : cdata) : Prop :=
  d_name d = l_name l /\ [d_sx d; d_sy d; d_tilt d] = map Some (l_nums l) /\ d_mat d = db (l_mat l).
(* name, length and position stay *)
Definition same_place (c c' : coll) : Prop := c_name c' = c_name c /\ c_len c' = c_len c /\ c_pos c' = c_pos c.
(* an earlier collimator has the same name *)
Definition repeated (l : list coll) (i : nat) : Prop :=
  exists j a b, (j < i)%nat /\ nth_error l j = Some a /\ nth_error l i = Some b /\ c_name a = c_name b.
(* the width of the beam across jaws turned by t *)
Definition beam_width (ex ey t : R) (r : twrow) (s : R) : Prop :=
  0 <= s /\ s * s = w_bx r * ex * (cos t * cos t) + w_by r * ey * (sin t * sin t).
(* exactly one row of the optical functions is at the position, and another one follows *)
Definition at_row (rows : list twrow) (p : R) (r r' : twrow) : Prop :=
  exists u v, rows = u ++ r :: r' :: v /\ w_s r = p /\ forall q, In q (u ++ r' :: v) -> w_s q <> p.
