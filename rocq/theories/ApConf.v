(* Model of Merlin++/ApertureConfiguration.cpp 23-300, 333-346: apertures of elements
   from a table along the machine.  The table is read by DataTableReaderTFS, which is
   modelled elsewhere: here its rows are given.  Numbers are exact reals; text printed
   for the user is left out, except for the number of configured apertures. *)
From Verif Require Import RBase Aper.
From Coq Require Import String List.
Import ListNotations.
Local Open Scope string_scope.
Local Open Scope list_scope.
Local Open Scope R_scope.

(* a row of ApertureDataTable *)
Record arow := mkA { a_t : string; a_s : R; a_1 : R; a_2 : R; a_3 : R; a_4 : R }.
Definition at_s (s : R) (r : arow) : arow := mkA (a_t r) s (a_1 r) (a_2 r) (a_3 r) (a_4 r).
Definition dims (d1 d2 d3 d4 : R) (r : arow) : arow := mkA (a_t r) (a_s r) d1 d2 d3 d4.
(* ApertureConfiguration.cpp 43-52: rows of the file with the length L of the element;
   DataTable.cpp 72-81 copies the six columns *)
Definition load_row (rl : arow * R) : list arow :=
  let r := fst rl in
  if (negb (Reqb (a_1 r) 0) || negb (Reqb (a_2 r) 0) || negb (Reqb (a_3 r) 0) || negb (Reqb (a_4 r) 0))%bool
  then [at_s (a_s r - snd rl) r; r] else [].
Definition load (file : list (arow * R)) : list arow := flat_map load_row file.

(* an aperture object; the null pointer is None *)
Inductive ap := Plain (a : aperture) | Interp (k : itype) (l : list entry).
Inductive cerr := OutOfRange | Exits.
Definition cres := res cerr.
(* DataTable::Get_d, Get_s with at(): DataTable.cpp 107-135 *)
Definition row_at (t : list arow) (i : nat) : cres arow := match nth_error t i with Some r => Ok r | None => Throw OutOfRange end.
(* std::lower_bound: the table has to be partitioned by the position *)
Fixpoint none_below (p : R) (t : list arow) : bool := match t with [] => true | r :: t' => (negb (Rltb (a_s r) p) && none_below p t')%bool end.
Fixpoint lower_bound (p : R) (t : list arow) : cres nat :=
  match t with
  | [] => Ok O
  | r :: t' => if Rltb (a_s r) p then do i <- lower_bound p t'; Ok (S i)
               else if none_below p t' then Ok O else UB
  end.
(* ApertureFactory::GetInstance of a row *)
Definition plain_of (r : arow) : option ap := option_map Plain (make_aperture (a_t r) (a_1 r) (a_2 r) (a_3 r) (a_4 r)).
(* InterpolatorFactory::GetInstance: the type of the first row counts,
   InterpolatedApertures.cpp 48-60, 497-517 *)
Definition entry_of (r : arow) : entry := AE (a_s r) (a_1 r) (a_2 r) (a_3 r) (a_4 r).
Definition itype_of (type : string) : option itype :=
  if String.eqb type "RECTELLIPSE" then Some IRectEllipse else if String.eqb type "CIRCLE" then Some ICircle
  else if String.eqb type "RECTANGLE" then Some IRect else if String.eqb type "ELLIPSE" then Some IEllipse
  else if String.eqb type "OCTAGON" then Some IOctagon else None.
Definition interp_of (l : list arow) : cres (option ap) :=
  match l with [] => Throw OutOfRange | r :: _ => Ok (option_map (fun k => Interp k (map entry_of l)) (itype_of (a_t r))) end.

(* 122-140: the rows from this_ap on up to the end of the element, and the next one; at
   the end of the table the first one *)
Fixpoint gather (t0 : arow) (upto : R) (t : list arow) : list arow :=
  match t with
  | [] => [t0]
  | r :: t' => if Rleb (a_s r) upto then r :: gather t0 upto t' else [r]
  end.
(* 86-140 *)
Definition collect (t : list arow) (pos len : R) : cres (list arow) :=
  do i <- lower_bound pos t;
  let i := if Nat.eqb i (List.length t) then Nat.pred i else i in
  do t0 <- row_at t 0;
  do prev <- (match i with O => row_at t (Nat.pred (List.length t)) | S j => row_at t j end);
  Ok (prev :: gather t0 (pos + len) (skipn i t)).
(* 144-176: rows before the element are counted, rows at its position marked and moved
   there, the first ones left out *)
Definition near (tol pos : R) (r : arow) : bool := Rleb (Rabs (a_s r - pos - 0)) tol.
Definition snap (tol pos : R) (r : arow) : arow := if near tol pos r then at_s pos r else r.
Fixpoint neg_count (pos : R) (l : list arow) : nat :=
  match l with [] => O | r :: l' => if Rltb (a_s r - pos) 0 then S (neg_count pos l') else neg_count pos l' end.
Definition clean_rows (pos : R) (l : list arow) : list arow :=
  let n := neg_count pos l in
  let l' := map (snap (/ 10 ^ 7) pos) l in
  if existsb (near (/ 10 ^ 7) pos) l then skipn n l' else skipn (Nat.pred n) l'.
(* 178-181 *)
Definition clean (pos : R) (l : list arow) : cres (list arow) :=
  match clean_rows pos l with [] => Throw OutOfRange | r :: l' => Ok (snap (5 * / 10 ^ 7) pos r :: l') end.
(* 184-200 *)
Definition same_dims (r q : arow) : bool :=
  (Reqb (a_1 r) (a_1 q) && Reqb (a_2 r) (a_2 q) && Reqb (a_3 r) (a_3 q) && Reqb (a_4 r) (a_4 q))%bool.
(* 216-260 *)
Definition unify (r : arow) : arow :=
  let t := a_t r in
  if String.eqb t "CIRCLE" then dims (a_1 r) (a_1 r) (a_1 r) (a_1 r) r
  else if String.eqb t "ELLIPSE" then dims (a_1 r) (a_2 r) (a_1 r) (a_2 r) r
  else if String.eqb t "RECTANGLE" then dims (a_1 r) (a_2 r) (a_1 r) (a_2 r) r
  else r.
Definition rounded (r : arow) : bool := (String.eqb (a_t r) "RECTELLIPSE" || String.eqb (a_t r) "CIRCLE" || String.eqb (a_t r) "ELLIPSE")%bool.
Definition octagonal (r : arow) : bool := String.eqb (a_t r) "OCTAGON".
(* 184-282 *)
Definition build (pos : R) (l : list arow) : cres (option ap) :=
  match l with
  | [] => Throw OutOfRange
  | r :: _ =>
      if forallb (same_dims r) l then Ok (plain_of r) else
      let l' := map (fun q => at_s (a_s q - pos) q) l in
      if forallb (fun q => String.eqb (a_t r) (a_t q)) l then interp_of l'
      else if (existsb rounded l && existsb octagonal l)%bool then Throw Exits else interp_of (map unify l')
  end.

(* an element: type, length, position, aperture *)
Record elem := mkE { c_type : string; c_len : R; c_pos : R; c_ap : option ap }.
Definition set_ap (a : option ap) (e : elem) : elem := mkE (c_type e) (c_len e) (c_pos e) a.
Definition find_ap (t : list arow) (e : elem) : cres (option ap) :=
  if negb (String.eqb (c_type e) "Drift") then
    do i <- lower_bound (c_pos e) t; do r <- row_at t i; Ok (plain_of r)
  else do l <- collect t (c_pos e) (c_len e); do c <- clean (c_pos e) l; build (c_pos e) c.
(* ConfigureElementApertures, 55-300: the elements after it and the number printed *)
Definition wanted (e : elem) : bool := match c_ap e with Some _ => false | None => negb (Reqb (c_len e) 0) end.
Fixpoint configure_all (t : list arow) (l : list elem) : cres (list elem * nat) :=
  match l with
  | [] => Ok ([], O)
  | e :: l' =>
      if wanted e then
        do a <- find_ap t e; do r <- configure_all t l'; Ok (set_ap a e :: fst r, S (snd r))
      else do r <- configure_all t l'; Ok (e :: fst r, snd r)
  end.

(* DeleteAllApertures, 333-346: the elements with the addresses of their apertures, and
   the addresses which hold an object *)
Fixpoint delete_all (l : list (option nat)) (live : list nat) : cres (list (option nat) * list nat) :=
  match l with
  | [] => Ok ([], live)
  | None :: l' => do r <- delete_all l' live; Ok (None :: fst r, snd r)
  | Some a :: l' =>
      if existsb (Nat.eqb a) live then
        do r <- delete_all l' (filter (fun b => negb (Nat.eqb a b)) live); Ok (None :: fst r, snd r)
      else UB
  end.
