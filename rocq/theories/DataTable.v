(** Model of DataTable (Merlin++/DataTable.h, DataTable.cpp).

    [D] stands for double with its value-initialised value [d0]; [stod], [stoi],
    [showd], [showi] stand for std::stod, std::stoi and std::to_string.
    Row accessors (DataTableRow, ConstDataTableRow, DataTable.h 276-407) only
    forward to the functions below with their stored row number. *)
From Verif Require Import Base.

Inductive dt_err := OutOfRange | InvalidArgument | WrongType.

Section DT.
Context {D : Type} (d0 : D).
Context (stod : str -> res dt_err D) (stoi : str -> res dt_err Z).
Context (showd : D -> str) (showi : Z -> str).

Inductive val := VD (d : D) | VI (z : Z) | VS (s : str).

Definition cD : ascii := "d". Definition cI : ascii := "i". Definition cS : ascii := "s".

(** DataTable.h 60-87: data members; unordered_map as association list *)
Record table := mkT {
  data_d : list (list D); data_i : list (list Z); data_s : list (list str);
  col_names : list str; lookup : list (str * (ascii * nat)); len : nat;
  hdata_d : list D; hdata_i : list Z; hdata_s : list str;
  hcol_names : list str; hlookup : list (str * (ascii * nat)) }.

(** DataTable.h 91-94 *)
Definition empty : table := mkT [] [] [] [] [] 0 [] [] [] [] [].

Fixpoint assoc {B} (k : str) (l : list (str * B)) : option B :=
  match l with
  | [] => None
  | (k', b) :: l' => if str_eqb k k' then Some b else assoc k l'
  end.

(** vector::at *)
Definition at_ {A} (l : list A) (i : nat) : res dt_err A :=
  match nth_error l i with Some a => Ok a | None => Throw OutOfRange end.
Definition set_at {A} (l : list A) (i : nat) (a : A) : res dt_err (list A) :=
  match upd l i a with Some l' => Ok l' | None => Throw OutOfRange end.

(** DataTable.cpp 12-47 *)
Definition add_column (n : str) (c : ascii) (t : table) : res dt_err table :=
  match assoc n (lookup t) with
  | Some _ => Throw InvalidArgument
  | None =>
      let reg d i s pos := Ok (mkT d i s (col_names t ++ [n]) (lookup t ++ [(n, (c, pos))]) (len t)
                           (hdata_d t) (hdata_i t) (hdata_s t) (hcol_names t) (hlookup t)) in
      if char_eqb c cD then
        reg (data_d t ++ [repeat d0 (len t)]) (data_i t) (data_s t) (length (data_d t))
      else if char_eqb c cI then
        reg (data_d t) (data_i t ++ [repeat 0%Z (len t)]) (data_s t) (length (data_i t))
      else if char_eqb c cS then
        reg (data_d t) (data_i t) (data_s t ++ [repeat [] (len t)]) (length (data_s t))
      else Throw WrongType
  end.

(** DataTable.cpp 49-65 *)
Definition add_row (t : table) : table * nat :=
  (mkT (map (fun a => a ++ [d0]) (data_d t)) (map (fun a => a ++ [0%Z]) (data_i t))
       (map (fun a => a ++ [[]]) (data_s t)) (col_names t) (lookup t) (S (len t))
       (hdata_d t) (hdata_i t) (hdata_s t) (hcol_names t) (hlookup t), len t).

(** DataTable.cpp 83-93 *)
Definition get_location (n : str) (t : table) : res dt_err (ascii * nat) :=
  match assoc n (lookup t) with Some l => Ok l | None => Throw OutOfRange end.

(** DataTable.cpp 107-135 *)
Definition get_d (n : str) (i : nat) (t : table) : res dt_err D :=
  do l <- get_location n t;
  if negb (char_eqb (fst l) cD) then Throw WrongType else
  do c <- at_ (data_d t) (snd l); at_ c i.
Definition get_i (n : str) (i : nat) (t : table) : res dt_err Z :=
  do l <- get_location n t;
  if negb (char_eqb (fst l) cI) then Throw WrongType else
  do c <- at_ (data_i t) (snd l); at_ c i.
Definition get_s (n : str) (i : nat) (t : table) : res dt_err str :=
  do l <- get_location n t;
  if negb (char_eqb (fst l) cS) then Throw WrongType else
  do c <- at_ (data_s t) (snd l); at_ c i.

Definition with_d t d := mkT d (data_i t) (data_s t) (col_names t) (lookup t) (len t)
  (hdata_d t) (hdata_i t) (hdata_s t) (hcol_names t) (hlookup t).
Definition with_i t i := mkT (data_d t) i (data_s t) (col_names t) (lookup t) (len t)
  (hdata_d t) (hdata_i t) (hdata_s t) (hcol_names t) (hlookup t).
Definition with_s t s := mkT (data_d t) (data_i t) s (col_names t) (lookup t) (len t)
  (hdata_d t) (hdata_i t) (hdata_s t) (hcol_names t) (hlookup t).

(** DataTable.cpp 137-165: the three overloads of Set *)
Definition set_d (n : str) (i : nat) (x : D) (t : table) : res dt_err table :=
  do l <- get_location n t;
  if negb (char_eqb (fst l) cD) then Throw WrongType else
  do c <- at_ (data_d t) (snd l);
  do c' <- set_at c i x;
  do m <- set_at (data_d t) (snd l) c'; Ok (with_d t m).
Definition set_i (n : str) (i : nat) (x : Z) (t : table) : res dt_err table :=
  do l <- get_location n t;
  if negb (char_eqb (fst l) cI) then Throw WrongType else
  do c <- at_ (data_i t) (snd l);
  do c' <- set_at c i x;
  do m <- set_at (data_i t) (snd l) c'; Ok (with_i t m).
Definition set_s (n : str) (i : nat) (x : str) (t : table) : res dt_err table :=
  do l <- get_location n t;
  if negb (char_eqb (fst l) cS) then Throw WrongType else
  do c <- at_ (data_s t) (snd l);
  do c' <- set_at c i x;
  do m <- set_at (data_s t) (snd l) c'; Ok (with_s t m).
(** overload resolution on the argument type *)
Definition set (n : str) (i : nat) (v : val) (t : table) : res dt_err table :=
  match v with VD x => set_d n i x t | VI x => set_i n i x t | VS x => set_s n i x t end.

(** DataTable.cpp 167-184 *)
Definition set_with_str (n : str) (i : nat) (x : str) (t : table) : res dt_err table :=
  do l <- get_location n t;
  if char_eqb (fst l) cD then do v <- stod x; set_d n i v t
  else if char_eqb (fst l) cI then do v <- stoi x; set_i n i v t
  else if char_eqb (fst l) cS then set_s n i x t
  else Throw WrongType.

(** DataTable.cpp 186-200 *)
Definition get_as_str (n : str) (i : nat) (t : table) : res dt_err str :=
  do l <- get_location n t;
  if char_eqb (fst l) cD then do v <- get_d n i t; Ok (showd v)
  else if char_eqb (fst l) cI then do v <- get_i n i t; Ok (showi v)
  else if char_eqb (fst l) cS then get_s n i t
  else Throw WrongType.

(** AddRowN, DataTable.h 259-266; the table as left behind, and the outcome *)
Fixpoint add_row_n (col row : nat) (vs : list val) (t : table) : table * res dt_err unit :=
  match vs with
  | [] => (t, Ok tt)
  | v :: vs' =>
      match at_ (col_names t) col with
      | Ok n => match set n row v t with
                | Ok t' => add_row_n (S col) row vs' t'
                | Throw e => (t, Throw e)
                | UB => (t, UB)
                end
      | Throw e => (t, Throw e)
      | UB => (t, UB)
      end
  end.
(** variadic AddRow, DataTable.h 251-257 *)
Definition add_row_v (vs : list val) (t : table) : table * res dt_err unit :=
  let (t', row) := add_row t in add_row_n 0 row vs t'.

(** DataTable.cpp 202-237 *)
Definition h_add_column (n : str) (c : ascii) (t : table) : res dt_err table :=
  match assoc n (hlookup t) with
  | Some _ => Throw InvalidArgument
  | None =>
      let reg d i s pos := Ok (mkT (data_d t) (data_i t) (data_s t) (col_names t) (lookup t) (len t)
                            d i s (hcol_names t ++ [n]) (hlookup t ++ [(n, (c, pos))])) in
      if char_eqb c cD then reg (hdata_d t ++ [d0]) (hdata_i t) (hdata_s t) (length (hdata_d t))
      else if char_eqb c cI then reg (hdata_d t) (hdata_i t ++ [0%Z]) (hdata_s t) (length (hdata_i t))
      else if char_eqb c cS then reg (hdata_d t) (hdata_i t) (hdata_s t ++ [[]]) (length (hdata_s t))
      else Throw WrongType
  end.

(** DataTable.cpp 95-105 *)
Definition get_hlocation (n : str) (t : table) : res dt_err (ascii * nat) :=
  match assoc n (hlookup t) with Some l => Ok l | None => Throw OutOfRange end.

(** DataTable.cpp 239-267 *)
Definition h_get_d (n : str) (t : table) : res dt_err D :=
  do l <- get_hlocation n t;
  if negb (char_eqb (fst l) cD) then Throw WrongType else at_ (hdata_d t) (snd l).
Definition h_get_i (n : str) (t : table) : res dt_err Z :=
  do l <- get_hlocation n t;
  if negb (char_eqb (fst l) cI) then Throw WrongType else at_ (hdata_i t) (snd l).
Definition h_get_s (n : str) (t : table) : res dt_err str :=
  do l <- get_hlocation n t;
  if negb (char_eqb (fst l) cS) then Throw WrongType else at_ (hdata_s t) (snd l).

Definition with_h t d i s := mkT (data_d t) (data_i t) (data_s t) (col_names t) (lookup t) (len t)
  d i s (hcol_names t) (hlookup t).

(** DataTable.cpp 269-297 *)
Definition h_set_d (n : str) (x : D) (t : table) : res dt_err table :=
  do l <- get_hlocation n t;
  if negb (char_eqb (fst l) cD) then Throw WrongType else
  do c <- set_at (hdata_d t) (snd l) x; Ok (with_h t c (hdata_i t) (hdata_s t)).
Definition h_set_i (n : str) (x : Z) (t : table) : res dt_err table :=
  do l <- get_hlocation n t;
  if negb (char_eqb (fst l) cI) then Throw WrongType else
  do c <- set_at (hdata_i t) (snd l) x; Ok (with_h t (hdata_d t) c (hdata_s t)).
Definition h_set_s (n : str) (x : str) (t : table) : res dt_err table :=
  do l <- get_hlocation n t;
  if negb (char_eqb (fst l) cS) then Throw WrongType else
  do c <- set_at (hdata_s t) (snd l) x; Ok (with_h t (hdata_d t) (hdata_i t) c).
Definition h_set (n : str) (v : val) (t : table) : res dt_err table :=
  match v with VD x => h_set_d n x t | VI x => h_set_i n x t | VS x => h_set_s n x t end.

(** DataTable.cpp 299-316 *)
Definition h_set_with_str (n : str) (x : str) (t : table) : res dt_err table :=
  do l <- get_hlocation n t;
  if char_eqb (fst l) cD then do v <- stod x; h_set_d n v t
  else if char_eqb (fst l) cI then do v <- stoi x; h_set_i n v t
  else if char_eqb (fst l) cS then h_set_s n x t
  else Throw WrongType.

(** DataTable.cpp 318-332 *)
Definition h_get_as_str (n : str) (t : table) : res dt_err str :=
  do l <- get_hlocation n t;
  if char_eqb (fst l) cD then do v <- h_get_d n t; Ok (showd v)
  else if char_eqb (fst l) cI then do v <- h_get_i n t; Ok (showi v)
  else if char_eqb (fst l) cS then h_get_s n t
  else Throw WrongType.

(** DataTable.cpp 334-352; DataTable.h 160-178, 221-224 *)
Definition has_col (n : str) (t : table) : bool :=
  match assoc n (lookup t) with Some _ => true | None => false end.
Definition has_col_t (n : str) (c : ascii) (t : table) : bool :=
  match assoc n (lookup t) with Some l => char_eqb (fst l) c | None => false end.
Definition h_has (n : str) (t : table) : bool :=
  match assoc n (hlookup t) with Some _ => true | None => false end.
Definition h_has_t (n : str) (c : ascii) (t : table) : bool :=
  match assoc n (hlookup t) with Some l => char_eqb (fst l) c | None => false end.

(** the interface as a set of operations *)
Inductive op :=
| AddColumn (n : str) (c : ascii) | AddRow | AddRowV (vs : list val)
| Set_ (n : str) (i : nat) (v : val) | SetWithStr (n : str) (i : nat) (x : str)
| Get_d (n : str) (i : nat) | Get_i (n : str) (i : nat) | Get_s (n : str) (i : nat)
| GetAsStr (n : str) (i : nat)
| Length | ColumnNames | HasCol (n : str) | HasColT (n : str) (c : ascii) | GetColumnType (n : str)
| HAddColumn (n : str) (c : ascii) | HSet (n : str) (v : val) | HSetWithStr (n : str) (x : str)
| HGet_d (n : str) | HGet_i (n : str) | HGet_s (n : str) | HGetAsStr (n : str)
| HNames | HHas (n : str) | HHasT (n : str) (c : ascii) | HType (n : str).

Inductive out :=
| ODone | OErr (e : dt_err) | OUB | OVal (v : val) | ONat (n : nat) | OStr (s : str)
| ONames (l : list str) | OBool (b : bool) | OChar (c : ascii).

Definition upd_out (t : table) (r : res dt_err table) : table * out :=
  match r with Ok t' => (t', ODone) | Throw e => (t, OErr e) | UB => (t, OUB) end.
Definition obs {A} (t : table) (r : res dt_err A) (f : A -> out) : table * out :=
  (t, match r with Ok a => f a | Throw e => OErr e | UB => OUB end).

Definition step (o : op) (t : table) : table * out :=
  match o with
  | AddColumn n c => upd_out t (add_column n c t)
  | AddRow => let (t', i) := add_row t in (t', ONat i)
  | AddRowV vs => let (t', r) := add_row_v vs t in
      (t', match r with Ok _ => ODone | Throw e => OErr e | UB => OUB end)
  | Set_ n i v => upd_out t (set n i v t)
  | SetWithStr n i x => upd_out t (set_with_str n i x t)
  | Get_d n i => obs t (get_d n i t) (fun x => OVal (VD x))
  | Get_i n i => obs t (get_i n i t) (fun x => OVal (VI x))
  | Get_s n i => obs t (get_s n i t) (fun x => OVal (VS x))
  | GetAsStr n i => obs t (get_as_str n i t) OStr
  | Length => (t, ONat (len t))
  | ColumnNames => (t, ONames (col_names t))
  | HasCol n => (t, OBool (has_col n t))
  | HasColT n c => (t, OBool (has_col_t n c t))
  | GetColumnType n => obs t (get_location n t) (fun l => OChar (fst l))
  | HAddColumn n c => upd_out t (h_add_column n c t)
  | HSet n v => upd_out t (h_set n v t)
  | HSetWithStr n x => upd_out t (h_set_with_str n x t)
  | HGet_d n => obs t (h_get_d n t) (fun x => OVal (VD x))
  | HGet_i n => obs t (h_get_i n t) (fun x => OVal (VI x))
  | HGet_s n => obs t (h_get_s n t) (fun x => OVal (VS x))
  | HGetAsStr n => obs t (h_get_as_str n t) OStr
  | HNames => (t, ONames (hcol_names t))
  | HHas n => (t, OBool (h_has n t))
  | HHasT n c => (t, OBool (h_has_t n c t))
  | HType n => obs t (get_hlocation n t) (fun l => OChar (fst l))
  end.

Fixpoint run (ops : list op) (t : table) : table * list out :=
  match ops with
  | [] => (t, [])
  | o :: os => let (t1, x) := step o t in let (t2, xs) := run os t1 in (t2, x :: xs)
  end.

(** iteration over the rows, DataTable.cpp 376-394 and operator++ 411-415,
    operator!= 437-445: the row numbers visited by a for loop *)
Fixpoint visit (fuel pos last : nat) : list nat :=
  match fuel with
  | 0 => []
  | S fuel' => if Nat.eqb pos last then [] else pos :: visit fuel' (S pos) last
  end.
Definition rows (t : table) : list nat := visit (S (len t)) 0 (len t).
End DT.
Arguments table : clear implicits.
Arguments val : clear implicits.
Arguments op : clear implicits.
Arguments out : clear implicits.
