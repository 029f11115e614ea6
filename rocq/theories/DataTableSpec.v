(** What a table is to its user: an ordered list of named, typed columns, a
    number of rows, and one cell for every column name and row number.  The
    header is an ordered list of named, typed scalars. *)
From Verif Require Import Base DataTable.

Section Spec.
Context {D : Type} (d0 : D).
Context (stod : str -> res dt_err D) (stoi : str -> res dt_err Z).
Context (showd : D -> str) (showi : Z -> str).

Inductive ty := TD | TI | TS.
Definition ty_char (y : ty) : ascii := match y with TD => "d" | TI => "i" | TS => "s" end%char.
Definition char_ty (c : ascii) : option ty :=
  if char_eqb c "d" then Some TD else if char_eqb c "i" then Some TI
  else if char_eqb c "s" then Some TS else None.
Definition default (y : ty) : val D := match y with TD => VD d0 | TI => VI 0 | TS => VS [] end.
Definition ty_of (v : val D) : ty := match v with VD _ => TD | VI _ => TI | VS _ => TS end.

Record sheet := mkS {
  cols : list (str * ty); nrows : nat; cell : str -> nat -> val D;
  heads : list (str * ty); head : str -> val D }.

Definition sheet0 : sheet := mkS [] 0 (fun _ _ => VD d0) [] (fun _ => VD d0).

Definition col_ty (n : str) (a : sheet) : option ty := assoc n (cols a).
Definition head_ty (n : str) (a : sheet) : option ty := assoc n (heads a).

Definition put {B} (f : str -> B) (n : str) (b : B) : str -> B :=
  fun m => if str_eqb m n then b else f m.
Definition puti {B} (f : nat -> B) (i : nat) (b : B) : nat -> B :=
  fun j => if Nat.eqb j i then b else f j.

(** storing a value: checked for column, then type, then row *)
Definition s_set (n : str) (i : nat) (v : val D) (a : sheet) : res dt_err sheet :=
  match col_ty n a with
  | None => Throw OutOfRange
  | Some y =>
      match y, ty_of v with
      | TD, TD | TI, TI | TS, TS =>
          if Nat.ltb i (nrows a)
          then Ok (mkS (cols a) (nrows a) (put (cell a) n (puti (cell a n) i v)) (heads a) (head a))
          else Throw OutOfRange
      | _, _ => Throw WrongType
      end
  end.
Definition s_get (n : str) (i : nat) (y0 : ty) (a : sheet) : res dt_err (val D) :=
  match col_ty n a with
  | None => Throw OutOfRange
  | Some y =>
      match y, y0 with
      | TD, TD | TI, TI | TS, TS => if Nat.ltb i (nrows a) then Ok (cell a n i) else Throw OutOfRange
      | _, _ => Throw WrongType
      end
  end.
Definition s_add_row (a : sheet) : sheet :=
  mkS (cols a) (S (nrows a))
      (fun n i => if Nat.eqb i (nrows a)
                  then match col_ty n a with Some y => default y | None => cell a n i end
                  else cell a n i) (heads a) (head a).
Definition parse (y : ty) (x : str) : res dt_err (val D) :=
  match y with
  | TD => do v <- stod x; Ok (VD v) | TI => do v <- stoi x; Ok (VI v) | TS => Ok (VS x)
  end.
Definition show (v : val D) : str :=
  match v with VD x => showd x | VI x => showi x | VS x => x end.

Definition s_hset (n : str) (v : val D) (a : sheet) : res dt_err sheet :=
  match head_ty n a with
  | None => Throw OutOfRange
  | Some y =>
      match y, ty_of v with
      | TD, TD | TI, TI | TS, TS =>
          Ok (mkS (cols a) (nrows a) (cell a) (heads a) (put (head a) n v))
      | _, _ => Throw WrongType
      end
  end.
Definition s_hget (n : str) (y0 : ty) (a : sheet) : res dt_err (val D) :=
  match head_ty n a with
  | None => Throw OutOfRange
  | Some y =>
      match y, y0 with
      | TD, TD | TI, TI | TS, TS => Ok (head a n)
      | _, _ => Throw WrongType
      end
  end.

(** filling a row from the left; stops at the first value that cannot be stored *)
Fixpoint s_fill (names : list str) (row : nat) (vs : list (val D)) (a : sheet) {struct vs} : sheet * out D :=
  match vs, names with
  | [], _ => (a, ODone)
  | _ :: _, [] => (a, OErr OutOfRange)
  | v :: vs', n :: ns =>
      match s_set n row v a with
      | Ok a' => s_fill ns row vs' a'
      | Throw e => (a, OErr e)
      | UB => (a, OUB)
      end
  end.

Definition s_upd (a : sheet) (r : res dt_err sheet) : sheet * out D :=
  match r with Ok a' => (a', ODone) | Throw e => (a, OErr e) | UB => (a, OUB) end.
Definition s_obs {A} (a : sheet) (r : res dt_err A) (f : A -> out D) : sheet * out D :=
  (a, match r with Ok x => f x | Throw e => OErr e | UB => OUB end).
Definition typed (o : option ty) : res dt_err ty :=
  match o with Some y => Ok y | None => Throw OutOfRange end.

Definition s_step (o : op D) (a : sheet) : sheet * out D :=
  match o with
  | AddColumn n c =>
      match col_ty n a, char_ty c with
      | Some _, _ => (a, OErr InvalidArgument)
      | None, None => (a, OErr WrongType)
      | None, Some y => (mkS (cols a ++ [(n, y)]) (nrows a) (put (cell a) n (fun _ => default y))
                             (heads a) (head a), ODone)
      end
  | AddRow => (s_add_row a, ONat (nrows a))
  | AddRowV vs => s_fill (map fst (cols a)) (nrows a) vs (s_add_row a)
  | Set_ n i v => s_upd a (s_set n i v a)
  | SetWithStr n i x => s_upd a (do y <- typed (col_ty n a); do v <- parse y x; s_set n i v a)
  | Get_d n i => s_obs a (s_get n i TD a) OVal
  | Get_i n i => s_obs a (s_get n i TI a) OVal
  | Get_s n i => s_obs a (s_get n i TS a) OVal
  | GetAsStr n i => s_obs a (do y <- typed (col_ty n a); s_get n i y a) (fun v => OStr (show v))
  | Length => (a, ONat (nrows a))
  | ColumnNames => (a, ONames (map fst (cols a)))
  | HasCol n => (a, OBool (match col_ty n a with Some _ => true | None => false end))
  | HasColT n c => (a, OBool (match col_ty n a with Some y => char_eqb (ty_char y) c | None => false end))
  | GetColumnType n => s_obs a (typed (col_ty n a)) (fun y => OChar (ty_char y))
  | HAddColumn n c =>
      match head_ty n a, char_ty c with
      | Some _, _ => (a, OErr InvalidArgument)
      | None, None => (a, OErr WrongType)
      | None, Some y => (mkS (cols a) (nrows a) (cell a) (heads a ++ [(n, y)])
                             (put (head a) n (default y)), ODone)
      end
  | HSet n v => s_upd a (s_hset n v a)
  | HSetWithStr n x => s_upd a (do y <- typed (head_ty n a); do v <- parse y x; s_hset n v a)
  | HGet_d n => s_obs a (s_hget n TD a) OVal
  | HGet_i n => s_obs a (s_hget n TI a) OVal
  | HGet_s n => s_obs a (s_hget n TS a) OVal
  | HGetAsStr n => s_obs a (do y <- typed (head_ty n a); s_hget n y a) (fun v => OStr (show v))
  | HNames => (a, ONames (map fst (heads a)))
  | HHas n => (a, OBool (match head_ty n a with Some _ => true | None => false end))
  | HHasT n c => (a, OBool (match head_ty n a with Some y => char_eqb (ty_char y) c | None => false end))
  | HType n => s_obs a (typed (head_ty n a)) (fun y => OChar (ty_char y))
  end.

Fixpoint s_run (ops : list (op D)) (a : sheet) : sheet * list (out D) :=
  match ops with
  | [] => (a, [])
  | o :: os => let (a1, x) := s_step o a in let (a2, xs) := s_run os a1 in (a2, x :: xs)
  end.
End Spec.
Arguments sheet : clear implicits.
