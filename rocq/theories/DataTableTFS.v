(** Model of the TFS reader and writer (Merlin++/DataTableTFS.cpp).

    A file is its text.  [showd], [showi] stand for operator<< on double (with
    setprecision(10)) and on int/size_t; [stod], [stoi] for std::stod, std::stoi. *)
From Verif Require Import Base DataTable.

Inductive tfs_err := BadFormat | TableError (e : dt_err).

Definition quote : ascii := ascii_of_nat 34.
Definition newline : ascii := ascii_of_nat 10.
Definition space : ascii := ascii_of_nat 32.

(** whitespace = " \t\f\v\n\r", line 47 *)
Definition is_ws (c : ascii) : bool :=
  existsb (char_eqb c) (map ascii_of_nat [32; 9; 12; 11; 10; 13]).

(** type_conv, lines 26-45 *)
Definition type_conv (s : str) : res tfs_err ascii :=
  if str_eqb s (of_string "%le") || str_eqb s (of_string "%e") then Ok cD
  else if str_eqb s (of_string "%d") then Ok cI
  else if str_eqb s (of_string "%s") then Ok cS
  else if Nat.ltb 2 (length s) && char_eqb (last s space) "s" then Ok cS
  else Throw BadFormat.

(** split_line, lines 49-83 *)
Fixpoint split_go (q : bool) (cur : str) (line : str) : list str :=
  match line with
  | [] => match cur with [] => [] | _ => [cur] end
  | c :: l =>
      if char_eqb c quote then split_go (negb q) cur l
      else if negb q && is_ws c then
        match cur with [] => split_go q [] l | _ => cur :: split_go q [] l end
      else split_go q (cur ++ [c]) l
  end.
Definition split_line (line : str) : list str := split_go false [] line.

(** getline: the lines of a text, and whether the last one is terminated *)
Fixpoint lines_go (cur : str) (s : str) : list str * bool :=
  match s with
  | [] => match cur with [] => ([], true) | _ => ([cur], false) end
  | c :: s' => if char_eqb c newline then let (ls, b) := lines_go [] s' in (cur :: ls, b)
               else lines_go (cur ++ [c]) s'
  end.
Definition lines (s : str) : list str * bool := lines_go [] s.

Fixpoint mapM {E A B} (f : A -> res E B) (l : list A) : res E (list B) :=
  match l with
  | [] => Ok []
  | a :: l' => do b <- f a; do bs <- mapM f l'; Ok (b :: bs)
  end.

Section TFS.
Context {D : Type} (d0 : D).
Context (stod : str -> res dt_err D) (stoi : str -> res dt_err Z).
Context (showd : D -> str) (showi : Z -> str).
Notation table := (table D).

Definition lift {A} (r : res dt_err A) : res tfs_err A :=
  match r with Ok a => Ok a | Throw e => Throw (TableError e) | UB => UB end.

(** header loop, lines 96-115; returns table, last words, remaining lines *)
Fixpoint read_header (ls : list str) (words : list str) (t : table)
  : res tfs_err (table * list str * list str) :=
  match ls with
  | [] => Ok (t, words, [])
  | l :: ls' =>
      match split_line l with
      | [] => read_header ls' [] t                                   (* 100-103 *)
      | w0 :: ws =>
          if negb (str_eqb w0 (of_string "@")) then Ok (t, w0 :: ws, ls')   (* 104-107 *)
          else match ws with
               | [n; ty; v] =>
                   do c <- type_conv ty;
                   do t1 <- lift (h_add_column d0 n c t);
                   do t2 <- lift (h_set_with_str stod stoi n v t1);
                   read_header ls' (w0 :: ws) t2
               | _ => Throw BadFormat                                (* 108-111 *)
               end
      end
  end.

(** lines 145-154 *)
Fixpoint add_columns (names : list str) (types : list ascii) (t : table) : res tfs_err table :=
  match names, types with
  | n :: ns, c :: cs => do t1 <- lift (add_column d0 n c t); add_columns ns cs t1
  | _, _ => Ok t
  end.

(** lines 173-180 *)
Fixpoint set_row (names : list str) (row : nat) (words : list str) (t : table) : res tfs_err table :=
  match names, words with
  | n :: ns, w :: ws => do t1 <- lift (set_with_str stod stoi n row w t); set_row ns row ws t1
  | _, _ => Ok t
  end.

(** data loop, lines 157-183 *)
Fixpoint read_rows (names : list str) (ncols : nat) (ls : list str) (t : table) : res tfs_err table :=
  match ls with
  | [] => Ok t
  | l :: ls' =>
      match split_line l with
      | [] => read_rows names ncols ls' t
      | words =>
          if negb (Nat.eqb (length words) ncols) then Throw BadFormat else
          let (t1, row) := add_row d0 t in
          do t2 <- set_row names row words t1;
          read_rows names ncols ls' t2
      end
  end.

(** Read, lines 85-185 *)
Definition read (txt : str) : res tfs_err table :=
  let (ls, terminated) := lines txt in
  do x <- read_header ls [] (@empty D);
  let '(t, words, ls1) := x in
  match words with
  | [] => UB                                                         (* words[0], 118 *)
  | w0 :: names =>
      if negb (str_eqb w0 (of_string "*")) then Throw BadFormat else
      match ls1 with
      | [] => if terminated then UB    (* getline clears the line; words[0], 131 *)
              else Throw BadFormat     (* getline fails before clearing: still the '*' line *)
      | l :: ls2 =>
          match split_line l with
          | [] => UB                                                 (* words[0], 131 *)
          | d :: tys =>
              if negb (str_eqb d (of_string "$")) then Throw BadFormat else
              do types <- mapM type_conv tys;
              if negb (Nat.eqb (length names) (length types)) then Throw BadFormat else
              do t1 <- add_columns names types t;
              read_rows names (length types) ls2 t1
          end
      end
  end.

(** std::setw(w) with std::left *)
Definition pad (w : nat) (s : str) : str := s ++ repeat space (w - length s).

(** lines 205-224 *)
Definition write_head (t : table) (n : str) : res dt_err str :=
  do l <- get_hlocation n t;
  let pre := of_string "@ " ++ pad 16 n ++ [space] in
  if char_eqb (fst l) cD then
    do v <- h_get_d n t; Ok (pre ++ of_string "%le " ++ pad 18 (showd v))
  else if char_eqb (fst l) cI then
    do v <- h_get_i n t; Ok (pre ++ of_string "%d " ++ pad 8 (showi v))
  else if char_eqb (fst l) cS then
    do v <- h_get_s n t;
    Ok (pre ++ of_string "%" ++ showi (Z.of_nat (length v)) ++ of_string "s " ++ quote :: v ++ [quote])
  else Ok pre.

(** lines 234-249 *)
Definition write_type (t : table) (n : str) : res dt_err str :=
  do l <- get_location n t;
  Ok (if char_eqb (fst l) cD then of_string "%le "
      else if char_eqb (fst l) cI then of_string "%d "
      else if char_eqb (fst l) cS then of_string "%s " else []).

(** lines 256-272 *)
Definition write_cell (t : table) (row : nat) (n : str) : res dt_err str :=
  do l <- get_location n t;
  if char_eqb (fst l) cD then do v <- get_d n row t; Ok (space :: pad 18 (showd v))
  else if char_eqb (fst l) cI then do v <- get_i n row t; Ok (space :: pad 8 (showi v))
  else if char_eqb (fst l) cS then do v <- get_s n row t; Ok (space :: quote :: v ++ [quote])
  else Ok [space].

(** Write, lines 199-277; [rows] is the iteration of DataTable.  A header of
    unknown type, which no table has, would also lack its line end. *)
Definition write_lines (t : table) : res dt_err (list str) :=
  do hs <- mapM (write_head t) (hcol_names t);
  do tys <- mapM (write_type t) (col_names t);
  do rs <- mapM (fun r => do cs <- mapM (write_cell t r) (col_names t); Ok (concat cs)) (rows t);
  Ok (hs ++ [of_string "* " ++ concat (map (fun n => n ++ [space]) (col_names t))]
         ++ [of_string "$ " ++ concat tys] ++ rs).
Definition write (t : table) : res dt_err str :=
  do ls <- write_lines t; Ok (concat (map (fun l => l ++ [newline]) ls)).
End TFS.
