(** Theorems about DataTable (C03-C06). *)
From Verif Require Import Base DataTable DataTableSpec DataTableProofs.

Local Notation s2l := of_string.

(** a concrete instance used in the examples: doubles as integers *)
Definition ex_stod (x : str) : res dt_err Z :=
  if str_eqb x (s2l "7") then Ok 7%Z else Throw InvalidArgument.
Definition ex_ops : list (op Z) :=
  [AddColumn (s2l "S") "d"; AddColumn (s2l "NAME") "s"; AddRow;
   AddColumn (s2l "N") "i"; AddRowV [VD 3%Z; VS (s2l "QF"); VI 4%Z];
   Set_ (s2l "S") 0 (VD 9%Z); SetWithStr (s2l "S") 1 (s2l "7"); Set_ (s2l "S") 2 (VD 1%Z);
   Set_ (s2l "N") 1 (VD 1%Z); Get_d (s2l "S") 1; Get_i (s2l "N") 0; Get_s (s2l "NAME") 1;
   AddColumn (s2l "S") "i"; AddColumn (s2l "X") "q"; Length; ColumnNames].
Notation ex_run := (run 0%Z ex_stod (fun _ => Throw InvalidArgument) (fun _ => []) (fun _ => [])).

(** ** C03: rectangular after every sequence of calls *)
Theorem C03_table_rectangular :
  forall D (d0 : D) stod stoi showd showi (ops : list (op D)),
  let t := fst (run d0 stod stoi showd showi ops empty) in
  NoDup (col_names t) /\
  (forall n, In n (col_names t) <-> has_col n t = true) /\
  (forall n c, has_col_t n c t = true -> c = "d"%char \/ c = "i"%char \/ c = "s"%char) /\
  (forall n i, has_col_t n "d" t = true ->
     (i < len t -> exists x, get_d n i t = Ok x) /\ (len t <= i -> get_d n i t = Throw OutOfRange)) /\
  (forall n i, has_col_t n "i" t = true ->
     (i < len t -> exists x, get_i n i t = Ok x) /\ (len t <= i -> get_i n i t = Throw OutOfRange)) /\
  (forall n i, has_col_t n "s" t = true ->
     (i < len t -> exists x, get_s n i t = Ok x) /\ (len t <= i -> get_s n i t = Throw OutOfRange)).
Proof. exact @reachable_rect. Qed.
Print Assumptions C03_table_rectangular.

(** iterating from begin() to end() visits every row once, in order *)
Theorem C03_iteration_visits_every_row : forall D (t : table D), rows t = seq 0 (len t).
Proof. exact @rows_seq. Qed.
Print Assumptions C03_iteration_visits_every_row.

Example C03_case : let t := fst (ex_run ex_ops empty) in
  len t = 2 /\ col_names t = map s2l ["S"; "NAME"; "N"]%string
  /\ get_d (s2l "S") 0 t = Ok 9%Z /\ get_i (s2l "N") 2 t = Throw OutOfRange /\ rows t = [0; 1].
Proof. vm_compute. repeat split. Qed.

(** ** C04: every observation is the one of the typed map *)
Theorem C04_table_refines_typed_map :
  forall D (d0 : D) stod stoi showd showi (ops : list (op D)),
  snd (run d0 stod stoi showd showi ops empty)
  = snd (s_run d0 stod stoi showd showi ops (sheet0 d0)).
Proof. intros. apply run_refines, rel_empty; assumption. Qed.
Print Assumptions C04_table_refines_typed_map.

Example C04_case : snd (ex_run ex_ops empty) =
  [ODone; ODone; ONat 0; ODone; ODone; ODone; ODone; OErr OutOfRange; OErr WrongType;
   OVal (VD 7%Z); OVal (VI 0%Z); OVal (VS (s2l "QF")); OErr InvalidArgument; OErr WrongType;
   ONat 2; ONames (map s2l ["S"; "NAME"; "N"]%string)].
Proof. vm_compute. reflexivity. Qed.

(** ** C05: a reported error changes nothing; nothing is undefined *)
Theorem C05_error_leaves_table_unchanged :
  forall D (d0 : D) stod stoi showd showi (o : op D) t e,
  (forall vs, o <> AddRowV vs) ->
  snd (step d0 stod stoi showd showi o t) = OErr e ->
  fst (step d0 stod stoi showd showi o t) = t.
Proof. exact @error_no_change. Qed.
Print Assumptions C05_error_leaves_table_unchanged.

Theorem C05_no_undefined_access :
  forall D (d0 : D) stod stoi showd showi (ops : list (op D)),
  (forall x, stod x <> UB) -> (forall x, stoi x <> UB) ->
  ~ In OUB (snd (run d0 stod stoi showd showi ops empty)).
Proof. intros. eapply run_no_ub; eauto. apply rel_empty; assumption. Qed.
Print Assumptions C05_no_undefined_access.

Example C05_case : forall o, In o [Set_ (s2l "S") 2 (VD 1%Z); Set_ (s2l "N") 1 (VD 1%Z);
    SetWithStr (s2l "S") 1 (s2l "x"); AddColumn (s2l "S") "i"; Get_d (s2l "Q") 0; Get_d (s2l "N") 0] ->
  exists e, snd (step 0%Z ex_stod (fun _ => Throw InvalidArgument) (fun _ => []) (fun _ => [])
    o (fst (ex_run ex_ops empty))) = OErr e.
Proof.
  intros o H. simpl in H. repeat destruct H as [<-|H]; try tauto; vm_compute; eauto.
Qed.

(** ** C06: the variadic AddRow either adds a full row or nothing -- false *)
Theorem C06_variadic_add_row_atomic_refuted :
  exists (ops : list (op Z)) vs e,
    let t := fst (ex_run ops empty) in
    let (t', r) := add_row_v 0%Z vs t in
    r = Throw e /\ len t' = S (len t) /\ holds t' (s2l "S") (len t) (VD 5%Z).
Proof.
  exists [AddColumn (s2l "S") "d"; AddColumn (s2l "NAME") "s"], [VD 5%Z; VI 1%Z], WrongType.
  vm_compute. auto.
Qed.
Print Assumptions C06_variadic_add_row_atomic_refuted.

Theorem C131_variadic_add_row_exact :
  forall D (d0 : D) stod stoi showd showi (ops : list (op D)) vs,
  let t := fst (run d0 stod stoi showd showi ops empty) in
  Forall2 (fun n v => has_col_t n (ty_char (ty_of v)) t = true) (col_names t) vs ->
  let (t', r) := add_row_v d0 vs t in
  r = Ok tt /\ len t' = S (len t) /\ col_names t' = col_names t
  /\ Forall2 (fun n v => holds t' n (len t) v) (col_names t) vs
  /\ (forall n i v, i < len t -> (holds t' n i v <-> holds t n i v)).
Proof. exact @add_row_v_exact. Qed.
Print Assumptions C131_variadic_add_row_exact.

Example C06_partial_hypotheses_met :
  let t := fst (ex_run ex_ops empty) in
  Forall2 (fun n v => has_col_t n (ty_char (ty_of v)) t = true) (col_names t)
    [VD 1%Z; VS (s2l "B"); VI 2%Z].
Proof. vm_compute. repeat constructor. Qed.
