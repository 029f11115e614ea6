(** Specification for C13, C14 and C60. *)
From Coq Require Import Permutation Sorted.
From Verif Require Import RBase Process.

(** * the table, against the history of calls *)
Definition nonneg (p : entry) : bool := Z.leb 0 (prio p).
Definition negative (p : entry) : bool := Z.ltb (prio p) 0.
Definition has_prio (k : Z) (p : entry) : bool := Z.eqb (prio p) k.
Definition le_prio (p q : entry) : Prop := (prio p <= prio q)%Z.

(** the processes present, oldest first *)
Fixpoint remove_first (p : nat) (t : list entry) : list entry :=
  match t with
  | [] => []
  | q :: t' => if Nat.eqb (pid q) p then t' else q :: remove_first p t'
  end.
Fixpoint history (ops : list table_op) (t : list entry) : list entry :=
  match ops with
  | [] => t
  | Add p :: os => history os (t ++ [p])
  | Remove p :: os => history os (remove_first p t)
  | Clear :: os => history os []
  end.
(** pointers are added while not registered and removed while registered *)
Fixpoint valid (ops : list table_op) (log : list entry) : Prop :=
  match ops with
  | [] => True
  | Add p :: os => ~ In (pid p) (map pid log) /\ valid os (log ++ [p])
  | Remove p :: os => In p (map pid log) /\ valid os (remove_first p log)
  | Clear :: os => valid os []
  end.

(** [t] holds the processes of [log]: non-negative priorities ascending,
    equal ones and the negative ones oldest first *)
Definition ordered (t log : list entry) : Prop :=
  NoDup (map pid log) /\ Permutation t log
  /\ (forall k, (0 <= k)%Z -> filter (has_prio k) t = filter (has_prio k) log)
  /\ filter negative t = filter negative log
  /\ StronglySorted le_prio (filter nonneg t).

(** * tracking *)
Local Open Scope R_scope.
Section Tr.
Context {W : Type}.
Notation proc := (proc W).
Notation tstep := (tstep W).

(** the effect of running the processes numbered [l], in that order *)
Definition effect (ps : list proc) (ds : R) (l : list nat) (w : W) : W :=
  fold_left (fun v k => match nth_error ps k with Some p => do_process p ds v | None => v end) l w.

Record step_ok (ps : list proc) (sc : R) (r : tstep) : Prop := {
  so_fits : st_ds r <= sc - st_s r;
  so_allowed : forall p, In p ps -> active p (st_w r) = true -> st_ds r <= max_step p (st_w r);
  so_largest : st_ds r = sc - st_s r \/ exists p, In p ps /\ active p (st_w r) = true /\ st_ds r = max_step p (st_w r);
  so_order : StronglySorted lt (st_run r);
  so_exact : forall k, In k (st_run r) <->
    exists p, nth_error ps k = Some p
      /\ active p (effect ps (st_ds r) (filter (fun j => Nat.ltb j k) (st_run r)) (st_w r)) = true }.

(** every process told of the component, in table order *)
Definition entered (ps : list proc) (w : W) : W := fold_right set_component w (rev ps).

(** the steps follow one another from position [s], state [w] to [e], [w'] *)
Fixpoint chained (ps : list proc) (s : R) (w : W) (rs : list tstep) (e : R) (w' : W) : Prop :=
  match rs with
  | [] => s = e /\ w = w'
  | r :: rs' => st_s r = s /\ st_w r = w
      /\ chained ps (s + st_ds r) (effect ps (st_ds r) (st_run r) w) rs' e w'
  end.
Definition total_step (rs : list tstep) : R := fold_right (fun r a => st_ds r + a) 0 rs.

(** every active process always allows a step of at least [delta] *)
Definition allows (delta : R) (ps : list proc) : Prop :=
  0 < delta /\ forall p w, In p ps -> active p w = true -> delta <= max_step p w.
End Tr.
