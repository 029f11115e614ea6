(* Specification of loss maps: neighbouring records of one kind become one entry
   with their number. *)
From Verif Require Import RBase LossMap.
From Coq Require Import Permutation Sorted.
Local Open Scope R_scope.

Definition kind (m : omode) (d e : lrec) : Prop :=
  match m with
  | Nearest => lname d = lname e
  | Precise => lposition d = lposition e
  | TenCm => lname d = lname e /\ linterval d = linterval e
  end.
Definition retell (n : nat) (d : lrec) : lrec := LR (lname d) (ls d) (linterval d) (lposition d) (llength d) n (ltemp d) (lturn d) (lp d).
Inductive entries (m : omode) : list lrec -> list lrec -> Prop :=
| en_nil : entries m [] []
| en_run d run rest out : Forall (kind m d) run -> (match rest with [] => True | e :: _ => ~ kind m d e end) -> entries m rest out ->
    entries m (d :: run ++ rest) (retell (S (length run)) d :: out).
Definition count (out : list lrec) : nat := fold_right (fun o n => (lost o + n)%nat) 0%nat out.
(* sorted as the loss map sorts: by the place of the component plus the place of loss *)
Definition in_order (l : list lrec) : Prop := StronglySorted (fun a b => ls a + lposition a <= ls b + lposition b) l.
