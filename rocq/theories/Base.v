(** Shared definitions: outcome of a C++ call.

    [Ok v]     normal return
    [Throw e]  a C++ exception of kind [e] leaves the call
    [UB]       undefined behaviour of the C++ text: out-of-range access to a
               vector, null dereference, read of an indeterminate value, failed
               [assert], iterator past the end, ...
    A theorem about the code must exclude or exhibit [UB] explicitly. *)
From Coq Require Export Ascii String.
From Coq Require Export Arith ZArith Lia Bool List.
Export ListNotations.
Open Scope list_scope.

Inductive res (E A : Type) : Type :=
| Ok (a : A)
| Throw (e : E)
| UB.
Arguments Ok {E A} a.
Arguments Throw {E A} e.
Arguments UB {E A}.

Definition bind {E A B} (x : res E A) (f : A -> res E B) : res E B :=
  match x with Ok a => f a | Throw e => Throw e | UB => UB end.

Notation "'do' x <- e ; k" := (bind e (fun x => k))
  (at level 200, x name, e at level 100, k at level 200, right associativity).

(** [v[i]] on a [std::vector] with the unchecked [operator[]]. *)
Definition vget {E A} (v : list A) (i : nat) : res E A :=
  match nth_error v i with Some a => Ok a | None => UB end.

(** character strings *)
Definition str := list ascii.
Definition of_string (s : string) : str := list_ascii_of_string s.

Definition char_eqb (a b : ascii) : bool := Ascii.eqb a b.

Fixpoint str_eqb (a b : str) : bool :=
  match a, b with
  | [], [] => true
  | x :: a', y :: b' => Ascii.eqb x y && str_eqb a' b'
  | _, _ => false
  end.

Lemma str_eqb_spec : forall a b, reflect (a = b) (str_eqb a b).
Proof.
  induction a as [|x a IH]; destruct b as [|y b]; simpl; try (constructor; congruence).
  destruct (Ascii.eqb_spec x y) as [->|Hne]; simpl.
  - destruct (IH b) as [->|Hne]; constructor; congruence.
  - constructor; congruence.
Qed.

Lemma str_eqb_refl a : str_eqb a a = true.
Proof. destruct (str_eqb_spec a a); congruence. Qed.

Lemma str_eqb_eq a b : str_eqb a b = true <-> a = b.
Proof. destruct (str_eqb_spec a b); split; congruence. Qed.

(** replace the [n]-th element; [None] when out of range *)
Fixpoint upd {A} (l : list A) (n : nat) (a : A) : option (list A) :=
  match l, n with
  | [], _ => None
  | _ :: l', 0 => Some (a :: l')
  | x :: l', S n' => match upd l' n' a with Some l'' => Some (x :: l'') | None => None end
  end.

Lemma upd_some : forall A (l : list A) n a, n < length l -> exists l', upd l n a = Some l'.
Proof.
  induction l as [|x l IH]; intros [|n] a H; simpl in *; try lia; eauto.
  destruct (IH n a) as [l' ->]; [lia|eauto].
Qed.

Lemma upd_none : forall A (l : list A) n a, length l <= n -> upd l n a = None.
Proof.
  induction l as [|x l IH]; intros [|n] a H; simpl in *; try lia; auto.
  rewrite IH by lia. reflexivity.
Qed.

Lemma upd_length : forall A (l : list A) n a l', upd l n a = Some l' -> length l' = length l.
Proof.
  induction l as [|x l IH]; intros [|n] a l' H; simpl in *; try discriminate.
  - injection H as <-. reflexivity.
  - destruct (upd l n a) eqn:E; try discriminate. injection H as <-. simpl. f_equal. eauto.
Qed.

Lemma upd_range : forall A (l : list A) n a l', upd l n a = Some l' -> n < length l.
Proof.
  induction l as [|x l IH]; intros [|n] a l' H; simpl in *; try discriminate; try lia.
  destruct (upd l n a) eqn:E; try discriminate. apply IH in E. lia.
Qed.

Lemma upd_nth_same : forall A (l : list A) n a l', upd l n a = Some l' -> nth_error l' n = Some a.
Proof.
  induction l as [|x l IH]; intros [|n] a l' H; simpl in *; try discriminate.
  - injection H as <-. reflexivity.
  - destruct (upd l n a) eqn:E; try discriminate. injection H as <-. simpl. eauto.
Qed.

Lemma upd_nth_other : forall A (l : list A) n a l' m, upd l n a = Some l' -> m <> n ->
  nth_error l' m = nth_error l m.
Proof.
  induction l as [|x l IH]; intros [|n] a l' [|m] H Hne; simpl in *; try discriminate; try congruence.
  - injection H as <-. reflexivity.
  - destruct (upd l n a) eqn:E; try discriminate. injection H as <-. reflexivity.
  - destruct (upd l n a) eqn:E; try discriminate. injection H as <-. simpl. eapply IH; eauto.
Qed.

Lemma Forall2_impl A B (P Q : A -> B -> Prop) l m :
  (forall a b, P a b -> Q a b) -> Forall2 P l m -> Forall2 Q l m.
Proof. intros H. induction 1; constructor; auto. Qed.
