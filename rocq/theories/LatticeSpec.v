(** Specification for C15-C17, C19, C61, C62. *)
From Coq Require Import Sorted.
From Verif Require Import RBase Lattice.
Local Open Scope R_scope.

(** frame [i] of [l] satisfies [q] *)
Definition holds (q : nat -> cframe -> bool) (l : list cframe) (i : nat) : bool :=
  match nth_error l i with Some f => q i f | None => false end.
(** frame [i] is the [n]-th one satisfying [q] *)
Definition nth_match (q : nat -> cframe -> bool) (n : nat) (l : list cframe) (i : nat) : Prop :=
  holds q l i = true /\ S (length (filter (holds q l) (seq 0 i))) = n.
Definition by_name (pat : str) (_ : nat) (f : cframe) : bool := pmatch pat (frame_id f).
Definition by_name_except (pat : str) (e i : nat) (f : cframe) : bool :=
  pmatch pat (frame_id f) && negb (Nat.eqb i e).

(** total length of a lattice *)
Definition frame_len (f : cframe) : R := match fcomp f with Some c => clen c | None => 0 end.
Definition total_len (l : list cframe) : R := fold_right (fun f a => frame_len f + a) 0 l.

(** * nesting of calls, as the difference between frames opened and closed *)
Fixpoint nested (d : nat) (cs : list call) : option nat :=
  match cs with
  | [] => Some d
  | NewFrame _ :: cs' => nested (S d) cs'
  | EndFrame :: cs' => match d with O => None | S d' => nested d' cs' end
  | _ :: cs' => nested d cs'
  end.
(** the component frames handed over, in call order *)
Definition appended (c : call) : list cframe :=
  match c with
  | NewFrame _ | EndFrame => []
  | AppendComponent f idd d => if fequal d 0 then [f] else [drift_frame idd d; f]
  | AppendComponentFrame f => [f]
  | AppendDrift id d => [drift_frame id d]
  | AppendFrame t => leaves t
  end.
Definition whole_frame (c : call) : bool := match c with AppendFrame _ => true | _ => false end.
(** same frame up to its beamline index *)
Definition same_frame (a b : cframe) : Prop :=
  fid a = fid b /\ fname a = fname b /\ fcomp a = fcomp b /\ flocal a = flocal b.
(** what a call makes known to the model's repository *)
Definition known (f : cframe) : list elem :=
  EFrame (fid f) :: match fcomp f with Some c => [EComp c] | None => [] end.
Fixpoint known_in (t : ftree) : list elem :=
  match t with FComp f => known f | FSeq i subs => ESeq i :: flat_map known_in subs end.
Definition registered (c : call) : list elem :=
  match c with
  | NewFrame i => [ESeq i]
  | EndFrame => []
  | AppendFrame t => known_in t
  | c => flat_map known (appended c)
  end.
