(* Pole faces as values: every bend has its own entrance and exit face or none; a program
   hands a face over to a bend at most once. *)
From Verif Require Import RBase SympInt TransInt PoleFaces.

(* the faces a bend shows *)
Definition shown (s : state) (b : nat) : option (option pface * option pface) :=
  match bend_of s b with
  | None => None
  | Some i => Some (match entr i with Some l => face_at (hp s) l | None => None end, match exit_ i with Some l => face_at (hp s) l | None => None end)
  end.
Definition typed (t : R) (f : pface) : pface := mkPF (pf_face f) t.
(* what a step should show afterwards *)
Definition wanted (s : state) (o : op) (b : nat) : option (option pface * option pface) :=
  let fc e := match e with Some l => face_at (hp s) l | None => None end in
  match o with
  | NewFace _ => shown s b
  | NewBend => if Nat.eqb b (length (bends s)) then Some (None, None) else shown s b
  | SetBoth c e1 e2 => if Nat.eqb b c then Some (option_map (typed 1) (fc e1), option_map (typed 0) (fc e2)) else shown s b
  | SetOne c e => if Nat.eqb b c then Some (option_map (typed 0) (fc e), option_map (typed 0) (fc e)) else shown s b
  | CopyBend c => if Nat.eqb b (length (bends s)) then shown s c else shown s b
  | AssignBend c d => if Nat.eqb b c then shown s d else shown s b
  | Rotate c => if Nat.eqb b c then option_map (fun p => (snd p, fst p)) (shown s c) else shown s b
  | Destroy c => if Nat.eqb b c then None else shown s b
  end.
(* ownership *)
Definition holds (i : info) (l : loc) : Prop := entr i = Some l \/ exit_ i = Some l.
Definition owned (s : state) (l : loc) : Prop := exists b i, bend_of s b = Some i /\ holds i l.
Definition alive (s : state) (l : loc) : Prop := face_at (hp s) l <> None.
(* each bend has its own faces, and they are there *)
Definition sound (s : state) : Prop :=
  (forall b i l, bend_of s b = Some i -> holds i l -> alive s l) /\
  (forall b c i j l, bend_of s b = Some i -> bend_of s c = Some j -> holds i l -> holds j l -> b = c).
(* a face to hand over: there, and not given away before *)
Definition to_give (s : state) (e : option loc) : Prop := exists l, e = Some l /\ alive s l /\ ~ owned s l.
Definition proper (s : state) (o : op) : Prop :=
  match o with
  | NewFace _ | NewBend => True
  | SetBoth b e1 e2 => bend_of s b <> None /\ to_give s e1 /\ to_give s e2 /\ e1 <> e2
  | SetOne b e => bend_of s b <> None /\ to_give s e
  | CopyBend b | Rotate b | Destroy b => bend_of s b <> None
  | AssignBend b c => bend_of s b <> None /\ bend_of s c <> None /\ b <> c
  end.
Fixpoint proper_run (s : state) (l : list op) : Prop :=
  match l with [] => True | o :: l' => proper s o /\ forall s1, step s o = Ok s1 -> proper_run s1 l' end.
