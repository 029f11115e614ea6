(* Model of the ownership of pole faces by sector bends: SectorBend.h 66-140 and
   SectorBend.cpp 26-36, 76-84.  The heap holds the PoleFace objects, freed ones as [None];
   a pointer is a location or null ([None]); a bend that was destroyed is [None].  Access
   through a null or dangling pointer is undefined behaviour. *)
From Verif Require Import RBase SympInt TransInt.

Definition loc := nat.
Definition heap := list (option pface).
Record info := mkI { entr : option loc; exit_ : option loc }.
Record state := mkSt { hp : heap; bends : list (option info) }.
Definition face_at (h : heap) (l : loc) : option pface := match nth_error h l with Some (Some p) => Some p | _ => None end.
Fixpoint write (h : heap) (l : loc) (c : option pface) : heap :=
  match h, l with [], _ => [] | _ :: h', O => c :: h' | x :: h', S l' => x :: write h' l' c end.
(* delete *)
Definition free (h : heap) (l : loc) : res unit heap := match face_at h l with Some _ => Ok (write h l None) | None => UB end.
(* entrance->type = t *)
Definition set_type (h : heap) (p : option loc) (t : R) : res unit heap :=
  match p with
  | None => UB
  | Some l => match face_at h l with Some f => Ok (write h l (Some (mkPF (pf_face f) t))) | None => UB end
  end.
Definition same_ptr (p q : option loc) : bool := match p, q with Some a, Some b => Nat.eqb a b | None, None => true | _, _ => false end.
(* Clear, SectorBend.h 124-134 *)
Definition clear (h : heap) (i : info) : res unit heap :=
  do h1 <- match entr i with Some l => free h l | None => Ok h end;
  match exit_ i with Some l => if same_ptr (exit_ i) (entr i) then Ok h1 else free h1 l | None => Ok h1 end.
(* SetInfo with two faces 96-103, with one 105-111 *)
Definition set_both (h : heap) (i : info) (e1 e2 : option loc) : res unit (heap * info) :=
  do h1 <- clear h i; do h2 <- set_type h1 e1 1; do h3 <- set_type h2 e2 0; Ok (h3, mkI e1 e2).
Definition set_one (h : heap) (i : info) (e : option loc) : res unit (heap * info) :=
  do h1 <- clear h i; do h2 <- set_type h1 e 1; do h3 <- set_type h2 e 0; Ok (h3, mkI e e).
(* new PoleFace( *p ) *)
Definition clone (h : heap) (p : option loc) : res unit (heap * option loc) :=
  match p with
  | None => Ok (h, None)
  | Some l => match face_at h l with Some f => Ok (h ++ [Some f], Some (length h)) | None => UB end
  end.
(* Copy, SectorBend.cpp 26-36 *)
Definition copy_info (h : heap) (rhs : info) : res unit (heap * info) :=
  do a <- clone h (entr rhs);
  if same_ptr (entr rhs) (exit_ rhs) then Ok (fst a, mkI (snd a) (snd a))
  else do b <- clone (fst a) (exit_ rhs); Ok (fst b, mkI (snd a) (snd b)).
(* operator=, SectorBend.h 89-94: what is cleared may be what is copied *)
Definition assign (h : heap) (i rhs : info) : res unit (heap * info) := do h1 <- clear h i; copy_info h1 rhs.

(* what a program can do with the faces of its bends *)
Inductive op :=
| NewFace (f : pface)                        (* new PoleFace, kept by the program *)
| NewBend                                    (* SectorBend: no faces *)
| SetBoth (b : nat) (e1 e2 : option loc)     (* SetPoleFaceInfo(entr, exit) *)
| SetOne (b : nat) (e : option loc)          (* SetPoleFaceInfo(pf) *)
| CopyBend (b : nat)                         (* SectorBend::Copy *)
| AssignBend (b b' : nat)                    (* *b = *b' *)
| Rotate (b : nat)                           (* RotateY180, SectorBend.cpp 58-64 *)
| Destroy (b : nat).
Definition bend_of (s : state) (b : nat) : option info := match nth_error (bends s) b with Some (Some i) => Some i | _ => None end.
Fixpoint put_bend (l : list (option info)) (b : nat) (i : option info) : list (option info) :=
  match l, b with [], _ => [] | _ :: l', O => i :: l' | x :: l', S b' => x :: put_bend l' b' i end.
Definition on_bend (s : state) (b : nat) (f : info -> res unit (heap * info)) : res unit state :=
  match bend_of s b with None => UB | Some i => do r <- f i; Ok (mkSt (fst r) (put_bend (bends s) b (Some (snd r)))) end.
Definition step (s : state) (o : op) : res unit state :=
  match o with
  | NewFace f => Ok (mkSt (hp s ++ [Some f]) (bends s))
  | NewBend => Ok (mkSt (hp s) (bends s ++ [Some (mkI None None)]))
  | SetBoth b e1 e2 => on_bend s b (fun i => set_both (hp s) i e1 e2)
  | SetOne b e => on_bend s b (fun i => set_one (hp s) i e)
  | CopyBend b => match bend_of s b with None => UB | Some i => do r <- copy_info (hp s) i; Ok (mkSt (fst r) (bends s ++ [Some (snd r)])) end
  | AssignBend b b' => match bend_of s b' with None => UB | Some j => on_bend s b (fun i => assign (hp s) i j) end
  | Rotate b => on_bend s b (fun i => Ok (hp s, mkI (exit_ i) (entr i)))
  | Destroy b => match bend_of s b with None => UB | Some i => do h <- clear (hp s) i; Ok (mkSt h (put_bend (bends s) b None)) end
  end.
Fixpoint run (s : state) (l : list op) : res unit state := match l with [] => Ok s | o :: l' => do s1 <- step s o; run s1 l' end.
