(* What a mount should do, stated on lists of moves and on points of space. *)
From Verif Require Import Rot Support.
Local Open Scope R_scope.

(* The offset of a support after its moves, the last one first. *)
Fixpoint offset_after (rev_moves : list move) : vec3 :=
  match rev_moves with
  | [] => mkv 0 0 0
  | MSet v :: _ => v
  | MReset :: _ => mkv 0 0 0
  | MInc v :: earlier =>
      let u := offset_after earlier in mkv (vx u + vx v) (vy u + vy v) (vz u + vz v)
  end.

Definition firsts (l : list op) : list move :=
  flat_map (fun o => match o with First k => [k] | _ => [] end) l.
Definition seconds (l : list op) : list move :=
  flat_map (fun o => match o with Second k => [k] | _ => [] end) l.
Definition offset1 (l : list op) : vec3 := offset_after (rev (firsts l)).
Definition offset2 (l : list op) : vec3 := offset_after (rev (seconds l)).
Definition quiet (l : list op) : Prop := ~ In Query l.

(* Axes turned first by b about y, then by a about x. *)
Definition turn_y (b : R) (p : vec3) : vec3 :=
  mkv (vx p * cos b - vz p * sin b) (vy p) (vx p * sin b + vz p * cos b).
Definition turn_x (a : R) (p : vec3) : vec3 :=
  mkv (vx p) (vy p * cos a + vz p * sin a) (vz p * cos a - vy p * sin a).

(* The last setting made by a list of mover operations. *)
Fixpoint last_x (rev_ops : list mop) : R :=
  match rev_ops with
  | [] => 0 | SetX x :: _ => x | Zero :: _ => 0 | _ :: l => last_x l
  end.
Fixpoint last_y (rev_ops : list mop) : R :=
  match rev_ops with
  | [] => 0 | SetY x :: _ => x | Zero :: _ => 0 | _ :: l => last_y l
  end.
Fixpoint last_roll (rev_ops : list mop) : R :=
  match rev_ops with
  | [] => 0 | SetRoll x :: _ => x | Zero :: _ => 0 | _ :: l => last_roll l
  end.
