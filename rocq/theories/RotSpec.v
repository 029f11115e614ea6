(* What rotations and rigid transformations should be, stated on plain
   three-by-three arrays of reals and on functions of space. *)
From Verif Require Import Rot.
Local Open Scope R_scope.

(* Arrays indexed by 0,1,2. *)
Notation smat := (nat -> nat -> R).

Definition sum3 (f : nat -> R) : R := f 0%nat + f 1%nat + f 2%nat.
Definition sprod (a b : smat) : smat := fun i j => sum3 (fun k => a i k * b k j).
Definition stransp (a : smat) : smat := fun i j => a j i.
Definition skron : smat := fun i j => if Nat.eqb i j then 1 else 0.
Definition sdet (a : smat) : R :=
  sum3 (fun j => a 0%nat j *
     (a 1%nat ((j + 1) mod 3)%nat * a 2%nat ((j + 2) mod 3)%nat
      - a 1%nat ((j + 2) mod 3)%nat * a 2%nat ((j + 1) mod 3)%nat)).
Definition seq3 (a b : smat) : Prop :=
  forall i j, (i < 3)%nat -> (j < 3)%nat -> a i j = b i j.

(* Coordinates of a point seen from axes turned by the angle about axis k:
   with (k,k1,k2) cyclic, the entry (k1,k2) is +sin, (k2,k1) is -sin. *)
Definition axis_mat (k : nat) (a : R) : smat := fun i j =>
  if Nat.eqb i j then (if Nat.eqb i k then 1 else cos a)
  else if Nat.eqb i k then 0
  else if Nat.eqb j k then 0
  else if Nat.eqb i ((k + 1) mod 3) then sin a else - sin a.

Definition coord (p : vec3) (i : nat) : R :=
  match i with O => vx p | S O => vy p | _ => vz p end.
Definition entry (m : mat3) : smat := fun i j =>
  match i with
  | O => match j with O => m00 m | S O => m01 m | _ => m02 m end
  | S O => match j with O => m10 m | S O => m11 m | _ => m12 m end
  | _ => match j with O => m20 m | S O => m21 m | _ => m22 m end
  end.

Inductive axis := AX | AY | AZ.
Definition axn (k : axis) : nat :=
  match k with AX => 0%nat | AY => 1%nat | AZ => 2%nat end.

(* Everything a user can write with Rotation3D. *)
Inductive rexp :=
| EId
| EAxis (k : axis) (a : R)
| EMul (a b : rexp)
| EInv (a : rexp)
| EByPi (k : axis) (a : rexp).

Definition rotation (k : axis) (a : R) : rot :=
  match k with AX => rotation_x a | AY => rotation_y a | AZ => rotation_z a end.
Definition by_pi (k : axis) (r : rot) : rot :=
  match k with AX => rot_x_pi r | AY => rot_y_pi r | AZ => rot_z_pi r end.
Definition is_rot (k : axis) (r : rot) : bool :=
  match k with AX => is_xrot r | AY => is_yrot r | AZ => is_zrot r end.

(* Running the library ... *)
Fixpoint rrun (e : rexp) : rot :=
  match e with
  | EId => RI
  | EAxis k a => rotation k a
  | EMul a b => rdot (rrun a) (rrun b)
  | EInv a => rinv (rrun a)
  | EByPi k a => by_pi k (rrun a)
  end.
(* ... and the matrix meant. *)
Fixpoint rmean (e : rexp) : smat :=
  match e with
  | EId => skron
  | EAxis k a => axis_mat (axn k) a
  | EMul a b => sprod (rmean a) (rmean b)
  | EInv a => stransp (rmean a)
  | EByPi k a => sprod (axis_mat (axn k) PI) (sprod (rmean a) (axis_mat (axn k) PI))
  end.

Definition orthogonal (a : smat) : Prop :=
  seq3 (sprod (stransp a) a) skron /\ seq3 (sprod a (stransp a)) skron.

(* Everything a user can write with Transform3D. *)
Inductive texp :=
| TId
| TMake (x : vec3) (e : rexp)
| TMove (dx dy dz : R)
| TTurn (k : axis) (a : R)
| TMul (a b : texp)
| TInv (a : texp)
| TByPi (k : axis) (a : texp).

Definition tr_rot (k : axis) (a : R) : tr3 :=
  match k with AX => tr_rot_x a | AY => tr_rot_y a | AZ => tr_rot_z a end.
Definition tr_by_pi (k : axis) (t : tr3) : tr3 :=
  match k with AX => tr_x_pi t | AY => tr_y_pi t | AZ => tr_z_pi t end.

Fixpoint trun (e : texp) : tr3 :=
  match e with
  | TId => tr_id
  | TMake x e => mkt x (rrun e)
  | TMove dx dy dz => tr_translation dx dy dz
  | TTurn k a => tr_rot k a
  | TMul a b => tr_mul (trun a) (trun b)
  | TInv a => tr_inv (trun a)
  | TByPi k a => tr_by_pi k (trun a)
  end.

Definition dist2 (p q : vec3) : R :=
  (vx p - vx q) * (vx p - vx q) + (vy p - vy q) * (vy p - vy q)
  + (vz p - vz q) * (vz p - vz q).

(* The point at parameter u of the straight ray of a particle standing at the
   origin of its frame. *)
Definition ray {I} (p : ps I) (u : R) : vec3 :=
  mkv (psx p + u * psxp p) (psy p + u * psyp p) u.
