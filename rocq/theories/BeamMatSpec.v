(* The second moments of a beam in terms of its optical parameters. *)
From Verif Require Import RBase OpticsSpec.
Local Open Scope R_scope.

(* emittance e, beta b, alpha a: the 2 x 2 matrix of the plane whose first coordinate is o *)
Definition plane_moments (o : nat) (e b a : R) : mtx := fun i j =>
  if Nat.eq_dec i o then (if Nat.eq_dec j o then e * b else if Nat.eq_dec j (o + 1) then - (e * a) else 0)
  else if Nat.eq_dec i (o + 1) then (if Nat.eq_dec j o then - (e * a) else if Nat.eq_dec j (o + 1) then e * ((1 + a * a) / b) else 0)
  else 0.
(* dispersion: coordinate i moves by D i per relative momentum deviation *)
Definition disp_vec (dx dxp dy dyp : R) (i : nat) : R :=
  match i with 0%nat => dx | 1%nat => dxp | 2%nat => dy | 3%nat => dyp | 5%nat => 1 | _ => 0 end.
Definition uncoupled_moments (ex bx ax ey by_ ay sz sd : R) (D : nat -> R) : mtx := fun i j =>
  plane_moments 0 ex bx ax i j + plane_moments 2 ey by_ ay i j + D i * D j * (sd * sd) +
  (if Nat.eq_dec i 4 then if Nat.eq_dec j 4 then sz * sz else 0 else 0).
