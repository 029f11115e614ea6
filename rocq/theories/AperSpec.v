(* What an aperture should accept, as sets of points. *)
From Verif Require Import RBase.
Local Open Scope R_scope.

Definition disc (r x y : R) : Prop := x * x + y * y < r * r.
Definition box (hx hy x y : R) : Prop := - hx < x < hx /\ - hy < y < hy.
Definition oval (ex ey x y : R) : Prop := (x / ex) * (x / ex) + (y / ey) * (y / ey) < 1.
(* the closed corner triangle of a rectangle with its vertex at (hx, hy) and the two
   others at height a on the right side and at abscissa b on the upper side *)
Definition in_corner (hx hy a b x y : R) : Prop := exists s t, 0 <= s /\ 0 <= t /\ s + t <= 1 /\ x = hx - t * (hx - b) /\ y = hy - s * (hy - a).
(* a rectangle without its four corners; the cut corners are given by the angles
   under which they are seen *)
Definition octagon (hx hy a1 a2 x y : R) : Prop :=
  box hx hy x y /\ ~ in_corner hx hy (hx * tan a1) (hy * tan (PI / 2 - a2)) (Rabs x) (Rabs y).
(* linear interpolation between (s0, v0) and (s1, v1) *)
Definition between (s0 v0 s1 v1 z v : R) : Prop := exists t, 0 <= t <= 1 /\ z = (1 - t) * s0 + t * s1 /\ v = (1 - t) * v0 + t * v1.
(* a point seen from a frame at (cx, cy) turned by the angle t *)
Definition seen_from (cx cy t x y u v : R) : Prop := x - cx = u * cos t - v * sin t /\ y - cy = u * sin t + v * cos t.

(* value at z of the broken line through the points of a table *)
Definition table_value {A} (s p : A -> R) (l : list A) (z v : R) : Prop :=
  exists pre b f post, l = pre ++ b :: f :: post /\ between (s b) (p b) (s f) (p f) z v.
Inductive increasing {A} (s : A -> R) : list A -> Prop :=
| inc_nil : increasing s []
| inc_cons a l : (forall b, In b l -> s a < s b) -> increasing s l -> increasing s (a :: l).
Definition closed_box (hx hy x y : R) : Prop := - hx <= x <= hx /\ - hy <= y <= hy.
Definition closed_oval (ex ey x y : R) : Prop := (x / ex) * (x / ex) + (y / ey) * (y / ey) <= 1.
