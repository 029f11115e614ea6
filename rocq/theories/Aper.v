(* Model of the transverse apertures: Aperture.cpp 55-297, InterpolatedApertures.cpp
   40-513, CollimatorAperture.cpp 11-186. Numbers are exact reals; the places where
   the code can divide by zero carry the IEEE outcome explicitly. *)
From Verif Require Import RBase.
Local Open Scope R_scope.

(* a non-negative quotient of doubles *)
Inductive ext := Fin (r : R) | Inf | Nan.
Definition ediv (a b : R) : ext := if Reqb b 0 then if Reqb a 0 then Nan else Inf else Fin (a / b).
Definition eadd (a b : ext) : ext :=
  match a, b with Nan, _ | _, Nan => Nan | Inf, _ | _, Inf => Inf | Fin x, Fin y => Fin (x + y) end.
(* x * x + y * y * q >= a *)
Definition reaches (x y : R) (q : ext) (a : R) : bool :=
  match q with Fin r => Rleb a (x * x + y * y * r) | Inf => negb (Reqb y 0) | Nan => false end.
(* e > 1 *)
Definition over_one (e : ext) : bool := match e with Fin r => Rltb 1 r | Inf => true | Nan => false end.

Inductive aperture :=
| Circle (r : R) | Rectangle (hx hy : R) | Ellipse (ex ey : R) | RectEllipse (hx hy ex ey : R) | Octagon (hx hy a1 a2 : R).

(* the ellipse test, Aperture.cpp:146-148 and 171, 199-201 and 223 *)
Definition beyond_ellipse (ex ey x y : R) : bool := reaches x y (ediv (ex * ex) (ey * ey)) (ex * ex).
Definition beyond_box (hx hy x y : R) : bool := Rleb hx (Rabs x) || Rleb hy (Rabs y).
(* the corner test, Aperture.cpp:243-245 and 270 *)
Definition beyond_corner (hx hy a1 a2 x y : R) : bool :=
  let c1 := hy * tan (PI / 2 - a2) - hx in let c2 := hx * tan a1 in let c3 := hy - c2 in
  Rleb (c1 * (Rabs y - c2) - c3 * (Rabs x - hx)) 0.
(* CheckWithinApertureBoundaries, Aperture.cpp:82-92, 124-134, 165-175, 217-229, 261-273;
   the position along the element is not used *)
Definition within (a : aperture) (x y : R) : bool :=
  let d := Rabs x + Rabs y in
  match a with
  | Circle r => if Rltb d r then true else negb (Rleb (r * r) (x * x + y * y))
  | Rectangle hx hy => if Rltb d (Rmin hx hy) then true else negb (beyond_box hx hy x y)
  | Ellipse ex ey => if Rltb d (Rmin ex ey) then true else negb (beyond_ellipse ex ey x y)
  | RectEllipse hx hy ex ey =>
      if Rltb d (Rmin (Rmin hx hy) (Rmin ex ey)) then true
      else if beyond_ellipse ex ey x y then false else negb (beyond_box hx hy x y)
  | Octagon hx hy a1 a2 =>
      if Rltb d (Rmin hx hy) then true
      else if beyond_box hx hy x y then false else negb (beyond_corner hx hy a1 a2 x y)
  end.

(* ApertureFactory::GetInstance, Aperture.cpp:280-297, with the GetInstance of each
   class, 73-80, 119-122, 157-163, 210-214, 254-258; None is the null pointer *)
Definition make_aperture (type : string) (p1 p2 p3 p4 : R) : option aperture :=
  if String.eqb type "CIRCLE" then Some (Circle (if Reqb p3 0 then p1 else p3))
  else if String.eqb type "RECTANGLE" then Some (Rectangle p1 p2)
  else if String.eqb type "ELLIPSE" then Some (if Reqb p3 0 && Reqb p4 0 then Ellipse p1 p2 else Ellipse p3 p4)
  else if String.eqb type "RECTELLIPSE" then Some (RectEllipse p1 p2 p3 p4)
  else if String.eqb type "OCTAGON" then Some (Octagon p1 p2 p3 p4)
  else None.

(* ---- interpolated apertures ---- *)
(* apStruct, InterpolatedApertures.h:57-65 *)
Record entry := AE { es : R; e1 : R; e2 : R; e3 : R; e4 : R }.
Inductive aerr := AAbort | AExit.
(* the search loop, 94-102 (the same in all classes): the first n >= 1 with ApList[n].s >= z *)
Fixpoint locate (z : R) (back : entry) (l : list entry) : option (entry * entry) :=
  match l with
  | [] => None
  | f :: l' => if Rleb z (es f) then Some (back, f) else locate z f l'
  end.
Definition find_pair (z : R) (l : list entry) : option (entry * entry) := match l with [] => None | b :: l' => locate z b l' end.
(* value on the line through the two entries, 116-131; with equal positions the
   result is not a number *)
Definition onto (p : entry -> R) (b f : entry) (z : R) : option R :=
  let ds := es f - es b in
  if Reqb ds 0 then None else let g := (p f - p b) / ds in Some (g * z + (p f - g * es f)).
Definition at_least_zero (z : R) : R := if Rltb z 0 then 0 else z.
Inductive itype := ICircle | IRect | IEllipse | IRectEllipse | IOctagon.
(* x x / (a a) + y y / (b b) > 1; None is not a number *)
Definition beyond_ellipse2 (a b : option R) (x y : R) : bool :=
  match a, b with Some a, Some b => over_one (eadd (ediv (x * x) (a * a)) (ediv (y * y) (b * b))) | _, _ => false end.
(* |x| > a *)
Definition exceeds (x : R) (a : option R) : bool := match a with Some a => Rltb a (Rabs x) | None => false end.

(* InterpolatedRectEllipseAperture, 82-146: the smallest dimension is taken over
   apFront.ap1 twice, not over apBack.ap1; the two records are indeterminate if
   the loop finds nothing *)
Definition within_rectellipse (l : list entry) (x y z : R) : res aerr bool :=
  let z := at_least_zero z in
  match find_pair z l with
  | None => UB
  | Some (b, f) =>
      let m := fold_right Rmin (e1 f) [e2 f; e3 f; e4 f; e1 f; e2 b; e3 b; e4 b] in
      if Rltb (Rabs x + Rabs y) m then Ok true
      else if beyond_ellipse2 (onto e3 b f z) (onto e4 b f z) x y then Ok false
      else Ok (negb (exceeds x (onto e1 b f z) || exceeds y (onto e2 b f z)))
  end.
(* InterpolatedCircularAperture, 186-274; with fewer than two entries the loop does
   not run and the radius is not a number *)
Definition within_circle (l : list entry) (x y z : R) : res aerr bool :=
  let z := at_least_zero z in
  match find_pair z l with
  | None => if Nat.ltb (length l) 2 then Ok false else Throw AAbort
  | Some (b, f) =>
      if Rltb (Rabs x + Rabs y) (Rmin (e1 f) (e1 b)) then Ok true
      else if Reqb (e1 f) 0 || Reqb (e1 b) 0 then Throw AAbort
      else match onto e1 b f z with None => Ok false | Some r => Ok (Rltb (x * x + y * y) (r * r)) end
  end.
(* InterpolatedEllipticalAperture, 297-390: only ap1 is copied from the entries, so
   both vertical half axes are zero and the constant c2 is the front ap1 *)
Definition within_ellipse (l : list entry) (x y z : R) : res aerr bool :=
  let z := at_least_zero z in
  match find_pair z l with
  | None => if Nat.ltb (length l) 2 then Ok true else Throw AAbort
  | Some (b, f) =>
      if Rltb (Rabs x + Rabs y) (Rmin (e1 f) (e1 b)) then Ok true
      else if Reqb (e1 f) 0 || Reqb (e1 b) 0 then Throw AAbort
      else match onto e1 b f z with
           | None => Ok true
           | Some a => Ok (negb (beyond_ellipse2 (Some a) (Some (e1 f)) x y))
           end
  end.
(* InterpolatedOctagonalAperture, 413-495; with nothing found all numbers are
   undefined quotients and every comparison fails *)
Definition within_octagon (l : list entry) (x y z : R) : res aerr bool :=
  let z := at_least_zero z in
  match find_pair z l with
  | None => Ok true
  | Some (b, f) =>
      match onto e1 b f z, onto e2 b f z, onto e3 b f z, onto e4 b f z with
      | Some hw, Some hh, Some a1, Some a2 => Ok (if beyond_box hw hh x y then false else negb (beyond_corner hw hh a1 a2 x y))
      | _, _, _, _ => Ok true
      end
  end.
(* InterpolatorFactory, 497-513; rectangles get the base class, whose test ends the
   program, 40-46 *)
Definition within_interpolated (k : itype) (l : list entry) (x y z : R) : res aerr bool :=
  match k with
  | ICircle => within_circle l x y z
  | IRect => Throw AExit
  | IEllipse => within_ellipse l x y z
  | IRectEllipse => within_rectellipse l x y z
  | IOctagon => within_octagon l x y z
  end.

(* ---- collimator jaws ---- *)
(* CollimatorAperture.h and .cpp:11-20; rhx, rhy, mind are the inherited rectHalfX,
   rectHalfY, minDim *)
Record jaws := mkJ {
  tilt : R; clen : R; xen : R; yen : R; xex : R; yex : R; wen : R; hen : R; wex : R; hex : R;
  rhx : R; rhy : R; mind : R; aerror : R; side : bool }.
Definition new_jaws (w h t len xo yo : R) : jaws := mkJ t len xo yo 0 0 w h 0 0 (w / 2) (h / 2) (Rmin (w / 2) (h / 2)) 0 false.
(* the setters, CollimatorAperture.cpp:43-71 *)
Definition set_entrance (w h : R) (j : jaws) : jaws := mkJ (tilt j) (clen j) (xen j) (yen j) (xex j) (yex j) w h (wex j) (hex j) (rhx j) (rhy j) (mind j) (aerror j) (side j).
Definition set_exit (w h x y : R) (j : jaws) : jaws := mkJ (tilt j) (clen j) (xen j) (yen j) x y (wen j) (hen j) w h (rhx j) (rhy j) (mind j) (aerror j) (side j).
(* 37-38 with cosalpha = cos(-t), sinalpha = sin(-t) *)
Definition turned_x (t x y : R) : R := x * cos (- t) - y * sin (- t).
Definition turned_y (t x y : R) : R := x * sin (- t) + y * cos (- t).
(* 31-40; with no length the quotients are infinite or undefined and the test fails *)
Definition jaw_test (j : jaws) (x y z : R) : bool :=
  if Reqb (clen j) 0 then false else
  let xo := z * (xen j - xex j) / clen j - xen j in let yo := z * (yen j - yex j) / clen j - yen j in
  let xj := z * (wex j - rhx j * 2) / clen j + rhx j * 2 in let yj := z * (hex j - rhy j * 2) / clen j + rhy j * 2 in
  Rltb (Rabs (turned_x (tilt j) (x + xo) (y + yo)) * 2) xj && Rltb (Rabs (turned_y (tilt j) (x + xo) (y + yo)) * 2) yj.
(* CollimatorAperture, 22-41 *)
Definition within_jaws (j : jaws) (x y z : R) : bool :=
  if (Reqb (xen j) 0 && Reqb (yen j) 0 && Reqb (xex j) 0 && Reqb (yex j) 0)%bool && Rltb (Rabs x + Rabs y) (mind j) then true
  else jaw_test j x y z.
(* UnalignedCollimatorAperture, 138-144 *)
Definition within_unaligned (j : jaws) (x y z : R) : bool :=
  Rltb (Rabs (turned_x (tilt j) (x - xen j) (y - yen j)) * 2) (rhx j * 2) && Rltb (Rabs (turned_y (tilt j) (x - xen j) (y - yen j)) * 2) (rhy j * 2).
(* CollimatorApertureWithErrors, 146-161: the function returns before it uses the error *)
Definition within_errors (j : jaws) (x y z : R) : bool := jaw_test j x y z.
(* OneSidedUnalignedCollimatorAperture, 173-186 *)
Definition within_onesided (j : jaws) (x y z : R) : bool :=
  let x1 := turned_x (tilt j) (x - xen j) (y - yen j) in let y1 := turned_y (tilt j) (x - xen j) (y - yen j) in
  (if side j then Rltb (x1 * 2) (rhx j * 2) else Rltb (- (x1 * 2)) (rhx j * 2)) && Rltb (Rabs y1 * 2) (rhy j * 2).
(* CollimatorApertureWithErrors keeps a public ApertureError, CollimatorAperture.h *)
Definition set_error (e : R) (j : jaws) : jaws := mkJ (tilt j) (clen j) (xen j) (yen j) (xex j) (yex j) (wen j) (hen j) (wex j) (hex j) (rhx j) (rhy j) (mind j) e (side j).
(* SetJawSide, 188-191 *)
Definition set_side (b : bool) (j : jaws) : jaws := mkJ (tilt j) (clen j) (xen j) (yen j) (xex j) (yex j) (wen j) (hen j) (wex j) (hex j) (rhx j) (rhy j) (mind j) (aerror j) b.
