(* Model of rotations and rigid transformations in space and in the plane.
   AxisRotations.cpp, GeneralRotation.cpp, IdentityRotation.cpp, Rot3Drep.cpp,
   Rotation3D.h, RotationMatrix.h, Transform3D.{h,cpp}, Space3D.h,
   Transform2D.h, Space2D.h, PSvectorTransform3D.cpp.
   Doubles are exact reals.  The reference counting of Rot3Drep
   (Rotation3D.h:164-201) is not modelled: a rotation is a value. *)
From Verif Require Export RBase.
Local Open Scope R_scope.

(* TVec3D<double,tag>, Space3D.h:24-91; one type for points and vectors. *)
Record vec3 := mkv { vx : R; vy : R; vz : R }.
(* Space3D.h:213-217 *)
Definition vadd (a b : vec3) := mkv (vx a + vx b) (vy a + vy b) (vz a + vz b).
(* Space3D.h:194-198 *)
Definition vsub (a b : vec3) := mkv (vx a - vx b) (vy a - vy b) (vz a - vz b).
(* Space3D.h:188-192 *)
Definition vopp (a : vec3) := mkv (- vx a) (- vy a) (- vz a).
(* Space3D.h:219-223, 234-238 *)
Definition vscale (s : R) (a : vec3) := mkv (s * vx a) (s * vy a) (s * vz a).
(* Space3D.h:200-204 *)
Definition vdot (a b : vec3) := vx a * vx b + vy a * vy b + vz a * vz b.
(* Space3D.h:240-244 *)
Definition vcross (a b : vec3) :=
  mkv (vy a * vz b - vz a * vy b)
      (vx b * vz a - vz b * vx a)
      (vx a * vy b - vy a * vx b).
(* Space3D.h:128-132 *)
Definition veq (a b : vec3) : bool :=
  fequal (vx a) (vx b) && fequal (vy a) (vy b) && fequal (vz a) (vz b).
(* Space3D.h:134-138 *)
Definition vne (a b : vec3) : bool :=
  negb (Reqb (vx a) (vx b)) || negb (Reqb (vy a) (vy b)) || negb (Reqb (vz a) (vz b)).
(* Space3D.h:206-211 *)
Definition vzero (a : vec3) : bool :=
  fequal (vx a) 0 && fequal (vy a) 0 && fequal (vz a) 0.

(* A 3x3 RealMatrix. *)
Record mat3 := mkm
  { m00 : R; m01 : R; m02 : R;
    m10 : R; m11 : R; m12 : R;
    m20 : R; m21 : R; m22 : R }.

(* Product of two 3x3 RealMatrix, TMatrixLib.h:1463-1483. *)
Definition mmul (a b : mat3) : mat3 := mkm
  (m00 a * m00 b + m01 a * m10 b + m02 a * m20 b)
  (m00 a * m01 b + m01 a * m11 b + m02 a * m21 b)
  (m00 a * m02 b + m01 a * m12 b + m02 a * m22 b)
  (m10 a * m00 b + m11 a * m10 b + m12 a * m20 b)
  (m10 a * m01 b + m11 a * m11 b + m12 a * m21 b)
  (m10 a * m02 b + m11 a * m12 b + m12 a * m22 b)
  (m20 a * m00 b + m21 a * m10 b + m22 a * m20 b)
  (m20 a * m01 b + m21 a * m11 b + m22 a * m21 b)
  (m20 a * m02 b + m21 a * m12 b + m22 a * m22 b).

(* RotationMatrix.h:16-23 *)
Definition decl_xrot (c s : R) := mkm 1 0 0  0 c s  0 (- s) c.
(* RotationMatrix.h:28-35 *)
Definition decl_yrot (c s : R) := mkm c 0 (- s)  0 1 0  s 0 c.
(* RotationMatrix.h:40-47 *)
Definition decl_zrot (c s : R) := mkm c s 0  (- s) c 0  0 0 1.

(* The concrete classes derived from Rot3Drep; an axis rotation stores
   (cosphi, sinphi), AxisRotations.h:67-68; GeneralRotation.h:152. *)
Inductive rot :=
| RI
| RX (c s : R)
| RY (c s : R)
| RZ (c s : R)
| RG (m : mat3).

(* GeneralRotation.cpp:18-32 *)
Definition gen_xy (cx sx cy sy : R) := mkm
  cy 0 (- sy)
  (sx * sy) cx (sx * cy)
  (cx * sy) (- sx) (cx * cy).
(* GeneralRotation.cpp:34-48 *)
Definition gen_xz (cx sx cz sz : R) := mkm
  cz sz 0
  (- cx * sz) (cx * cz) sx
  (sx * sz) (- cz * sx) cx.
(* GeneralRotation.cpp:50-64 *)
Definition gen_yx (cy sy cx sx : R) := mkm
  cy (sx * sy) (- cx * sy)
  0 cx sx
  sy (- cy * sx) (cx * cy).
(* GeneralRotation.cpp:66-80 *)
Definition gen_yz (cy sy cz sz : R) := mkm
  (cy * cz) (cy * sz) (- sy)
  (- sz) cz 0
  (cz * sy) (sy * sz) cy.
(* GeneralRotation.cpp:82-96 *)
Definition gen_zx (cz sz cx sx : R) := mkm
  cz (cx * sz) (sx * sz)
  (- sz) (cx * cz) (cz * sx)
  0 (- sx) cx.
(* GeneralRotation.cpp:98-112 *)
Definition gen_zy (cz sz cy sy : R) := mkm
  (cy * cz) sz (- cz * sy)
  (- cy * sz) cz (sy * sz)
  sy 0 cy.

(* rotate: IdentityRotation.cpp:17-25, AxisRotations.cpp:23-31, 104-112,
   185-193, GeneralRotation.cpp:148-162 (same for points and vectors). *)
Definition rotate (r : rot) (p : vec3) : vec3 :=
  match r with
  | RI => p
  | RX c s => mkv (vx p) (vy p * c + vz p * s) (- vy p * s + vz p * c)
  | RY c s => mkv (vx p * c - vz p * s) (vy p) (vz p * c + vx p * s)
  | RZ c s => mkv (vx p * c + vy p * s) (vy p * c - vx p * s) (vz p)
  | RG m => mkv (m00 m * vx p + m01 m * vy p + m02 m * vz p)
                (m10 m * vx p + m11 m * vy p + m12 m * vz p)
                (m20 m * vx p + m21 m * vy p + m22 m * vz p)
  end.

(* inv: IdentityRotation.cpp:12-15, AxisRotations.cpp:18-21, 99-102, 180-183,
   GeneralRotation.cpp:129-146 (transpose). *)
Definition rinv (r : rot) : rot :=
  match r with
  | RI => RI
  | RX c s => RX c (- s)
  | RY c s => RY c (- s)
  | RZ c s => RZ c (- s)
  | RG m => RG (mkm (m00 m) (m10 m) (m20 m)
                    (m01 m) (m11 m) (m21 m)
                    (m02 m) (m12 m) (m22 m))
  end.

(* dotBy of two rotations about the same axis: AxisRotations.cpp:38-50,
   124-136, 210-222; (c,s) belongs to the object, (c1,s1) to the argument. *)
Definition same_axis (mk : R -> R -> rot) (c s c1 s1 : R) : rot :=
  let ncos := c * c1 - s * s1 in
  if Reqb ncos 1 then RI else mk ncos (s * c1 + c * s1).

(* a.dot(b): double dispatch b.dotBy(a), AxisRotations.cpp:33-65, 114-146,
   195-227, GeneralRotation.cpp:114-127, 164-187, IdentityRotation.cpp:32-55. *)
Definition rdot (a b : rot) : rot :=
  match a with
  | RI => b
  | RX ca sa =>
      match b with
      | RI => a
      | RX c s => same_axis RX c s ca sa
      | RY c s => RG (gen_xy ca sa c s)
      | RZ c s => RG (gen_xz ca sa c s)
      | RG m => RG (mmul (decl_xrot ca sa) m)
      end
  | RY ca sa =>
      match b with
      | RI => a
      | RX c s => RG (gen_yx ca sa c s)
      | RY c s => same_axis RY c s ca sa
      | RZ c s => RG (gen_yz ca sa c s)
      | RG m => RG (mmul (decl_yrot ca sa) m)
      end
  | RZ ca sa =>
      match b with
      | RI => a
      | RX c s => RG (gen_zx ca sa c s)
      | RY c s => RG (gen_zy ca sa c s)
      | RZ c s => same_axis RZ c s ca sa
      | RG m => RG (mmul (decl_zrot ca sa) m)
      end
  | RG ma =>
      match b with
      | RI => a
      | RX c s => RG (mmul ma (decl_xrot c s))
      | RY c s => RG (mmul ma (decl_yrot c s))
      | RZ c s => RG (mmul ma (decl_zrot c s))
      | RG m => RG (mmul ma m)
      end
  end.

(* getMatrix: IdentityRotation.cpp:77-80, AxisRotations.cpp:92-95, 173-176,
   254-257, GeneralRotation.cpp:244-247. *)
Definition get_matrix (r : rot) : mat3 :=
  match r with
  | RI => mkm 1 0 0 0 1 0 0 0 1
  | RX c s => decl_xrot c s
  | RY c s => decl_yrot c s
  | RZ c s => decl_zrot c s
  | RG m => m
  end.

(* isIdentity: Rot3Drep.cpp:22-25, IdentityRotation.cpp:27-30,
   GeneralRotation.cpp:194-197 *)
Definition ris_identity (r : rot) : bool :=
  match r with
  | RI => true
  | RG m => Reqb (m00 m) 1 && Reqb (m11 m) 1 && Reqb (m22 m) 1
  | _ => false
  end.
(* isXrot, isYrot, isZrot: Rot3Drep.cpp:27-40, AxisRotations.cpp:72, 153, 234,
   GeneralRotation.cpp:199-212 *)
Definition is_xrot (r : rot) : bool :=
  match r with
  | RX _ _ => true
  | RG m => Reqb (m00 m) 1 && Reqb (m01 m) 0 && Reqb (m02 m) 0
  | _ => false
  end.
Definition is_yrot (r : rot) : bool :=
  match r with
  | RY _ _ => true
  | RG m => Reqb (m10 m) 0 && Reqb (m11 m) 1 && Reqb (m12 m) 0
  | _ => false
  end.
Definition is_zrot (r : rot) : bool :=
  match r with
  | RZ _ _ => true
  | RG m => Reqb (m20 m) 0 && Reqb (m21 m) 0 && Reqb (m22 m) 1
  | _ => false
  end.

(* rotXbyPI: AxisRotations.cpp:77-80, 158-161, 239-242,
   GeneralRotation.cpp:214-222, IdentityRotation.cpp:62-65 *)
Definition rot_x_pi (r : rot) : rot :=
  match r with
  | RI => RI
  | RX c s => RX c s
  | RY c s => RY c (- s)
  | RZ c s => RZ c (- s)
  | RG m => RG (mkm (m00 m) (- m01 m) (- m02 m)
                    (- m10 m) (m11 m) (m12 m)
                    (- m20 m) (m21 m) (m22 m))
  end.
(* rotYbyPI: AxisRotations.cpp:82-85, 163-166, 244-247,
   GeneralRotation.cpp:224-232, IdentityRotation.cpp:67-70 *)
Definition rot_y_pi (r : rot) : rot :=
  match r with
  | RI => RI
  | RX c s => RX c (- s)
  | RY c s => RY c s
  | RZ c s => RZ c (- s)
  | RG m => RG (mkm (m00 m) (- m01 m) (m02 m)
                    (- m10 m) (m11 m) (- m12 m)
                    (m20 m) (- m21 m) (m22 m))
  end.
(* rotZbyPI: AxisRotations.cpp:87-90, 168-171, 249-252,
   GeneralRotation.cpp:234-242, IdentityRotation.cpp:72-75 *)
Definition rot_z_pi (r : rot) : rot :=
  match r with
  | RI => RI
  | RX c s => RX c (- s)
  | RY c s => RY c (- s)
  | RZ c s => RZ c s
  | RG m => RG (mkm (m00 m) (m01 m) (- m02 m)
                    (m10 m) (m11 m) (- m12 m)
                    (- m20 m) (- m21 m) (m22 m))
  end.

(* Rot3Drep.cpp:47-81: the angle 0 gives the identity object. *)
Definition rotation_x (a : R) : rot := if Reqb a 0 then RI else RX (cos a) (sin a).
Definition rotation_y (a : R) : rot := if Reqb a 0 then RI else RY (cos a) (sin a).
Definition rotation_z (a : R) : rot := if Reqb a 0 then RI else RZ (cos a) (sin a).

(* Transform3D.h:152-167 *)
Record tr3 := mkt { x0 : vec3; rr : rot }.

(* Transform3D.h:171-174 *)
Definition tr_id : tr3 := mkt (mkv 0 0 0) RI.
(* operator()(Point3D), operator*(Point3D): Transform3D.h:196-199, 206-209 *)
Definition tr_pt (t : tr3) (p : vec3) : vec3 := rotate (rr t) (vsub p (x0 t)).
(* operator()(Vector3D), operator*(Vector3D): Transform3D.h:201-204, 211-214 *)
Definition tr_vec (t : tr3) (v : vec3) : vec3 := rotate (rr t) v.
(* u *= t : Transform3D.cpp:13-19 *)
Definition tr_mul_by (u t : tr3) : tr3 :=
  mkt (vadd (x0 u) (rotate (rinv (rr u)) (x0 t))) (rdot (rr t) (rr u)).
(* s * t : Transform3D.h:216-220 *)
Definition tr_mul (s t : tr3) : tr3 := tr_mul_by t s.
(* inv, invert: Transform3D.cpp:21-31 *)
Definition tr_inv (t : tr3) : tr3 := mkt (vopp (rotate (rr t) (x0 t))) (rinv (rr t)).
(* Transform3D.h:222-241 *)
Definition tr_x_pi (t : tr3) : tr3 :=
  mkt (mkv (vx (x0 t)) (- vy (x0 t)) (- vz (x0 t))) (rot_x_pi (rr t)).
Definition tr_y_pi (t : tr3) : tr3 :=
  mkt (mkv (- vx (x0 t)) (vy (x0 t)) (- vz (x0 t))) (rot_y_pi (rr t)).
Definition tr_z_pi (t : tr3) : tr3 :=
  mkt (mkv (- vx (x0 t)) (- vy (x0 t)) (vz (x0 t))) (rot_z_pi (rr t)).
(* Transform3D.h:243-246 *)
Definition tr_is_identity (t : tr3) : bool := vzero (x0 t) && ris_identity (rr t).
(* Transform3D.cpp:33-51 *)
Definition tr_rot_x (a : R) : tr3 := mkt (mkv 0 0 0) (rotation_x a).
Definition tr_rot_y (a : R) : tr3 := mkt (mkv 0 0 0) (rotation_y a).
Definition tr_rot_z (a : R) : tr3 := mkt (mkv 0 0 0) (rotation_z a).
Definition tr_translation (dx dy dz : R) : tr3 := mkt (mkv dx dy dz) RI.

(* Two-argument arctangent of the C library for finite arguments. *)
Definition atan2 (y x : R) : R :=
  if Rltb 0 x then atan (y / x)
  else if Rltb x 0 then
    if Rleb 0 y then atan (y / x) + PI else atan (y / x) - PI
  else if Rltb 0 y then PI / 2
  else if Rltb y 0 then - (PI / 2)
  else 0.

(* TVec2D, Space2D.h:24-160 *)
Record vec2 := mkv2 { px : R; py : R }.
Definition v2add (a b : vec2) := mkv2 (px a + px b) (py a + py b).
Definition v2sub (a b : vec2) := mkv2 (px a - px b) (py a - py b).
Definition v2opp (a : vec2) := mkv2 (- px a) (- py a).
(* Space2D.h:116-120: the second test passes a tolerance of 0. *)
Definition v2zero (a : vec2) : bool := fequal (px a) 0 && fequal_tol (py a) 0 0.

(* Rotation2D, Transform2D.h:25-169 *)
Record rot2 := mkr2 { cosa : R; sina : R }.
(* Transform2D.h:31-34 *)
Definition r2_of (a : R) : rot2 := mkr2 (cos a) (sin a).
(* Transform2D.h:40-43 *)
Definition r2_angle (r : rot2) : R := atan2 (sina r) (cosa r).
(* Transform2D.h:77-80 *)
Definition r2_is_identity (r : rot2) : bool := fequal (sina r) 0.
(* Transform2D.h:97-100 *)
Definition r2_mul (r2 r1 : rot2) : rot2 :=
  mkr2 (cosa r2 * cosa r1 - sina r2 * sina r1) (sina r2 * cosa r1 + cosa r2 * sina r1).
(* Transform2D.h:105-117 *)
Definition r2_inv (r : rot2) : rot2 := mkr2 (cosa r) (- sina r).
(* Transform2D.h:122-130 *)
Definition r2_app (r : rot2) (p : vec2) : vec2 :=
  mkv2 (cosa r * px p - sina r * py p) (sina r * px p + cosa r * py p).

(* Transform2D, Transform2D.h:176-339 *)
Record tr2 := mkt2 { r2 : rot2; o2 : vec2 }.
(* Transform2D.h:182-185 *)
Definition tr2_of (dx dy dphi : R) : tr2 := mkt2 (r2_of dphi) (mkv2 dx dy).
(* Transform2D.h:198-202 *)
Definition tr2_mul (t2 t1 : tr2) : tr2 :=
  mkt2 (r2_mul (r2 t2) (r2 t1)) (v2add (r2_app (r2 t2) (o2 t1)) (o2 t2)).
(* Transform2D.h:216-230 *)
Definition tr2_inv (t : tr2) : tr2 :=
  mkt2 (r2_inv (r2 t)) (v2opp (r2_app (r2_inv (r2 t)) (o2 t))).
(* Transform2D.h:282-285 *)
Definition tr2_is_identity (t : tr2) : bool := v2zero (o2 t) && r2_is_identity (r2 t).
(* Transform2D.h:288-296 *)
Definition tr2_pt (t : tr2) (p : vec2) : vec2 := v2sub (r2_app (r2 t) p) (o2 t).
Definition tr2_vec (t : tr2) (v : vec2) : vec2 := r2_app (r2 t) v.

(* Transform3D(const Transform2D&), Transform3D.h:181-184 *)
Definition tr3_of_tr2 (t : tr2) : tr3 :=
  mkt (mkv (px (o2 t)) (py (o2 t)) 0) (rotation_z (r2_angle (r2 t))).

(* PSvector, PSvector.h: the six coordinates; the remaining members
   (type, location, id, sd) are one opaque value. *)
Record ps (I : Type) := mkps
  { psx : R; psxp : R; psy : R; psyp : R; psct : R; psdp : R; psinfo : I }.
Arguments mkps {I}. Arguments psx {I}. Arguments psxp {I}. Arguments psy {I}.
Arguments psyp {I}. Arguments psct {I}. Arguments psdp {I}. Arguments psinfo {I}.

(* PSvectorTransform3D::Apply, PSvectorTransform3D.cpp:11-46.  The division
   by V.z is the real division: nothing is claimed when V.z = 0. *)
Definition ps_apply {I} (t : tr3) (p : ps I) : ps I :=
  if ris_identity (rr t) then
    mkps (psx p + (vz (x0 t) * psxp p - vx (x0 t))) (psxp p)
         (psy p + (vz (x0 t) * psyp p - vy (x0 t))) (psyp p)
         (psct p) (psdp p) (psinfo p)
  else
    let X := tr_pt t (mkv (psx p) (psy p) 0) in
    let V := tr_vec t (mkv (psxp p) (psyp p) 1) in
    let vx' := vx V / vz V in
    let vy' := vy V / vz V in
    mkps (vx X - vz X * vx') vx' (vy X - vz X * vy') vy'
         (psct p) (psdp p) (psinfo p).

(* Apply on an array, PSvectorTransform3D.cpp:48-52 *)
Definition ps_apply_all {I} (t : tr3) (l : list (ps I)) : list (ps I) :=
  map (ps_apply t) l.
