(* What spin tracking should do: the equation of Thomas, Bargmann, Michel and
   Telegdi, the laws of Gauss and Ampere for the ends of magnets, and a bunch as
   a list of particles each with its own spin. *)
From Verif Require Import Rot Spin.
Local Open Scope R_scope.

(* dS/dt = Om x S *)
Definition precesses (Om : vec3) (S : R -> vec3) : Prop := forall t,
  derivable_pt_lim (fun u => vx (S u)) t (vy Om * vz (S t) - vz Om * vy (S t)) /\
  derivable_pt_lim (fun u => vy (S u)) t (vz Om * vx (S t) - vx Om * vz (S t)) /\
  derivable_pt_lim (fun u => vz (S u)) t (vx Om * vy (S t) - vy Om * vx (S t)).
(* s becomes s' while precessing over the length ds *)
Definition turned (Om : vec3) (ds : R) (s s' : vec3) : Prop :=
  exists S, S 0 = s /\ precesses Om S /\ S ds = s'.

(* the anomaly of the electron, its rest energy in GeV, the speed of light *)
Definition anomaly : R := 1159652181 / 10 ^ 12.
Definition electron_gev : R := 510998910 / 10 ^ 12.
Definition light : R := 299792458.
(* momentum in GeV/c over charge, in tesla metres *)
Definition rigidity (P : R) : R := P * 10 ^ 9 / light.
Definition lorentz (P : R) : R := P / electron_gev.

(* precession of the spin per metre: field B, rigidity and Lorentz factor of the
   particle; the beam moves along z and the speed is that of light *)
Definition bmt (rig gamma : R) (B : vec3) : vec3 :=
  mkv (- ((1 + anomaly * gamma) * vx B / rig)) (- ((1 + anomaly * gamma) * vy B / rig)) (- ((1 + anomaly) * vz B / rig)).
(* the same seen from a frame that turns about y with curvature h *)
Definition bmt_frame (h rig gamma : R) (B : vec3) : vec3 :=
  mkv (vx (bmt rig gamma B)) (vy (bmt rig gamma B) + h) (vz (bmt rig gamma B)).
(* what the process makes of it: the frame follows the particle *)
Definition bmt_own (rig gamma : R) (B : vec3) : vec3 := bmt_frame (vy B / rig) rig gamma B.

(* The end of a solenoid, passed at the distance r from the axis: [I] is the integral
   of the radial field, [B0] and [B1] the fields before and behind.  No flux is lost:
   what leaves through the side of a cylinder has to come in at its ends. *)
Definition gauss (r B0 B1 I : R) : Prop := 2 * PI * r * I + PI * r * r * B1 = PI * r * r * B0.
(* The end of a dipole, passed at the height y above the symmetry plane: [I] is the
   integral of the longitudinal field there, By0 and By1 the vertical fields before
   and behind; in the plane there is no longitudinal field.  No current: the
   circulation vanishes. *)
Definition ampere (y By0 By1 I : R) : Prop := I + (y * By0 - y * By1) = 0.

(* fields integrated over the ends of the magnets, as the process has them: solenoid
   at (x,y), dipole with face angle th at height y *)
Definition solenoid_end (sign Bz x y : R) : vec3 := mkv (sign * Bz * x) (sign * Bz * y) 0.
Definition dipole_end (sign B0 th y : R) : vec3 := mkv (sin th * (B0 * y / 2)) 0 (sign * (cos th * (B0 * y / 2))).

Definition len2 (v : vec3) : R := vx v * vx v + vy v * vy v + vz v * vz v.

(* A bunch as a list of pairs. *)
Definition remove_at {A} (n : nat) (l : list A) : list A := firstn n l ++ skipn (S n) l.

(* the rates of the three parts of a component *)
Definition face (e : option R) : R := match e with Some r => r | None => 0 end.
Definition entrance_rate (m : magnet) (rig gamma x y : R) : vec3 :=
  match m with
  | Plain => mkv 0 0 0
  | Bend B0 e _ => bmt rig gamma (dipole_end 1 B0 (face e) y)
  | Solen Bz => bmt light gamma (solenoid_end (-1) Bz x y)
  end.
Definition exit_rate (m : magnet) (rig gamma x y : R) : vec3 :=
  match m with
  | Plain => mkv 0 0 0
  | Bend B0 _ e => bmt rig gamma (dipole_end (-1) B0 (face e) y)
  | Solen Bz => bmt light gamma (solenoid_end 1 Bz x y)
  end.
Definition body_rate (m : magnet) (rig gamma : R) (B : vec3) : vec3 :=
  if is_bend m then bmt_own rig gamma B else bmt rig gamma B.

(* A whole step for one particle. *)
Definition own_rigidity (P0 : R) (p : part) : R := rigidity P0 * (1 + psdp p).
Definition own_gamma (st : sproc) (P0 : R) (p : part) : R := lorentz ((if Req_EM_T (pspin st) 0 then P0 else pspin st) * (1 + psdp p)).
Definition stepped (st : sproc) (f : R -> R -> vec3) (P0 ds : R) (p : part) (s s' : vec3) : Prop :=
  let rig := own_rigidity P0 p in
  let g := own_gamma st P0 p in
  exists s1 s2,
    (intS st = 0 -> turned (entrance_rate (mag st) rig g (psx p) (psy p)) 1 s s1) /\
    (intS st <> 0 -> s1 = s) /\
    turned (body_rate (mag st) rig g (f (psx p) (psy p))) ds s1 s2 /\
    (Rabs (intS st + ds - clength st) <= eps -> turned (exit_rate (mag st) rig g (psx p) (psy p)) 1 s2 s') /\
    (eps < Rabs (intS st + ds - clength st) -> s' = s2).
