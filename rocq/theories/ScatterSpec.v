(* What a user of the scattering of protons relies on, stated without the functions of
   the model. *)
From Verif Require Import RBase Bunch Material MaterialSpec Scatter.
From Coq Require Import List.
Import ListNotations.
Local Open Scope R_scope.

(* the energy of a proton in a beam of reference energy E *)
Definition energy (E : R) (p : particle) : R := E * (1 + vdp (pv p)).
Definition same_place (p q : particle) : Prop :=
  vx (pv q) = vx (pv p) /\ vy (pv q) = vy (pv p) /\ vct (pv q) = vct (pv p) /\ pid q = pid p.
(* the proton gave away the energy dE and got the transverse momentum squared t, in a
   plane at the angle phi *)
Definition kicked (E dE t phi : R) (p q : particle) : Prop :=
  same_place p q /\ energy E q = energy E p - dE /\
  (vxp (pv q) - vxp (pv p)) * energy E q = sqrt t * cos phi /\ (vyp (pv q) - vyp (pv p)) * energy E q = sqrt t * sin phi.
(* an angle between -pi and pi from a number between 0 and 1 *)
Definition plane (u : R) : R := (2 * u - 1) * PI.
(* what a process exchanges: the squared momentum transfer t and the energy dE in GeV,
   for a proton of energy E, using the random numbers at k, k+1, ..; the last one used
   is before k' *)
Definition mprot : R := 0.938272013.
Definition nucleus_mass (a : R) : R := 0.931494028 * a.
Definition pp_slope (E : R) : R := 8.5 + 1.086 * ln (sqrt (2 * mprot * E)).
Definition at_nucleus (f : material -> R -> mres R) (m : material) (o : oracle) (k : nat) (a : R) (k1 : nat) : Prop :=
  f m (un o k) = Ok a /\ k1 = match mmix m with None => k | Some _ => S k end.
Definition rutherford_t (u t : R) : Prop := t * (1 - u) = 0.0009982.
(* exp(-b t) is uniform *)
Definition exponential_t (u b t : R) : Prop := 0 < u /\ exp (- (b * t)) = u.
Definition sd_slope (m2 b : R) : R := if Rltb m2 2 then 2 * b else if Rltb 5 m2 then 7 / 12 * b else (106 - 17 * m2) / 26 * b.
Definition exchanged (o : oracle) (T : tables) (q : proc) (k k' : nat) (E t dE : R) : Prop :=
  match q with
  | Ruth m => exists a k1, at_nucleus nucleus_R m o k a k1 /\ k' = (2 + k1)%nat /\ rutherford_t (un o k1) t /\ dE * (2 * nucleus_mass a) = t
  | SixRuth => k' = (2 + k)%nat /\ rutherford_t (un o k) t /\ dE = 0
  | Elpn Ec => k' = (2 + k)%nat /\ t = el_t T Ec (un o k) /\ dE = 0
  | SixElpn => k' = (2 + k)%nat /\ exponential_t (un o k) (pp_slope E) t /\ dE = 0
  | ElpN m => exists a k1, at_nucleus nucleus_H m o k a k1 /\ k' = (2 + k1)%nat /\
                exponential_t (un o k1) (14.1 * Rpower a 0.66) t /\ dE * (2 * nucleus_mass a) = t
  | SixElpN m => exists a k1, at_nucleus nucleus_H m o k a k1 /\ k' = (2 + k1)%nat /\
                exponential_t (un o k1) (14.1 * Rpower a 0.66) t /\ dE = 0
  | SD Ec => k' = (2 + k)%nat /\ t = sd_t T Ec (un o k) /\ dE * (2 * mprot * (E + mprot)) = sd_m T Ec (un o k) ^ 2 * E
  | SixSD => k' = (3 + k)%nat /\ exists m2, ln m2 = un o k * ln (0.15 * (2 * mprot * E)) /\ 0 < m2 /\
                exponential_t (un o (S k)) (sd_slope m2 (pp_slope E)) t /\ dE * (2 * mprot) = m2
  | Inel => False
  end.
Definition total (l : list R) : R := fold_right Rplus 0 l.

(* a sequence of scatterings: the addresses of the materials and the energies *)
Definition call := (nat * R)%type.
(* the energy of the first one in a material *)
Fixpoint first_energy (a : nat) (h : list call) : option R :=
  match h with [] => None | (b, E) :: r => if Nat.eqb a b then Some E else first_energy a r end.
(* a scattering model after such a sequence; mats are the materials *)
Inductive after (o : oracle) (K : kind) (T : tables) (mats : nat -> material) : list call -> smodel -> Prop :=
| after_none : after o K T mats [] new_model
| after_call h s a E k p s' k' r : after o K T mats h s -> particle_scatter o K T a (mats a) s k p E = Ok (s', k', r) ->
    after o K T mats (h ++ [(a, E)]) s'.
(* the number of nuclei in a cubic metre, times a square metre per barn *)
Definition per_metre (m : material) : R := mrho m * 1000 * avogadro * barn / mA m.

(* the two sizes of a straggling step: x is the thickness, th the width of the angle;
   the four normal numbers are independent, so the mean of a product of two linear
   forms in them is the product of the coefficients *)
Definition lin (a : R * R * R * R) (n : nat -> R) (k : nat) : R :=
  let '(a1, a2, a3, a4) := a in a1 * n k + a2 * n (S k) + a3 * n (S (S k)) + a4 * n (S (S (S k))).
Definition cov (a b : R * R * R * R) : R :=
  let '(a1, a2, a3, a4) := a in let '(b1, b2, b3, b4) := b in a1 * b1 + a2 * b2 + a3 * b3 + a4 * b4.
(* Particle Data Group: the width of multiple scattering in a thickness x of a material of
   radiation length X, both in metres, for an energy in GeV *)
Definition highland (x X E : R) : R := 0.0136 / E * sqrt (x / X) * (1 + 0.038 * ln (x / X)).

(* Sternheimer's density correction with its three constants, y = log10(beta gamma) *)
Definition sternheimer (C x0 x1 y : R) : R :=
  if Rltb y x0 then 0 else if Rltb x1 y then 4.606 * y - C else 4.606 * y - C + (C - 4.606 * x0) * ((x1 - y) / (x1 - x0)) ^ 3.
(* the largest energy given to an electron at rest, in GeV *)
Definition electron : R := 0.000510998910.
Definition tmax_of (beta gamma : R) : R :=
  2 * electron * beta ^ 2 * gamma ^ 2 / (1 + 2 * gamma * (electron / mprot) + (electron / mprot) ^ 2).
(* the corrections of high order *)
Definition higher (alpha beta tmax : R) : R :=
  PI * alpha * beta / 2 - ln (1 + 2 * tmax * electron / 0.843 ^ 2) - 2 * (1.202001688211 * (alpha / beta) ^ 2).
(* the most probable energy loss in GeV: xi in GeV, the mass of the electron and the
   excitation energy I in GeV; c collects the other terms *)
Definition probable_loss (xi beta gamma I c : R) : R :=
  xi * (ln (2 * electron * beta ^ 2 * gamma ^ 2 * xi / I ^ 2) + 0.2 - beta ^ 2 + c).
