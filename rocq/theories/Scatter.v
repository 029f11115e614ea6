(* Model of the scattering of protons in collimators:
   Merlin++/CollimateProtonProcess.cpp 41-204, ScatteringModel.cpp 32-40, 114-314,
   ScatteringModelsMerlin.cpp 19-108, ScatteringProcess.cpp 34-347.
   Arithmetic is exact; a double which would be an infinity or NaN is Throw
   NotNumber.  The random numbers are sequences given from outside and a position
   in them.  Not modelled: printing, the output of plots, the tables of elastic and
   diffractive scattering (ElasticScatter.cpp, DiffractiveScatter.cpp), which are
   functions given from outside. *)
From Verif Require Import RBase Bunch Material.
From Coq Require Import ZArith List.
Import ListNotations.
Local Open Scope R_scope.

(* RandomNG: the k-th call gives un k for uniform(0,1), nrm k for normal(0,1), lnd k
   for landau() *)
Record oracle := mkO { un : nat -> R; nrm : nat -> R; lnd : nat -> R }.
(* SelectT, Select and the cross sections of ElasticScatter and DiffractiveScatter,
   made for an energy *)
Record tables := mkT { el_sigma : R -> R; el_t : R -> R -> R; sd_sigma : R -> R; sd_t : R -> R -> R; sd_m : R -> R -> R }.

(* PhysicalConstants.cpp 20-46, in GeV *)
Definition mp : R := 0.938272013.
Definition amu : R := 0.931494028.

Definition set_dp6 (d : R) (p : particle) : particle :=
  let v := pv p in mkP (V6 (vx v) (vxp v) (vy v) (vyp v) (vct v) d) (pid p).
Definition kick (a b : R) (p : particle) : particle :=
  let v := pv p in mkP (V6 (vx v) (vxp v + a) (vy v) (vyp v + b) (vct v) (vdp v)) (pid p).

(* theta = sqrt(t) / E and the kick of ScatteringProcess.cpp 37-40, 50-53, 62-65 *)
Definition deflect (t E : R) (phi : R) (p : particle) : mres particle :=
  if (Rltb t 0 || Reqb E 0)%bool then Throw NotNumber else
  let theta := sqrt t / E in Ok (kick (theta * cos phi) (theta * sin phi) p).
(* RandomNG::uniform(-pi, pi) *)
Definition phi_of (u : R) : R := - PI + 2 * PI * u.
(* ScatteringProcess.cpp 34-41 *)
Definition stuff (u : R) (p : particle) (t E0 : R) : mres particle :=
  deflect t ((vdp (pv p) + 1) * E0) (phi_of u) p.
(* ScatteringProcess.cpp 56-66 *)
Definition stuff_dp (u : R) (dp : R) (p : particle) (t E0 : R) : mres particle :=
  if Reqb E0 0 then Throw NotNumber else
  let E2 := (vdp (pv p) + 1) * E0 - dp in
  deflect t E2 (phi_of u) (set_dp6 ((E2 - E0) / E0) p).
(* ScatteringProcess.cpp 43-54 *)
Definition stuff_mass (u : R) (p : particle) (t m E0 : R) : mres particle :=
  if (Reqb m 0 || Reqb E0 0)%bool then Throw NotNumber else
  let delta := t / (2 * m) in
  let E2 := (vdp (pv p) + 1) * E0 - delta in
  deflect t E2 (phi_of u) (set_dp6 ((E2 - E0) / E0) p).

(* the processes of ScatteringProcess.h 58-141 with what they keep *)
Inductive proc := Ruth (m : material) | SixRuth | Elpn (E : R) | SixElpn | SD (E : R) | SixSD | Inel
                | ElpN (m : material) | SixElpN (m : material).
Definition tmin : R := 0.0009982.
(* t = tmin / (1 - u), ScatteringProcess.cpp 81, 106 *)
Definition ruth_t (u : R) : mres R := if Reqb u 1 then Throw NotNumber else Ok (tmin / (1 - u)).
(* t = -log(u) / b *)
Definition exp_t (u b : R) : mres R := if (Rleb u 0 || Reqb b 0)%bool then Throw NotNumber else Ok (- ln u / b).
(* E3 <= 0.1 is false, after the change of p *)
Definition alive (E : R) (p : particle) : particle * bool := (p, negb (Rleb ((1 + vdp (pv p)) * E) 0.1)).
(* a random nucleus: a random number is used up for a mixture only *)
Definition nucleus (f : material -> R -> mres R) (m : material) (o : oracle) (k : nat) : mres (nat * R) :=
  match mmix m with None => do a <- f m 0; Ok (k, a) | Some _ => do a <- f m (un o k); Ok (S k, a) end.
(* pow(x, y) for positive x *)
Definition rpow_pos (x y : R) : mres R := if Rleb x 0 then Throw NotNumber else Ok (Rpower x y).
(* 8.5 + 1.086 * log(sqrt(com_sqd)), ScatteringProcess.cpp 171, 305 *)
Definition slope_pp (com : R) : mres R := if Rleb com 0 then Throw NotNumber else Ok (8.5 + 1.086 * ln (sqrt com)).
(* ScatteringProcess.cpp 306-319 *)
Definition slope_sd (xm2 bpp : R) : R :=
  if Rltb xm2 2 then 2 * bpp else if Rleb xm2 5 then (106 - 17 * xm2) * bpp / 26 else 7 * bpp / 12.

(* Scatter(p, E) of each process: ScatteringProcess.cpp 78-92, 104-117, 142-157,
   168-184, 206-221, 234-250, 275-292, 302-333, 344-347 *)
Definition scatter (o : oracle) (T : tables) (q : proc) (k : nat) (p : particle) (E : R) : mres (nat * (particle * bool)) :=
  match q with
  | Ruth m =>
      do ka <- nucleus nucleus_R m o k;
      do t <- ruth_t (un o (fst ka));
      do p' <- stuff_mass (un o (S (fst ka))) p t (amu * snd ka) E;
      Ok (S (S (fst ka)), alive E p')
  | SixRuth =>
      do t <- ruth_t (un o k); do p' <- stuff (un o (S k)) p t E; Ok (S (S k), alive E p')
  | Elpn Ec =>
      do p' <- stuff (un o (S k)) p (el_t T Ec (un o k)) E; Ok (S (S k), alive E p')
  | SixElpn =>
      do b <- slope_pp (2 * mp * E); do t <- exp_t (un o k) b; do p' <- stuff (un o (S k)) p t E; Ok (S (S k), alive E p')
  | ElpN m =>
      do ka <- nucleus nucleus_H m o k;
      do w <- rpow_pos (snd ka) 0.66;
      do t <- exp_t (un o (fst ka)) (14.1 * w);
      do p' <- stuff_mass (un o (S (fst ka))) p t (amu * snd ka) E;
      Ok (S (S (fst ka)), alive E p')
  | SixElpN m =>
      do ka <- nucleus nucleus_H m o k;
      do w <- rpow_pos (snd ka) 0.66;
      do t <- exp_t (un o (fst ka)) (14.1 * w);
      do p' <- stuff (un o (S (fst ka))) p t E;
      Ok (S (S (fst ka)), alive E p')
  | SD Ec =>
      let com := 2 * mp * E + 2 * mp * mp in
      if Reqb com 0 then Throw NotNumber else
      let mr := sd_m T Ec (un o k) in
      do p' <- stuff_dp (un o (S k)) (mr * mr * E / com) p (sd_t T Ec (un o k)) E; Ok (S (S k), alive E p')
  | SixSD =>
      let com := 2 * mp * E in
      do bpp <- slope_pp com;
      let xm2 := exp (un o k * ln (0.15 * com)) in
      do t <- exp_t (un o (S k)) (slope_sd xm2 bpp);
      do p' <- stuff_dp (un o (S (S k))) (xm2 * E / com) p t E; Ok (S (S (S k)), alive E p')
  | Inel => Ok (k, (p, false))
  end.

(* ScatteringModel.h 86-91 and the models of ScatteringModelsMerlin.h *)
Inductive lossmode := Simple | Full.
Inductive kind := Merlin | SixTrack | SixTrackIoniz | SixTrackElastic | SixTrackSD.
(* ScatteringModel.h: energy_loss_mode, oldMaterial, Xsection[0..4], Processes[1..5],
   saveDetails; materials are known by their address *)
Record smodel := mkSM { sm_mode : lossmode; sm_old : option nat; sm_xs : list R; sm_procs : list proc;
  sm_saved : list (nat * (list R * list proc)) }.
(* ScatteringModel.cpp 32-38; the processes are null pointers *)
Definition new_model : smodel := mkSM Full None [0; 0; 0; 0; 0] [] [].
(* the Configure functions, ScatteringModelsMerlin.cpp 19-108 *)
Definition configure (K : kind) (T : tables) (m : material) (E : R) : mres (list R * list proc) :=
  do w <- rpow_pos (mA m) 0.333;
  let s := 2 * mp * E + mp * mp in
  let six_el := if Rleb E 0 then Throw NotNumber else Ok (0.007 * Rpower (E / 450) 0.04792) in
  let six_sd := if Rleb s 0 then Throw NotNumber else Ok (0.00068 * ln (0.15 * s)) in
  let xs el sd := [mST m; mSR m; 1.618 * w * el; 1.618 * w * sd; mSI m] in
  match K with
  | Merlin => Ok (xs (el_sigma T E) (sd_sigma T E), [Ruth m; Elpn E; SD E; Inel; ElpN m])
  | SixTrack | SixTrackIoniz =>
      do a <- six_el; do b <- six_sd; Ok (xs a b, [SixRuth; SixElpn; SixSD; Inel; SixElpN m])
  | SixTrackElastic =>
      do b <- six_sd; Ok (xs (el_sigma T E) b, [SixRuth; Elpn E; SixSD; Inel; ElpN m])
  | SixTrackSD =>
      do a <- six_el; Ok (xs a (sd_sigma T E), [SixRuth; SixElpn; SD E; Inel; SixElpN m])
  end.
Definition mode_of (K : kind) (old : lossmode) : lossmode :=
  match K with Merlin => old | SixTrackIoniz => Full | _ => Simple end.

Fixpoint lookup {B} (a : nat) (l : list (nat * B)) : option B :=
  match l with [] => None | (b, v) :: r => if Nat.eqb a b then Some v else lookup a r end.
(* ScatteringModel.cpp 269-296 *)
Definition prepare (K : kind) (T : tables) (a : nat) (m : material) (E : R) (s : smodel) : mres smodel :=
  if (match sm_old s with Some b => Nat.eqb a b | None => false end) then Ok s else
  match lookup a (sm_saved s) with
  | Some (xs, ps) => Ok (mkSM (sm_mode s) (Some a) xs ps (sm_saved s))
  | None => do c <- configure K T m E;
            Ok (mkSM (mode_of K (sm_mode s)) (Some a) (fst c) (snd c) ((a, c) :: sm_saved s))
  end.
(* the loop of ScatteringModel.cpp 305-313: the index of the process *)
Fixpoint choose (xs : list R) (r : R) (i : nat) : nat :=
  match xs with
  | [] => i
  | x :: rest => if Rltb (r - x) 0 then i else choose rest (r - x) (S i)
  end.
(* ScatteringModel.cpp 267-314; Processes[i] is at position i - 1 of sm_procs *)
Definition particle_scatter (o : oracle) (K : kind) (T : tables) (a : nat) (m : material) (s : smodel) (k : nat) (p : particle) (E : R)
  : mres (smodel * nat * (particle * bool)) :=
  do s' <- prepare K T a m E s;
  match sm_xs s' with
  | tot :: xs =>
      do q <- vget (sm_procs s') (choose xs (tot * un o k) 0);
      do r <- scatter o T q (S k) p E;
      Ok (s', fst r, snd r)
  | [] => UB
  end.

(* ScatteringModel.cpp 114 *)
Definition path_length (m : material) (u : R) : mres R :=
  match mlam m with
  | Unset => UB
  | NotFinite => Throw NotNumber
  | Val l => if Rleb u 0 then Throw NotNumber else Ok (- l * ln u)
  end.
Definition dEdx_name : str := of_string "SixtrackdEdx".
(* ScatteringModel.cpp 131-136 *)
Definition loss_simple (m : material) (p : particle) (x E0 : R) : mres (material * particle) :=
  if Reqb E0 0 then Throw NotNumber else
  do g <- get_extra dEdx_name m;
  let dp := x * snd g in
  let E1 := E0 * (1 + vdp (pv p)) in
  Ok (fst g, set_dp6 (((E1 - dp) - E0) / E0) p).

(* the static variables of Straggle, ScatteringModel.cpp 242-243: the address of the
   last material and its radiation length *)
Definition scache := option (nat * R).
(* ScatteringModel.cpp 245-251; gram / cc is 1000 *)
Definition rad_length (a : nat) (m : material) (c : scache) : mres (scache * R) :=
  match c with
  | Some (b, X) => if Nat.eqb a b then Ok (c, X)
                   else if Reqb (mrho m) 0 then Throw NotNumber
                   else let X' := 0.01 * mX0 m / (mrho m / 1000) in Ok (Some (a, X'), X')
  | None => if Reqb (mrho m) 0 then Throw NotNumber
            else let X' := 0.01 * mX0 m / (mrho m / 1000) in Ok (Some (a, X'), X')
  end.
(* ScatteringModel.cpp 240-265 *)
Definition straggle (o : oracle) (a : nat) (m : material) (c : scache) (k : nat) (p : particle) (x E1 E2 : R) : mres (scache * nat * particle) :=
  do cX <- rad_length a m c;
  if Reqb (snd cX) 0 then Throw NotNumber else
  let scaled := x / snd cX in
  let Eav := (E1 + E2) / 2 in
  if (Rleb scaled 0 || Reqb Eav 0)%bool then Throw NotNumber else
  let theta0 := 0.0136 * sqrt scaled * (1 + 0.038 * ln scaled) / Eav in
  let tx := nrm o k * theta0 in
  let ty := nrm o (S k) * theta0 in
  let dx := nrm o (S (S k)) * x * theta0 / sqrt 12 + x * tx / 2 in
  let dy := nrm o (S (S (S k))) * x * theta0 / sqrt 12 + x * ty / 2 in
  let v := pv p in
  Ok (fst cX, S (S (S (S k))), mkP (V6 (vx v + dx) (vxp v + tx) (vy v + dy) (vyp v + ty) (vct v) (vdp v)) (pid p)).

(* the static variables of EnergyLossFull, ScatteringModel.cpp 141-143 *)
Record fcache := mkF { f_C : R; f_C0 : R; f_C1 : R; f_I : R; f_xi0 : R }.
(* 2 pi r_e^2 m c^2, the fine structure constant *)
Record consts := mkK { k_xi1 : R; k_alpha : R }.
Definition mee : str := of_string "MeanExcitationEnergy".
Definition eV : R := / 10 ^ 9.
(* ScatteringModel.cpp 146-187: HaveExtra, then GetExtra of a present name *)
Definition setup_full (c : consts) (m : material) : mres fcache :=
  do h <- have_extra mee m;
  do I <- (if h then do g <- get_extra mee m; Ok (snd g / eV) else Ok (10 * mZ m));
  if Reqb (mA m) 0 then Throw NotNumber else
  let edensity := mZ m * (602214179 * 10 ^ 15) * mrho m / mA m in
  let w := mrho m * 0.001 * mZ m / mA m in
  if (Rleb w 0 || Rleb I 0)%bool then Throw NotNumber else
  let plasma := 28.816 * sqrt w in
  let C := 1 + 2 * ln (I / plasma) in
  Ok (if Rltb (I / eV) 100
      then (if Rleb C 3.681 then mkF C 0.2 2 I (k_xi1 c * edensity) else mkF C (0.326 * C - 1) 2 I (k_xi1 c * edensity))
      else (if Rleb C 5.215 then mkF C 0.2 3 I (k_xi1 c * edensity) else mkF C (0.326 * C - 1.5) 3 I (k_xi1 c * edensity))).
(* the density correction, ScatteringModel.cpp 203-219 *)
Definition density_correction (f : fcache) (ddx : R) : R :=
  if Rltb (f_C1 f) ddx then 4.606 * ddx - f_C f
  else if (Rleb (f_C0 f) ddx && Rleb ddx (f_C1 f))%bool then
    let xa := f_C f / 4.606 in
    let a := 4.606 * (xa - f_C0 f) / (f_C1 f - f_C0 f) ^ 3 in
    4.606 * ddx - f_C f + a * (f_C1 f - ddx) ^ 3
  else 0.
(* ScatteringModel.cpp 189-236 after the setup; me is the mass of the electron in MeV,
   ec the charge of the electron; MeV is 0.001, eV / MeV is 1e-6 *)
Definition me : R := 0.510998910.
Definition mpMeV : R := 938.272013.
Definition echarge : R := 1602176487 * / 10 ^ 28.
Definition log10 (x : R) : R := ln x / ln 10.
Definition delta_full (c : consts) (f : fcache) (x gamma : R) : mres (R * R) :=
  if Rleb gamma 1 then Throw NotNumber else
  let beta := sqrt (1 - 1 / (gamma * gamma)) in
  let tmax := (2 * me * beta * beta * gamma * gamma) / (1 + 2 * gamma * (me / mpMeV) + (me / mpMeV) ^ 2) * 0.001 in
  let xi := (f_xi0 f * x / (beta * beta)) / echarge * / 10 ^ 6 in
  let delta := density_correction f (log10 (beta * gamma)) in
  let G := PI * k_alpha c * beta / 2 in
  let q := (2 * (tmax / 0.001) * me) / (0.843 / 0.001) ^ 2 in
  let S := ln (1 + q) in
  let yL2 := k_alpha c / beta in
  let L2 := - yL2 * yL2 * 1.202001688211 in
  let F := G - S + 2 * (0 + L2) in
  let arg := 2 * me * beta * beta * gamma * gamma * xi / (f_I f / 0.001) ^ 2 in
  if Rleb arg 0 then Throw NotNumber else
  Ok (xi, xi * (ln arg - beta * beta - delta + F + 0.20)).
Definition loss_full (o : oracle) (c : consts) (a : nat) (m : material) (fc : option (nat * fcache)) (k : nat) (p : particle) (x E0 : R)
  : mres (option (nat * fcache) * nat * particle) :=
  do f <- (match fc with
           | Some (b, f) => if Nat.eqb a b then Ok f else setup_full c m
           | None => setup_full c m
           end);
  if Reqb E0 0 then Throw NotNumber else
  let E1 := E0 * (1 + vdp (pv p)) in
  do xd <- delta_full c f x (E1 / mp);
  let dp := fst xd * lnd o k - snd xd in
  Ok (Some (a, f), S k, set_dp6 (((E1 - dp) - E0) / E0) p).

(* what DoScatter uses: the state of the scattering model and of the random numbers is
   X; the last one is CheckWithinApertureBoundaries *)
Record physics (X : Type) := mkPh { ph_path : X -> mres (X * R); ph_loss : X -> particle -> R -> mres (X * particle);
  ph_strag : X -> particle -> R -> R -> R -> mres (X * particle); ph_scat : X -> particle -> R -> mres (X * (particle * bool));
  ph_inside : R -> R -> R -> bool }.
Arguments ph_path {X}. Arguments ph_loss {X}. Arguments ph_strag {X}. Arguments ph_scat {X}. Arguments ph_inside {X}.

Inductive outcome := Survived | Absorbed.
(* the particle, z, lengthtogo, the calls of Dispose so far (the position and the
   particle), and the rest *)
Record dstate (X : Type) := mkD { d_p : particle; d_z : R; d_go : R; d_log : list (R * particle); d_x : X }.
Arguments mkD {X}. Arguments d_p {X}. Arguments d_z {X}. Arguments d_go {X}. Arguments d_log {X}. Arguments d_x {X}.
Definition set_ct6 (c : R) (p : particle) : particle :=
  let v := pv p in mkP (V6 (vx v) (vxp v) (vy v) (vyp v) c (vdp v)) (pid p).
Definition set_xy (x y : R) (p : particle) : particle :=
  let v := pv p in mkP (V6 x (vxp v) y (vyp v) (vct v) (vdp v)) (pid p).
(* one turn of the loop of CollimateProtonProcess.cpp 91-199 *)
Definition turn {X} (P : physics X) (E0 : R) (s : dstate X) : mres (dstate X * option outcome) :=
  let p := d_p s in
  let E1 := E0 * (1 + vdp (pv p)) in
  do xl <- ph_path P (d_x s);
  let xlen := snd xl in
  let interacted := Rltb xlen (d_go s) in
  let step := if interacted then xlen else d_go s in
  let c2 := 1 - vxp (pv p) * vxp (pv p) - vyp (pv p) * vyp (pv p) in
  if Rltb c2 0 then Throw NotNumber else
  let zstep := step * sqrt c2 in
  let p1 := set_xy (vx (pv p) + step * vxp (pv p)) (vy (pv p) + step * vyp (pv p)) p in
  do l <- ph_loss P (fst xl) p1 step;
  let p2 := snd l in
  let E2 := E0 * (1 + vdp (pv p2)) in
  if Rleb E2 1 then
    let p3 := set_ct6 (d_z s) p2 in
    Ok (mkD p3 (d_z s) (d_go s) (d_log s ++ [(d_z s + zstep, p3)]) (fst l), Some Absorbed) else
  do g <- ph_strag P (fst l) p2 step E1 E2;
  let p3 := snd g in
  if Rltb E2 (E0 / 100) then Ok (mkD p3 (d_z s) (d_go s) (d_log s) (fst g), Some Absorbed) else
  let z := d_z s + zstep in
  let ex := vx (pv p3) + vxp (pv p3) * d_go s in
  let ey := vy (pv p3) + vyp (pv p3) * d_go s in
  if (ph_inside P (vx (pv p3)) (vy (pv p3)) z && ph_inside P ex ey (z + d_go s))%bool
  then Ok (mkD (set_xy ex ey p3) z (d_go s) (d_log s) (fst g), Some Survived) else
  if Rltb (d_go s) xlen then Ok (mkD p3 z (d_go s) (d_log s) (fst g), Some Survived) else
  do r <- (if interacted then ph_scat P (fst g) p3 E2 else Ok (fst g, (p3, true)));
  let p4 := fst (snd r) in
  let lost q := let q' := set_ct6 z q in
                Ok (mkD q' z (d_go s) (d_log s ++ [(z + zstep, q')]) (fst r), Some Absorbed) in
  if negb (snd (snd r)) then lost p4 else
  if (Rltb (vdp (pv p4)) (-0.95) || Rltb (vdp (pv p4)) (-1))%bool then lost p4 else
  Ok (mkD p4 z (d_go s - step) (d_log s) (fst r), None).
(* the loop; None when it has not ended after n turns *)
Fixpoint run {X} (P : physics X) (E0 : R) (n : nat) (s : dstate X) : option (mres (dstate X * outcome)) :=
  if negb (Rltb 0 (d_go s)) then Some (Ok (s, Survived)) else
  match n with
  | O => None
  | S n' => match turn P E0 s with
            | Ok (s', Some out) => Some (Ok (s', out))
            | Ok (s', None) => run P E0 n' s'
            | Throw e => Some (Throw e)
            | UB => Some UB
            end
  end.
(* CollimateProtonProcess.cpp 41-57; int_s and s of the process, P0 the reference
   momentum *)
Definition do_scatter {X} (P : physics X) (P0 int_s s : R) (p : particle) (x : X) (n : nat) : option (mres (dstate X * outcome)) :=
  run P (sqrt (P0 * P0 + mp * mp)) n (mkD p int_s (s - int_s) [] x).

(* the state behind a ScatteringModel in DoScatter: the material, the position in the
   random numbers, the model, the static variables *)
Record pstate := mkPS { w_mat : material; w_k : nat; w_model : smodel; w_sc : scache; w_fc : option (nat * fcache) }.
Definition with_k (k : nat) (w : pstate) : pstate := mkPS (w_mat w) k (w_model w) (w_sc w) (w_fc w).
(* ScatteringModel.cpp 48-314, for the material at address a *)
Definition proton (o : oracle) (c : consts) (K : kind) (T : tables) (a : nat) (E0 : R) (inside : R -> R -> R -> bool) : physics pstate :=
  mkPh pstate
    (fun w => do l <- path_length (w_mat w) (un o (w_k w)); Ok (with_k (S (w_k w)) w, l))
    (fun w p x => match sm_mode (w_model w) with
       | Simple => do r <- loss_simple (w_mat w) p x E0; Ok (mkPS (fst r) (w_k w) (w_model w) (w_sc w) (w_fc w), snd r)
       | Full => do r <- loss_full o c a (w_mat w) (w_fc w) (w_k w) p x E0;
                 Ok (mkPS (w_mat w) (snd (fst r)) (w_model w) (w_sc w) (fst (fst r)), snd r)
       end)
    (fun w p x E1 E2 => do r <- straggle o a (w_mat w) (w_sc w) (w_k w) p x E1 E2;
       Ok (mkPS (w_mat w) (snd (fst r)) (w_model w) (fst (fst r)) (w_fc w), snd r))
    (fun w p E => do r <- particle_scatter o K T a (w_mat w) (w_model w) (w_k w) p E;
       Ok (mkPS (w_mat w) (snd (fst r)) (fst (fst r)) (w_sc w) (w_fc w), snd r))
    inside.
