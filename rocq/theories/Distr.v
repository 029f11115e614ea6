(* Construction of bunches from distributions: ParticleDistributionGenerator.cpp/.h,
   HaloParticleDistributionGenerator.cpp/.h, HollowElensParticleDistributionGenerator.cpp/.h,
   BunchFilter.cpp and the constructor ParticleBunch.cpp:164-220.
   The random engine is two sequences, us of numbers in [0, 1) and gs of standard normal
   numbers; the state is the number of draws made.  Loops which have not ended with the
   given fuel are the outcome Running.  Output is left out. *)
From Verif Require Import RBase Base Optics Bunch BeamMat.
From Coq Require Import ZArith List.
Import ListNotations.
Local Open Scope R_scope.

Inductive gerr := Running | NotFinite | Refused.
Definition gres := res gerr.
Record source := mkSrc { us : nat -> R; gs : nat -> R }.

(* RandomNG::uniform, RandomNG.cpp:94-102; std::uniform_real_distribution needs low <= high *)
Definition uniform (w : source) (lo hi : R) (k : nat) : gres (R * nat) :=
  if Rltb hi lo then UB else Ok (lo + (hi - lo) * us w k, S k).
(* RandomNG::normal with variance 1 and a cutoff, RandomNG.cpp:72-93 *)
Fixpoint reject (w : source) (c : R) (fuel k : nat) : gres (R * nat) :=
  match fuel with
  | O => Throw Running
  | S f => if Rltb (Rabs c) (Rabs (gs w k)) then reject w c f (S k) else Ok (gs w k, S k)
  end.
(* RandomGauss(1, cutoff), ParticleDistributionGenerator.h:14-17 *)
Definition gauss (w : source) (c : R) (fuel k : nat) : gres (R * nat) :=
  if Reqb c 0 then Ok (gs w k, S k) else reject w c fuel k.

Inductive generator :=
  | Normal (cut : vec6) | Uniform | Ring
  | HorizontalHalo1 (size : R) | VerticalHalo1 (size : R)
  | HorizontalHalo2 (size : R) (cut : vec6) | VerticalHalo2 (size : R) (cut : vec6)
  | ThickHEL (inner outer : R) | ThinHEL (inner outer : R).
(* GenerateFromDistribution *)
Definition draw (w : source) (g : generator) (fuel k : nat) : gres (vec6 * nat) :=
  match g with
  | Normal c =>            (* ParticleDistributionGenerator.cpp:12-22 *)
      do x <- gauss w (vx c) fuel k; do xp <- gauss w (vxp c) fuel (snd x); do y <- gauss w (vy c) fuel (snd xp); do yp <- gauss w (vyp c) fuel (snd y);
      do dp <- gauss w (vdp c) fuel (snd yp); do ct <- gauss w (vct c) fuel (snd dp);
      Ok (V6 (fst x) (fst xp) (fst y) (fst yp) (fst ct) (fst dp), snd ct)
  | Uniform =>             (* 24-34 *)
      do x <- uniform w (-1) 1 k; do xp <- uniform w (-1) 1 (snd x); do y <- uniform w (-1) 1 (snd xp); do yp <- uniform w (-1) 1 (snd y);
      do dp <- uniform w (-1) 1 (snd yp); do ct <- uniform w (-1) 1 (snd dp);
      Ok (V6 (fst x) (fst xp) (fst y) (fst yp) (fst ct) (fst dp), snd ct)
  | Ring =>                (* 36-48 *)
      do u <- uniform w (- PI) PI k; do v <- uniform w (- PI) PI (snd u); do dp <- uniform w (-1) 1 (snd v); do ct <- uniform w (-1) 1 (snd dp);
      Ok (V6 (cos (fst u)) (sin (fst u)) (cos (fst v)) (sin (fst v)) (fst ct) (fst dp), snd ct)
  | HorizontalHalo1 s =>   (* HaloParticleDistributionGenerator.cpp:12-23 *)
      do u <- uniform w (- PI) PI k; do dp <- uniform w (-1) 1 (snd u); do ct <- uniform w (-1) 1 (snd dp);
      Ok (V6 (cos (fst u) * s) (sin (fst u) * s) 0 0 (fst ct) (fst dp), snd ct)
  | VerticalHalo1 s =>     (* 25-36 *)
      do u <- uniform w (- PI) PI k; do dp <- uniform w (-1) 1 (snd u); do ct <- uniform w (-1) 1 (snd dp);
      Ok (V6 0 0 (cos (fst u) * s) (sin (fst u) * s) (fst ct) (fst dp), snd ct)
  | HorizontalHalo2 s c => (* 38-49 *)
      do u <- uniform w (- PI) PI k; do y <- gauss w (vy c) fuel (snd u); do yp <- gauss w (vyp c) fuel (snd y);
      do dp <- uniform w (-1) 1 (snd yp); do ct <- uniform w (-1) 1 (snd dp);
      Ok (V6 (cos (fst u) * s) (sin (fst u) * s) (fst y) (fst yp) (fst ct) (fst dp), snd ct)
  | VerticalHalo2 s c =>   (* 51-62 *)
      do u <- uniform w (- PI) PI k; do x <- gauss w (vx c) fuel (snd u); do xp <- gauss w (vxp c) fuel (snd x);
      do dp <- uniform w (-1) 1 (snd xp); do ct <- uniform w (-1) 1 (snd dp);
      Ok (V6 (fst x) (fst xp) (cos (fst u) * s) (sin (fst u) * s) (fst ct) (fst dp), snd ct)
  | ThickHEL a b =>        (* HollowElensParticleDistributionGenerator.cpp:11-23 *)
      do u <- uniform w (- PI) PI k; do r <- uniform w a b (snd u); do dp <- uniform w (-1) 1 (snd r); do ct <- uniform w (-1) 1 (snd dp);
      Ok (V6 (cos (fst u) * fst r) 0 (sin (fst u) * fst r) 0 (fst ct) (fst dp), snd ct)
  | ThinHEL a b =>         (* 25-36 *)
      do u <- uniform w (- PI) PI k; do dp <- uniform w (-1) 1 (snd u); do ct <- uniform w (-1) 1 (snd dp);
      Ok (V6 (cos (fst u) * b) 0 (sin (fst u) * b) 0 (fst ct) (fst dp), snd ct)
  end.

(* ParticleBunch.cpp:189-195: the root of a negative number is not a number *)
Definition scale (t : beam) (v : vec6) : gres vec6 :=
  if (Rltb (emit_x t) 0 || Rltb (emit_y t) 0 || Rltb (sig_dp t) 0 || Rltb (sig_z t) 0)%bool then Throw NotFinite
  else Ok (V6 (vx v * sqrt (emit_x t)) (vxp v * sqrt (emit_x t)) (vy v * sqrt (emit_y t)) (vyp v * sqrt (emit_y t)) (vct v * sqrt (sig_z t)) (vdp v * sqrt (sig_dp t))).
(* RMtrx::Apply, MatrixMaps.cpp:65-74 *)
Definition matvec (M : mat) (v : vec6) : vec6 :=
  let row i := msum (fun j => M i j * coord j v) 6 in V6 (row 0%nat) (row 1%nat) (row 2%nat) (row 3%nat) (row 4%nat) (row 5%nat).
(* 168-169, 189-198 *)
Definition place (t : beam) (v : vec6) : gres vec6 :=
  do s <- scale t v; match normal_transform t with Ok M => Ok (matvec M s) | _ => Throw NotFinite end.
(* 171-180 *)
Definition first_vec (t : beam) : vec6 := V6 (x0 t) (xp0 t) (y0 t) (yp0 t) (ct0 t) 0.

(* BunchFilter.cpp:18-28, 42-49; a limit or orbit which was not set is indeterminate *)
Inductive filter := NoFilter | Horizontal (limit orbit : option R) | Vertical (limit : option R).
Definition accepts (f : filter) (v : vec6) : gres bool :=
  match f with
  | NoFilter => Ok true
  | Horizontal (Some l) (Some o) =>
      Ok ((Rltb (o + l) (vx v) || Rltb (vx v) (o - l)) && (negb (Reqb (vx v) 0) && negb (Reqb (vxp v) 0)))%bool
  | Vertical (Some l) => Ok (Rltb l (Rabs (vy v)))
  | _ => UB
  end.
(* the loop, 184-218; dfuel is for the draws *)
Fixpoint build (w : source) (g : generator) (t : beam) (f : filter) (np i k dfuel fuel : nat) : gres (list particle) :=
  if Nat.leb np i then Ok [] else
  match fuel with
  | O => Throw Running
  | S fuel' =>
      do d <- draw w g dfuel k; do s <- place t (fst d);
      let v := vadd s (first_vec t) in
      do a <- accepts f v;
      if a then do l <- build w g t f np (S i) (snd d) dfuel fuel'; Ok (mkP v (Z.of_nat i) :: l)
      else build w g t f np i (snd d) dfuel fuel'
  end.
(* 164-167, 219: particles and charge of each *)
Definition make_bunch (w : source) (g : generator) (t : beam) (f : filter) (np dfuel fuel : nat) : gres (list particle * R) :=
  if Rltb 0 (p0 t) then
    do l <- build w g t f np 1 0 dfuel fuel;
    Ok (mkP (first_vec t) 0 :: l, charge t / INR (List.length (mkP (first_vec t) 0 :: l)))
  else Throw Refused.
