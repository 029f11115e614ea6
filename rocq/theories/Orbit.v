(* Model of ClosedOrbit.cpp, TransferMatrix.cpp, Dispersion.cpp, of
   PhaseAdvance::TransferMapBetween and of the solver SVDMatrix (TLASimp.h) they use.

   A component is what it does to one particle: a map that depends on the settings of the
   radiation process.  RingDeltaTProcess is modelled too (one step per component, after the
   transport).  The factorisation SVD(u, w, v) itself (TLASimp.h 419-) is a parameter:
   [factor n M] is the matrix u, the singular values w and the matrix v, or [None] where the
   iteration gives up.  Arithmetic is exact.  Particles are not lost. *)
From Coq Require Import ZArith.
From Verif Require Import RBase Bunch Optics.
Local Open Scope R_scope.

Inductive oberr := NotANumber | BadRange | AllZero | NoConvergence.
(* how the radiation process makes its steps: ClosedOrbit.cpp 115-130 *)
Inductive rad := Steps (n : Z) | StepSize (s : R).
Record comp := mkC { clen : R; cbend : bool; cmap : option rad -> vec6 -> vec6 }.

(* one component under the transport (priority 0) and RingDeltaTProcess (priority 2):
   RingDeltaTProcess.cpp 29-53; the process is there if the scale is not zero *)
Definition pass (scale : R) (r : option rad) (c : comp) (v : vec6) : vec6 :=
  let u := cmap c r v in
  if negb (Reqb scale 0) && cbend c then V6 (vx u) (vxp u) (vy u) (vyp u) (vct u + scale * clen c) (vdp u) else u.
Definition through (scale : R) (r : option rad) (l : list comp) (v : vec6) : vec6 := fold_left (fun v c => pass scale r c v) l v.
(* GetRing, AcceleratorModel.cpp 161-166: one turn of PerformTracking starts by reading the
   element the iterator is at *)
Definition get_ring (m : list comp) (n : Z) : res oberr (list comp) :=
  if Z.leb 0 n && Z.ltb n (Z.of_nat (length m)) then Ok (skipn (Z.to_nat n) m ++ firstn (Z.to_nat n) m) else UB.
(* GetBeamline(n1, n2), AcceleratorModel.cpp 114-126: a negative n2 becomes a huge index; a
   beamline that ends before it starts is walked past the end of the lattice *)
Definition get_beamline (m : list comp) (n1 n2 : Z) : res oberr (list comp) :=
  if Z.ltb n2 0 || Z.leb (Z.of_nat (length m)) n2 then Throw BadRange
  else if Z.ltb n1 0 || Z.ltb n2 n1 then UB
  else Ok (firstn (Z.to_nat (n2 - n1 + 1)) (skipn (Z.to_nat n1) m)).

(* ---- SVDMatrix, TLASimp.h 172-226, SVDsolve 383-391 ---- *)
Definition fact := nat -> mat -> option (mat * (nat -> R) * mat).
Fixpoint largest (w : nat -> R) (n : nat) : R := match n with O => w O | S n => Rmax (largest w n) (w (S n)) end.
Fixpoint all_small (w : nat -> R) (wmin : R) (n : nat) : bool := match n with O => true | S n => all_small w wmin n && Rleb (w n) wmin end.
Definition threshold : R := / 1000000.
(* w is kept where it is above the threshold; what is left out contributes nothing *)
Definition svd_solve (factor : fact) (n : nat) (M : mat) (b : nat -> R) : res oberr (nat -> R) :=
  match factor n M with
  | None => Throw NoConvergence
  | Some (u, w, v) =>
      let wmin := threshold * largest w (n - 1) in
      if all_small w wmin n then Throw AllZero
      else
        let work i := if Rleb (w i) wmin then 0 else if Reqb (w i) 0 then 0 else msum (fun j => u j i * b j) n / w i in
        Ok (fun i => msum (fun j => v i j * work j) n)
  end.

(* ---- ClosedOrbit ---- *)
Record corb := mkCO { cotrans : bool; corad : bool; codelta : R; cotol : R; comax : Z; cosize : option R; conum : option Z; coscale : R }.
(* the constructor, 22-26: the two settings of the radiation steps have no value yet *)
Definition new_co : corb := mkCO false false (/ 1000000000) (/ 100000000000000000000000000) 20 None None 0.
Definition co_transverse (f : bool) (c : corb) : corb := mkCO f (corad c) (codelta c) (cotol c) (comax c) (cosize c) (conum c) (coscale c).
(* SetRadStepSize, SetRadNumSteps 73-83 *)
Definition co_set_size (s : R) (c : corb) : corb := mkCO (cotrans c) (corad c) (codelta c) (cotol c) (comax c) (Some s) (Some 0%Z) (coscale c).
Definition co_set_num (n : Z) (c : corb) : corb := mkCO (cotrans c) (corad c) (codelta c) (cotol c) (comax c) (Some 0) (Some n) (coscale c).
(* Radiation 43-51 *)
Definition co_radiation (f : bool) (c : corb) : corb :=
  let c1 := mkCO (cotrans c) f (codelta c) (cotol c) (comax c) (cosize c) (conum c) (coscale c) in if f then co_set_num 1 c1 else c1.
Definition co_set_delta (d : R) (c : corb) : corb := mkCO (cotrans c) (corad c) d (cotol c) (comax c) (cosize c) (conum c) (coscale c).
Definition co_set_scale (s : R) (c : corb) : corb := mkCO (cotrans c) (corad c) (codelta c) (cotol c) (comax c) (cosize c) (conum c) s.
(* reading the settings of the radiation steps: 115-130, TransferMatrix.cpp 124-139 *)
Definition rad_of (on : bool) (size : option R) (num : option Z) : res oberr (option rad) :=
  if on then
    match size with
    | None => UB
    | Some s => if Reqb s 0 then match num with None => UB | Some n => Ok (Some (Steps n)) end else Ok (Some (StepSize s))
    end
  else Ok None.
(* (p[k]) += delta *)
Definition bump (k : nat) (d : R) (v : vec6) : vec6 := vof (fun i => if Nat.eqb i k then coord i v + d else coord i v).
(* one pass of the loop 152-195: the new particle and the figure of merit *)
Definition newton (factor : fact) (cpt : nat) (delta : R) (T : vec6 -> vec6) (p : vec6) : res oberr (vec6 * R) :=
  if Reqb delta 0 then Throw NotANumber
  else
    let dg m k := (coord m (T (bump k delta p)) - coord m (T p)) / delta - (if Nat.eqb m k then 1 else 0) in
    let g k := coord k (T p) - coord k p in
    do x <- svd_solve factor cpt dg g;
    Ok (vof (fun i => if Nat.ltb i cpt then coord i p - x i else coord i p), msum (fun i => x i * x i) cpt).
Fixpoint iterate (factor : fact) (cpt : nat) (delta tol : R) (T : vec6 -> vec6) (fuel : nat) (iter : Z) (w : R) (p : vec6) : res oberr (vec6 * R * Z) :=
  match fuel with
  | O => Ok (p, w, iter)
  | S fuel =>
      if Rltb tol w then
        do r <- newton factor cpt delta T p;
        iterate factor cpt delta tol T fuel (iter + 1) (snd r) (fst r)
      else Ok (p, w, iter)
  end.
(* FindClosedOrbit 90-222: the loop runs while iter < max_iter, from iter = 1.  The result is
   the particle and the diagnostics w and iter *)
Definition find_orbit (factor : fact) (m : list comp) (c : corb) (n : Z) (p : vec6) : res oberr (vec6 * R * Z) :=
  do l <- get_ring m n;
  do r <- rad_of (corad c) (cosize c) (conum c);
  iterate factor (if cotrans c then 4 else 6)%nat (codelta c) (cotol c) (through (coscale c) r l) (Z.to_nat (comax c - 1)) 1 1 p.
(* FindRMSOrbit 224-255: the whole beamline, component by component.  [f] is the coordinate *)
Fixpoint rms_loop (f : vec6 -> R) (l : list comp) (prev : vec6) (len acc : R) : R * R :=
  match l with
  | [] => (len, acc)
  | c :: l =>
      let pres := cmap c None prev in
      rms_loop f l pres (len + clen c) (acc + clen c * (f pres + f prev) * (f pres + f prev) / 4)
  end.
Definition find_rms_orbit (m : list comp) (p : vec6) : res oberr vec6 :=
  match m with
  | [] => UB
  | _ =>
      if Reqb (fst (rms_loop vx m p 0 0)) 0 then Throw NotANumber
      else
        let q f := let r := rms_loop f m p 0 0 in sqrt (snd r / fst r) in
        Ok (V6 (q vx) (q vxp) (q vy) (q vyp) (q vct) (q vdp))
  end.

(* ---- TransferMatrix ---- *)
(* FindTM(M, orbit) 106-164 and FindTM(M, orbit, n1, n2) 166-216, after the tracking *)
Definition quotients (delta : R) (T : vec6 -> vec6) (p : vec6) : res oberr mat :=
  if Reqb delta 0 then Throw NotANumber
  else Ok (fun m k => (coord m (T (bump k delta p)) - coord m (T p)) / delta).
Record tmtx := mkTM { tmrad : bool; tmobs : Z; tmdelta : R; tmsize : option R; tmnum : option Z; tmscale : R }.
(* the constructor 18-21; Radiation, SetRadStepSize, SetRadNumSteps 23-52 *)
Definition new_tm : tmtx := mkTM false 0 (/ 1000000000) None None 0.
Definition tm_set_size (s : R) (t : tmtx) : tmtx := mkTM (tmrad t) (tmobs t) (tmdelta t) (Some s) (Some 0%Z) (tmscale t).
Definition tm_set_num (n : Z) (t : tmtx) : tmtx := mkTM (tmrad t) (tmobs t) (tmdelta t) (Some 0) (Some n) (tmscale t).
Definition tm_radiation (f : bool) (t : tmtx) : tmtx :=
  let t1 := mkTM f (tmobs t) (tmdelta t) (tmsize t) (tmnum t) (tmscale t) in if f then tm_set_num 1 t1 else t1.
Definition tm_set_delta (d : R) (t : tmtx) : tmtx := mkTM (tmrad t) (tmobs t) d (tmsize t) (tmnum t) (tmscale t).
Definition tm_set_scale (s : R) (t : tmtx) : tmtx := mkTM (tmrad t) (tmobs t) (tmdelta t) (tmsize t) (tmnum t) s.
Definition tm_set_obs (n : Z) (t : tmtx) : tmtx := mkTM (tmrad t) n (tmdelta t) (tmsize t) (tmnum t) (tmscale t).
Definition find_tm_at (m : list comp) (t : tmtx) (p : vec6) : res oberr mat :=
  do l <- get_ring m (tmobs t);
  do r <- rad_of (tmrad t) (tmsize t) (tmnum t);
  quotients (tmdelta t) (through (tmscale t) r l) p.
Definition find_tm_between (m : list comp) (t : tmtx) (p : vec6) (n1 n2 : Z) : res oberr mat :=
  do l <- get_beamline m n1 n2;
  do r <- rad_of (tmrad t) (tmsize t) (tmnum t);
  quotients (tmdelta t) (through (tmscale t) r l) p.
(* FindClosedOrbitTM 83-104: the step settings are read whether or not radiation is on *)
Definition find_orbit_tm (factor : fact) (m : list comp) (t : tmtx) (p : vec6) : res oberr (mat * vec6) :=
  let c := co_radiation (tmrad t) new_co in
  do c1 <- match tmsize t with
           | None => UB
           | Some s => if Reqb s 0 then match tmnum t with None => UB | Some n => Ok (co_set_num n c) end else Ok (co_set_size s c)
           end;
  let c2 := if Reqb (tmscale t) 0 then c1 else co_set_scale (tmscale t) c1 in
  do o <- find_orbit factor m c2 (tmobs t) p;
  do M <- find_tm_at m t (fst (fst o));
  Ok (M, fst (fst o)).
(* FindTM(M) 59-81: the same from the origin *)
Definition find_tm (factor : fact) (m : list comp) (t : tmtx) : res oberr mat :=
  do r <- find_orbit_tm factor m t vzero; Ok (fst r).
(* PhaseAdvance::TransferMapBetween, PhaseAdvance.cpp 99-127: n1 > n2 only prints a warning *)
Definition transfer_map_between (factor : fact) (m : list comp) (delta scale : R) (n1 n2 : Z) : res oberr mat :=
  do o <- find_orbit factor m (co_set_scale scale (co_set_delta delta new_co)) 0 vzero;
  find_tm_between m (tm_set_scale scale (tm_set_delta delta new_tm)) (fst (fst o)) n1 n2.

(* ---- Dispersion ---- *)
Definition at_dp (d : R) : vec6 := V6 0 0 0 0 0 d.
(* FindDispersion, Dispersion.cpp 29-48: Dx, Dxp, Dy, Dyp *)
Definition find_dispersion (factor : fact) (m : list comp) (delta : R) (n : Z) : res oberr (R * R * R * R) :=
  let co := co_transverse true new_co in
  do a <- find_orbit factor m co n (at_dp (- delta));
  do b <- find_orbit factor m co n (at_dp delta);
  if Reqb delta 0 then Throw NotANumber
  else
    let p := fst (fst a) in let q := fst (fst b) in
    Ok ((vx q - vx p) / 2 / delta, (vxp q - vxp p) / 2 / delta, (vy q - vy p) / 2 / delta, (vyp q - vyp p) / 2 / delta).
(* the loop of FindRMSDispersion 79-113: length, sums and the rows printed *)
Fixpoint rmsd_loop (delta : R) (l : list comp) (p q : vec6) (px py len ax ay : R) : R * R * R * list (R * R * R) :=
  match l with
  | [] => (len, ax, ay, [])
  | c :: l =>
      let p1 := cmap c None p in let q1 := cmap c None q in
      let dx := (vx q1 - vx p1) / 2 / delta in let dy := (vy q1 - vy p1) / 2 / delta in
      let r := rmsd_loop delta l p1 q1 dx dy (len + clen c) (ax + clen c * (dx * dx + px * px) / 2) (ay + clen c * (dy * dy + py * py) / 2) in
      (fst r, (len, dx, dy) :: snd r)
  end.
(* FindRMSDispersion 50-117: DxRMS, DyRMS and the rows *)
Definition find_rms_dispersion (factor : fact) (m : list comp) (delta : R) : res oberr (R * R * list (R * R * R)) :=
  let co := co_transverse true new_co in
  do a <- find_orbit factor m co 0 (at_dp (- delta));
  do b <- find_orbit factor m co 0 (at_dp delta);
  if Reqb delta 0 then Throw NotANumber
  else
    let r := rmsd_loop delta m (fst (fst a)) (fst (fst b)) 0 0 0 0 0 in
    let '(len, ax, ay) := fst r in
    if Reqb len 0 then Throw NotANumber else Ok (sqrt (ax / len), sqrt (ay / len), snd r).
