(* Model of the single-bunch wake field process, WakeFieldProcess.cpp (48-60, 108-131,
   159-412), for one processor. [ev] is the product ElectronCharge * Volt that turns
   charge into momentum; the derivative filter is given by its coefficients ([None]: no
   filter). Results divided by 1 + ddp are exact reals, so a particle that loses all
   of its momentum is outside the model. *)
From Coq Require Import ZArith.
From Verif Require Import RBase Bunch Hist.
Local Open Scope R_scope.

(* Slices: the bunch cannot be sliced (abort of the binning); Nothing: no particle is
   left, so charge, slice densities and reference momentum are all not-a-number;
   Assert: the reference momentum is not positive *)
Inductive werr := Slices | Nothing | Assert.
(* WakePotentials.h:20-66 *)
Record wake := mkW { wlong : R -> R; wtrans : R -> R; csr : bool }.
(* zmin, dz, bunchSlices, Qd, Qdp *)
Record sliced := mkSd { zlow : R; width : R; bounds : list nat; dens : list R; ddens : list R }.
Definition known (o : option R) : R := match o with Some x => x | None => 0 end.

(* CalculateQdist, 108-132, and Init, 310-329, without CalculateWakeL *)
Definition init (sort : list particle -> list particle) (nbins : nat) (nsig : R) (c : option (list R)) (b : bunch) : res werr (bunch * sliced) :=
  match parts b with
  | [] => Throw Nothing
  | _ =>
      let '(z0, sigz) := moments1 4 (parts b) in
      let zmin := - nsig * sigz + z0 in
      let zmax := nsig * sigz + z0 in
      let dz := (zmax - zmin) / INR nbins in
      match bin_list sort (parts b) zmin zmax nbins c with
      | UB => UB
      | Throw _ => Throw Slices
      | Ok r =>
          match kept r with
          | [] => Throw Nothing
          | l =>
              let q := if Nat.eqb (nlost r) 0 then qmp b else total_charge b / INR (length l) in
              Ok (mkB (p0 b) (ct0 b) q l, mkSd zmin dz (pbins r) (map known (hd r)) (map known (hdp r)))
          end
      end
  end.

Fixpoint add_up (f : nat -> option R) (js : list nat) (acc : R) : res werr R :=
  match js with [] => Ok acc | j :: js' => match f j with Some x => add_up f js' (acc + x) | None => UB end end.
Fixpoint each {A} (f : nat -> res werr A) (is : list nat) : res werr (list A) :=
  match is with [] => Ok [] | i :: is' => do x <- f i ; do r <- each f is' ; Ok (x :: r) end.
Definition amplitude (ev : R) (b : bunch) (s : sliced) : R := width s * Rabs (total_charge b) * ev.
(* size_t subtraction and its conversion to double *)
Definition size_sub (j i : nat) : R := if Nat.leb i j then INR (j - i) else IZR (2 ^ 64 - Z.of_nat (i - j)).
(* CalculateWakeL, 332-378 *)
Definition wake_l (ev : R) (w : wake) (b : bunch) (s : sliced) : res werr (list R) :=
  let size := length (bounds s) in
  let a0 := amplitude ev b s in
  each (fun i =>
      do v <- (if csr w
               then add_up (fun j => option_map (fun q => q * wlong w ((size_sub j i + 1 / 2) * width s) / width s) (nth_error (ddens s) j)) (seq 1 (i - 1)) 0
               else add_up (fun j => option_map (fun q => q * wlong w ((size_sub j i + 1 / 2) * width s)) (nth_error (dens s) j)) (seq i (size - 1 - i)) 0) ;
      Ok (v * a0)) (seq 0 size).
(* GetSliceCentroid, 48-60 *)
Definition from_to (bs : list nat) (n : nat) (l : list particle) : option (list particle) :=
  match nth_error bs n, nth_error bs (S n) with
  | Some a, Some b => Some (firstn (b - a) (skipn a l))
  | _, _ => None
  end.
Definition slice_centroid (l : list particle) : R * R :=
  let c := fold_left (fun c p => (fst c + vx (pv p), snd c + vy (pv p))) l (0, 0) in
  if Nat.ltb 1 (length l) then (fst c / INR (length l), snd c / INR (length l)) else c.
(* CalculateWakeT, 381-412 *)
Definition wake_t (ev : R) (nbins : nat) (w : wake) (b : bunch) (s : sliced) : res werr (list R * list R) :=
  let size := length (bounds s) in
  let a0 := amplitude ev b s in
  do xyc <- each (fun n => match from_to (bounds s) n (parts b) with Some l => Ok (slice_centroid l) | None => UB end) (seq 0 nbins) ;
  let term pick i j :=
    match nth_error (dens s) j, nth_error xyc j with
    | Some q, Some c => Some (q * wtrans w ((size_sub j i + 1 / 2) * width s) * pick c)
    | _, _ => None
    end in
  do x <- each (fun i => do v <- add_up (term fst i) (seq i (size - 1 - i)) 0 ; Ok (v * a0)) (seq 0 size) ;
  do y <- each (fun i => do v <- add_up (term snd i) (seq i (size - 1 - i)) 0 ; Ok (v * a0)) (seq 0 size) ;
  Ok (x, y).

(* ApplyWakefield, 275-298: the wake between two boundaries and the kick of one particle *)
Definition between (f : list R) (n : nat) (dz zz : R) : option R :=
  match nth_error f n, nth_error f (S n) with
  | Some a, Some b => Some (a + (b - a) / dz * zz)
  | _, _ => None
  end.
Definition kick (ds p0 dz z : R) (n : nat) (wz wx wy : list R) (tw : bool) (p : particle) : option (particle * R) :=
  let v := pv p in
  let zz := vct v - z in
  match between wz n dz zz with
  | None => None
  | Some fz =>
      let ddp := - ds * fz / p0 in
      let side f := if tw then option_map (fun k => ds * k / p0) (between f n dz zz) else Some 0 in
      match side wx, side wy with
      | Some dxp, Some dyp => Some (mkP (V6 (vx v) ((vxp v + dxp) / (1 + ddp)) (vy v) ((vyp v + dyp) / (1 + ddp)) (vct v) (vdp v + ddp)) (pid p), ddp)
      | _, _ => None
      end
  end.
Fixpoint kicks (k : particle -> option (particle * R)) (l : list particle) : option (list particle * R) :=
  match l with
  | [] => Some ([], 0)
  | p :: l' =>
      match k p, kicks k l' with
      | Some (p', d), Some (r, t) => Some (p' :: r, d + t)
      | _, _ => None
      end
  end.
Fixpoint kick_slices (ds p0 dz : R) (wz wx wy : list R) (tw : bool) (bs : list nat) (l : list particle) (ns : list nat) (z : R) : option (list particle * R) :=
  match ns with
  | [] => Some ([], 0)
  | n :: ns' =>
      match from_to bs n l with
      | None => None
      | Some sl =>
          match kicks (kick ds p0 dz z n wz wx wy tw) sl, kick_slices ds p0 dz wz wx wy tw bs l ns' (z + dz) with
          | Some (r, d), Some (r', d') => Some (r ++ r', d + d')
          | _, _ => None
          end
      end
  end.
(* DoProcess, 211-216, with ApplyWakefield, 237-303: Init is repeated when the first one
   has removed particles (oldBunchLen is the size before) *)
Definition impulse (sort : list particle -> list particle) (nbins : nat) (nsig : R) (c : option (list R)) (ev : R) (tw : bool) (w : wake) (len : R) (b : bunch) : res werr bunch :=
  let b := mkB (p0 b) (ct0 b) (qmp b) (sort (parts b)) in
  do r1 <- init sort nbins nsig c b ;
  do r <- (if Nat.eqb (length (parts b)) (length (parts (fst r1))) then Ok r1 else init sort nbins nsig c (fst r1)) ;
  let '(b1, s) := r in
  do wz <- wake_l ev w b1 s ;
  do wt <- (if tw then wake_t ev nbins w b1 s else Ok ([], [])) ;
  match kick_slices len (p0 b1) (width s) wz (fst wt) (snd wt) tw (bounds s) (parts b1) (seq 0 nbins) (zlow s) with
  | None => UB
  | Some (l, bload) =>
      let b2 := mkB (p0 b1) (ct0 b1) (qmp b1) l in
      if csr w then Ok b2
      else match adjust_ref_momentum (bload / INR (length l)) b2 with
           | Ok (b3, _) => Ok b3
           | Throw _ => Throw Assert
           | UB => UB
           end
  end.

(* SetCurrentComponent, 159-204: a component's wake may be meant for one kind of process *)
Inductive where_ := AtCentre | AtExit.
Record comp := mkComp { clen : R; cwake : option (wake * option nat) }.
Record proc := mkPr { kind : nat; imploc : where_; here : R; goal : R; plen : R; pwake : option wake; active : bool }.
Definition enter (bunch_set : bool) (c : comp) (s : proc) : proc :=
  let w := match cwake c with
           | Some (w, Some k) => if Nat.eqb k (kind s) then Some w else None
           | Some (w, None) => Some w
           | None => None
           end in
  match bunch_set, w with
  | true, Some w => mkPr (kind s) (imploc s) 0 (match imploc s with AtCentre => clen c / 2 | AtExit => clen c end) (clen c) (Some w) true
  | _, _ => mkPr (kind s) (imploc s) (here s) (goal s) (plen s) (pwake s) false
  end.
(* DoProcess, 206-217: the new state and, when due, the wake and length of the impulse *)
Definition do_process (ds : R) (s : proc) : proc * option (wake * R) :=
  let h := here s + ds in
  if fequal h (goal s)
  then (mkPr (kind s) (imploc s) h (goal s) (plen s) (pwake s) false, option_map (fun w => (w, plen s)) (pwake s))
  else (mkPr (kind s) (imploc s) h (goal s) (plen s) (pwake s) (active s), None).
(* GetMaxAllowedStepSize, 305-308 *)
Definition max_step (s : proc) : R := goal s - here s.
