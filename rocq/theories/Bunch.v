(* Model of the statistics and reference adjustments of ParticleBunch and
   SMPBunch, of the construction of bunches and of their distribution over
   processes.  Arithmetic is exact. *)
From Verif Require Import RBase Cov.
From Coq Require Import ZArith.
Local Open Scope R_scope.

Inductive berr := AssertFail | CovErr (e : cerr).
Definition lift {A} (r : res cerr A) : res berr A :=
  match r with Ok a => Ok a | Throw e => Throw (CovErr e) | UB => UB end.

(* PSvector: x, xp, y, yp, ct, dp and identity (PSvector.h:21-29, 217-218) *)
Record vec6 := V6 { vx : R; vxp : R; vy : R; vyp : R; vct : R; vdp : R }.
Record particle := mkP { pv : vec6; pid : Z }.
Definition coord (i : nat) (v : vec6) : R :=
  match i with 0 => vx v | 1 => vxp v | 2 => vy v | 3 => vyp v | 4 => vct v | _ => vdp v end%nat.
Definition vmap2 (f : R -> R -> R) (a b : vec6) : vec6 :=
  V6 (f (vx a) (vx b)) (f (vxp a) (vxp b)) (f (vy a) (vy b)) (f (vyp a) (vyp b)) (f (vct a) (vct b)) (f (vdp a) (vdp b)).
Definition vzero : vec6 := V6 0 0 0 0 0 0.
Definition vadd := vmap2 Rplus.
Definition vsub := vmap2 Rminus.
Definition vscale (k : R) (v : vec6) : vec6 := V6 (vx v * k) (vxp v * k) (vy v * k) (vyp v * k) (vct v * k) (vdp v * k).
Definition vdiv (k : R) (v : vec6) : vec6 := V6 (vx v / k) (vxp v / k) (vy v / k) (vyp v / k) (vct v / k) (vdp v / k).

(* APSV1, ParticleBunch.cpp:36-55 *)
Definition apsv1 (st : R * vec6) (p : particle) : R * vec6 :=
  let w := fst st + 1 in (w, vmap2 (fun m x => m + (x - m) / w) (snd st) (pv p)).
(* GetCentroid, ParticleBunch.cpp:244-249 *)
Definition centroid (l : list particle) : vec6 := snd (fold_left apsv1 l (0, vzero)).

(* PSVVAR1, ParticleBunch.cpp:75-93: the elements (i,j), j <= i < 6 *)
Definition pairs (n : nat) : list (nat * nat) :=
  flat_map (fun i => map (fun j => (i, j)) (seq 0 (S i))) (seq 0 n).
(* S(i,j) = f i j S(i,j), for the given elements of an N x N matrix *)
Fixpoint modify (N : Z) (f : nat -> nat -> R -> R) (ps : list (nat * nat)) (d : list R) : res cerr (list R) :=
  match ps with
  | [] => Ok d
  | (i, j) :: ps' =>
      do x <- sig N d (Z.of_nat i) (Z.of_nat j);
      do d' <- set_sig N d (Z.of_nat i) (Z.of_nat j) (f i j x);
      modify N f ps' d'
  end.
Fixpoint psvvar1 (m : vec6) (l : list particle) (w : R) (d : list R) : res cerr (list R) :=
  match l with
  | [] => Ok d
  | p :: l' =>
      let w' := w + 1 in
      do d' <- modify 6 (fun i j s => s + ((coord i (pv p) - coord i m) * (coord j (pv p) - coord j m) - s) / w')
                 (pairs 6) d;
      psvvar1 m l' w' d'
  end.
(* GetMoments, ParticleBunch.cpp:227-233; the argument's zero() clears the mean
   only (PSvector.h:141-144), [d] is the covariance it held before *)
Definition moments (l : list particle) (d : list R) : res berr (vec6 * list R) :=
  let m := centroid l in
  do d' <- lift (psvvar1 m l 0 d); Ok (m, d').

(* APSV2, GetProjectedCentroid, ParticleBunch.cpp:57-73, 265-268 *)
Definition proj_centroid (u v : nat) (l : list particle) : R * R :=
  let w := 1 / INR (length l) in
  fold_left (fun X p => (fst X + w * coord u (pv p), snd X + w * coord v (pv p))) l (0, 0).
(* PSmoments2D: means and the elements (0,0), (0,1), (1,1) *)
Record mom2 := M2 { m2u : R; m2v : R; s00 : R; s01 : R; s11 : R }.
(* PSVVAR2, GetProjectedMoments, ParticleBunch.cpp:95-115, 235-242 *)
Definition proj_moments (u v : nat) (l : list particle) (s : mom2) : mom2 :=
  let X := proj_centroid u v l in
  let w := 1 / INR (length l) in
  fold_left (fun s p =>
      let x := coord u (pv p) - m2u s in
      let y := coord v (pv p) - m2v s in
      M2 (m2u s) (m2v s) (s00 s + w * x * x) (s01 s + w * x * y) (s11 s + w * y * y))
    l (M2 (fst X) (snd X) (s00 s) (s01 s) (s11 s)).
(* Mean, ParticleBunch.cpp:117-127 *)
Definition mean_of (i : nat) (l : list particle) : R :=
  fst (fold_left (fun st p => let n := snd st + 1 in (fst st + (coord i (pv p) - fst st) / n, n)) l (0, 0)).
(* GetMoments(i), ParticleBunch.cpp:251-263 *)
Definition moments1 (i : nat) (l : list particle) : R * R :=
  let u := mean_of i l in
  let v := fst (fold_left (fun st p => let x := coord i (pv p) - u in let w := snd st + 1 in
                                       (fst st + (x * x - fst st) / w, w)) l (0, 0)) in
  (u, R_sqrt.sqrt v).

(* the bunch: reference momentum and time, charge per particle, particles *)
Record bunch := mkB { p0 : R; ct0 : R; qmp : R; parts : list particle }.
Definition set_dp (x : R) (p : particle) : particle :=
  let v := pv p in mkP (V6 (vx v) (vxp v) (vy v) (vyp v) (vct v) x) (pid p).
Definition set_ct (x : R) (p : particle) : particle :=
  let v := pv p in mkP (V6 (vx v) (vxp v) (vy v) (vyp v) x (vdp v)) (pid p).
(* AdjustRefMomentum, ParticleBunch.cpp:275-287, ReferenceParticle.h:123-127:
   division by zero when dpp = -1 is followed by the failing assert *)
Definition adjust_ref_momentum (dpp : R) (b : bunch) : res berr (bunch * R) :=
  let k := 1 + dpp in
  let ps := map (fun p => set_dp ((vdp (pv p) - dpp) / k) p) (parts b) in
  let P := k * p0 b in
  if Rltb 0 P then Ok (mkB P (ct0 b) (qmp b) ps, P) else Throw AssertFail.
(* ParticleBunch.cpp:270-273 *)
Definition adjust_ref_momentum_to_mean (b : bunch) : res berr (bunch * R) :=
  adjust_ref_momentum (mean_of 5 (parts b)) b.
(* ParticleBunch.cpp:289-300 *)
Definition adjust_ref_time_to_mean (b : bunch) : bunch * R :=
  let m := mean_of 4 (parts b) in
  let CT := ct0 b - m in
  (mkB (p0 b) CT (qmp b) (map (fun p => set_ct (vct (pv p) - m) p) (parts b)), CT).
(* GetTotalCharge, ParticleBunch.cpp:222-225 *)
Definition total_charge (b : bunch) : R := qmp b * INR (length (parts b)).
(* ParticleBunch(P0,Q,particles), ParticleBunch.cpp:140-145; ReferenceParticle.h:101-106 *)
Definition new_bunch (P Q : R) (ps : list particle) : res berr bunch :=
  if Rltb 0 P then Ok (mkB P 0 (Q / INR (length ps)) ps) else Throw AssertFail.
Definition add_particle (p : particle) (b : bunch) : bunch := mkB (p0 b) (ct0 b) (qmp b) (parts b ++ [p]).

(* SetCentroid(), ParticleBunch.cpp:386-400 (front() of an empty bunch) *)
Definition set_centroid (l : list particle) : res berr (list particle) :=
  match l with
  | [] => UB
  | f :: r =>
      let x := vsub (centroid l) (pv f) in
      Ok (f :: map (fun p => mkP (vsub (pv p) x) (pid p)) r)
  end.
(* SetCentroid(x0), ParticleBunch.cpp:402-406 *)
Definition set_centroid_to (x0 : particle) (l : list particle) : res berr (list particle) :=
  match l with [] => UB | _ :: r => set_centroid (x0 :: r) end.

(* the constructor with a generator, ParticleBunch.cpp:164-220.  [gen] are the
   successive vectors after scaling and NormalTransform, before the centroid
   is added; [fuel] bounds the number of trials (out of fuel: still running). *)
Fixpoint fill (filter : particle -> bool) (gen : nat -> vec6) (np k i : nat) (first : vec6) (fuel : nat)
  : option (list particle) :=
  if Nat.leb np i then Some []
  else match fuel with
       | O => None
       | S fuel =>
           let p := mkP (vadd (gen k) first) (Z.of_nat i) in
           if filter p then option_map (cons p) (fill filter gen np (S k) (S i) first fuel)
           else fill filter gen np (S k) i first fuel
       end.
Definition generate (filter : particle -> bool) (gen : nat -> vec6) (np : nat) (centre : vec6) (fuel : nat)
  : option (list particle) :=
  let first := V6 (vx centre) (vxp centre) (vy centre) (vyp centre) (vct centre) 0 in
  option_map (cons (mkP first 0)) (fill filter gen np 0 1 first fuel).

(* ---- SMPBunch ---- *)
(* SliceMacroParticle: centroid, 4x4 covariance, charge *)
Record slice := mkSl { sv : vec6; scov : list R; sq : R }.
Record smp := mkSM { sp0 : R; sct0 : R; Qt : R; slices : list slice }.
(* AddParticle, SMPBunch.cpp:208-216 (without sorting) *)
Definition smp_add (s : slice) (b : smp) : smp := mkSM (sp0 b) (sct0 b) (Qt b + sq s) (slices b ++ [s]).
(* SMPBunch(p,q), SMPBunch.cpp:19-22 *)
Definition smp_new (p : R) : smp := mkSM p 0 0 [].
(* x(i,j) of a slice: 0 beyond the fourth coordinate *)
Definition slice_sig (s : slice) (i j : nat) : R :=
  match sig 4 (scov s) (Z.of_nat i) (Z.of_nat j) with Ok x => x | _ => 0 end.
(* GetMoments, SMPBunch.cpp:79-103.  Inside the first loop sigma[i] is already
   updated when sigma(i,j) is; the two do not interact. *)
Fixpoint smp_loop (Q : R) (l : list slice) (m : vec6) (d : list R) : res cerr (vec6 * list R) :=
  match l with
  | [] => Ok (m, d)
  | x :: l' =>
      let w := sq x / Q in
      let m' := vmap2 (fun a b => a + w * b) m (sv x) in
      do d' <- modify 6 (fun i j s => s + w * (coord i (sv x) * coord j (sv x) + slice_sig x i j)) (pairs 6) d;
      smp_loop Q l' m' d'
  end.
Definition smp_moments (b : smp) (d : list R) : res berr (vec6 * list R) :=
  do r <- lift (smp_loop (Qt b) (slices b) vzero d);
  let m := fst r in
  do d' <- lift (modify 6 (fun i j s => s - coord i m * coord j m) (pairs 6) (snd r));
  Ok (m, d').
(* GetProjectedMoments, SMPBunch.cpp:105-124 *)
Definition smp_proj_moments (u v : nat) (b : smp) (s : mom2) : mom2 :=
  let s := fold_left (fun s x =>
      let w := sq x / Qt b in
      M2 (m2u s + w * coord u (sv x)) (m2v s + w * coord v (sv x))
         (s00 s + w * (slice_sig x u u + coord u (sv x) * coord u (sv x)))
         (s01 s + w * (slice_sig x u v + coord u (sv x) * coord v (sv x)))
         (s11 s + w * (slice_sig x v v + coord v (sv x) * coord v (sv x)))) (slices b) s in
  M2 (m2u s) (m2v s) (s00 s - m2u s * m2u s) (s01 s - m2u s * m2v s) (s11 s - m2v s * m2v s).
(* GetCentroid, SMPBunch.cpp:127-136 *)
Definition smp_centroid (b : smp) : vec6 :=
  vdiv (Qt b) (fold_left (fun x s => vadd x (vscale (sq s) (sv s))) (slices b) vzero).
Definition sset_dp (x : R) (s : slice) : slice :=
  let v := sv s in mkSl (V6 (vx v) (vxp v) (vy v) (vyp v) (vct v) x) (scov s) (sq s).
(* AdjustRefMomentumToMean, SMPBunch.cpp:149-163 *)
Definition smp_adjust_momentum (b : smp) : res berr (smp * R) :=
  let dp := fold_left (fun a s => a + vdp (sv s) * sq s) (slices b) 0 in
  let ddp := dp / Qt b + 1 in
  let P := sp0 b * ddp in
  if Rltb 0 P
  then Ok (mkSM P (sct0 b) (Qt b) (map (fun s => sset_dp (vdp (sv s) / ddp) s) (slices b)), P)
  else Throw AssertFail.
(* AdjustRefTimeToMean, SMPBunch.cpp:165-174 *)
Definition smp_adjust_time (b : smp) : smp * R :=
  let c := fold_left (fun a s => a + vct (sv s) * sq s) (slices b) 0 in
  let t := sct0 b + c / Qt b in
  (mkSM (sp0 b) t (Qt b) (slices b), t).

(* ---- distribution over processes (ENABLE_MPI) ---- *)
(* sizeof(PSvector)/sizeof(double), ParticleBunch.cpp:141, PSvector.h:217-218 *)
Definition coords : nat := 7.
(* a slot of a buffer of doubles; None: never written *)
Definition pack (c : nat) (p : particle) : list (option R) :=
  map Some [vx (pv p); vxp (pv p); vy (pv p); vyp (pv p); vct (pv p); vdp (pv p)] ++ repeat None (c - 6).
(* operator[] asserts that the coordinate is below 6 (PSvector.h:114-118);
   reading a slot never written is undefined.  The identity is left alone. *)
Fixpoint unpack (slots : list (option R)) (j : nat) (v : vec6) : res berr vec6 :=
  match slots with
  | [] => Ok v
  | s :: r =>
      if Nat.leb 6 j then Throw AssertFail else
      match s with
      | None => UB
      | Some x =>
          unpack r (S j)
            match j with
            | 0 => V6 x (vxp v) (vy v) (vyp v) (vct v) (vdp v)
            | 1 => V6 (vx v) x (vy v) (vyp v) (vct v) (vdp v)
            | 2 => V6 (vx v) (vxp v) x (vyp v) (vct v) (vdp v)
            | 3 => V6 (vx v) (vxp v) (vy v) x (vct v) (vdp v)
            | 4 => V6 (vx v) (vxp v) (vy v) (vyp v) x (vdp v)
            | _ => V6 (vx v) (vxp v) (vy v) (vyp v) (vct v) x
            end%nat
      end
  end.
(* the particles out of [n] records of [c] slots; [junk]: uninitialised PSvector *)
Fixpoint unpack_all (c n : nat) (buf : list (option R)) (junk : particle) : res berr (list particle) :=
  match n with
  | O => Ok []
  | S n =>
      do v <- unpack (firstn c buf) 0 (pv junk);
      do r <- unpack_all c n (skipn c buf) (mkP v (pid junk));
      Ok (mkP v (pid junk) :: r)
  end.
(* master_send_particles_to_nodes, ParticleBunch.cpp:657-724: what each process
   holds afterwards, the master first *)
Definition distribute (c size : nat) (junk : particle) (l : list particle) : res berr (list (list particle)) :=
  if Nat.eqb size 0 then UB else
  let n := length l in
  let per := Nat.div n size in
  let buf := flat_map (pack c) l in
  do nodes <- fold_right (fun k r =>
      do x <- unpack_all c per (skipn (per * k * c) buf) junk; do y <- r; Ok (x :: y))
    (Ok []) (seq 0 (size - 1));
  do own <- unpack_all c (n - per * (size - 1)) (skipn (per * (size - 1) * c) buf) junk;
  Ok (own :: nodes).
(* gather, ParticleBunch.cpp:522-562, 611-655, 728-759: what the master holds *)
Definition gather (c : nat) (junk : particle) (procs : list (list particle)) : res berr (list particle) :=
  match procs with
  | [] => UB
  | own :: nodes =>
      do r <- fold_right (fun l r =>
          do x <- unpack_all c (length l) (flat_map (pack c) l) junk; do y <- r; Ok (x ++ y))
        (Ok []) nodes;
      Ok (own ++ r)
  end.
