(* Failing crab cavities: model of CCFailureProcess.cpp 109-725, 727-885 (third constructor,
   SetCurrentComponent, DoProcess and its helpers).  Exact reals.  The phase advances
   (CalcMu), the beta functions and the numbers of the elements of IP1 and IP5 are
   arbitrary; the tables of four cavities are functions, an index outside 1..4 (the code
   subtracts one) is UB; a root or quotient that is no number is the outcome CNaN, where
   the code goes on and drops the particles.  The table of M12, never read, the printed
   text, Gamma_p, Beta_p and the matrix element M12 behind the interaction point, which
   the kick ignores, are left out. *)
From Verif Require Import RBase Base Bunch.
From Coq Require Import List ZArith Bool.
Import ListNotations.
Local Open Scope R_scope.

Inductive ccerr := CNaN.
Definition ccres := res ccerr.
Inductive region := IP5up | IP5down | IP1down | IP1up.
(* 221-287: the place of a marker *)
Definition region_of (s : R) : option region :=
  if andb (Rleb 10000 s) (Rleb s 13200) then Some IP5up else
  if andb (Rleb 13300 s) (Rleb s 15000) then Some IP5down else
  if Rleb s 200 then Some IP1down else
  if andb (Rleb 20000 s) (Rleb s 30000) then Some IP1up else None.
Record table := mkTab { t_v : nat -> R; t_mu : nat -> R; t_el : nat -> Z }.
Record cc := mkCC { a_on : bool; c_on : bool; horiz : bool; up : bool; atl : bool;
  f1u : bool; f1d : bool; f5u : bool; f5d : bool; n1u : nat; n1d : nat; n5u : nat; n5d : nat;
  turn : Z; t_at : table; t_cms : table }.
Record setup := mkSet { g_omega : R; g_theta : R; g_energy : R; g_c : R; g_nft : Z; g_ft : Z; g_fon : bool;
  g_mux : Z -> R; g_muy : Z -> R; g_bx : Z -> R; g_by : Z -> R; g_ip1 : Z; g_ip5 : Z }.
(* constructor, 109-142, and SetFailurePlanes *)
Definition zero_table : table := mkTab (fun _ => 0) (fun _ => 0) (fun _ => 0%Z).
Definition init (a c : bool) : cc := mkCC a c false false false false false false false 0 0 0 0 1 zero_table zero_table.
(* 162-219 *)
Definition new_turn (s : cc) : cc :=
  if a_on s then
    if c_on s then
      if (f1u s && f1d s && f5u s && f5d s)%bool then
        mkCC true true (horiz s) (up s) (atl s) false false false false 0 0 0 0 (turn s + 1) (t_at s) (t_cms s) else s
    else if (f1u s && f1d s)%bool then
        mkCC true false (horiz s) (up s) (atl s) false false (f5u s) (f5d s) 0 0 (n5u s) (n5d s) (turn s + 1) (t_at s) (t_cms s) else s
  else if c_on s then
    if (f5u s && f5d s)%bool then
        mkCC false true (horiz s) (up s) (atl s) (f1u s) (f1d s) false false (n1u s) (n1d s) 0 0 (turn s + 1) (t_at s) (t_cms s) else s
  else s.
(* 221-287 *)
Definition enter (r : option region) (s : cc) : cc :=
  match r with
  | Some IP5up => let n := Datatypes.S (n5u s) in mkCC (a_on s) (c_on s) true true false (f1u s) (f1d s) (Nat.eqb n 4) (f5d s) (n1u s) (n1d s) n (n5d s) (turn s) (t_at s) (t_cms s)
  | Some IP5down => let n := Datatypes.S (n5d s) in mkCC (a_on s) (c_on s) true false false (f1u s) (f1d s) (f5u s) (Nat.eqb n 4) (n1u s) (n1d s) (n5u s) n (turn s) (t_at s) (t_cms s)
  | Some IP1down => let n := Datatypes.S (n1d s) in mkCC (a_on s) (c_on s) false false true (f1u s) (Nat.eqb n 4) (f5u s) (f5d s) (n1u s) n (n5u s) (n5d s) (turn s) (t_at s) (t_cms s)
  | Some IP1up => let n := Datatypes.S (n1u s) in mkCC (a_on s) (c_on s) false true true (Nat.eqb n 4) (f1d s) (f5u s) (f5d s) n (n1d s) (n5u s) (n5d s) (turn s) (t_at s) (t_cms s)
  | None => s
  end.
(* SetCurrentComponent, 153-296, at a crab marker *)
Definition set_component (pos : R) (s : cc) : cc := enter (region_of pos) (new_turn s).

Definition rd {A} (t : nat -> A) (n : nat) : ccres A := if (Nat.leb 1 n && Nat.leb n 4)%bool then Ok (t n) else UB.
Definition wr (t : table) (n : nat) (v mu : R) (e : Z) : ccres table :=
  if (Nat.leb 1 n && Nat.leb n 4)%bool then
    Ok (mkTab (fun k => if Nat.eqb k n then v else t_v t k) (fun k => if Nat.eqb k n then mu else t_mu t k) (fun k => if Nat.eqb k n then e else t_el t k))
  else UB.
Definition beta (g : setup) (h : bool) (e : Z) : R := if h then g_bx g e else g_by g e.
Definition phase (g : setup) (h : bool) (e : Z) : R := if h then g_mux g e else g_muy g e.
(* CalcM_12, CalcM_22, 727-809 *)
Definition m12 (g : setup) (h : bool) (b e : Z) (mu : R) : ccres R :=
  let q := beta g h b * beta g h e in if Rltb q 0 then Throw CNaN else Ok (sqrt q * sin mu).
Definition m22 (g : setup) (h : bool) (b e : Z) (mu : R) : ccres R :=
  if Reqb (beta g h e) 0 then Throw CNaN else
  let q := beta g h b / beta g h e in if Rltb q 0 then Throw CNaN else Ok (sqrt q * cos mu).
(* CalcDeltaMu and its use, 346-347 *)
Definition dmu (g : setup) (h : bool) (a b : Z) : R := sqrt ((phase g h b - phase g h a) * (phase g h b - phase g h a)) * 2 * PI.
(* downstream of ATLAS: CalcMu of the marker, 354-357 *)
Definition mu0 (g : setup) (h : bool) (a : Z) : R := sqrt (phase g h a * phase g h a) * 2 * PI.
(* CalcV1, 831-834 *)
Definition v1_of (g : setup) (m : R) : ccres R :=
  if Reqb (g_omega g * m * 4) 0 then Throw CNaN else Ok (g_c g * g_energy g * tan (g_theta g) / (g_omega g * m * 4)).
(* ApplyPreCCKick, ApplyPostCCKick, 855-885 *)
Definition kick (g : setup) (h : bool) (phi v : R) (w : vec6) : vec6 :=
  let k := v * sin (phi + vct w * (g_omega g / g_c g)) / g_energy g in
  if h then V6 (vx w) (vxp w - k) (vy w) (vyp w) (vct w) (vdp w) else V6 (vx w) (vxp w) (vy w) (vyp w - k) (vct w) (vdp w).
Definition kicks (g : setup) (h : bool) (phi v : R) (l : list particle) : ccres (list particle) :=
  if orb (Reqb (g_energy g) 0) (Reqb (g_c g) 0) then Throw CNaN else Ok (map (fun p => mkP (kick g h phi v (pv p)) (pid p)) l).
(* 427, 682 *)
Definition ramp (g : setup) (s : cc) (v : R) : R :=
  if (Z.leb (g_nft g) (turn s) && g_fon g)%bool then v * (1 - IZR (turn s + 1 - g_nft g) * (1 / IZR (g_ft g))) else v.
Definition put_at (s : cc) (t : table) : cc := mkCC (a_on s) (c_on s) (horiz s) (up s) (atl s) (f1u s) (f1d s) (f5u s) (f5d s) (n1u s) (n1d s) (n5u s) (n5d s) (turn s) t (t_cms s).
Definition put_cms (s : cc) (t : table) : cc := mkCC (a_on s) (c_on s) (horiz s) (up s) (atl s) (f1u s) (f1d s) (f5u s) (f5d s) (n1u s) (n1d s) (n5u s) (n5d s) (turn s) (t_at s) t.
(* DoProcess, 303-725: n1 is the element of the marker, phi the phase *)
Definition process (g : setup) (n1 : Z) (s : cc) (phi : R) (l : list particle) : ccres (cc * R * list particle) :=
  let h := horiz s in
  let live := Z.ltb (turn s) (g_nft g + g_ft g) in
  match a_on s, c_on s with
  | false, false => Ok (s, phi, l)
  | true, true => (* 310-487 *)
    if negb live then Ok (s, phi, l) else
    if up s then
      let n2 := if atl s then g_ip1 g else g_ip5 g in
      do m <- m12 g h n1 n2 (dmu g h n1 n2);
      do v <- v1_of g m;
      if atl s then
        do t <- wr (t_at s) (n1u s) v (dmu g false n1 n2) n1;
        do k <- kicks g h phi (ramp g s v) l; Ok (put_at s t, phi, k)
      else do t <- wr (t_cms s) (n5u s) v (dmu g true n1 n2) n1; Ok (put_cms s t, phi, l)
    else
      do x <- (if atl s then Ok (mu0 g true n1) else do a <- rd (t_mu (t_cms s)) (n1d s); Ok (dmu g true n1 (g_ip5 g) + a));
      do y <- (if atl s then do a <- rd (t_mu (t_at s)) (n1d s); Ok (mu0 g false n1 + a) else Ok (dmu g false n1 (g_ip5 g)));
      do e <- (if h then rd (t_el (t_cms s)) (n5d s) else rd (t_el (t_at s)) (n1d s));
      do m <- m22 g h e n1 (if h then x else y);
      do v <- (if atl s then rd (t_v (t_at s)) (n1d s) else rd (t_v (t_cms s)) (n5d s));
      if atl s then do k <- kicks g h phi (-1 * m * v) l; Ok (s, phi, k) else Ok (s, phi, l)
  | true, false => (* 490-611 *)
    if negb (atl s) then Ok (s, phi, l) else
    if negb live then Ok (s, phi, l) else
    if up s then
      do m <- m12 g h n1 (g_ip1 g) (dmu g h n1 (g_ip1 g));
      do v <- v1_of g m;
      do t <- wr (t_at s) (n1u s) v (dmu g false n1 (g_ip1 g)) n1;
      do k <- kicks g h phi v l; Ok (put_at s t, 0, k)
    else
      do a <- rd (t_mu (t_at s)) (n1d s);
      do e <- rd (t_el (t_at s)) (n1d s);
      do m <- m22 g h e n1 (mu0 g false n1 + a);
      do v <- rd (t_v (t_at s)) (n1d s);
      let phi' := if (Z.leb (g_nft g) (turn s) && g_fon g)%bool then IZR (turn s - (g_nft g - 1)) * (1 / IZR (g_ft g)) * (90 * (2 * PI) / 360) else phi in
      do k <- kicks g h phi' (-1 * m * v) l; Ok (s, 0, k)
  | false, true => (* 613-724 *)
    if atl s then Ok (s, phi, l) else
    if negb live then Ok (s, phi, l) else
    if up s then
      do m <- m12 g h n1 (g_ip5 g) (dmu g h n1 (g_ip5 g));
      do v <- v1_of g m;
      do t <- wr (t_cms s) (n5u s) v (dmu g true n1 (g_ip5 g)) n1;
      do k <- kicks g h phi (ramp g s v) l; Ok (put_cms s t, phi, k)
    else
      do a <- rd (t_mu (t_cms s)) (n5d s);
      do e <- rd (t_el (t_cms s)) (n5d s);
      do m <- m22 g h e n1 (dmu g true n1 (g_ip5 g) + a);
      do v <- rd (t_v (t_cms s)) (n5d s);
      do k <- kicks g h phi (-1 * m * v) l; Ok (s, phi, k)
  end.
