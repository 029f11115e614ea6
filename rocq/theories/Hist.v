(* Model of Histogram.cpp (12-38) and ParticleBunchUtilities.cpp (26-201). Counts kept
   in doubles are natural numbers; converting a real to size_t cuts the fraction and is
   undefined at -1 and below; dividing a count by a zero total gives [None]. Sorting is
   a parameter, since std::sort leaves the order of equal elements open. The
   accumulated slice boundaries are exact. *)
From Coq Require Import ZArith.
From Verif Require Import RBase Bunch.
Local Open Scope R_scope.

Definition to_size (r : R) : res unit nat := if Rleb r (-1) then UB else Ok (Z.to_nat (Int_part r)).
Definition bump (l : list nat) (i : nat) : list nat := match nth_error l i with Some c => match upd l i (S c) with Some l' => l' | None => l end | None => l end.
(* Hist *)
Fixpoint hist_loop (data : list R) (x1 dx : R) (nbins : nat) (h : list nat) (lost : nat) : res unit (list nat * nat) :=
  match data with
  | [] => Ok (h, lost)
  | d :: data' =>
      if Rltb d x1 then hist_loop data' x1 dx nbins h (S lost)
      else
        do i <- to_size ((d - x1) / dx) ;
        if Nat.ltb i nbins then hist_loop data' x1 dx nbins (bump h i) lost
        else hist_loop data' x1 dx nbins h (S lost)
  end.
Definition hist (data : list R) (x1 x2 dx : R) : res unit (list nat * nat) :=
  if Reqb dx 0 then UB
  else
    do n <- to_size ((x2 - x1) / dx) ;
    let nbins := (n + 1)%nat in
    hist_loop data x1 dx nbins (repeat 0%nat nbins) 0.

(* TruncateZ, 26-44 *)
Definition ct_of (p : particle) : R := vct (pv p).
Definition outside (zmin zmax : R) (p : particle) : bool := Rltb (ct_of p) zmin || Rleb zmax (ct_of p).
Definition truncate_z (zmin zmax : R) (l : list particle) : list particle * nat :=
  (filter (fun p => negb (outside zmin zmax p)) l, length (filter (outside zmin zmax) l)).
(* ParticleBinList, 61-150: the particles below z from here on *)
Fixpoint below (z : R) (l : list particle) : nat := match l with [] => 0 | p :: l' => if Rltb (ct_of p) z then S (below z l') else 0 end.
Fixpoint slice_loop (k : nat) (z dz : R) (l : list particle) (pos : nat) : list nat * list nat * list particle :=
  match k with
  | O => ([], [], l)
  | S k =>
      let c := below (z + dz) l in
      let '(ps, hs, r) := slice_loop k (z + dz) dz (skipn c l) (pos + c) in
      ((pos + c)%nat :: ps, c :: hs, r)
  end.
(* the inner loop of the slope, 139-142 *)
Fixpoint slope_loop (ms : list nat) (n w : nat) (hs : list nat) (c : list R) (acc : R) : res unit R :=
  match ms with
  | [] => Ok acc
  | m :: ms' =>
      match nth_error hs m, nth_error c (m + w - n) with
      | Some h, Some x => slope_loop ms' n w hs c (acc + INR h * x)
      | _, _ => UB
      end
  end.
Definition slope (hs : list nat) (c : list R) (n : nat) : res unit R :=
  let nbins := length hs in
  let w := ((length c - 1) / 2)%nat in
  let lo := (n - w)%nat in
  let hi := Nat.max nbins (n + w) in
  slope_loop (seq lo (hi - lo)) n w hs c 0.
Fixpoint slopes (ns : list nat) (hs : list nat) (c : list R) : res unit (list R) :=
  match ns with [] => Ok [] | n :: ns' => do s <- slope hs c n ; do r <- slopes ns' hs c ; Ok (s :: r) end.
Record binned := mkBin { kept : list particle; pbins : list nat; hd : list (option R); hdp : list (option R); nlost : nat }.
Definition scaled (total : nat) (dz : R) (x : R) : option R := if Nat.eqb total 0 then None else Some (x / INR total / dz).
Definition bin_list (sort : list particle -> list particle) (l : list particle) (zmin zmax : R) (nbins : nat) (c : option (list R)) : res unit binned :=
  let dz := (zmax - zmin) / INR nbins in
  let '(l1, lost) := truncate_z zmin zmax (sort l) in
  let '(ps, hs, rest) := slice_loop nbins zmin dz l1 0 in
  match rest with
  | _ :: _ => Throw tt
  | [] =>
      let total := fold_right Nat.add 0%nat hs in
      let h := map (fun n => scaled total dz (INR n)) hs in
      match c with
      | None => Ok (mkBin l1 (0%nat :: ps) h (map (fun _ => Some 0) hs) lost)
      | Some [] => UB
      | Some c => do ss <- slopes (seq 0 nbins) hs c ; Ok (mkBin l1 (0%nat :: ps) h (map (scaled total dz) ss) lost)
      end
  end.

(* ParticleBunchDistribution, 160-201: erasing the first particle steps before the beginning *)
Fixpoint dist_loop (u : nat) (umin umax du : R) (nb : nat) (trunc first : bool) (l : list particle) (h : list nat) (lost : nat) : res unit (list particle * list nat * nat) :=
  match l with
  | [] => Ok ([], h, lost)
  | p :: l' =>
      let x := coord u (pv p) in
      if Rltb x umin || Rltb umax x then
        if trunc then if first then UB else dist_loop u umin umax du nb trunc false l' h (S lost)
        else do r <- dist_loop u umin umax du nb trunc false l' h (S lost) ; let '(k, h', n) := r in Ok (p :: k, h', n)
      else
        do n <- to_size ((x - umin) / du) ;
        if Nat.ltb n nb then do r <- dist_loop u umin umax du nb trunc false l' (bump h n) lost ; let '(k, h', m) := r in Ok (p :: k, h', m)
        else UB
  end.
Definition distribution (u : nat) (umin umax du : R) (normalise trunc : bool) (l : list particle) : res unit (list particle * list (option R) * nat) :=
  if Reqb du 0 then UB
  else
    do nb <- to_size ((umax - umin) / du) ;
    do r <- dist_loop u umin umax du nb trunc true l (repeat 0%nat nb) 0 ;
    let '(k, h, lost) := r in
    let total := fold_right Nat.add 0%nat h in
    Ok (k, map (fun n => if normalise then scaled total du (INR n) else Some (INR n)) h, lost).
