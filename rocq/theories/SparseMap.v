(* Model of the sparse linear maps (RMap.h/.cpp), the second-order maps
   (RTMap.h/.cpp), and the elements built from them (TransportRMaps.cpp,
   BasicTransportMaps.cpp).  Indexes of terms start from one in the interface
   and are stored less one; index 0 in the interface is not modelled. *)
From Verif Require Import RBase Cov Bunch Optics.
From Coq Require Import ZArith.
Local Open Scope R_scope.

(* RMap.h:39-57 *)
Record term := mkT { ti : nat; tj : nat; tv : R }.
(* LinearTermArray, RMap.h:59-108: an array of 36 terms inside the object and a
   pointer behind the last one.  [home] names the array the pointer points
   into, [self] the object's own. *)
Record smap := mkS { self : nat; home : nat; terms : list term }.
Definition empty (who : nat) : smap := mkS who who [].
(* the generated copy constructor copies the pointer as it is *)
Definition copy (who : nat) (m : smap) : smap := mkS who (home m) (terms m).
(* push_back, RMap.h:71-75: writes through the pointer without looking at the end *)
Definition push (t : term) (m : smap) : res oerr smap :=
  if Nat.eqb (self m) (home m) then
    if Nat.ltb (length (terms m)) 36 then Ok (mkS (self m) (home m) (terms m ++ [t])) else UB
  else UB.
(* iterating from begin to end is meaningful only inside the own array *)
Definition iter (m : smap) : res oerr (list term) := if Nat.eqb (self m) (home m) then Ok (terms m) else UB.
(* AddTerm, RMap.h:179-188; several in a row *)
Definition add_term (i j : nat) (v : R) (m : smap) : res oerr smap := push (mkT (i - 1) (j - 1) v) m.
Fixpoint add_all (l : list (nat * nat * R)) (m : smap) : res oerr smap :=
  match l with [] => Ok m | (i, j, v) :: r => do m' <- add_term i j v m; add_all r m' end.
(* FindTerm, operator() const, RMap.cpp:55-70 *)
Definition is_term (i j : nat) (t : term) : bool := Nat.eqb (ti t) i && Nat.eqb (tj t) j.
Definition get (i j : nat) (m : smap) : res oerr R :=
  do l <- iter m; Ok (match find (is_term (i - 1) (j - 1)) l with Some t => tv t | None => 0 end).
(* operator() on the left of an assignment, RMap.cpp:72-84 *)
Fixpoint replace (i j : nat) (v : R) (l : list term) : list term :=
  match l with [] => [] | t :: r => if is_term i j t then mkT i j v :: r else t :: replace i j v r end.
Definition set (i j : nat) (v : R) (m : smap) : res oerr smap :=
  do l <- iter m;
  match find (is_term (i - 1) (j - 1)) l with
  | Some _ => Ok (mkS (self m) (home m) (replace (i - 1) (j - 1) v l))
  | None => push (mkT (i - 1) (j - 1) v) m
  end.
(* RMap(const RealMatrix&), RMap.cpp:86-98 *)
Fixpoint push_all (l : list term) (m : smap) : res oerr smap :=
  match l with [] => Ok m | t :: r => do m' <- push t m; push_all r m' end.
Definition nonzero (R : mat) (rows cols : nat) : list term :=
  flat_map (fun i => flat_map (fun j => if Reqb (R i j) 0 then [] else [mkT i j (R i j)]) (seq 0 cols)) (seq 0 rows).
Definition of_matrix (who rows cols : nat) (R : mat) : res oerr smap := push_all (nonzero R rows cols) (empty who).
(* ToMatrix, RMap.cpp:13-31: a later term overwrites an earlier one; RealMatrix
   checks its indexes *)
Fixpoint overwrite (l : list term) (R : mat) : res oerr mat :=
  match l with
  | [] => Ok R
  | t :: r => if Nat.ltb (ti t) 6 && Nat.ltb (tj t) 6 then overwrite r (mset (ti t) (tj t) (tv t) R) else Throw ODimension
  end.
Definition to_matrix (m : smap) : res oerr mat := do l <- iter m; overwrite l (fun _ _ => 0).
(* MakeIdentity, RMap.cpp:100-106 *)
Definition ident_terms (ndf : nat) : list (nat * nat * R) := map (fun i => (i, i, 1)) (seq 1 (2 * ndf)).

(* Rij::Apply, RMap.h:52-55; PSvector.h:114-124 asserts the index *)
Definition bump (i : nat) (v : R) (y : vec6) : vec6 := vof (fun k => if Nat.eqb k i then coord k y + v else coord k y).
Definition act1 (t : term) (x y : vec6) : res oerr vec6 :=
  if Nat.ltb (ti t) 6 && Nat.ltb (tj t) 6 then Ok (bump (ti t) (tv t * coord (tj t) x) y) else Throw OAssert.
Fixpoint act (l : list term) (x y : vec6) : res oerr vec6 :=
  match l with [] => Ok y | t :: r => do y' <- act1 t x y; act r x y' end.
(* map2nd, RMap.h:196-204; N is the dimension of the covariance *)
Definition cov_get (N : nat) (d : list R) (i j : nat) : R :=
  match sig (Z.of_nat N) d (Z.of_nat i) (Z.of_nat j) with Ok x => x | _ => 0 end.
Definition map2nd (N : nat) (orig : list R) (t u : term) (d : list R) : res cerr (list R) :=
  if Nat.ltb (ti t) N && Nat.ltb (ti u) N && Nat.ltb (tj t) N && Nat.ltb (tj u) N then
    let v := tv t * tv u * cov_get N orig (tj t) (tj u) in
    upd_el (Z.of_nat N) (ti t) (ti u) (fun _ => if Nat.eqb (ti t) (ti u) then v else v / 2) d
  else Ok d.
Fixpoint map_row (N : nat) (orig : list R) (t : term) (us : list term) (d : list R) : res cerr (list R) :=
  match us with [] => Ok d | u :: r => do d' <- map2nd N orig t u d; map_row N orig t r d' end.
Fixpoint map_rows (N : nat) (orig : list R) (ts us : list term) (d : list R) : res cerr (list R) :=
  match ts with [] => Ok d | t :: r => do d' <- map_row N orig t us d; map_rows N orig r us d' end.
(* Apply(TCovMtrx&), RMap.h:130-143 and Apply(TPSMoments&), RMap.h:148-161: the
   result starts from zeros.  The two loops of the latter do not touch each
   other's results and are modelled one after the other. *)
Definition act_cov (N : nat) (m : smap) (d : list R) : res cerr (list R) :=
  match iter m with Ok l => map_rows N d l l (zero (Z.of_nat N)) | _ => UB end.
Definition act_moments (N : nat) (m : smap) (s : vec6 * list R) : res cerr (vec6 * list R) :=
  match iter m with
  | Ok l => match act l (fst s) vzero with
            | Ok v => do d <- map_rows N (snd s) l l (zero (Z.of_nat N)); Ok (v, d)
            | Throw _ => Throw AssertFailed
            | UB => UB
            end
  | _ => UB
  end.

(* ---- second order, RTMap.h:17-75, RTMap.cpp:41-57 ---- *)
Record term3 := mkT3 { qi : nat; qj : nat; qk : nat; qv : R }.
Record rtmap := mkRT { lin : smap; quad : list term3 }.
Definition rt_empty (who : nat) : rtmap := mkRT (empty who) [].
(* operator()(i,j) on the left of an assignment *)
Definition rt_set (i j : nat) (v : R) (m : rtmap) : res oerr rtmap := do l <- set i j v (lin m); Ok (mkRT l (quad m)).
(* operator()(i,j,k) = v: always a new term, RTMap.h:67-71 *)
Definition rt_set3 (i j k : nat) (v : R) (m : rtmap) : rtmap := mkRT (lin m) (quad m ++ [mkT3 (i - 1) (j - 1) (k - 1) v]).
(* operator()(i,j,k) used to read a value: a new term as well, and its value *)
Definition rt_read3 (i j k : nat) (m : rtmap) : R * rtmap := (0, rt_set3 i j k 0 m).
Definition act3 (t : term3) (x y : vec6) : res oerr vec6 :=
  if Nat.ltb (qi t) 6 && Nat.ltb (qj t) 6 && Nat.ltb (qk t) 6 then Ok (bump (qi t) (qv t * coord (qj t) x * coord (qk t) x) y) else Throw OAssert.
Fixpoint act3s (l : list term3) (x y : vec6) : res oerr vec6 :=
  match l with [] => Ok y | t :: r => do y' <- act3 t x y; act3s r x y' end.
Definition rt_apply (m : rtmap) (p : particle) : res oerr particle :=
  do l <- iter (lin m);
  do y <- act l (pv p) vzero;
  do z <- act3s (quad m) (pv p) y;
  Ok (mkP z (pid p)).
Fixpoint rt_sets (l : list (nat * nat * R)) (m : rtmap) : res oerr rtmap :=
  match l with [] => Ok m | (i, j, v) :: r => do m' <- rt_set i j v m; rt_sets r m' end.
Fixpoint rt_set3s (l : list (nat * nat * nat * R)) (m : rtmap) : rtmap :=
  match l with [] => m | (i, j, k, v) :: r => rt_set3s r (rt_set3 i j k v m) end.
Definition rt_make (who : nat) (l : list (nat * nat * R)) (q : list (nat * nat * nat * R)) : res oerr rtmap :=
  do m <- rt_sets l (rt_empty who); Ok (rt_set3s q m).

(* ---- TransportRMaps.cpp ---- *)
(* SROT, 22-32 *)
Definition srot_terms (c s : R) : list (nat * nat * R) :=
  [(1%nat, 1%nat, c); (2%nat, 2%nat, c); (3%nat, 3%nat, c); (4%nat, 4%nat, c); (1%nat, 3%nat, - s); (2%nat, 4%nat, - s); (3%nat, 1%nat, s); (4%nat, 2%nat, s)].
(* QR2, 34-66 *)
Definition qr2_terms (length K : R) (o : nat) : list (nat * nat * R) :=
  if Reqb K 0 then [((o + 1)%nat, (o + 1)%nat, 1); ((o + 1)%nat, (o + 2)%nat, length); ((o + 2)%nat, (o + 2)%nat, 1)]
  else if Rltb 0 K then
    let k := sqrt K in let phi := k * length in
    [((o + 1)%nat, (o + 1)%nat, cos phi); ((o + 2)%nat, (o + 2)%nat, cos phi); ((o + 1)%nat, (o + 2)%nat, sin phi / k); ((o + 2)%nat, (o + 1)%nat, - k * sin phi)]
  else
    let k := sqrt (- K) in let phi := k * length in
    [((o + 1)%nat, (o + 1)%nat, cosh phi); ((o + 2)%nat, (o + 2)%nat, cosh phi); ((o + 1)%nat, (o + 2)%nat, sinh phi / k); ((o + 2)%nat, (o + 1)%nat, k * sinh phi)].
(* SBR, 68-118 *)
Definition sbr_terms (length h K : R) : list (nat * nat * R) :=
  if Reqb length 0 then ident_terms 3
  else
    let Kx := K + h * h in
    qr2_terms length Kx 0 ++ qr2_terms length (- K) 2 ++
    (if negb (Reqb h 0) && negb (Reqb Kx 0) then
       if Rltb 0 Kx then
         let k := sqrt Kx in let phi := k * length in
         [(1%nat, 6%nat, h * (1 - cos phi) / Kx); (2%nat, 6%nat, h * sin phi / k); (5%nat, 6%nat, - h * h * (phi - sin phi) / (Kx * k));
          (5%nat, 1%nat, - h * sin phi / k); (5%nat, 2%nat, - h * (1 - cos phi) / Kx)]
       else
         let k := sqrt (- Kx) in let phi := k * length in
         [(1%nat, 6%nat, h * (1 - cosh phi) / Kx); (2%nat, 6%nat, h * sinh phi / k); (5%nat, 6%nat, - h * h * (phi - sinh phi) / (Kx * k));
          (5%nat, 1%nat, - h * sinh phi / k); (5%nat, 2%nat, - h * (1 - cosh phi) / Kx)]
     else []) ++ [(5%nat, 5%nat, 1); (6%nat, 6%nat, 1)].
(* SolR, 123-159 *)
Definition sol_terms (l ks : R) : list (nat * nat * R) :=
  let theta := ks / 2 * l in let c := cos theta in let s := sin theta in
  [(1%nat, 1%nat, c * c); (2%nat, 2%nat, c * c); (3%nat, 3%nat, c * c); (4%nat, 4%nat, c * c)] ++
  (if fequal theta 0 then [] else [(1%nat, 2%nat, 2 * (s * c) / ks); (3%nat, 4%nat, 2 * (s * c) / ks)]) ++
  [(1%nat, 3%nat, s * c); (2%nat, 4%nat, s * c); (3%nat, 1%nat, - (s * c)); (4%nat, 2%nat, - (s * c))] ++
  (if fequal theta 0 then [] else [(1%nat, 4%nat, 2 * (s * s) / ks); (4%nat, 2%nat, - 2 * (s * s) / ks)]) ++
  [(2%nat, 1%nat, - ks * (s * c) / 2); (4%nat, 3%nat, - ks * (s * c) / 2); (2%nat, 3%nat, - ks * (s * s) / 2); (4%nat, 1%nat, ks * (s * s) / 2)].
(* Drift, 163-171; Quadrupole, 178-182; PoleFaceRot, 189-197 *)
Definition drift_terms (length : R) : list (nat * nat * R) :=
  ident_terms 3 ++ (if Reqb length 0 then [] else [(1%nat, 2%nat, length); (3%nat, 4%nat, length)]).
Definition quad_terms (length K : R) : list (nat * nat * R) := qr2_terms length K 0 ++ qr2_terms length (- K) 2.
Definition pole_terms (h theta fint hgap : R) : list (nat * nat * R) :=
  let phi := 2 * fint * hgap * h * (1 + sin theta * sin theta) / cos theta in
  ident_terms 3 ++ [(2%nat, 1%nat, h * tan theta); (4%nat, 3%nat, - h * tan (theta - phi))].

(* ---- BasicTransportMaps.cpp ---- *)
(* DriftTM, 205-223 *)
Definition drift_tm (who : nat) (s : R) : res oerr rtmap :=
  rt_make who [(1%nat, 1%nat, 1); (1%nat, 2%nat, s); (2%nat, 2%nat, 1); (3%nat, 3%nat, 1); (3%nat, 4%nat, s); (4%nat, 4%nat, 1); (5%nat, 5%nat, 1); (6%nat, 6%nat, 1)]
              [(5%nat, 2%nat, 2%nat, - s / 2); (5%nat, 4%nat, 4%nat, - s / 2)].
(* QuadrupoleTM, 91-149; without gradient 1/kq is a division by zero and the
   coefficients are no numbers, which is shown as UB *)
Definition quadrupole_tm (who : nat) (s K1 : R) : res oerr rtmap :=
  if Reqb K1 0 then UB else
  let sg := if Rltb K1 0 then -1 else 1 in
  let kq := sqrt (Rabs K1) in
  let a1 := kq * s in let a3 := 1 / kq in
  let a2 := if Rltb 0 K1 then cos a1 else cosh a1 in
  let a4 := if Rltb 0 K1 then sin a1 else sinh a1 in
  let a5 := if Rltb K1 0 then cos a1 else cosh a1 in
  let a6 := if Rltb K1 0 then sin a1 else sinh a1 in
  let a7 := sg * a4 * kq * s / 2 in
  let a8 := - (sg * a6 * kq * s) / 2 in
  let a9 := 2 * kq * s in
  let a10 := if Rltb 0 K1 then sin a9 else sinh a9 in
  let a12 := sg * (a4 * a4) / 2 in
  let a13 := if Rltb K1 0 then sin a9 else sinh a9 in
  let a15 := - (a6 * a6) / 2 in
  rt_make who
    [(1%nat, 1%nat, a2); (1%nat, 2%nat, a3 * a4); (2%nat, 1%nat, - sg * a4 * kq); (2%nat, 2%nat, a2); (3%nat, 3%nat, a5); (3%nat, 4%nat, a3 * a6);
     (4%nat, 3%nat, sg * a6 * kq); (4%nat, 4%nat, a5); (5%nat, 5%nat, 1); (6%nat, 6%nat, 1)]
    [(1%nat, 1%nat, 6%nat, a7); (1%nat, 2%nat, 6%nat, a3 * (a4 - a2 * kq * s) / 2); (2%nat, 1%nat, 6%nat, sg * kq * (a4 + a2 * kq * s) / 2); (2%nat, 2%nat, 6%nat, a7);
     (3%nat, 3%nat, 6%nat, a8); (3%nat, 4%nat, 6%nat, a3 * (a6 - a5 * kq * s) / 2); (4%nat, 3%nat, 6%nat, - (sg * kq * (a6 + a5 * kq * s)) / 2); (4%nat, 4%nat, 6%nat, a8);
     (5%nat, 1%nat, 1%nat, - ((- a10 + a9) * kq * sg) / 8); (5%nat, 1%nat, 2%nat, a12); (5%nat, 2%nat, 2%nat, - (a3 * (a10 + a9)) / 8);
     (5%nat, 3%nat, 3%nat, sg * ((- a13 + a9) * kq) / 8); (5%nat, 3%nat, 4%nat, sg * a15); (5%nat, 4%nat, 4%nat, - (a3 * (a13 + a9)) / 8)].
(* SextupoleTM, 151-203 *)
Definition sextupole_tm (who : nat) (s K : R) : res oerr rtmap :=
  let K2 := K * / 2 in
  let a1 := s ^ 2 in let a2 := s ^ 3 in let a3 := - (a2 * K2) / 3 in let a4 := s ^ 4 in
  let a5 := a2 * K2 / 3 in let a6 := a1 * K2 in let a7 := - s / 2 in
  rt_make who [(1%nat, 1%nat, 1); (1%nat, 2%nat, s); (2%nat, 2%nat, 1); (3%nat, 3%nat, 1); (3%nat, 4%nat, s); (4%nat, 4%nat, 1); (5%nat, 5%nat, 1); (6%nat, 6%nat, 1)]
    [(1%nat, 1%nat, 1%nat, - (a1 * K2) / 2); (1%nat, 1%nat, 2%nat, a3); (1%nat, 2%nat, 2%nat, - (a4 * K2) / 12); (1%nat, 3%nat, 3%nat, a1 * K2 / 2); (1%nat, 3%nat, 4%nat, a5); (1%nat, 4%nat, 4%nat, a4 * K2 / 12);
     (2%nat, 1%nat, 1%nat, - (K2 * s)); (2%nat, 1%nat, 2%nat, - (a1 * K2)); (2%nat, 2%nat, 2%nat, a3); (2%nat, 3%nat, 3%nat, K2 * s); (2%nat, 3%nat, 4%nat, a6); (2%nat, 4%nat, 4%nat, a5);
     (3%nat, 1%nat, 3%nat, a6); (3%nat, 1%nat, 4%nat, a5); (3%nat, 2%nat, 3%nat, a5); (3%nat, 2%nat, 4%nat, a4 * K2 / 6);
     (4%nat, 1%nat, 3%nat, 2 * K2 * s); (4%nat, 1%nat, 4%nat, a6); (4%nat, 2%nat, 3%nat, a6); (4%nat, 2%nat, 4%nat, 2 * a2 * K2 / 3);
     (5%nat, 2%nat, 2%nat, a7); (5%nat, 4%nat, 4%nat, a7)].
(* linear part of SectorBendTM, 38-52 *)
Definition sector_tm_linear (s h : R) : list (nat * nat * R) :=
  [(1%nat, 1%nat, cos (h * s)); (1%nat, 2%nat, 1 / h * sin (h * s)); (1%nat, 6%nat, 1 / h * (1 + - cos (h * s))); (2%nat, 1%nat, - (sin (h * s) * h)); (2%nat, 2%nat, cos (h * s)); (2%nat, 6%nat, sin (h * s));
   (3%nat, 3%nat, 1); (3%nat, 4%nat, s); (4%nat, 4%nat, 1); (5%nat, 1%nat, - sin (h * s)); (5%nat, 2%nat, (-1 + cos (h * s)) * (1 / h)); (5%nat, 5%nat, 1); (5%nat, 6%nat, 1 / h * sin (h * s) - s); (6%nat, 6%nat, 1)].
