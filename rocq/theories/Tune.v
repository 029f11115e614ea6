(* Model of Merlin++/BetatronTunes.cpp: tunes from the spectrum of a tracked particle.
   Numbers are exact reals, int is nat; values which are not numbers are the outcome
   TNaN.  The tracking is a function giving the coordinates after each turn. *)
From Verif Require Import RBase Base.
From Coq Require Import List Ratan.
Import ListNotations.
Local Open Scope R_scope.

Inductive terr := TNaN.
Definition tres := res terr.
Definition tput (l : list R) (i : nat) (x : R) : tres (list R) := match upd l i x with Some l' => Ok l' | None => UB end.
Definition swap_at (l : list R) (i j : nat) : tres (list R) :=
  do a <- vget l i; do b <- vget l j; do l1 <- tput l i b; tput l1 j a.

(* 157-163 *)
Fixpoint carry (fuel m j : nat) : nat :=
  match fuel with
  | O => j + m
  | S f => if (Nat.leb 2 m && Nat.ltb m j)%bool then carry f (Nat.div2 m) (j - m) else j + m
  end.
(* 148-164: the order of the values is turned around bit by bit; cnt turns of the loop *)
Fixpoint reverse (nn cnt i j : nat) (l : list R) : tres (list R) :=
  match cnt with
  | O => Ok l
  | S c =>
      do l' <- (if Nat.ltb i j then do l1 <- swap_at l (j - 1) (i - 1); swap_at l1 j i else Ok l);
      reverse nn c (i + 2) (carry nn nn j) l'
  end.
(* 180-186 *)
Definition butterfly (wr wi : R) (i mmax : nat) (l : list R) : tres (list R) :=
  let j := (i + mmax)%nat in
  do a <- vget l (j - 1); do b <- vget l j;
  let tempr := wr * a - wi * b in let tempi := wr * b + wi * a in
  do c <- vget l (i - 1); do l1 <- tput l (j - 1) (c - tempr);
  do d <- vget l1 i; do l2 <- tput l1 j (d - tempi);
  do e <- vget l2 (i - 1); do l3 <- tput l2 (i - 1) (e + tempr);
  do g <- vget l3 i; tput l3 i (g + tempi).
(* 178-187 *)
Fixpoint pass (fuel : nat) (wr wi : R) (i mmax n : nat) (l : list R) : tres (list R) :=
  match fuel with
  | O => Ok l
  | S f => if Nat.leb i n then do l' <- butterfly wr wi i mmax l; pass f wr wi (i + 2 * mmax) mmax n l' else Ok l
  end.
(* 176-190 *)
Fixpoint groups (fuel : nat) (wpr wpi wr wi : R) (m mmax n : nat) (l : list R) : tres (list R) :=
  match fuel with
  | O => Ok l
  | S f =>
      if Nat.ltb m mmax then
        do l' <- pass (S n) wr wi m mmax n l;
        groups f wpr wpi (wr * wpr - wi * wpi + wr) (wi * wpr + wr * wpi + wi) (m + 2) mmax n l'
      else Ok l
  end.
(* 166-192 *)
Fixpoint stages (fuel mmax n : nat) (l : list R) : tres (list R) :=
  match fuel with
  | O => Ok l
  | S f =>
      if Nat.ltb mmax n then
        let theta := 2 * PI / INR mmax in let wtemp := sin (theta / 2) in
        do l' <- groups mmax (-2 * wtemp * wtemp) (sin theta) 1 0 1 mmax n l;
        stages f (2 * mmax) n l'
      else Ok l
  end.
(* 144-194 *)
Definition fft (l : list R) : tres (list R) :=
  let nn := Nat.div2 (List.length l) in let n := (2 * nn)%nat in
  do l' <- reverse nn nn 1 1 l; stages n 2 n l'.

(* 196-202 *)
Definition amp (a b c : R) : tres R :=
  let q := c * c * (a + b) * (a + b) - 2 * a * b * (2 * c * c - c - 1) in
  if Rltb q 0 then Throw TNaN else
  let a1 := - (a + b * c) * (a - b) in let b1 := b * sqrt q in let c1 := a * a + b * b + 2 * a * b * c in
  if Reqb c1 0 then Throw TNaN else Ok ((a1 + b1) / c1).
(* 121-132: the spectrum, the height and the position of the peak; cnt turns of the loop *)
Fixpoint peaks (cnt i : nat) (d spec : list R) (h : R) (pos : nat) : tres (list R * nat) :=
  match cnt with
  | O => Ok (spec, pos)
  | S c =>
      do a <- vget d i; do b <- vget d (i + 1);
      let v := sqrt (a * a + b * b) in
      if Rltb h v then peaks c (i + 2) d (spec ++ [v]) v (Nat.div2 i) else peaks c (i + 2) d (spec ++ [v]) h pos
  end.
(* 112-142 *)
Definition find_tune (l : list R) : tres R :=
  let nvals := Nat.div2 (List.length l) in
  do d <- fft l;
  do r <- peaks (nvals - 1) 2 d [] 0 0;
  let pos := snd r in
  do c <- vget (fst r) pos; do g <- vget (fst r) (pos + 1);
  let norm := sqrt (INR nvals) in
  do q <- amp (c / norm) (g / norm) (cos (2 * PI / INR nvals));
  let x := q * sin (2 * PI / INR nvals) in
  if Rltb 1 (Rabs x) then Throw TNaN else
  Ok ((INR pos + INR nvals * asin x / (2 * PI)) / INR nvals).

(* 83-84 *)
Definition hann (k ntrack : nat) : R := let h := sin (PI * INR (k + 1) / INR ntrack) in h * h.
Record quad := mkQ { q_x : R; q_xp : R; q_y : R; q_yp : R }.
Record store := mkSt { x1 : list R; y1 : list R; x2 : list R; y2 : list R }.
(* 59-96: track gives the particle after each turn, or nothing when it is lost *)
Fixpoint collect (track : nat -> option quad) (ntrack cnt k : nat) (s : store) : bool * store :=
  match cnt with
  | O => (true, s)
  | S c =>
      match track k with
      | None => (false, s)
      | Some p =>
          if (Rltb (10 ^ 10) (Rabs (q_x p)) || Rltb (10 ^ 10) (Rabs (q_y p)))%bool then (false, s) else
          let h := hann k ntrack in
          let dx := [q_x p * h; q_xp p * h] in let dy := [q_y p * h; q_yp p * h] in
          collect track ntrack c (S k)
            (if Nat.ltb k ntrack then mkSt (x1 s ++ dx) (y1 s ++ dy) (x2 s) (y2 s) else mkSt (x1 s) (y1 s) (x2 s ++ dx) (y2 s ++ dy))
      end
  end.
Record tunes := mkTunes { Qx : R; Qy : R; dQx : R; dQy : R }.
(* FindTunes, 27-110 *)
Definition find_tunes (track : nat -> option quad) (ntrack : nat) (diffusion : bool) : tres tunes :=
  let r := collect track ntrack (if diffusion then ntrack * 2 else ntrack)%nat 0 (mkSt [] [] [] []) in
  let s := snd r in
  let tune (b : bool) (l : list R) := if b then find_tune l else Ok 0 in
  do a <- tune (fst r) (x1 s); do b <- tune (fst r) (y1 s);
  do a' <- tune (diffusion && fst r)%bool (x2 s); do b' <- tune (diffusion && fst r)%bool (y2 s);
  Ok (mkTunes a b (a' - a) (b' - b)).
