(* Model of Merlin++/CollimatorDatabase.cpp: settings of collimators from a file.
   Numbers are exact reals.  A token of the file is a word which is wholly a number or
   none at all.  Logs are left out, and so are the wake potentials, which no function
   of the class can switch on, and the branch for MPI. *)
From Verif Require Import RBase Base Aper.
From Coq Require Import String List.
Import ListNotations.
Local Open Scope string_scope.
Local Open Scope list_scope.
Local Open Scope R_scope.

(* ---- reading, 31-100 ---- *)
Record token := mkT { text : string; num : option R }.
Definition stream : Type := list token * bool.   (* what is left, failed *)
(* operator>> for std::string and double: nothing happens to the variable when the
   stream failed before or is at its end; a word which is no number gives 0 *)
Definition get_s (old : string) (s : stream) : string * stream :=
  if snd s then (old, s) else match fst s with [] => (old, ([], true)) | t :: l => (text t, (l, false)) end.
Definition get_d (old : option R) (s : stream) : option R * stream :=
  if snd s then (old, s) else
  match fst s with
  | [] => (old, ([], true))
  | t :: l => match num t with Some r => (Some r, (l, false)) | None => (Some 0, (t :: l, true)) end
  end.
(* CollimatorData, CollimatorDatabase.h 40-58: None is indeterminate; d_mat None is the
   null pointer *)
Record cdata := mkD { d_name : string; d_xgap : option R; d_ygap : option R; d_tilt : option R; d_xoff : option R; d_yoff : option R;
  d_j1 : option R; d_j2 : option R; d_len : option R; d_sx : option R; d_sy : option R; d_mat : option nat }.
(* 83-85, 93 *)
Definition read_gaps (db : string -> option nat) (buf : string) (s : stream) : cdata * string * stream :=
  let (n, s) := get_s "" s in let (a, s) := get_d None s in let (b, s) := get_d None s in let (t, s) := get_d None s in
  let (xo, s) := get_d None s in let (yo, s) := get_d None s in let (j1, s) := get_d None s in let (j2, s) := get_d None s in
  let (l, s) := get_d None s in let (m, s) := get_s buf s in
  (mkD n a b t xo yo j1 j2 l None None (db m), m, s).
(* 89, 93 *)
Definition read_sigmas (db : string -> option nat) (buf : string) (s : stream) : cdata * string * stream :=
  let (n, s) := get_s "" s in let (a, s) := get_d None s in let (b, s) := get_d None s in let (t, s) := get_d None s in let (m, s) := get_s buf s in
  (mkD n None None t None None None None None a b (db m), m, s).
Fixpoint read_n (one : string -> stream -> cdata * string * stream) (n : nat) (buf : string) (s : stream) : list cdata :=
  match n with O => [] | S n' => let '(d, buf', s') := one buf s in d :: read_n one n' buf' s' end.
(* the first pass, 46-66: the number of complete groups; buf keeps the last word *)
Definition last_word (l : list token) : string := text (last l (mkT "" None)).
Definition load_db (db : string -> option nat) (sigma : bool) (l : list token) : list cdata :=
  if sigma then read_n (read_sigmas db) (Nat.div (List.length l) 5) (last_word l) (l, false)
  else read_n (read_gaps db) (Nat.div (List.length l) 10) (last_word l) (l, false).

(* ---- collimators ---- *)
Inductive jawtype := Matched (j : jaws) | Unaligned (j : jaws) | OneSided (j : jaws).
Record coll := mkC { c_name : string; c_len : R; c_pos : R; c_jaws : option jawtype; c_mat : option nat }.
Definition fit (j : jawtype) (m : option nat) (c : coll) : coll := mkC (c_name c) (c_len c) (c_pos c) (Some j) m.
Inductive derr := OutOfRange | NotNumber | Unsupported.
Definition dres := res derr.
Definition known (x : option R) : dres R := match x with Some r => Ok r | None => UB end.
(* std::map with insert: the first one of each name *)
Fixpoint on_first (n : string) (f : coll -> dres (coll * nat * R)) (k : nat) (i : R) (l : list coll) : dres (list coll * nat * R) :=
  match l with
  | [] => Ok ([], k, i)
  | c :: l' =>
      if String.eqb (c_name c) n then do r <- f c; Ok (fst (fst r) :: l', snd (fst r), snd r)
      else do r <- on_first n f k i l'; Ok (c :: fst (fst r), snd (fst r), snd r)
  end.

(* ConfigureCollimators with gaps, 103-144 *)
Definition gap_jaws (xg yg t len : R) : jaws := set_exit xg yg 0 0 (new_jaws xg yg t len 0 0).
Definition gap_one (d : cdata) (c : coll) : dres coll :=
  do xg <- known (d_xgap d); do yg <- known (d_ygap d); do t <- known (d_tilt d);
  Ok (fit (Matched (gap_jaws xg yg t (c_len c))) (d_mat d) c).
Fixpoint configure_gaps (ds : list cdata) (l : list coll) : dres (list coll) :=
  match ds with
  | [] => Ok l
  | d :: ds' => do r <- on_first (d_name d) (fun c => do c' <- gap_one d c; Ok (c', O, 0)) O 0 l; configure_gaps ds' (fst (fst r))
  end.

(* ---- with the optical functions, 146-585 ---- *)
Record twrow := mkW { w_s : R; w_bx : R; w_by : R; w_x : R; w_y : R }.
(* settings: MatchBeamEnvelope, EnableJawAlignmentErrors, SelectImpactFactor,
   SetJawPositionError, SetJawAngleError *)
Record setup := mkS { matched : bool; align : bool; primary : string; impact : R; perr : R; aerr : R }.
(* RandomNG::normal(0, variance, 3): gs are the numbers of unit width within the cutoff *)
Definition normal (gs : nat -> R) (v : R) (k : nat) : dres (R * nat) :=
  if Reqb v 0 then Ok (0, k) else if Rltb v 0 then UB else Ok (sqrt v * gs k, S k).
(* 214-216, 222-225 *)
Definition beam_size (ex ey t : R) (r : twrow) : dres R :=
  let q := w_bx r * ex * cos t * cos t + w_by r * ey * sin t * sin t in
  if Rltb q 0 then Throw NotNumber else Ok (sqrt q).
(* 258-265 *)
Definition match_jaws (nx ny s s' t len : R) (r r' : twrow) : jawtype :=
  Matched (set_exit (nx * s' * 2) (ny * s' * 2) (w_x r') (w_y r') (new_jaws (nx * s * 2) (ny * s * 2) t len (w_x r) (w_y r))).
(* 275-356: the rotated orbit is computed and then replaced by the orbit; the side of a
   one-sided jaw is the default of CollimatorAperture.h 210-211 *)
Definition one_sided (n : string) : bool := (String.eqb n "TCDQA.A4R6.B1" || String.eqb n "TCDQA.B4R6.B1" || String.eqb n "TCDQA.C4R6.B1")%bool.
Definition flat_jaws (n : string) (nx ny s s' t len : R) (r r' : twrow) : jawtype :=
  let gx := nx * s * 2 / 2 in let gy := ny * s * 2 / 2 in let gx' := nx * s' * 2 / 2 in let gy' := ny * s' * 2 / 2 in
  let xj1 := Rmax (w_x r + gx) (w_x r' + gx') in let xj2 := Rmin (w_x r - gx) (w_x r' - gx') in
  let yj1 := Rmax (w_y r + gy) (w_y r' + gy') in let yj2 := Rmin (w_y r - gy) (w_y r' - gy') in
  let j := new_jaws (xj1 - xj2) (yj1 - yj2) t len ((xj1 + xj2) / 2) ((yj1 + yj2) / 2) in
  if one_sided n then OneSided (set_side true j) else Unaligned j.
(* 440-538 *)
Definition error_jaws (gs : nat -> R) (cf : setup) (nx ny s s' t len : R) (r r' : twrow) (k : nat) : dres (jawtype * nat) :=
  do o1 <- normal gs (perr cf) k; do a1 <- normal gs (aerr cf) (snd o1); do o2 <- normal gs (perr cf) (snd a1); do a2 <- normal gs (aerr cf) (snd o2);
  do w <- normal gs (25 / 10 * / 10 ^ 9) (snd a2);
  let gx := nx * s * 2 / 2 in let gy := ny * s * 2 / 2 in let gy' := ny * s' * 2 / 2 in
  let x1 := w_x r + gx + fst o1 + fst w in let x2 := w_x r - gx + fst o2 + fst w in
  let y1 := w_y r + gy + 0 in let y2 := w_y r - gy + 0 in
  let xx1 := w_x r' + gx + fst o1 + len * fst a1 + fst w in let xx2 := w_x r' - gx + fst o2 + len * fst a2 + fst w in
  let yy1 := w_y r' + gy' + 0 in let yy2 := w_y r' - gy' + 0 in
  Ok (Matched (set_exit (xx1 - xx2) (yy1 - yy2) ((xx1 + xx2) / 2) ((yy1 + yy2) / 2) (new_jaws (x1 - x2) (y1 - y2) t len ((x1 + x2) / 2) ((y1 + y2) / 2))), snd w).
(* 250-544 *)
Definition jaws_for (gs : nat -> R) (cf : setup) (n : string) (nx ny s s' t len : R) (r r' : twrow) (k : nat) : dres (jawtype * nat) :=
  if align cf then (if matched cf then Throw Unsupported else error_jaws gs cf nx ny s s' t len r r' k)
  else Ok (if matched cf then match_jaws nx ny s s' t len r r' else flat_jaws n nx ny s s' t len r r', k).
(* 233-243 *)
Definition new_impact (cf : setup) (n : string) (nx s i : R) : dres R :=
  if (negb (Reqb (impact cf) 1) && String.eqb n (primary cf))%bool then (if Reqb s 0 then Throw NotNumber else Ok ((nx * s + impact cf) / s)) else Ok i.
(* 190-573: the row j and the next one; 548 asks the material for its conductivity *)
Definition conf_row (gs : nat -> R) (cf : setup) (ex ey : R) (d : cdata) (r r' : twrow) (c : coll) (k : nat) (i : R) : dres (coll * nat * R) :=
  do t <- known (d_tilt d);
  if (Reqb (w_bx r) 0 || Reqb (w_by r) 0)%bool then Ok (c, k, i) else
  do s <- beam_size ex ey t r; do nx <- known (d_sx d); do ny <- known (d_sy d); do s' <- beam_size ex ey t r';
  do i' <- new_impact cf (d_name d) nx s i;
  do j <- jaws_for gs cf (d_name d) nx ny s s' t (c_len c) r r' k;
  match d_mat d with None => UB | Some m => Ok (fit (fst j) (Some m) c, snd j, i') end.
(* 175-177 *)
Fixpoint conf_rows (gs : nat -> R) (cf : setup) (ex ey : R) (d : cdata) (rows : list twrow) (c : coll) (k : nat) (i : R) : dres (coll * nat * R) :=
  match rows with
  | [] => Ok (c, k, i)
  | r :: rest =>
      if Reqb (c_pos c) (w_s r) then
        match rest with
        | [] => Throw OutOfRange
        | r' :: _ => do q <- conf_row gs cf ex ey d r r' c k i; conf_rows gs cf ex ey d rest (fst (fst q)) (snd (fst q)) (snd q)
        end
      else conf_rows gs cf ex ey d rest c k i
  end.
Fixpoint configure (gs : nat -> R) (cf : setup) (ex ey : R) (rows : list twrow) (ds : list cdata) (l : list coll) (k : nat) (i : R) : dres (list coll * nat * R) :=
  match ds with
  | [] => Ok (l, k, i)
  | d :: ds' =>
      do q <- on_first (d_name d) (fun c => conf_rows gs cf ex ey d rows c k i) k i l;
      configure gs cf ex ey rows ds' (fst (fst q)) (snd (fst q)) (snd q)
  end.
(* the impact parameter before the first call, 99-100 *)
Definition first_impact : R := 1.
