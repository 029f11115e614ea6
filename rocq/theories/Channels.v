(* Model of ChannelServer.cpp (41-49, 86-282), ElementRepository.cpp (16-62),
   Channels.cpp (26-33, 91-124), Channels.h (201-206), IndirectChannels.h
   (135-177), RWChannelState.cpp, BPMChannel.cpp, BPMDataBuffer.h (68-72),
   BPM.cpp (27-61) and AMBufferManager.h (68-117). A channel is the pair of the
   element and the constructor that made it. *)
From Verif Require Import RBase StringPattern.
Local Open Scope R_scope.

(* ---- registered constructors: std::map from "type.key" ---- *)
Record ctor := mkCt { ctype : str; ckey : str; cwrites : bool }.
Definition dot : ascii := "."%char.
(* ChannelCtor::GetID, 81-84 *)
Definition ctor_id (c : ctor) : str := ctype c ++ dot :: ckey c.
(* std::string::compare: unsigned characters, then the length *)
Fixpoint str_ltb (a b : str) : bool :=
  match a, b with
  | _, [] => false
  | [], _ :: _ => true
  | x :: a', y :: b' => if N.ltb (N_of_ascii x) (N_of_ascii y) then true else if N.ltb (N_of_ascii y) (N_of_ascii x) then false else str_ltb a' b'
  end.
Notation table := (list (str * ctor)).
(* map::insert: nothing happens when the key is there already *)
Fixpoint insert (t : table) (k : str) (c : ctor) : table * bool :=
  match t with
  | [] => ([(k, c)], true)
  | (k', c') :: t' => if str_ltb k k' then ((k, c) :: t, true)
                      else if str_ltb k' k then let '(t'', b) := insert t' k c in ((k', c') :: t'', b)
                      else (t, false)
  end.
(* RegisterCtor, 242-247 *)
Definition register (t : table) (c : ctor) : res unit table :=
  let '(t', b) := insert t (ctor_id c) c in if b then Ok t' else UB.
Fixpoint register_all (t : table) (l : list ctor) : res unit table :=
  match l with [] => Ok t | c :: l' => do t' <- register t c; register_all t' l' end.

(* StringPattern with its default wild-card; Match never fails on a constructed
   pattern *)
Definition pmatch (pat id : str) : bool := match Match (mk_pattern "*" pat) id with Ok b => b | _ => false end.
(* FindCtors, 254-276: find_if, find_if_not, then the key pattern. The set of
   pointers has no order of its own; the model keeps the order of the map. *)
Fixpoint drop_until (f : ctor -> bool) (t : table) : table := match t with [] => [] | (k, c) :: t' => if f c then t else drop_until f t' end.
Fixpoint take_while (f : ctor -> bool) (t : table) : list ctor := match t with [] => [] | (_, c) :: t' => if f c then c :: take_while f t' else [] end.
Definition find_ctors (t : table) (type keypat : str) : list ctor :=
  let is_type c := str_eqb (ctype c) type in
  filter (fun c => pmatch keypat (ckey c)) (take_while is_type (drop_until is_type t)).

(* ---- CHPath, 41-50: int positions, -1 when there is no dot ---- *)
Fixpoint find_from (s : str) (n : Z) (skip : nat) : Z :=
  match s with
  | [] => -1
  | c :: s' => match skip with O => if char_eqb c dot then n else find_from s' (n + 1) 0 | S k => find_from s' (n + 1) k end
  end.
(* substr(pos, len) with a len that is negative as an int: as size_t it is huge *)
Definition substr (s : str) (pos : nat) (len : Z) : str := let r := skipn pos s in if Z.ltb len 0 then r else firstn (Z.to_nat len) r.
Record path := mkPath { ptype : str; pident : str; pkey : str }.
Definition chpath (cid : str) : path :=
  let n1 := find_from cid 0 0 in
  let n2 := find_from cid 0 (Z.to_nat (n1 + 1)) in
  mkPath (substr cid 0 n1) (substr cid (Z.to_nat (n1 + 1)) (n2 - n1 - 1)) (skipn (Z.to_nat (n2 + 1)) cid).
(* eid, 34-37 *)
Definition path_eid (p : path) : str := ptype p ++ dot :: pident p.

(* ---- queries ---- *)
Record elem := mkEl { etype : str; ename : str; eaddr : nat }.
Definition qname (e : elem) : str := etype e ++ dot :: ename e.
Notation channel := (elem * ctor)%type.
(* GetROChannels(beamline, ...), 172-205; frames without component are None *)
Fixpoint beamline_channels (t : table) (p : path) (l : list (option elem)) : list channel :=
  match l with
  | [] => []
  | None :: l' => beamline_channels t p l'
  | Some e :: l' => (if pmatch (path_eid p) (qname e) then map (pair e) (find_ctors t (etype e) (pkey p)) else []) ++ beamline_channels t p l'
  end.
Definition ro_beamline (t : table) (chid : str) (l : list (option elem)) : list channel := beamline_channels t (chpath chid) l.
(* ConstructRW of a read-only channel returns null, BPMChannelCtor.cpp 34-37; the
   loops assert that it is not (207-240) *)
Definition ctor_rw (e : elem) (c : ctor) : res unit channel := if cwrites c then Ok (e, c) else UB.
Fixpoint rw_all (l : list channel) : res unit (list channel) :=
  match l with [] => Ok [] | (e, c) :: l' => do x <- ctor_rw e c; do r <- rw_all l'; Ok (x :: r) end.
Definition rw_beamline (t : table) (chid : str) (l : list (option elem)) : res unit (list channel) := rw_all (ro_beamline t chid l).
(* the repository versions, 86-126: [elements] as FindElements delivers them, [last]
   the type looked up last and [cs] its constructors *)
Fixpoint repo_loop (t : table) (key : str) (last : str) (cs : list ctor) (elements : list elem) : list channel :=
  match elements with
  | [] => []
  | e :: r =>
      if str_eqb last (etype e) then map (pair e) cs ++ repo_loop t key last cs r
      else let cs' := find_ctors t (etype e) key in
           match cs' with [] => [] | _ => map (pair e) cs' ++ repo_loop t key (etype e) cs' r end
  end.
Definition ro_repository (t : table) (chid : str) (elements : list elem) : list channel := repo_loop t (pkey (chpath chid)) [] [] elements.
(* ElementRepository: MatchID (19-36) never sets its flag [neg]; its value is an
   argument here *)
Definition match_id (neg : bool) (pat : str) (e : elem) : bool := let rv := pmatch pat (qname e) in if neg then negb rv else rv.
Definition repo_count (neg : bool) (pat : str) (es : list elem) : nat := length (filter (match_id neg pat) es).
Definition repo_find (neg : bool) (pat : str) (es : list elem) : list elem := filter (fun e => negb (match_id neg pat e)) es.

(* ---- channel arrays over a machine state ---- *)
Section Arrays.
Variable M : Type.
Record chan := mkCh { rd : M -> R; wr : R -> M -> M }.
(* Channels.h 201-206, IndirectChannels.h 171-177 *)
Definition incr_ch (c : chan) (d : R) (m : M) : M := wr c (rd c m + d) m.
(* ReadAll, Channels.cpp 26-33, into a vector of n elements *)
Definition read_all (n : nat) (cs : list chan) (m : M) : res unit (list R) := if Nat.eqb n (length cs) then Ok (map (fun c => rd c m) cs) else UB.
(* WriteAll, 91-106 *)
Fixpoint write_each (cs : list chan) (vs : list R) (m : M) : M :=
  match cs, vs with c :: cs', v :: vs' => write_each cs' vs' (wr c v m) | _, _ => m end.
Definition write_all (cs : list chan) (vs : list R) (m : M) : res unit M := if Nat.eqb (length vs) (length cs) then Ok (write_each cs vs m) else UB.
Definition write_same (cs : list chan) (v : R) (m : M) : M := fold_left (fun m c => wr c v m) cs m.
(* IncrementAll, 108-123 *)
Fixpoint incr_each (cs : list chan) (vs : list R) (m : M) : M :=
  match cs, vs with c :: cs', v :: vs' => incr_each cs' vs' (incr_ch c v m) | _, _ => m end.
Definition incr_all (cs : list chan) (vs : list R) (m : M) : res unit M := if Nat.eqb (length vs) (length cs) then Ok (incr_each cs vs m) else UB.
Definition incr_same (cs : list chan) (v : R) (m : M) : M := fold_left (fun m c => incr_ch c v m) cs m.
(* RWChannelState: cached values and Reset *)
Definition cache (cs : list chan) (m : M) : res unit (list R) := read_all (length cs) cs m.
Definition reset (cs : list chan) (values : list R) (m : M) : res unit M := write_all cs values m.
End Arrays.
Arguments mkCh {M}. Arguments rd {M}. Arguments wr {M}. Arguments incr_ch {M}. Arguments read_all {M}. Arguments write_each {M}. Arguments write_all {M}.
Arguments write_same {M}. Arguments incr_each {M}. Arguments incr_all {M}. Arguments incr_same {M}. Arguments cache {M}. Arguments reset {M}.

(* ---- beam position monitors ---- *)
Record bpm := mkBPM { res_x : R; res_y : R; scale_x : R; scale_y : R; active : bool; buffers : list nat }.
Record mdata := mkMD { mx : R; mxe : R; my : R; mye : R; mct : R }.
(* MakeMeasurement, 27-61: centroid, reference time, the numbers the generator would
   return for the two planes, and the response. The result is what every buffer
   receives, in order, and the variances asked of the generator. *)
Definition takes_data (all_inactive : bool) (def : option nat) (b : bpm) : bool :=
  (active b && negb all_inactive) && negb (match def with None => match buffers b with [] => true | _ => false end | Some _ => false end).
Definition noisy (generate : bool) (r : R) : bool := generate && negb (fequal r 0).
Definition measure (all_inactive generate : bool) (def : option nat) (resp : mdata -> mdata) (b : bpm) (cx cy ct nx ny : R) : list (nat * mdata) * list R :=
  if takes_data all_inactive def b then
    let x := if noisy generate (res_x b) then cx + nx else cx in
    let y := if noisy generate (res_y b) then cy + ny else cy in
    let d := resp (mkMD (x * scale_x b) (res_x b) (y * scale_y b) (res_y b) ct) in
    (map (fun k => (k, d)) (match def with Some k => k :: buffers b | None => buffers b end),
     (if noisy generate (res_x b) then [res_x b * res_x b] else []) ++ (if noisy generate (res_y b) then [res_y b * res_y b] else []))
  else ([], []).
(* the set of buffers, AMBufferManager.h 77-98 *)
Definition add_buffer (k : nat) (b : bpm) : bpm := mkBPM (res_x b) (res_y b) (scale_x b) (scale_y b) (active b) (if existsb (Nat.eqb k) (buffers b) then buffers b else buffers b ++ [k]).
Definition remove_buffer (k : nat) (b : bpm) : bpm * bool := (mkBPM (res_x b) (res_y b) (scale_x b) (scale_y b) (active b) (filter (fun j => negb (Nat.eqb j k)) (buffers b)), existsb (Nat.eqb k) (buffers b)).
(* BPMDataBuffer and BPMChannel *)
Record dbuf := mkDB { bx : R; bxo : R; by_ : R; byo : R }.
Definition record (d : mdata) (b : dbuf) : dbuf := mkDB (mx d) (bxo b) (my d) (byo b).
Definition bpm_read (is_x : bool) (b : dbuf) : R := if is_x then bx b + bxo b else by_ b + byo b.
Definition set_offset (is_x : bool) (v : R) (b : dbuf) : dbuf := if is_x then mkDB (bx b) v (by_ b) 0 else mkDB (bx b) 0 (by_ b) v.
