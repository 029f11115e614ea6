(** Model of StringPattern (Merlin++/StringPattern.h, StringPattern.cpp). *)
From Verif Require Import Base.

(** SkipWC, StringPattern.cpp 140-147 *)
Fixpoint skip_wc (d : ascii) (s : str) : str :=
  match s with
  | c :: s' => if char_eqb c d then skip_wc d s' else s
  | [] => []
  end.

(** inner while, StringPattern.cpp 178-182: the characters up to the next [d] *)
Fixpoint take_frag (d : ascii) (s : str) : str * str :=
  match s with
  | [] => ([], [])
  | c :: s' => if char_eqb c d then ([], s)
               else let (f, r) := take_frag d s' in (c :: f, r)
  end.

(** outer while, StringPattern.cpp 175-187; one unit of fuel per fragment *)
Fixpoint frag_loop (fuel : nat) (d : ascii) (s : str) : list str :=
  match fuel with
  | 0 => []
  | S fuel' =>
      match s with
      | [] => []
      | _ => let (f, r) := take_frag d s in f :: frag_loop fuel' d (skip_wc d r)
      end
  end.

(** [*(--i) == dchar], line 190 *)
Fixpoint last_is (d : ascii) (s : str) : bool :=
  match s with
  | [] => false
  | [c] => char_eqb c d
  | _ :: s' => last_is d s'
  end.

(** DelimitString, StringPattern.cpp 149-199: ((first,last),fragments) *)
Definition delimit (s : str) (d : ascii) : (bool * bool) * list str :=
  match s with
  | [] => ((false, false), [])                                   (* 156-159 *)
  | c :: _ =>
      let first := char_eqb c d in
      let i := if first then skip_wc d s else s in               (* 164-173 *)
      match i with
      | [] => ((true, true), [])                                 (* 168-172 *)
      | _ => ((first, last_is d s), frag_loop (length s) d i)
      end
  end.

(** a pattern object: data members of StringPattern.h 66-90.  [isLiteral] is
    left uninitialised by the constructor for OR-patterns (lines 23-30), where
    Match never reads it; the model keeps the two cases apart instead. *)
Inductive pattern : Type :=
| POr (alts : list pattern)
| PSimple (wcterm : bool * bool) (frags : list str) (isLiteral : bool).

Definition bar : ascii := "|"%char.

Definition is_literal (wc : bool * bool) (frags : list str) : bool :=
  negb (fst wc) && negb (snd wc) && Nat.eqb (length frags) 1.

(** the else-branch of the constructor, lines 33-35 *)
Definition mk_simple (wcchar : ascii) (s : str) : pattern :=
  let '(wc, frags) := delimit s wcchar in
  PSimple wc frags (is_literal wc frags).

(** constructor, StringPattern.cpp 18-37.  The recursive construction of the
    alternatives (line 28) is on bar-free non-empty strings, for which
    DelimitString by '|' gives one fragment, so that the recursion has depth
    one; the model uses fuel 2 and [mk_fuel_ok] in StringPatternProofs shows it
    is enough. *)
Fixpoint mk_fuel (fuel : nat) (wcchar : ascii) (s : str) : pattern :=
  match fuel with
  | 0 => PSimple (false, false) [] false
  | S fuel' =>
      let '(_, alts) := delimit s bar in
      if Nat.ltb 1 (length alts) then POr (map (mk_fuel fuel' wcchar) alts)
      else mk_simple wcchar s
  end.
Definition mk_pattern (wcchar : ascii) (s : str) : pattern := mk_fuel 2 wcchar s.

(** [s.compare(n, len, f) == 0]: [f] is a prefix of what is left *)
Fixpoint strip_prefix (f s : str) : option str :=
  match f, s with
  | [], _ => Some s
  | c :: f', d :: s' => if char_eqb c d then strip_prefix f' s' else None
  | _ :: _, [] => None
  end.

(** [s.find(f, n)] followed by [n += f.length()]: what is left after the
    leftmost occurrence *)
Fixpoint find_after (f s : str) : option str :=
  match strip_prefix f s with
  | Some r => Some r
  | None => match s with [] => None | _ :: s' => find_after f s' end
  end.

(** loop over fragments, lines 76-110; [s] is the part of the subject from
    position [n] on.  [None] = return false, [Some r] = loop finished with
    remaining subject [r]. *)
Fixpoint match_frags (allowFloat : bool) (frags : list str) (s : str) : option str :=
  match frags with
  | [] => Some s
  | f :: fs =>
      match s with
      | [] => None                                               (* 81-84 *)
      | _ =>
          if allowFloat then
            match find_after f s with                            (* 86-97 *)
            | None => None
            | Some r => match_frags true fs r
            end
          else
            match strip_prefix f s with                          (* 98-109 *)
            | None => None
            | Some r => match_frags true fs r
            end
      end
  end.

Definition match_simple (wc : bool * bool) (frags : list str) (lit : bool) (s : str)
  : res unit bool :=
  if lit then                                                    (* 57-60 *)
    match frags with [] => UB | f :: _ => Ok (str_eqb f s) end
  else match frags with
       | [] => Ok (fst wc || Nat.eqb (length s) 0)               (* 62-72 *)
       | _ => match match_frags (fst wc) frags s with
              | None => Ok false
              | Some r => Ok (Nat.eqb (length r) 0 || snd wc)    (* 115 *)
              end
       end.

(** Match, StringPattern.cpp 39-116 *)
Fixpoint Match (p : pattern) (s : str) : res unit bool :=
  match p with
  | POr alts =>
      (fix go (l : list pattern) : res unit bool :=
         match l with
         | [] => Ok false
         | q :: l' => do b <- Match q s; if b then Ok true else go l'
         end) alts
  | PSimple wc frags lit => match_simple wc frags lit s
  end.

(** operator<<, StringPattern.cpp 118-138; for an OR-pattern [patterns] still
    holds the alternatives and [wcterm] is value-initialised (false,false). *)
Fixpoint join (sep : ascii) (l : list str) : str :=
  match l with
  | [] => []
  | [x] => x
  | x :: l' => x ++ sep :: join sep l'
  end.
Definition print_simple (wcchar : ascii) (wc : bool * bool) (frags : list str) : str :=
  (if fst wc then [wcchar] else []) ++ join wcchar frags ++ (if snd wc then [wcchar] else []).
Definition print_pattern (wcchar : ascii) (s : str) : str :=
  let '(_, alts) := delimit s bar in
  if Nat.ltb 1 (length alts) then print_simple wcchar (false, false) alts
  else let '(wc, frags) := delimit s wcchar in print_simple wcchar wc frags.
