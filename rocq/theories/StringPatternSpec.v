(** Meaning of a name pattern, independent of the implementation. *)
From Verif Require Import Base.

(** glob language: [wc] stands for any sequence, other characters for themselves *)
Inductive glob (wc : ascii) : str -> str -> Prop :=
| glob_nil : glob wc [] []
| glob_char c p s : c <> wc -> glob wc p s -> glob wc (c :: p) (c :: s)
| glob_star p s1 s2 : glob wc p s2 -> glob wc (wc :: p) (s1 ++ s2).

(** [q] is one of the alternatives of [p]: a non-empty bar-free stretch of [p]
    delimited by bars or by the ends of [p] *)
Definition alternative (p q : str) : Prop :=
  exists l r, p = l ++ q ++ r /\ q <> [] /\ ~ In "|"%char q
    /\ (l = [] \/ exists l', l = l' ++ ["|"%char])
    /\ (r = [] \/ exists r', r = "|"%char :: r').

(** [p] is an alternation: some bar has a character other than a bar on both sides *)
Definition alternation (p : str) : Prop :=
  exists l r, p = l ++ "|"%char :: r
    /\ (exists c, In c l /\ c <> "|"%char) /\ (exists c, In c r /\ c <> "|"%char).

Definition in_language (wc : ascii) (p s : str) : Prop :=
  (alternation p /\ exists q, alternative p q /\ glob wc q s)
  \/ (~ alternation p /\ glob wc p s).
