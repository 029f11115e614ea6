(* What a user expects of a tracking run: the effects on the bunch, in order. *)
From Verif Require Import Base StringPattern Tracking.

Definition opt (b : bool) (e : tev) : list tev := if b then [e] else [].
(* around one frame *)
Definition before (incx skip : bool) (b : nat) (f : frame) : list tev :=
  opt (incx && negb skip) (EEnter b (fid f)) ++ opt (fpin f) (EPatchIn b (fid f)) ++
  opt (is_component f) (ETrack b (fid f)).
Definition after (incx : bool) (b : nat) (rec : frame -> bool) (f : frame) : list tev :=
  opt (fpout f) (EPatchOut b (fid f)) ++ opt incx (EExit b (fid f)) ++ opt (rec f) (ERec b (fid f)).
Definition around (incx skip : bool) (b : nat) (rec : frame -> bool) (f : frame) : list tev :=
  before incx skip b f ++ after incx b rec f.
(* one turn; [onaxis]: the first entrance is omitted *)
Definition turn (incx onaxis : bool) (b : nat) (rec : frame -> bool) (l : list frame) : list tev :=
  match l with
  | [] => []
  | f :: l' => around incx onaxis b rec f ++ flat_map (around incx false b rec) l'
  end.
(* the frames in the order in which they are met *)
Definition order (k : kind) : list frame :=
  match k with Line l => l | RingAt l n => skipn n l ++ firstn n l | NoLattice => [] end.
Definition usable (k : kind) : Prop :=
  match k with Line l => l <> [] | RingAt l n => n < length l | NoLattice => False end.

(* a frame is recorded iff it carries a component whose name matches *)
Definition wants (o : option output) (f : frame) : Prop :=
  exists out n, o = Some out /\ fname f = Some n /\
    (o_all out = true \/ exists p, In p (o_ids out) /\ Match (mk_pattern "*"%char p) n = Ok true).

Definition start_record (o : option output) (b : nat) : list tev :=
  match o with Some out => opt (o_initial out) (ERecInit (Some b)) | None => [] end.
Definition end_record (o : option output) (b : nat) : list tev :=
  match o with Some out => opt (o_final out) (ERecFinal (Some b)) | None => [] end.

(* components tracked, in order *)
Definition tracked (l : list tev) : list nat :=
  flat_map (fun e => match e with ETrack _ f => [f] | _ => [] end) l.
Definition component_ids (l : list frame) : list nat := map fid (filter is_component l).
(* everything that does not change while tracking *)
Definition same_setup (s s' : sim) : Prop :=
  s_ctor s' = s_ctor s /\ s_kind s' = s_kind s /\ s_incx s' = s_incx s /\ s_onaxis s' = s_onaxis s /\
  s_handle s' = s_handle s /\ s_out s' = s_out s /\ s_rest s' = s_rest s.
(* iterated calls *)
Fixpoint turns (call : sim -> sim * outcome) (n : nat) (s : sim) : sim * outcome :=
  match n with
  | O => (s, Done)
  | S n => match call s with (s', Done) => turns call n s' | r => r end
  end.
Fixpoint steps (call : sim -> sim * outcome * bool) (n : nat) (s : sim) : sim * outcome * bool :=
  match n with
  | O => (s, Done, true)
  | S n => match call s with
           | (s', Done, true) => steps call n s'
           | (s', Done, false) => match n with O => (s', Done, false) | _ => (s', Assert, false) end
           | r => r
           end
  end.
