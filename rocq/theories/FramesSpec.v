(* What a laid-out lattice should look like. *)
From Verif Require Import RBase Rot Frames.
Local Open Scope R_scope.

(* How a tree of frames is put together: a finished frame is appended to a
   sequence that is still open. *)
Inductive built : frame -> Prop :=
| built_leaf : forall id g, built (new_leaf id g)
| built_new : forall id om, built (new_seq id om)
| built_append : forall i s t om l c subs f,
    built (Seq i s t om l c subs) -> built f ->
    built (append_frame (Seq i s t om l c subs) f).

(* The lengths of the components under a frame, in order. *)
Fixpoint leaf_lengths (f : frame) : list R :=
  match f with
  | Leaf _ _ _ g => [geom_length g]
  | Seq _ _ _ _ _ _ subs => flat_map leaf_lengths subs
  end.
Definition total_length (f : frame) : R := fold_right Rplus 0 (leaf_lengths f).

(* Where every frame should begin and end if the components are set one after
   the other from [a] on: identity, begin, end of the frame, then of the frames
   inside it. *)
Fixpoint expected (a : R) (f : frame) : list (nat * R * R) :=
  match f with
  | Leaf i _ _ g => [(i, a, a + geom_length g)]
  | Seq i _ _ _ _ _ subs =>
      (i, a, a + total_length f) ::
      (fix go (l : list frame) (a : R) : list (nat * R * R) :=
         match l with [] => [] | x :: l' => expected a x ++ go l' (a + total_length x) end) subs a
  end.

(* The same list as the library answers it: GetGeometryExtent() of every frame. *)
Fixpoint reported (f : frame) (up : chain) : list (res gerr (nat * R * R)) :=
  (do e <- get_extent f up None; Ok (fident f, fst e, snd e)) ::
  match f with
  | Leaf _ _ _ _ => []
  | Seq i s _ _ _ _ subs =>
      (fix go (l : list frame) : list (res gerr (nat * R * R)) :=
         match l with [] => [] | x :: l' => reported x ((i, s) :: up) ++ go l' end) subs
  end.

(* Geometry.  The components under a frame, in order. *)
Fixpoint leaves (f : frame) : list geom :=
  match f with
  | Leaf _ _ _ g => [g]
  | Seq _ _ _ _ _ _ subs => flat_map leaves subs
  end.
Definition sum_len (l : list geom) : R := fold_right (fun g a => geom_length g + a) 0 l.

(* A point p given in the axes at the entrance of a component, expressed in
   the axes standing a distance u further along its reference line: a straight
   line, or a circle of curvature h in the x-z plane bending towards -x. *)
Definition leaf_walk (g : geom) (u : R) (p : vec3) : vec3 :=
  match g with
  | GRect _ => mkv (vx p) (vy p) (vz p - u)
  | GArc _ h =>
      let phi := u * h in
      let x := vx p - (cos phi - 1) / h in
      let z := vz p - sin phi / h in
      mkv (x * cos phi + z * sin phi) (vy p) (z * cos phi - x * sin phi)
  | GPatch _ => p
  | GNone => p
  end.
(* ... and a distance u along a row of components. *)
Fixpoint walk (l : list geom) (u : R) (p : vec3) : vec3 :=
  match l with
  | [] => p
  | g :: r => if Rleb u (geom_length g) then leaf_walk g u p
              else walk r (u - geom_length g) (leaf_walk g (geom_length g) p)
  end.

(* Lengths zero or above the tolerance of the comparisons, no zero curvature,
   no patches. *)
Definition thick (l : R) : Prop := l = 0 \/ eps < l.
Definition plain (g : geom) : Prop :=
  match g with
  | GRect l => thick l
  | GArc l h => thick l /\ h <> 0
  | GPatch _ => False
  | GNone => True
  end.
(* A place that is exactly a boundary between components, or further from it
   than the tolerance of the comparisons. *)
Definition clear (l : list geom) (u : R) : Prop :=
  forall k, u = sum_len (firstn k l) \/ eps < Rabs (u - sum_len (firstn k l)).

(* Every sequence in the tree that already has cached transformations has the
   right total. *)
Fixpoint good_totals (f : frame) : Prop :=
  match f with
  | Leaf _ _ _ _ => True
  | Seq _ _ _ _ _ c subs =>
      match c with
      | None => True
      | Some (tin, tout) =>
          forall p, tr_pt (tr_mul tout (tr_inv tin)) p = walk (leaves f) (sum_len (leaves f)) p
      end /\
      (fix all (l : list frame) : Prop :=
         match l with [] => True | x :: l' => good_totals x /\ all l' end) subs
  end.

(* The frames whose boundary planes lie on the plane [p] of [f]: [f] itself and
   every enclosing frame that begins (ends) with the previous one. The
   outermost frame does not count. *)
Definition edge_of (q : frame) (p : plane) (k : nat) : Prop :=
  match q with
  | Leaf _ _ _ _ => False
  | Seq _ _ _ _ _ _ subs =>
      option_map fident (hd_error (match p with Entrance => subs | Exit => rev subs end)) = Some k
  end.
Inductive coinciding (p : plane) : frame -> list frame -> list frame -> Prop :=
| co_root f : coinciding p f [] []
| co_inner f q up : ~ edge_of q p (fident f) -> coinciding p f (q :: up) [f]
| co_edge f q up l : edge_of q p (fident f) -> coinciding p q up l -> coinciding p f (q :: up) (f :: l).
