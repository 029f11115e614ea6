(* Model of the tree of lattice frames and of its geometry:
   SequenceFrame.cpp, LatticeFrame.{h,cpp}, CenteredGeometry.h,
   RectangularGeometry.cpp, ArcGeometry.cpp, GeometryPatch.h.
   Frames are values with an identity; the pointer to the super-frame is the
   list of enclosing frames ("chain").  A failed assert is [Throw], a null
   pointer [UB]. *)
From Verif Require Import RBase Rot.
Local Open Scope R_scope.

Inductive gerr := BeyondExtent | AssertFailed.

(* RectangularGeometry, ArcGeometry (length, curvature), GeometryPatch, and
   frames without geometry. *)
Inductive geom :=
| GRect (len : R)
| GArc (len h : R)
| GPatch (t : option tr3)
| GNone.

Inductive origin := AtEntrance | AtCenter | AtExit.
Inductive plane := Entrance | Exit.

(* LatticeFrame: identity, s_0 (local position), local_T, geometry.
   SequenceFrame: omode, len_t, t_cache (t_in, t_out), subFrames. *)
Inductive frame :=
| Leaf (id : nat) (s0 : R) (loc : option tr3) (g : geom)
| Seq (id : nat) (s0 : R) (loc : option tr3) (om : origin) (len : R)
      (cache : option (tr3 * tr3)) (subs : list frame).

Definition fident (f : frame) : nat :=
  match f with Leaf i _ _ _ => i | Seq i _ _ _ _ _ _ => i end.
Definition fpos (f : frame) : R :=
  match f with Leaf _ s _ _ => s | Seq _ s _ _ _ _ _ => s end.
Definition floc (f : frame) : option tr3 :=
  match f with Leaf _ _ t _ => t | Seq _ _ t _ _ _ _ => t end.
(* SetLocalPosition, LatticeFrame.h:456-459 *)
Definition set_pos (s : R) (f : frame) : frame :=
  match f with
  | Leaf i _ t g => Leaf i s t g
  | Seq i _ t om l c subs => Seq i s t om l c subs
  end.

(* GetGeometryLength: LatticeFrame.h:437-440, CenteredGeometry.h:61-64,
   GeometryPatch.h:62-65, SequenceFrame.cpp:374-377 *)
Definition geom_length (g : geom) : R :=
  match g with GRect l => l | GArc l _ => l | GPatch _ => 0 | GNone => 0 end.
Definition flength (f : frame) : R :=
  match f with Leaf _ _ _ g => geom_length g | Seq _ _ _ _ l _ _ => l end.

(* GetLocalGeometryExtent: LatticeFrame.h:432-435, CenteredGeometry.h:66-70,
   GeometryPatch.h:53-56, SequenceFrame.cpp:352-372 *)
Definition geom_extent (g : geom) : R * R :=
  match g with
  | GRect l => (- (l / 2), l / 2)
  | GArc l _ => (- (l / 2), l / 2)
  | GPatch _ => (0, 0)
  | GNone => (0, 0)
  end.
Definition seq_extent (om : origin) (l : R) : R * R :=
  match om with
  | AtEntrance => (0, l)
  | AtCenter => (- l / 2, l / 2)
  | AtExit => (- l, 0)
  end.
Definition fextent (f : frame) : R * R :=
  match f with Leaf _ _ _ g => geom_extent g | Seq _ _ _ om l _ _ => seq_extent om l end.

(* SequenceFrame constructor, SequenceFrame.cpp:94-104 *)
Definition new_seq (id : nat) (om : origin) : frame := Seq id 0 None om 0 None [].
(* A frame around a component or patch, LatticeFrame.h:356-359 *)
Definition new_leaf (id : nat) (g : geom) : frame := Leaf id 0 None g.
(* AppendFrame, SequenceFrame.cpp:122-131 *)
Definition append_frame (q f : frame) : frame :=
  match q with
  | Seq i s t om l c subs => Seq i s t om (l + flength f) c (subs ++ [f])
  | Leaf _ _ _ _ => q
  end.
(* The same call on the sequence with identity [k] somewhere inside a tree:
   the enclosing frames are not told. *)
Fixpoint append_inside (k : nat) (f t : frame) : frame :=
  match t with
  | Leaf _ _ _ _ => t
  | Seq i s tl om l c subs =>
      if Nat.eqb i k then append_frame t f
      else Seq i s tl om l c (map (append_inside k f) subs)
  end.

(* ArcGeometry.cpp:13-16 *)
Definition make_transform (phi h : R) : tr3 :=
  mkt (mkv ((cos phi - 1) / h) 0 (sin phi / h)) (rotation_y (- phi)).
(* CenteredGeometry.h:72-79 *)
Definition in_bounds (len s1 s2 : R) : bool :=
  negb (Rltb (len / 2) (Rabs s1) || Rltb (len / 2) (Rabs s2)).
Definition opt_tr (t : option tr3) : tr3 := match t with Some t => t | None => tr_id end.

(* GetGeometryTransform(s0,s) of a leaf: RectangularGeometry.cpp:10-14,
   ArcGeometry.cpp:20-24, GeometryPatch.h:30-37, LatticeFrame.h:390-404 *)
Definition leaf_tr (g : geom) (s0 s : R) : res gerr tr3 :=
  match g with
  | GRect l => if in_bounds l s s0 then Ok (tr_translation 0 0 (s - s0)) else Throw BeyondExtent
  | GArc l h => if in_bounds l s s0 then Ok (make_transform ((s - s0) * h) h) else Throw BeyondExtent
  | GPatch t => if negb (Reqb s0 0) || negb (Reqb s 0) then Throw BeyondExtent else Ok (opt_tr t)
  | GNone => if Reqb s0 s then Ok tr_id else Throw BeyondExtent
  end.
(* GetTotalGeometryTransform of a leaf: RectangularGeometry.cpp:22-25,
   ArcGeometry.cpp:32-35, GeometryPatch.h:44-47, LatticeFrame.h:427-430 *)
Definition leaf_total (g : geom) : tr3 :=
  match g with
  | GRect l => tr_translation 0 0 l
  | GArc l h => make_transform (l * h) h
  | GPatch t => opt_tr t
  | GNone => tr_id
  end.
(* GetGeometryTransform(BoundaryPlane) of a leaf: RectangularGeometry.cpp:16-20,
   ArcGeometry.cpp:26-30, GeometryPatch.h:39-42, LatticeFrame.h:422-425 *)
Definition leaf_plane (g : geom) (p : plane) : tr3 :=
  match g with
  | GRect l => tr_translation 0 0 (match p with Entrance => - l / 2 | Exit => l / 2 end)
  | GArc l h => make_transform (match p with Entrance => - (l * h) / 2 | Exit => l * h / 2 end) h
  | GPatch t => match p with Entrance => opt_tr t | Exit => tr_id end
  | GNone => tr_id
  end.

(* GetTotalGeometryTransform, SequenceFrame.cpp:336-350 *)
Fixpoint total (f : frame) : tr3 :=
  match f with
  | Leaf _ _ _ g => leaf_total g
  | Seq _ _ _ _ _ (Some (tin, tout)) _ => tr_mul tout (tr_inv tin)
  | Seq _ _ _ _ _ None subs =>
      (fix go (l : list frame) (t : tr3) : tr3 :=
         match l with [] => t | x :: l' => go l' (tr_mul (total x) t) end) subs tr_id
  end.

(* SequenceFrame.cpp:252-261 *)
Definition seq_shift (om : origin) (len s : R) : R :=
  match om with AtEntrance => s | AtCenter => s + len / 2 | AtExit => s + len end.

(* GetGeometryTransform(s0,s), SequenceFrame.cpp:245-329 *)
Fixpoint gtr (f : frame) (s0 s : R) {struct f} : res gerr tr3 :=
  match f with
  | Leaf _ _ _ g => leaf_tr g s0 s
  | Seq _ _ _ om len _ subs =>
      if fequal s s0 then Ok tr_id else
      let u := seq_shift om len s in
      let u0 := seq_shift om len s0 in
      if Rltb u 0 || Rltb len u || Rltb u0 0 || Rltb len u0 then Throw BeyondExtent else
      if fequal u0 0 && fequal u len then Ok (total f) else
      let inv := Rltb u u0 in
      let a := if inv then u else u0 in
      let b := if inv then u0 else u in
      (fix first (l : list frame) (a b : R) : res gerr tr3 :=
         match l with
         | [] => Throw AssertFailed
         | x :: l' =>
             let n := flength x in
             if fequal a n || Rltb a n then
               if fequal b n || Rltb b n
               then gtr x (fst (fextent x) + a) (fst (fextent x) + b)
               else
                 do t <- gtr x (fst (fextent x) + a) (snd (fextent x));
                 (fix rest (l : list frame) (b : R) (t : tr3) : res gerr tr3 :=
                    match l with
                    | [] => Throw AssertFailed
                    | y :: l' =>
                        let n := flength y in
                        if fequal b n || Rltb b n then
                          do t' <- gtr y (fst (fextent y)) (fst (fextent y) + b);
                          let r := tr_mul t' t in
                          Ok (if inv then tr_inv r else r)
                        else rest l' (b - n) (tr_mul (total y) t)
                    end) l' (b - n) t
             else first l' (a - n) (b - n)
         end) subs a b
  end.

(* CalculateCentreCT, SequenceFrame.cpp:404-446; the result is (t_in, t_out). *)
Definition finish (l : list frame) (t : tr3) : tr3 :=
  fold_left (fun t y => tr_mul (total y) t) l t.
Fixpoint centre_ct (l : list frame) (mid s : R) (t : tr3) : res gerr (tr3 * tr3) :=
  match l with
  | [] => Throw AssertFailed
  | x :: l' =>
      let s' := s + flength x in
      let t1 := if fequal s' mid || Rltb s' mid then tr_mul (total x) t else t in
      if fequal s' mid then Ok (tr_inv t1, finish l' tr_id)
      else if Rltb mid s' then
        let s1 := fst (fextent x) + s' - mid in
        do u <- gtr x (fst (fextent x)) s1;
        do w <- gtr x s1 (snd (fextent x));
        Ok (tr_inv (tr_mul u t1), finish l' w)
      else centre_ct l' mid s' t1
  end.

(* CalculateCachedTransforms, SequenceFrame.cpp:379-402.  The cache exists
   before the total transform is asked for. *)
Definition calc_cache (om : origin) (len : R) (cache : option (tr3 * tr3)) (subs : list frame)
  : res gerr (tr3 * tr3) :=
  let '(tin, tout) := match cache with Some c => c | None => (tr_id, tr_id) end in
  match om with
  | AtEntrance => Ok (tin, tr_mul tout (tr_inv tin))
  | AtCenter => centre_ct subs (len / 2) 0 tr_id
  | AtExit => Ok (tr_inv (tr_mul tout (tr_inv tin)), tout)
  end.

(* SequenceFrame.cpp:139-151 *)
Definition seq_start (om : origin) (len : R) : R :=
  match om with AtEntrance => 0 | AtCenter => - len / 2 | AtExit => - len end.

(* ConsolidateConstruction, SequenceFrame.cpp:133-167, LatticeFrame.h:452-454 *)
Fixpoint consolidate (f : frame) : res gerr frame :=
  match f with
  | Leaf _ _ _ _ => Ok f
  | Seq i s t om len cache subs =>
      do subs' <-
        (fix go (l : list frame) (s : R) : res gerr (list frame) :=
           match l with
           | [] => Ok []
           | x :: l' =>
               let p := s - fst (fextent x) in
               do x' <- consolidate x;
               do r <- go l' (p + snd (fextent x));
               Ok (set_pos p x' :: r)
           end) subs (seq_start om len);
      do c <- calc_cache om len cache subs';
      Ok (Seq i s t om len (Some c) subs')
  end.

(* A frame with the frames around it, innermost first. *)
Notation chain := (list (nat * R)).
Definition is_super (target : option nat) (up : chain) : bool :=
  match target, up with
  | None, [] => true
  | Some k, (j, _) :: _ => Nat.eqb j k
  | _, _ => false
  end.
(* GetPosition with VALID_SFRAME, LatticeFrame.cpp:12-13, 64-68; the target
   None is GLOBAL_FRAME. *)
Fixpoint get_position (c : chain) (target : option nat) : res gerr R :=
  match c with
  | [] => UB
  | (i, s) :: up =>
      let valid := match target with
                   | None => true
                   | Some k => Nat.eqb i k || match up with [] => false | _ => true end
                   end in
      if negb valid then Throw AssertFailed
      else if is_super target up then Ok s
      else do p <- get_position up target; Ok (s + p)
  end.
(* GetGeometryExtent, LatticeFrame.cpp:70-77 *)
Definition get_extent (f : frame) (up : chain) (target : option nat) : res gerr (R * R) :=
  do p <- get_position ((fident f, fpos f) :: up) target;
  Ok (fst (fextent f) + p, snd (fextent f) + p).

(* ReplaceSubFrame, SequenceFrame.cpp:186-199 (frames found by identity) *)
Fixpoint replace_in (k : nat) (new : frame) (l : list frame) : option (list frame) :=
  match l with
  | [] => None
  | x :: l' => if Nat.eqb (fident x) k then Some (new :: l')
               else match replace_in k new l' with Some r => Some (x :: r) | None => None end
  end.
Definition replace_sub (k : nat) (new f : frame) : frame * bool :=
  match f with
  | Leaf _ _ _ _ => (f, false)
  | Seq i s t om l c subs =>
      match replace_in k new subs with
      | Some r => (Seq i s t om l c r, true)
      | None => (f, false)
      end
  end.

(* GetGeometryTransform(BoundaryPlane), SequenceFrame.cpp:331-334 *)
Definition plane_tr (f : frame) (p : plane) : res gerr tr3 :=
  match f with
  | Leaf _ _ _ g => Ok (leaf_plane g p)
  | Seq _ _ _ _ _ (Some (tin, tout)) _ => Ok (match p with Entrance => tin | Exit => tout end)
  | Seq _ _ _ _ _ None _ => UB
  end.
(* LocalBoundaryPlaneTransform, LatticeFrame.cpp:154-163 *)
Definition local_plane (f : frame) (p : plane) : res gerr tr3 :=
  let t0 := opt_tr (floc f) in
  if tr_is_identity t0 then Ok t0
  else do t <- plane_tr f p; Ok (tr_mul (tr_mul t t0) (tr_inv t)).
(* IsBoundaryPlane, SequenceFrame.cpp:218-230 *)
Definition is_boundary (q : frame) (p : plane) (k : nat) : bool :=
  match q with
  | Leaf _ _ _ _ => false
  | Seq _ _ _ _ _ _ subs =>
      match p, subs with
      | Entrance, x :: _ => Nat.eqb (fident x) k
      | Exit, x :: l => Nat.eqb (fident (last l x)) k
      | _, [] => false
      end
  end.
(* GetBoundaryPlaneTransform, LatticeFrame.cpp:79-93; [up]: enclosing frames *)
Fixpoint boundary_tr (f : frame) (up : list frame) (p : plane) : res gerr tr3 :=
  match up with
  | [] => Ok tr_id
  | q :: up' =>
      do t0 <- local_plane f p;
      if is_boundary q p (fident f)
      then do t1 <- boundary_tr q up' p; Ok (tr_mul t0 t1)
      else Ok t0
  end.
(* GetPhysicalTransform(GLOBAL_FRAME), LatticeFrame.cpp:42-62 *)
Fixpoint physical_tr (f : frame) (up : list frame) : res gerr tr3 :=
  match up with
  | [] => Ok (opt_tr (floc f))
  | q :: up' =>
      do t1 <- gtr q 0 (fpos f);
      do t2 <- physical_tr q up';
      Ok (tr_mul (tr_mul (opt_tr (floc f)) t1) t2)
  end.
