(* Supports, mounts and magnet movers: AcceleratorSupport.h, SupportStructure.cpp,
   MagnetMover.  Lengths are reals; pos holds the (x,z) coordinates. *)
From Verif Require Import Rot.
Local Open Scope R_scope.

(* AcceleratorSupport, AcceleratorSupport.h:28-101 *)
Record support := mkS { off : vec3; modified : bool; sx : R; sz : R; s_pos : R }.

(* AcceleratorSupport.h:103-106 *)
Definition new_support : support := mkS (mkv 0 0 0) false 0 0 0.
(* SetPosition, AcceleratorSupport.h:108-113 *)
Definition set_position (s x z : R) (a : support) : support :=
  mkS (off a) (modified a) x z s.
(* SetOffset, AcceleratorSupport.h:125-134 *)
Definition set_offset (v : vec3) (a : support) : support :=
  mkS v true (sx a) (sz a) (s_pos a).
(* IncrementOffset, AcceleratorSupport.h:141-150 *)
Definition increment_offset (v : vec3) (a : support) : support :=
  mkS (vadd (off a) v) true (sx a) (sz a) (s_pos a).
(* Reset, AcceleratorSupport.h:152-156 *)
Definition reset_support (a : support) : support :=
  mkS (mkv 0 0 0) true (sx a) (sz a) (s_pos a).
(* modified = false, SupportStructure.cpp:141-145 *)
Definition clear (a : support) : support := mkS (off a) false (sx a) (sz a) (s_pos a).
(* DistanceTo, AcceleratorSupport.cpp:13-17 *)
Definition distance_to (a b : support) : R :=
  sqrt ((sx b - sx a) * (sx b - sx a) + (sz b - sz a) * (sz b - sz a)).

(* The member sup2: absent, present, or an uninitialised pointer. *)
Inductive second := NoSup | Sup (a : support) | Wild.

(* SupportStructure, SupportStructure.h:29-99.  local is the transformation
   kept by LatticeFrame, tin the geometry transformation to the entrance
   plane.  ts = None: the cached transformation holds values that are not
   numbers. *)
Record mount := mkM
  { sup1 : support; sup2 : second; rg : rot; ts : option tr3; local : tr3; tin : tr3 }.

(* SupportStructure.cpp:12-17; Rg and Ts are default constructed *)
Definition new_mount (girder : bool) (loc ent : tr3) : mount :=
  mkM new_support (if girder then Sup new_support else NoSup) RI (Some tr_id) loc ent.

(* Copy constructor, SupportStructure.cpp:19-27: sup2 is not set when the
   original has none. *)
Definition copy_mount (m : mount) : option mount :=
  match sup2 m with
  | NoSup => Some (mkM new_support Wild RI (Some tr_id) (local m) (tin m))
  | Sup _ => Some (mkM new_support (Sup new_support) RI (Some tr_id) (local m) (tin m))
  | Wild => None
  end.

(* ConsolidateConstruction, SupportStructure.cpp:54-81; gT: physical transform
   of the frame in the global frame, s0: its position, ext: its extent,
   tout: geometry transformation to the exit plane *)
Definition consolidate (gT tout : tr3) (s0 ext1 ext2 : R) (m : mount) : option mount :=
  match sup2 m with
  | NoSup => Some (mkM (set_position s0 (vx (x0 gT)) (vz (x0 gT)) (sup1 m)) NoSup (rr gT)
                       (ts m) (local m) (tin m))
  | Sup b =>
      let t1 := tr_mul (tin m) gT in
      let t2 := tr_mul tout gT in
      Some (mkM (set_position (s0 + ext1) (vx (x0 t1)) (vz (x0 t1)) (sup1 m))
                (Sup (set_position (s0 + ext2) (vx (x0 t2)) (vz (x0 t2)) b))
                (rr t1) (ts m) (local m) (tin m))
  | Wild => None
  end.

(* SupportStructure.cpp:112-138.  For supports at the same place the angles
   are quotients by zero, and the transformation is not a number. *)
Definition girder_ts (r : rot) (ent : tr3) (a b : support) : option tr3 :=
  let X1 := rotate r (off a) in
  let X2 := rotate r (off b) in
  if veq X1 X2 then Some (tr_translation (vx X1) (vy X1) (vz X1))
  else
    let dX := vsub X2 X1 in
    let s0 := distance_to a b in
    if Reqb s0 0 then None
    else
      let phix := - vy dX / s0 in
      let phiy := vx dX / s0 in
      let t1 := mkt (mkv (vx X1) (vy X1) (vz X1)) (rdot (rotation_x phix) (rotation_y phiy)) in
      Some (tr_mul (tr_mul (tr_inv ent) t1) ent).

(* UpdateSupportTransform, SupportStructure.cpp:83-146; None: undefined
   behaviour (read through an uninitialised pointer; when sup1 has not been
   modified the test at line 89 stops before the pointer is used). *)
Definition update (m : mount) : option mount :=
  if negb (modified (sup1 m)) then Some m
  else
    match sup2 m with
    | NoSup =>
        let X := rotate (rg m) (off (sup1 m)) in
        Some (mkM (clear (sup1 m)) NoSup (rg m)
                  (Some (tr_translation (vx X) (vy X) (vz X))) (local m) (tin m))
    | Sup b =>
        if negb (modified b) then Some m
        else Some (mkM (clear (sup1 m)) (Sup (clear b)) (rg m)
                       (girder_ts (rg m) (tin m) (sup1 m) b) (local m) (tin m))
    | Wild => None
    end.

(* GetLocalFrameTransform, SupportStructure.cpp:48-52 *)
Definition query (m : mount) : option (option tr3 * mount) :=
  match update m with
  | Some m' => Some (match ts m' with Some t => Some (tr_mul (local m') t) | None => None end, m')
  | None => None
  end.

(* ExportSupports, SupportStructure.cpp:38-46 *)
Definition export (m : mount) : option (list support) :=
  match sup2 m with
  | NoSup => Some [sup1 m]
  | Sup b => Some [sup1 m; b]
  | Wild => None
  end.

(* What a user does with a mount and its exported supports. *)
Inductive move := MSet (v : vec3) | MInc (v : vec3) | MReset.
Inductive op := First (k : move) | Second (k : move) | Query.

Definition apply_move (k : move) (a : support) : support :=
  match k with
  | MSet v => set_offset v a
  | MInc v => increment_offset v a
  | MReset => reset_support a
  end.

(* Second is only available on a girder. *)
Definition step (o : op) (m : mount) : option mount :=
  match o with
  | First k => Some (mkM (apply_move k (sup1 m)) (sup2 m) (rg m) (ts m) (local m) (tin m))
  | Second k =>
      match sup2 m with
      | Sup b => Some (mkM (sup1 m) (Sup (apply_move k b)) (rg m) (ts m) (local m) (tin m))
      | _ => None
      end
  | Query => update m
  end.
Fixpoint run (l : list op) (m : mount) : option mount :=
  match l with
  | [] => Some m
  | o :: l' => match step o m with Some m' => run l' m' | None => None end
  end.

(* MagnetMover.h:104-142: the transformation t *)
Record mover := mkMv { mt : tr2; mlocal : tr3 }.
(* MagnetMover.h:104-107, Transform2D.h:182-185 with its default arguments *)
Definition new_mover (loc : tr3) : mover := mkMv (tr2_of 0 0 0) loc.
Definition get_x (m : mover) : R := px (o2 (mt m)).
Definition get_y (m : mover) : R := py (o2 (mt m)).
Definition get_roll (m : mover) : R := r2_angle (r2 (mt m)).
Definition set_x (x : R) (m : mover) : mover :=
  mkMv (mkt2 (r2 (mt m)) (mkv2 x (py (o2 (mt m))))) (mlocal m).
Definition set_y (y : R) (m : mover) : mover :=
  mkMv (mkt2 (r2 (mt m)) (mkv2 (px (o2 (mt m))) y)) (mlocal m).
Definition set_roll (a : R) (m : mover) : mover :=
  mkMv (mkt2 (r2_of a) (o2 (mt m))) (mlocal m).
Definition reset_mover (m : mover) : mover := mkMv (tr2_of 0 0 0) (mlocal m).
(* MagnetMover.cpp:22-25 *)
Definition mover_transform (m : mover) : tr3 := tr_mul (tr3_of_tr2 (mt m)) (mlocal m).

Inductive mop := SetX (x : R) | SetY (y : R) | SetRoll (a : R) | Zero.
Definition mstep (o : mop) (m : mover) : mover :=
  match o with
  | SetX x => set_x x m
  | SetY y => set_y y m
  | SetRoll a => set_roll a m
  | Zero => reset_mover m
  end.
Definition mrun (l : list mop) (m : mover) : mover := fold_left (fun m o => mstep o m) l m.
