(* Model of materials and mixtures: Merlin++/MaterialProperties.h 41-92,
   MaterialProperties.cpp 26-206, MaterialData.cpp 17-173, MaterialData.h 20-76.
   Arithmetic is exact (the code adds up the shares of a mixture in single
   precision); a member which would be an infinity or NaN is Throw NotNumber, and
   the run is not followed further.  A std::map is a list of pairs with distinct
   keys; the order of the keys is not modelled.  The variable argument lists are
   lists of doubles, reading past their end is UB.  Memory which is never freed is
   not modelled, nor is printing, nor sigma_E and sigma_D, which nothing sets. *)
From Verif Require Import RBase.
From Coq Require Import List.
Import ListNotations.
Local Open Scope R_scope.

Inductive merr := LengthMismatch | NotFound (n : str) | OutOfRange | NotNumber.
Definition mres := res merr.

(* std::map<std::string, X> *)
Fixpoint assoc {B} (k : str) (l : list (str * B)) : option B :=
  match l with
  | [] => None
  | (k', b) :: r => if str_eqb k k' then Some b else assoc k r
  end.
Fixpoint put {B} (k : str) (b : B) (l : list (str * B)) : list (str * B) :=
  match l with
  | [] => [(k, b)]
  | (k', b') :: r => if str_eqb k k' then (k', b) :: r else (k', b') :: put k b r
  end.

(* the member lambda: never set, not a finite number, or a value *)
Inductive mfp := Unset | NotFinite | Val (x : R).
(* MaterialProperties.h 44-46 and, for a Mixture, 79-82: the entries of V_A, V_R,
   V_H of each component; extra is None for the null pointer *)
Record material := mkM { mA : R; mST : R; mSI : R; mSR : R; mdE : R; mX0 : R; mrho : R; mZ : R;
  mlam : mfp; mextra : option (list (str * R)); mmix : option (list (R * R * R)) }.

(* MaterialProperties.cpp 41-44 *)
Definition update (m : material) : material :=
  let den := (mST m + mSR m) * mrho m * / 10 ^ 28 * (6022 * 10 ^ 20) in
  mkM (mA m) (mST m) (mSI m) (mSR m) (mdE m) (mX0 m) (mrho m) (mZ m)
      (if Reqb den 0 then NotFinite else Val (mA m * / 1000 / den)) (mextra m) (mmix m).
(* MaterialProperties.h 56-60 *)
Definition default_material : material := mkM 0 0 0 0 0 0 0 0 (Val 0) None None.
(* MaterialProperties.cpp 26-39 *)
Definition new_material (a st si sr de x rho z : R) : material :=
  update (mkM a st si sr de x rho z Unset (Some []) None).
(* MaterialProperties.cpp 46-52 *)
Definition energy_scale (E : R) (m : material) : material :=
  update (new_material (mA m) (mST m) (mSI m) (mSR m) (mdE m) (mX0 m) (mrho m) (mZ m)).
(* MaterialProperties.cpp 54-65: of a Mixture only the MaterialProperties part *)
Definition copy (a : material) : mres material :=
  match mextra a with
  | None => UB
  | Some e => Ok (mkM (mA a) (mST a) (mSI a) (mSR a) (mdE a) (mX0 a) (mrho a) (mZ a) Unset (Some e) None)
  end.
(* MaterialProperties.cpp 67-82, for two different objects; the nuclei of a Mixture
   on the left stay *)
Definition assign (t a : material) : mres material :=
  match mextra a with
  | None => UB
  | Some e => Ok (mkM (mA a) (mST a) (mSI a) (mSR a) (mdE a) (mX0 a) (mrho a) (mZ a) (mlam t) (Some e) (mmix t))
  end.

(* operator>> of a string: skip white space, take up to the next white space *)
Definition is_space (c : ascii) : bool :=
  let n := nat_of_ascii c in (Nat.eqb n 32 || (Nat.leb 9 n && Nat.leb n 13))%bool.
Fixpoint words_go (cur s : str) : list str :=
  match s with
  | [] => match cur with [] => [] | _ => [rev cur] end
  | c :: r => if is_space c then match cur with [] => words_go [] r | _ => rev cur :: words_go [] r end
              else words_go (c :: cur) r
  end.
Definition words (s : str) : list str := words_go [] s.

Definition with_extra (e : list (str * R)) (m : material) : material :=
  mkM (mA m) (mST m) (mSI m) (mSR m) (mdE m) (mX0 m) (mrho m) (mZ m) (mlam m) (Some e) (mmix m).
(* the loop of MaterialProperties.cpp 114-117 *)
Fixpoint set_loop (ns : list str) (vs : list R) (e : list (str * R)) : mres (list (str * R)) :=
  match ns, vs with
  | [], _ => Ok e
  | n :: nr, v :: vr => set_loop nr vr (put n v e)
  | _ :: _, [] => UB
  end.
(* MaterialProperties.cpp 102-119 *)
Definition set_extra (props : str) (args : list R) (m : material) : mres material :=
  match words props, mextra m with
  | [], _ => Ok m
  | _ :: _, None => UB
  | ns, Some e => do e' <- set_loop ns args e; Ok (with_extra e' m)
  end.
(* MaterialProperties.cpp 121-124 *)
Definition get_extra (n : str) (m : material) : mres (material * R) :=
  match mextra m with
  | None => UB
  | Some e => match assoc n e with
              | Some v => Ok (m, v)
              | None => Ok (with_extra (put n 0 e) m, 0)
              end
  end.
(* MaterialProperties.cpp 126-131 *)
Definition have_extra (n : str) (m : material) : mres bool :=
  match mextra m with
  | None => UB
  | Some e => Ok (match assoc n e with Some _ => true | None => false end)
  end.

(* the materials of a MaterialData: MaterialData.h 24; None is the null pointer *)
Definition db := list (str * option material).

(* dict[names[i]] after the test of MaterialProperties.cpp 172-175 *)
Fixpoint find_all (d : db) (ns : list str) : mres (list material) :=
  match ns with
  | [] => Ok []
  | n :: r => match assoc n d with
              | None => Throw (NotFound n)
              | Some None => UB
              | Some (Some m) => do l <- find_all d r; Ok (m :: l)
              end
  end.
Fixpoint sum (l : list R) : R := match l with [] => 0 | x :: r => x + sum r end.
Definition sumw (f : material -> R) (l : list (material * R)) : R := sum (map (fun c => f (fst c) * snd c) l).
(* MaterialProperties.cpp 162-206 *)
Definition mixture (d : db) (ns : list str) (ps : list R) (rho : R) : mres material :=
  if negb (Nat.eqb (length ns) (length ps)) then Throw LengthMismatch else
  do ms <- find_all d ns;
  let l := combine ms ps in
  let s := sum ps in
  let sa := sumw mA l in
  let sR := sum (map mSR ms) in
  let sH := sum (map mST ms) in
  let rx := sum (map (fun c => / mX0 (fst c) * snd c * mA (fst c) / sa) l) in
  if (Reqb s 0 || Reqb sa 0 || Reqb sR 0 || Reqb sH 0 || existsb (fun m => Reqb (mX0 m) 0) ms || Reqb rx 0)%bool
  then Throw NotNumber else
  Ok (update (mkM (sum (map (fun c => mA (fst c) * snd c / s) l))
                  (sum (map (fun c => mST (fst c) * snd c / s) l))
                  (sum (map (fun c => mSI (fst c) * snd c / s) l))
                  (sum (map (fun c => mSR (fst c) * snd c / s) l))
                  (sum (map (fun c => mdE (fst c) * snd c * mA (fst c) / sa) l))
                  (1 / rx) rho
                  (sum (map (fun c => mZ (fst c) * snd c / s) l))
                  Unset (Some []) (Some (map (fun m => (mA m, mSR m / sR, mST m / sH)) ms)))).

(* the loops of MaterialProperties.cpp 142-148 and 153-159 over pairs of a value
   and its share *)
Fixpoint pick (l : list (R * R)) (r : R) : mres R :=
  match l with
  | [] => UB
  | [(a, _)] => Ok a
  | (a, w) :: l' => if Rleb (r - w) 0 then Ok a else pick l' (r - w)
  end.
(* MaterialProperties.h 48-55, MaterialProperties.cpp 140-160; r is the random
   number between 0 and 1 *)
Definition nucleus_R (m : material) (r : R) : mres R :=
  match mmix m with None => Ok (mA m) | Some l => pick (map (fun t => (fst (fst t), snd (fst t))) l) r end.
Definition nucleus_H (m : material) (r : R) : mres R :=
  match mmix m with None => Ok (mA m) | Some l => pick (map (fun t => (fst (fst t), snd t)) l) r end.

Definition space : ascii := " "%char.
(* the loops of MaterialData.cpp 105-114, 124-130, 142-149, 162-170: cut at each
   single space *)
Fixpoint cut_go (cur s : str) : list str :=
  match s with
  | [] => [rev cur]
  | c :: r => if char_eqb c space then rev cur :: cut_go [] r else cut_go (c :: cur) r
  end.
Definition cut (s : str) : list str := cut_go [] s.

(* property[name] = new Mixture(...): C++14 leaves open whether property[name] is
   evaluated first (lf), which makes a null entry for a new name before the Mixture
   is made *)
Definition touch (name : str) (d : db) : db :=
  match assoc name d with Some _ => d | None => put name None d end.
Definition store_mixture (lf : bool) (d : db) (name : str) (ns : list str) (ps : list R) (rho : R) : db * mres unit :=
  let d1 := if lf then touch name d else d in
  match mixture d1 ns ps rho with
  | Ok m => (put name (Some m) d1, Ok tt)
  | Throw e => (d1, Throw e)
  | UB => (d1, UB)
  end.
(* MaterialData.cpp 120-133 *)
Definition make_mixture (lf : bool) (d : db) (name s : str) (ps : list R) (rho : R) : db * mres unit :=
  store_mixture lf d name (cut s) ps rho.
(* wproportions[c] / property.at(want)->A for each name, MaterialData.cpp 162-170;
   the vector is read before the map *)
Fixpoint by_weight (d : db) (ns : list str) (ws : list R) : mres (list R) :=
  match ns, ws with
  | [], _ => Ok []
  | _ :: _, [] => UB
  | n :: nr, w :: wr =>
      match assoc n d with
      | None => Throw OutOfRange
      | Some None => UB
      | Some (Some m) => if Reqb (mA m) 0 then Throw NotNumber else do l <- by_weight d nr wr; Ok (w / mA m :: l)
      end
  end.
(* MaterialData.cpp 155-173 *)
Definition make_mixture_w (lf : bool) (d : db) (name s : str) (ws : list R) (rho : R) : db * mres unit :=
  match by_weight d (cut s) ws with
  | Ok ps => store_mixture lf d name (cut s) ps rho
  | Throw e => (d, Throw e)
  | UB => (d, UB)
  end.
(* MaterialData.cpp 98-118: the argument after the shares is the density *)
Definition make_mixture_va (lf : bool) (d : db) (name s : str) (args : list R) : db * mres unit :=
  let n := length (cut s) in
  match nth_error args n with
  | None => (d, UB)
  | Some rho => make_mixture lf d name s (firstn n args) rho
  end.
(* MaterialData.cpp 135-153: the arguments are read on the way *)
Definition make_mixture_w_va (lf : bool) (d : db) (name s : str) (args : list R) : db * mres unit :=
  let n := length (cut s) in
  match by_weight d (cut s) args with
  | Ok ps => match nth_error args n with
             | None => (d, UB)
             | Some rho => store_mixture lf d name (cut s) ps rho
             end
  | Throw e => (d, Throw e)
  | UB => (d, UB)
  end.
