(* Model of the prepared table of materials: Merlin++/MaterialData.cpp 26-66 and
   69-75; gram / cc is 1000, eV is 1e-9. *)
From Verif Require Import RBase Material.
From Coq Require Import List.
Import ListNotations.
Local Open Scope R_scope.

Definition nm (s : string) : str := of_string s.
(* MaterialData.cpp 28-40: name, A, ST, SI, SR, dE, X, rho, Z *)
Definition elements : list (str * (R * R * R * R * R * R * R * R)) :=
  [ (nm "Al", (26.9815, 0.634, 0.421, 0.00034, 1.724, 24.01, 1.204, 13));
    (nm "Be", (9.01218, 0.268, 0.199, 0.000035, 1.594, 65.19, 1.848, 4));
    (nm "C", (12.011, 0.331, 0.231, 0.000076, 1.745, 42.7, 2.265, 6));
    (nm "Cu", (63.546, 1.232, 0.782, 0.00153, 1.403, 12.86, 8.96, 29));
    (nm "Pb", (207.2, 2.96, 1.71, 0.00907, 1.123, 6.37, 11.35, 82));
    (nm "Si", (28.1, 0.653, 0.432, 0.00039, 1.664, 21.82, 2.33, 14));
    (nm "W", (183.84, 2.767, 1.65, 0.00768, 1.145, 6.76, 19.3, 74));
    (nm "O", (15.9994, -1, -1, 0.0133766, -1, -1, 1.14, 8));
    (nm "Fe", (55.845, -1, -1, -1, -1, -1, 7.879, 26));
    (nm "Ni", (58.6934, -1, -1, -1, -1, -1, 8.9, 28));
    (nm "Mo", (95.96, -1, -1, -1, -1, -1, 10.2, 42)) ].
Definition element (v : R * R * R * R * R * R * R * R) : material :=
  let '(a, st, si, sr, de, x, rho, z) := v in new_material a st si sr de x (rho * 1000) z.
Definition base_elements : db := map (fun p => (fst p, Some (element (snd p)))) elements.

(* MaterialData.cpp 42-56: extra values given to the elements *)
Definition conductivity : list (str * R) :=
  [ (nm "Al", 35640000); (nm "Be", 30800000); (nm "C", 71400); (nm "Cu", 59800000); (nm "Pb", 4807700); (nm "Si", 1);
    (nm "W", 1770); (nm "Fe", 10400000); (nm "Ni", 14400000); (nm "Mo", 18700000) ].
Definition slopes : list (str * R) :=
  [ (nm "Be", 74.7); (nm "C", 70); (nm "Al", 120.3); (nm "Cu", 217.8); (nm "W", 440.3); (nm "Pb", 455.3) ].
Definition excitation : list (str * R) :=
  [ (nm "Be", 63.7); (nm "C", 78); (nm "O", 95); (nm "Al", 166); (nm "Fe", 286); (nm "Ni", 311); (nm "Cu", 322);
    (nm "Mo", 424); (nm "W", 727); (nm "Pb", 823) ].
(* property[n]->...: a missing name is a null pointer *)
Definition change (n : str) (f : material -> mres material) (d : db) : mres db :=
  match assoc n d with
  | Some (Some m) => do m' <- f m; Ok (put n (Some m') d)
  | _ => UB
  end.
Fixpoint change_all (prop : str) (l : list (str * R)) (d : db) : mres db :=
  match l with
  | [] => Ok d
  | (n, v) :: r => do d' <- change n (set_extra prop [v]) d; change_all prop r d'
  end.
(* MaterialData.cpp 58-60 *)
Definition with_dE_rho (de rho : R) (m : material) : material :=
  mkM (mA m) (mST m) (mSI m) (mSR m) de (mX0 m) rho (mZ m) (mlam m) (mextra m) (mmix m).
Definition done (x : db * mres unit) : mres db :=
  match snd x with Ok _ => Ok (fst x) | Throw e => Throw e | UB => UB end.
(* MaterialData.cpp 26-66 *)
Definition standard_data (lf : bool) : mres db :=
  do d1 <- change_all (nm "conductivity") conductivity base_elements;
  do d2 <- change_all (nm "sixtracknuclearslope") slopes d1;
  do d3 <- change_all (nm "MeanExcitationEnergy") (map (fun p => (fst p, snd p * / 10 ^ 9)) excitation) d2;
  do d4 <- (match assoc (nm "C") d3 with
            | Some (Some c) => do k <- copy c; Ok (put (nm "AC150K") (Some (with_dE_rho 0.68 (1.65 * 1000) k)) d3)
            | _ => UB
            end);
  do d5 <- done (make_mixture_va lf d4 (nm "IT180") (nm "W Ni Cu") [0.95; 0.35; 0.15; 18.06 * 1000]);
  do d6 <- done (make_mixture_w_va lf d5 (nm "Glidcop") (nm "Cu Al O") [0.9972; 0.0015; 0.0013; 8.93 * 1000]);
  change (nm "Glidcop") (set_extra (nm "conductivity") [53800000]) d6.

(* MaterialData.cpp 71-75: sigma_T from a table of values, read with operator[]; the
   rest of the function, 76-89, is not modelled, see C295 *)
Definition six_names : list str := [nm "Be"; nm "C"; nm "Al"; nm "Fe"; nm "Cu"; nm "W"; nm "Pb"].
Definition six_total : list R := [0.268; 0.331; 1.232; 2.767; 2.960].
Definition with_ST (st : R) (m : material) : material :=
  mkM (mA m) st (mSI m) (mSR m) (mdE m) (mX0 m) (mrho m) (mZ m) (mlam m) (mextra m) (mmix m).
Fixpoint six_loop (ns : list str) (i : nat) (d : db) : mres db :=
  match ns with
  | [] => Ok d
  | n :: r => do v <- vget six_total i; do d' <- change n (fun m => Ok (with_ST v m)) d; six_loop r (S i) d'
  end.
Definition use_six_track (d : db) : mres db := six_loop six_names 0 d.
