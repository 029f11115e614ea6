(* Complex numbers (std::complex<double>) as pairs of reals; abs and arg as in the
   C++ library, with the two-argument arctangent of Rot.v. Dividing by the complex
   number zero gives not-a-number: [None]. *)
From Verif Require Import RBase Rot.
Local Open Scope R_scope.

Record cx := mkCx { re : R; im : R }.
Definition cadd (a b : cx) : cx := mkCx (re a + re b) (im a + im b).
Definition cmul (a b : cx) : cx := mkCx (re a * re b - im a * im b) (re a * im b + im a * re b).
Definition csq (a : cx) : R := re a * re a + im a * im a.
Definition cdiv (a b : cx) : option cx :=
  if Reqb (csq b) 0 then None else Some (mkCx ((re a * re b + im a * im b) / csq b) ((im a * re b - re a * im b) / csq b)).
Definition cabs (a : cx) : R := sqrt (csq a).
Definition carg (a : cx) : R := atan2 (im a) (re a).
Definition polar (v phi : R) : cx := mkCx (v * cos phi) (v * sin phi).

Definition c0 : cx := mkCx 0 0.
Definition c1 : cx := mkCx 1 0.
Definition copp (a : cx) : cx := mkCx (- re a) (- im a).
Definition cscale (k : R) (a : cx) : cx := mkCx (k * re a) (k * im a).
Definition cdivr (a : cx) (k : R) : cx := mkCx (re a / k) (im a / k).
