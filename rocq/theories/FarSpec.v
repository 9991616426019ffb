(* The test of binomial_distribution far from the mode: the error allowed. *)
From Coq Require Import Reals.
From Verif Require Import Base FloatModel FloatSpec PoisRSpec.
Open Scope R_scope.

(* the rounding error of one operation, and of the double constants *)
Definition far_u (f : fmt) : R := eps f + / 2 ^ 53.
(* The error in the logarithm of the quotient.  The test adds three terms of at
   most (t+1) |2 ln (t+1)|; K is the accuracy of std::log in units of epsilon. *)
Definition far_tol (f : fmt) (K : R) (t : Z) (lv : R) : R :=
  (K * eps f + 500 * far_u f) * Rabs lv +
  (140 * far_u f + 3 * (K * eps f)) * ((IZR t + 2) * (2 * ln (IZR t + 1) + 1)) + / 10 ^ 9.
(* ln k! without the leading terms of Stirling's formula for k+1; c is ln (2 pi) / 2 *)
Definition stir_corr (c : R) (k : nat) : R :=
  ln (INR (fact k)) - ((INR k + 1 / 2) * ln (INR k + 1) - (INR k + 1) + c).
