(* The Poisson distribution in the real numbers, and the errors of log and sqrt. *)
From Coq Require Import Reals QArith Qreals.
From Verif Require Import Base FloatModel FloatSpec.
Open Scope R_scope.

(* the probability of k *)
Definition ppmf (m : R) (k : nat) : R := exp (- m) * m ^ k / INR (fact k).

(* the distance of 1 to the next number *)
Definition eps (f : fmt) : R := Q2R (p2 (1 - prec f)).
(* std::log, relative error at most K epsilon *)
Definition log_ok (f : fmt) (K : R) (lg : Q -> Q) : Prop := forall y, (0 < y)%Q -> representable f y ->
  Rabs (Q2R (lg y) - ln (Q2R y)) <= K * eps f * Rabs (ln (Q2R y)).
(* std::sqrt, relative error at most K epsilon *)
Definition sqrt_acc (f : fmt) (K : R) (sq : Q -> Q) : Prop := forall y, (1 <= y)%Q -> representable f y ->
  Rabs (Q2R (sq y) - sqrt (Q2R y)) <= K * eps f * sqrt (Q2R y).
