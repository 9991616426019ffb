(* Distribution functions and the accuracy of the mathematical functions. *)
From Coq Require Import Reals Qreals.
From Verif Require Import Base FloatModel FloatSpec PoisRSpec.
Open Scope R_scope.

(* the least positive number *)
Definition tiny (f : fmt) : R := Q2R (p2 (emin f)).

(* std::sqrt of numbers >= 0, relative error at most K epsilon *)
Definition sqrt_all (f : fmt) (K : R) (sq : Q -> Q) : Prop := forall y, (0 <= y)%Q -> representable f y ->
  Rabs (Q2R (sq y) - sqrt (Q2R y)) <= K * eps f * sqrt (Q2R y).

(* the distribution function of the triangle distribution *)
Definition tri_cdf (a b c z : R) : R :=
  if Rle_dec z b then (z - a) * (z - a) / ((b - a) * (c - a)) else 1 - (c - z) * (c - z) / ((c - b) * (c - a)).

(* std::log returns numbers of the format *)
Definition log_fl (f : fmt) (lg : Q -> Q) : Prop := forall y, (0 < y)%Q -> representable f y -> representable f (lg y).
(* std::pow of positive numbers, relative error at most K epsilon unless the result underflows *)
Definition pow_all (f : fmt) (K : R) (pw : Q -> Q -> Q) : Prop :=
  (forall x y, (0 < x)%Q -> (0 < y)%Q -> representable f x -> representable f y ->
     (0 <= pw x y)%Q /\ Rabs (Q2R (pw x y) - Rpower (Q2R x) (Q2R y)) <= K * eps f * Rpower (Q2R x) (Q2R y) + tiny f) /\
  (forall x y, (x == 0)%Q -> (0 < y)%Q -> representable f y -> (pw x y == 0)%Q).
(* std::tan, relative error at most K epsilon *)
Definition tan_ok (f : fmt) (K : R) (tn : Q -> Q) : Prop := forall y, representable f y -> cos (Q2R y) <> 0 ->
  Rabs (Q2R (tn y) - tan (Q2R y)) <= K * eps f * Rabs (tan (Q2R y)).

(* 1 minus the distribution function of the Weibull distribution *)
Definition wei_sf (a b z : R) : R := exp (- Rpower (z / b) a).
(* the distribution function of the extreme value distribution *)
Definition exv_cdf (a b z : R) : R := exp (- exp ((a - z) / b)).
(* the distribution function of the Cauchy distribution *)
Definition cau_cdf (m s z : R) : R := 1 / 2 + atan ((z - m) / s) / PI.
