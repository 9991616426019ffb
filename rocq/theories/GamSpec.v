(* Densities, and the accuracy of exp and pow. *)
From Coq Require Import Reals Qreals.
From Verif Require Import Base ProgModel ProgSpec FloatModel FloatSpec PoisRSpec InvSpec.
Open Scope R_scope.

(* the density of the gamma distribution with beta = 1, without its constant factor *)
Definition gdens (alpha x : R) : R := Rpower x (alpha - 1) * exp (- x).

(* std::exp, relative error at most K epsilon unless the result underflows *)
Definition exp_all (f : fmt) (K : R) (ex : Q -> Q) : Prop := forall y, representable f y ->
  (0 <= ex y)%Q /\ representable f (ex y) /\ Rabs (Q2R (ex y) - exp (Q2R y)) <= K * eps f * exp (Q2R y) + tiny f.
(* std::pow of positive numbers with any exponent *)
Definition pow_any (f : fmt) (K : R) (pw : Q -> Q -> Q) : Prop := forall x y, (0 < x)%Q -> representable f x -> representable f y ->
  Rabs (Q2R (pw x y) - Rpower (Q2R x) (Q2R y)) <= K * eps f * Rpower (Q2R x) (Q2R y) + tiny f.

(* alpha > 1: density over hat at x, where y is the Cauchy variate of the hat, divided by the same at the mode *)
Definition gl_h (alpha x y : R) : R := (1 + y * y) * (gdens alpha x / gdens alpha (alpha - 1)).
(* the rounding errors of the logarithm of the computed value of gl_h *)
Definition gl_err (f : fmt) (K alpha x y : R) : R :=
  (20 * eps f + 5 * (K * eps f)) * (1 + (alpha - 1) * (Rabs (ln (x / (alpha - 1))) + 2) + 2 * (sqrt (2 * alpha - 1) * Rabs y)).
(* x belongs to y *)
Definition gl_cand (f : fmt) (K alpha x y : R) : Prop :=
  Rabs (x - (sqrt (2 * alpha - 1) * y + (alpha - 1))) <= (10 * eps f + 2 * (K * eps f)) * (sqrt (2 * alpha - 1) * Rabs y + alpha).
(* alpha < 1: the probability of the first part of the hat *)
Definition gs_p (alpha : R) : R := exp 1 / (alpha + exp 1).

(* a program whose results satisfy R and that draws at least once *)
Definition source (bmin bmax : Z) (F : nat) (p : prog Q) (R : Q -> Prop) : Prop :=
  forall ds, valid_draws bmin bmax ds -> (length ds < F)%nat ->
  exec p ds = OMore \/ exists y rest, exec p ds = ORet y rest /\ (length rest < length ds)%nat /\ R y.

(* the distribution function of the Laplace distribution *)
Definition lap_cdf (m b z : R) : R := if Rlt_dec z m then exp ((z - m) / b) / 2 else 1 - exp (- ((z - m) / b)) / 2.
(* the documented parameters of the deprecated lognormal distribution *)
Definition ln_mu (mean sigma : R) : R := ln (mean * mean / sqrt (sigma * sigma + mean * mean)).
Definition ln_var (mean sigma : R) : R := ln (1 + sigma * sigma / (mean * mean)).
