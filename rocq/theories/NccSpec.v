(* What the non-central chi squared distribution is, by its moment generating
   function, and what its parts are. *)
From Coq Require Import Reals Rpower.
From Verif Require Import Base ProgModel ProgSpec.
Open Scope R_scope.

(* E exp(t X) for X chi squared with n degrees of freedom, t < 1/2 *)
Definition chi_mgf (n t : R) : R := Rpower (1 - 2 * t) (- (n / 2)).
(* the same for k degrees of freedom and non-centrality lambda *)
Definition ncc_mgf (k lambda t : R) : R := exp (lambda * t / (1 - 2 * t)) * Rpower (1 - 2 * t) (- (k / 2)).
(* the density of the normal distribution *)
Definition gauss (mu sigma x : R) : R := exp (- ((x - mu) * (x - mu) / (2 * (sigma * sigma)))) / (sigma * sqrt (2 * PI)).
(* a program that returns integers of [lo, hi] and reads at least one number *)
Definition zsource (bmin bmax : Z) (F : nat) (p : prog Z) (lo hi : Z) : Prop :=
  forall ds, valid_draws bmin bmax ds -> (length ds < F)%nat ->
  exec p ds = OMore \/ exists y rest, exec p ds = ORet y rest /\ (length rest < length ds)%nat /\ (lo <= y <= hi)%Z.
