(* The distribution function of the hyperexponential distribution. *)
From Coq Require Import Reals.
From Verif Require Import Base.
Open Scope R_scope.

(* phase i, of rate rs_i, has probability ps_i *)
Fixpoint mix_cdf (ps rs : list R) (x : R) : R :=
  match ps, rs with
  | p :: ps', r :: rs' => p * (1 - exp (- (r * x))) + mix_cdf ps' rs' x
  | _, _ => 0
  end.
