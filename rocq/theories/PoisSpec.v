(* The Poisson distribution. *)
From Verif Require Import Base ProgModel FloatModel FloatSpec BinSpec.
Open Scope Q_scope.

(* m^i / i!, and the sum over i < n, which tends to e^m *)
Fixpoint pterm (m : Q) (i : nat) : Q :=
  match i with O => 1 | S j => pterm m j * m / qZ (Z.of_nat i) end.
Fixpoint psum (m : Q) (n : nat) : Q :=
  match n with O => 0 | S k => psum m k + pterm m k end.

(* y is e^-m with a relative error of at most r *)
Definition exp_neg (m r y : Q) : Prop :=
  (forall N, (1 - r) * (y * psum m N) <= 1) /\ exists N, 1 <= (1 + r) * (y * psum m N).
(* std::exp: relative error at most K epsilon *)
Definition exp_ok (f : fmt) (K : Q) (ex : Q -> Q) : Prop :=
  forall m, 0 < m -> m < 10 -> representable f m ->
    representable f (ex (- m)) /\ exp_neg m (K * p2 (1 - prec f)) (ex (- m)).

(* with F n the probability psum m n / e^m of a value below n:
   F x - E <= u <= F (x+1) + E *)
Definition pinverts (m E u : Q) (x : nat) : Prop :=
  (exists N, psum m x <= (u + E) * psum m N) /\ forall N, (u - E) * psum m N <= psum m (S x).
