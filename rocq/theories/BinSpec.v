(* The binomial distribution. *)
From Verif Require Import Base ProgModel FloatModel FloatSpec.
Open Scope Q_scope.

(* probability of k successes in t independent trials, each with probability p *)
Fixpoint bpmf (t : nat) (p : Q) (k : nat) : Q :=
  match t, k with
  | O, O => 1
  | O, S _ => 0
  | S t', O => (1 - p) * bpmf t' p 0
  | S t', S k' => (1 - p) * bpmf t' p k + p * bpmf t' p k'
  end.
(* probability of fewer than n successes *)
Fixpoint bcdf (t : nat) (p : Q) (n : nat) : Q :=
  match n with O => 0 | S k => bcdf t p k + bpmf t p k end.

Definition qZ (z : Z) : Q := inject_Z z.

(* a format in which 2^-2*prec and moderate powers of it are normal numbers *)
Definition fmt_wide (f : fmt) : Prop := (4 <= prec f)%Z /\ (emin f + 2 * prec f <= -50)%Z.

(* std::pow: relative error at most K epsilon, unless the result underflows *)
Definition pow_ok (f : fmt) (K : Q) (pw : Q -> Q -> Q) : Prop :=
  forall b n, 0 < b -> b <= 1 -> (0 <= n)%Z -> p2 (emin f + prec f) <= Qpower b n ->
    representable f (pw b (qZ n)) /\
    Qabs (pw b (qZ n) - Qpower b n) <= K * p2 (1 - prec f) * Qpower b n.

(* the probability that the inversion works with *)
Definition psmall (p : Q) : Q := if Qle_bool p (1 # 2) then p else 1 - p.
(* the number x for which the distribution function passes u, with tolerance E *)
Definition inverts (t : nat) (p E u : Q) (x : nat) : Prop :=
  bcdf t p x - E <= u /\ u <= bcdf t p (S x) + E.

(* std::sqrt: the square of the result has a relative error of at most 1/1000 *)
Definition sqrt_ok (sq : Q -> Q) : Prop := forall x, 1 <= x -> 0 <= sq x /\ Qabs (sq x * sq x - x) <= (1 # 1000) * x.
