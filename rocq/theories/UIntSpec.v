(* What uniform_int_distribution and friends should do. *)
From Verif Require Import Base ProgModel ProgSpec.

(* an integral engine: result_type tb, outputs in [bmin,bmax], at least two values *)
Definition eng_wf (tb : ity) (bmin bmax : Z) : Prop :=
  2 <= bits tb /\ inT tb bmin /\ inT tb bmax /\ bmin < bmax.

(* parameters of uniform_int_distribution<T>(a,b) *)
Definition ui_wf (t : ity) (a b : Z) : Prop :=
  2 <= bits t /\ inT t a /\ inT t b /\ a <= b.

(* the number of values of [a,b] is a proper power of the number of engine values *)
Definition power_case (bmin bmax a b : Z) : Prop :=
  exists k, 2 <= k /\ (bmax - bmin + 1) ^ k = b - a + 1.

(* the inputs for which the code adds a (or does not need to) *)
Definition ui_good (bmin bmax : Z) (t : ity) (a b : Z) : Prop :=
  a = 0 \/ b - a + 1 = 2 ^ bits t \/ ~ power_case bmin bmax a b.

(* n is the least number of engine outputs that can produce b-a+1 values *)
Definition least_draws (bmin bmax a b : Z) (n : nat) : Prop :=
  b - a + 1 <= (bmax - bmin + 1) ^ Z.of_nat n /\
  forall m, (m < n)%nat -> (bmax - bmin + 1) ^ Z.of_nat m < b - a + 1.
