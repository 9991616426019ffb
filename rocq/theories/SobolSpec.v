(* Specification of the Sobol direction numbers *)
From Verif Require Import Base.

(* exclusive or of f 0 .. f (n-1) *)
Fixpoint xors (n : nat) (f : nat -> Z) : Z :=
  match n with O => 0 | S k => Z.lxor (xors k f) (f k) end.

(* the numbers m of one coordinate: the first deg are given, the others follow
   the recurrence of the primitive polynomial (Bratley and Fox, section 2) *)
Definition sobol_numbers (poly : Z) (init m : nat -> Z) (w : nat) : Prop :=
  let deg := Z.to_nat (Z.log2 poly) in
  (forall k, (k < deg)%nat -> m k = init k) /\
  (forall j, (deg <= j < w)%nat ->
     m j = Z.lxor (m (j - deg)%nat)
             (xors deg (fun k => if Z.testbit poly (Z.of_nat k) then m (j - (deg - k))%nat * 2 ^ Z.of_nat (deg - k) else 0))).

(* number k is odd and has at most k+1 bits *)
Definition odd_bounded (m : nat -> Z) (n : nat) : Prop :=
  forall k, (k < n)%nat -> Z.odd (m k) = true /\ 0 <= m k < 2 ^ (Z.of_nat k + 1).
