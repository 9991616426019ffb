(* Specification of the Niederreiter direction numbers (Bratley, Fox, Niederreiter,
   sections 2.3 and 3.3) *)
From Coq Require Import NArith.
From Verif Require Import Base PolySpec.

(* P = p^n *)
Fixpoint is_power (p : N) (n : nat) (P : N) : Prop :=
  match n with
  | O => P = 1%N
  | S k => exists Q, is_power p k Q /\ is_product p Q P
  end.

(* the sequence v is 0 before kj, 1 from kj to deg - 1, and follows the recurrence
   of the polynomial P of degree deg from there *)
Definition recurrence (P : N) (deg kj : nat) (v : nat -> bool) : Prop :=
  (forall r, (r < kj)%nat -> v r = false) /\
  (forall r, (kj <= r < deg)%nat -> v r = true) /\
  (forall r, (kj <= r + deg)%nat -> xsum (S deg) (fun k => coef P k && v (r + k)%nat) = false).
