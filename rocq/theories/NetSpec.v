(* Specification of digital nets in base 2 *)
From Coq Require Import NArith.
From Verif Require Import Base PolySpec.
Open Scope Z_scope.

(* the polynomial p over GF(2) has no proper factor *)
Definition irreducible (p : N) : Prop := (1 < p)%N /\ forall a b, is_product a b p -> a = 1%N \/ b = 1%N.

(* the number of n with base <= n < base + 2^m and f n *)
Fixpoint zcount (f : Z -> bool) (m : nat) (base : Z) : Z :=
  match m with
  | O => if f base then 1 else 0
  | S k => zcount f k base + zcount f k (base + 2 ^ Z.of_nat k)
  end.

(* v / 2^w lies in [A / 2^d, (A + 1) / 2^d) *)
Definition in_box (w d : nat) (A v : Z) : bool := v / 2 ^ Z.of_nat (w - d) =? A.

Definition total (s : nat) (d : nat -> nat) : nat := list_sum (map d (seq 0 s)).

(* a digital (t, s)-sequence in base 2, with w bits: point n has the coordinates
   x n 0, ..., x n (s-1), divided by 2^w.  In every block of 2^m points
   l 2^m, ..., (l+1) 2^m - 1, every box with sides 2^-d(j) and volume at least
   2^(t-m) has the share of the points that is its volume. *)
Definition ts_sequence (w t s : nat) (x : Z -> nat -> Z) : Prop :=
  forall m d l A, (m <= w)%nat -> (total s d + t <= m)%nat -> 0 <= l ->
  (forall j, (j < s)%nat -> 0 <= A j < 2 ^ Z.of_nat (d j)) ->
  zcount (fun n => forallb (fun j => in_box w (d j) (A j) (x n j)) (seq 0 s)) m (l * 2 ^ Z.of_nat m) = 2 ^ Z.of_nat (m - total s d).
