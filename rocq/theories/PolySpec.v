(* Polynomials over GF(2): the coefficient of x^k of the polynomial a : N is the
   k-th binary digit of a. *)
From Verif Require Import Base.
From Coq Require Import NArith.
Open Scope nat_scope.

Definition coef (a : N) (k : nat) : bool := N.testbit a (N.of_nat k).

(* f 0 + ... + f (n-1) in GF(2) *)
Fixpoint xsum (n : nat) (f : nat -> bool) : bool :=
  match n with O => false | S k => xorb (xsum k f) (f k) end.

(* c = a * b *)
Definition is_product (a b c : N) : Prop :=
  forall k, coef c k = xsum (S k) (fun i => coef a i && coef b (k - i)).

(* a - b is a multiple of m *)
Definition congruent (m a b : N) : Prop := exists q c, is_product q m c /\ N.lxor a b = c.

(* deg a < d *)
Definition deg_lt (a : N) (d : nat) : Prop := forall k, d <= k -> coef a k = false.

(* the polynomial held by an array of digits of W bits, lowest first *)
Fixpoint pval (W : nat) (l : list N) : N :=
  match l with [] => 0%N | d :: t => N.lxor d (N.shiftl (pval W t) (N.of_nat W)) end.
Definition digits (W : nat) (l : list N) : Prop := Forall (fun d => (d < 2 ^ N.of_nat W)%N) l.
(* the part l[o], ..., l[o+n-1] of an array *)
Definition part (l : list N) (o n : nat) : list N := firstn n (skipn o l).

Definition ceil (a W : nat) : nat := (a + W - 1) / W.

(* an array of digits with nothing changed outside out[o], ..., out[o+n-1] *)
Definition writes (W : nat) (out out' : list N) (o n : nat) : Prop :=
  length out' = length out /\ digits W out' /\ forall i, i < o \/ o + n <= i -> nth i out' 0%N = nth i out 0%N.
(* storage of a polynomial of the given size: enough digits, and no coefficient at
   or above the size *)
Definition holds (W : nat) (storage : list N) (size : nat) : Prop :=
  length storage = ceil size W /\ digits W storage /\ deg_lt (pval W storage) size.

(* m = x^d + x^(d-gap) + lower terms, or m = x^d and gap = d + 1 *)
Definition gap (m : N) (d b : nat) : Prop :=
  (b = d + 1 /\ forall k, k < d -> coef m k = false) \/
  (1 <= b <= d /\ coef m (d - b) = true /\ forall k, d - b < k < d -> coef m k = false).
(* the digits touched when a dividend of db bits is reduced to d bits, block bits at
   a time from the top, are among the first L: the block of bits s, ..., b-1 is
   added at the bit s *)
Definition division_fits (W L d block db : nat) : Prop :=
  forall t, let b := Nat.max (db - t * block) d in let s := Nat.max (db - S t * block) d in
    d < b -> ceil s W + ceil (b - s) W <= L.
