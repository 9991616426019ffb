(* Specification of the Faure sequence.

   H. Faure, Discrepance de suites associees a un systeme de numeration, Acta
   Arithmetica 41 (1982).  The digits of n in the prime base b are a_0, a_1, ...
   Digit i of coordinate c is  sum_j C(j,i) c^(j-i) a_j  mod b: coordinate c is
   the c-th power of the matrix of the binomial coefficients. *)
From Coq Require Import QArith.
From Verif Require Import Base.
Open Scope Z_scope.

(* f 0 + ... + f (h-1) *)
Fixpoint zsum (h : nat) (f : nat -> Z) : Z :=
  match h with O => 0 | S k => zsum k f + f k end.

(* binomial coefficients C(n,k) *)
Fixpoint binom (n k : nat) : Z :=
  match n, k with
  | _, O => 1
  | O, S _ => 0
  | S n', S k' => binom n' k' + binom n' k
  end.

(* digit j of n in base b *)
Definition digit (b n : Z) (j : nat) : Z := n / b ^ Z.of_nat j mod b.

(* n has no more than [len n] digits in any base *)
Definition len (n : Z) : nat := Z.to_nat (Z.log2 n + 1).

(* digit i of coordinate c of point n *)
Definition fdigit (b n : Z) (c i : nat) : Z :=
  zsum (len n) (fun j => binom j i * Z.of_nat c ^ Z.of_nat (j - i) * digit b n j) mod b.

(* coordinate c of point n: the sum of  digit i / b^(i+1) *)
Fixpoint qsum (h : nat) (f : nat -> Q) : Q :=
  match h with O => 0%Q | S k => (qsum k f + f k)%Q end.
Definition fvalue (b n : Z) (c : nat) : Q :=
  qsum (len n) (fun i => inject_Z (fdigit b n c i) / inject_Z (b ^ Z.of_nat (S i)))%Q.

(* x is in the elementary interval number A of length b^-d *)
Definition in_interval (b : Z) (d : nat) (A : Z) (x : Q) : Prop :=
  (inject_Z A / inject_Z (b ^ Z.of_nat d) <= x)%Q /\ (x < inject_Z (A + 1) / inject_Z (b ^ Z.of_nat d))%Q.
