(* The MIXMAX recurrence (K. Savvidy, The MIXMAX random number generator,
   Comp. Phys. Commun. 196 (2015), with s = 0): vectors over the integers
   modulo 2^61-1 multiplied by a fixed matrix.  No reference to the model. *)
From Verif Require Import Base.

Definition p61 : Z := 2 ^ 61 - 1.

(* canonical representatives *)
Definition red (v : list Z) : list Z := map (fun a => a mod p61) v.

(* sum of c(j) v_j *)
Fixpoint dot (c : nat -> Z) (v : list Z) : Z :=
  match v with [] => 0 | a :: r => c O * a + dot (fun j => c (S j)) r end.

Definition vsum (v : list Z) : Z := dot (fun _ => 1) v.

(* The matrix, rows and columns counted from 0, m = 2^k+1:
     1    1     1    1  ..
     1    2     1    1  ..
     1   m+2    2    1  ..
     1  2m+2   m+2   2  ..                                                  *)
Definition mm_coef (k : Z) (i j : nat) : Z :=
  if (j =? 0)%nat || (i <? j)%nat then 1 else 2 + Z.of_nat (i - j) * (2 ^ k + 1).

Definition mm_apply (k : Z) (v : list Z) : list Z :=
  map (fun i => dot (mm_coef k i) v mod p61) (seq 0 (length v)).

(* the unit vector e_0 *)
Definition unit0 (n : nat) : list Z := 1 :: repeat 0 (n - 1).

(* a state vector of n elements together with its sum; the representatives need
   not be canonical *)
Definition mm_state (n : nat) (v : list Z) (sum : Z) : Prop :=
  length v = n /\ Forall (fun a => 0 <= a <= 2 ^ 61 + 1) v /\ 0 <= sum <= 2 ^ 61 + 1 /\
  sum mod p61 = vsum v mod p61.

(* the i-th number delivered after the vector v was installed with counter 1:
   elements 1 .. n-1 of v, of A v, of A^2 v, ... *)
Definition mm_out (n : nat) (k : Z) (v : list Z) (i : nat) : Z :=
  nth (1 + i mod (n - 1)) (iter (i / (n - 1)) (mm_apply k) v) 0 mod p61.
