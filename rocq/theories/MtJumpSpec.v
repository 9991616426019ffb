(* The polynomial of the recurrence satisfied by the lowest bits of the words. *)
From Coq Require Import NArith.
From Verif Require Import Base MtModel PolySpec.
Open Scope nat_scope.

(* Let x^j stand for the lowest bit of the word j places later.  The bit b of a
   word is the sum of the lowest bits given by bit_poly b: for 0 < b < r it is the
   sum of the bits b-1 of the words n-1 and m-1 places later, plus a_(b-1) times
   the lowest bit; for b >= r the words are n and m places later and the lowest
   bit one place later. *)
Fixpoint bit_poly (n m r : nat) (a : nat -> bool) (b : nat) : N :=
  match b with
  | O => 1%N
  | S c =>
    let q := bit_poly n m r a c in
    if S c <? r then
      N.lxor (N.lxor (N.shiftl q (N.of_nat (n - 1))) (N.shiftl q (N.of_nat (m - 1)))) (if a c then 1 else 0)%N
    else
      N.lxor (N.lxor (N.shiftl q (N.of_nat n)) (N.shiftl q (N.of_nat m))) (if a c then 2 else 0)%N
  end.
(* the sum of the top bits n-1 and m-1 places later is a_(w-1) times the lowest bit *)
Definition mt_polynomial (p : mtp) : N :=
  let q := bit_poly (mn p) (mm p) (Z.to_nat (mr p)) (fun c => Z.testbit (ma p) (Z.of_nat c)) (Z.to_nat (mw p) - 1) in
  N.lxor (N.lxor (N.shiftl q (N.of_nat (mn p - 1))) (N.shiftl q (N.of_nat (mm p - 1))))
    (if Z.testbit (ma p) (mw p - 1) then 1 else 0)%N.
(* its degree *)
Definition mt_degree (p : mtp) : nat := Z.to_nat (mw p) * mn p - Z.to_nat (mr p).

(* the parameters for which the jump works *)
Definition mt_jump_params (p : mtp) : Prop :=
  mw p = mW p /\ 2 <= mm p /\ (mm p + 2 <= mn p \/ Z.even (mw p) = true).
