(* What engine.generate(first, last) is specified to do: the engine outputs
   (after rejection) are digits of B bits; these, least significant first, form
   a bit string that is cut into 32-bit words. *)
From Verif Require Import Base ProgModel.

(* l(0) + l(1) 2^B + l(2) 2^2B + ... *)
Fixpoint digits_value (B : Z) (l : list Z) : Z :=
  match l with [] => 0 | v :: r => v + 2 ^ B * digits_value B r end.

(* the n least significant 32-bit words of S *)
Definition words (n : nat) (S : Z) : list Z := map (fun j => S / 2 ^ (32 * Z.of_nat j) mod 2 ^ 32) (seq 0 n).

(* outputs of an engine with R values that are not rejected: the digit is
   uniform only if their number is a multiple of 2^B *)
Definition useful (bmin R B d : Z) : bool := d - bmin <? 2 ^ B * (R / 2 ^ B).
Definition digit_of (bmin B d : Z) : Z := (d - bmin) mod 2 ^ B.
Definition digits_of (bmin R B : Z) (ds : list Z) : list Z := map (digit_of bmin B) (filter (useful bmin R B) ds).

(* k is the least number of B-bit digits that fill n words *)
Definition digits_for (B : Z) (n k : nat) : Prop :=
  B * (Z.of_nat k - 1) < 32 * Z.of_nat n <= B * Z.of_nat k.

(* the number of bits of a digit for an engine with R values: the largest B such
   that fewer than 2^(log2 R - log2 (log2 R)) of the R values are rejected *)
Definition used_bits (R B : Z) : Prop :=
  let c := Z.log2 R - Z.log2 (Z.log2 R) in
  1 <= B <= Z.log2 R /\ R mod 2 ^ B < 2 ^ c /\
  forall B', B < B' <= Z.log2 R -> 2 ^ c <= R mod 2 ^ B'.

(* the outcome of generate for n words when the engine produces the outputs ds:
   it returns the words of the bit string as soon as the digits fill them, and
   wants more outputs otherwise *)
Definition gen_spec (bmin R B : Z) (n : nat) (ds : list Z) (o : outcome (list Z)) : Prop :=
  (forall u d rest, ds = u ++ d :: rest -> useful bmin R B d = true ->
     digits_for B n (length (digits_of bmin R B u) + 1) ->
     o = ORet (words n (digits_value B (digits_of bmin R B (u ++ [d])))) rest) /\
  (B * Z.of_nat (length (digits_of bmin R B ds)) < 32 * Z.of_nat n -> o = OMore).
