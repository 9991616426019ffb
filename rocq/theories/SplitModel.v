(* splitmix64.hpp.  The state is one 64-bit word. *)
From Verif Require Import Base.

Definition u64wrap (z : Z) : Z := wrap 64 z.

(* splitmix64.hpp:51-61, seed(value) *)
Definition sm_seed (value : Z) : Z := if value =? 0 then 0xA164B43C8F634A13 else value.

(* splitmix64.hpp:85-89, seed(T) for an integral T: conversion to uint64_t *)
Definition sm_seed_int (value : Z) : Z := sm_seed (u64wrap value).

(* splitmix64.hpp:38-41 and 66-73, seeding from the two 32-bit words of a seed sequence *)
Definition sm_concatenate (w1 w2 : Z) : Z := Z.lor (u64wrap (Z.shiftl w1 32)) w2.

(* splitmix64.hpp:101-108, next(): the result and the new state *)
Definition sm_next (s : Z) : Z * Z :=
  let s := u64wrap (s + 0x9E3779B97F4A7C15) in
  let z := s in
  let z := u64wrap (Z.lxor z (Z.shiftr z 30) * 0xBF58476D1CE4E5B9) in
  let z := u64wrap (Z.lxor z (Z.shiftr z 27) * 0x94D049BB133111EB) in
  (Z.lxor z (Z.shiftr z 31), s).

(* splitmix64.hpp:117-123, discard *)
Definition sm_discard (z : nat) (s : Z) : Z := iter z (fun s => snd (sm_next s)) s.

(* splitmix64.hpp:129-132 *)
Definition sm_eq (x y : Z) : bool := x =? y.

(* splitmix64.hpp:173-180, generate for a range of n elements *)
Fixpoint sm_generate (n : nat) (s : Z) : list Z * Z :=
  match n with
  | O => ([], s)
  | S k => let '(x, s1) := sm_next s in let '(l, s2) := sm_generate k s1 in (x :: l, s2)
  end.

(* splitmix64.hpp:186-197 *)
Definition sm_max : Z := 2 ^ 64 - 1.
Definition sm_min : Z := 0.

(* ---- text; characters are their codes ---- *)

(* an input stream: the characters that remain, and whether it has failed *)
Record cstr := Cstr { chars : list Z; cfail : bool }.

(* the decimal digits of n (operator<< of an unsigned integer) *)
Fixpoint dec_print (fuel : nat) (n : Z) : list Z :=
  match fuel with
  | O => []
  | S f => if n <? 10 then [48 + n] else dec_print f (n / 10) ++ [48 + n mod 10]
  end.

(* splitmix64.hpp:144-150, operator<<; a 64-bit number has at most 20 digits *)
Definition sm_write (s : Z) : list Z := dec_print 20 s.

Definition is_space (c : Z) : bool := ((9 <=? c) && (c <=? 13)) || (c =? 32).
Definition is_digit (c : Z) : bool := (48 <=? c) && (c <=? 57).

(* splitmix64.hpp:158-165: while(ist >> val) if(isdigit(val)) push_back(val).
   operator>> for a character skips white space; the loop ends at the end of the
   text, where it sets the fail bit. *)
Fixpoint sm_collect (l : list Z) : list Z :=
  match l with
  | [] => []
  | c :: r => if is_space c then sm_collect r
              else if is_digit c then c :: sm_collect r else sm_collect r
  end.

(* std::strtoull(s, nullptr, 10) for a string of digits: 0 if it is empty,
   ULLONG_MAX if the number is too large *)
Definition strtoull (l : list Z) : Z := Z.min (2 ^ 64 - 1) (fold_left (fun a c => a * 10 + (c - 48)) l 0).

(* splitmix64.hpp:153-171, operator>> *)
Definition sm_read (i : cstr) : Z * cstr :=
  if cfail i then (strtoull [], i)
  else (strtoull (sm_collect (chars i)), Cstr [] true).
