(* seed_seq.hpp.  v is the stored sequence of 32-bit words.
   W is the width of the value type of the output range, 32 <= W <= 64.
   std::size_t has 64 bits.  Simplification: sums of positions and sizes (k + p,
   k + q, s + 1, m + n) are not wrapped, they stay below the size of memory. *)
From Verif Require Import Base RingModel.

(* seed_seq.hpp:75-80 *)
Definition sq_t (n : Z) : Z :=
  if 623 <=? n then 11 else
  if 68 <=? n then 7 else
  if 39 <=? n then 5 else
  if 7 <=? n then 3 else
  wrap 64 (n - 1) / 2.

(* first[i % n]; division by zero is undefined *)
Definition at_mod (n : Z) (x : list Z) (i : Z) : option Z :=
  if n =? 0 then None else get x (Z.to_nat (i mod n)).
Definition put_mod (n : Z) (x : list Z) (i v : Z) : option (list Z) :=
  if n =? 0 then None else upd x (Z.to_nat (i mod n)) v.

(* seed_seq.hpp:84 *)
Definition sq_mask : Z := 0xffffffff.

(* seed_seq.hpp:91-93, the second operand of the addition, of type size_t *)
Definition sq_add (v : list Z) (n k : Z) : option Z :=
  let s := Z.of_nat (length v) in
  if k =? 0 then Some s else
  if k <=? s then e <- get v (Z.to_nat (k - 1));; Some (wrap 64 (k mod n + e)) else
  Some (k mod n).

(* seed_seq.hpp:86-97, body of the first loop *)
Definition sq_body1 (W : Z) (v : list Z) (n p q k : Z) (x : list Z) : option (list Z) :=
  a <- at_mod n x k;;
  b <- at_mod n x (k + p);;
  c <- at_mod n x (k + n - 1);;
  let r1 := Z.lxor (Z.lxor a b) c in
  let r1 := Z.lxor r1 (Z.shiftr r1 27) in
  let r1 := Z.land (wrap W (r1 * 1664525)) sq_mask in
  d <- sq_add v n k;;
  let r2 := wrap W (wrap 64 (r1 + d)) in
  xp <- at_mod n x (k + p);;
  x <- put_mod n x (k + p) (Z.land (wrap W (xp + r1)) sq_mask);;
  xq <- at_mod n x (k + q);;
  x <- put_mod n x (k + q) (Z.land (wrap W (xq + r2)) sq_mask);;
  put_mod n x k r2.

(* seed_seq.hpp:100-108, body of the second loop *)
Definition sq_body2 (W : Z) (n p q k : Z) (x : list Z) : option (list Z) :=
  a <- at_mod n x k;;
  b <- at_mod n x (k + p);;
  c <- at_mod n x (k + n - 1);;
  let r3 := Z.land (wrap W (wrap W (a + b) + c)) sq_mask in
  let r3 := Z.lxor r3 (Z.shiftr r3 27) in
  let r3 := Z.land (wrap W (r3 * 1566083941)) sq_mask in
  let r4 := wrap W (wrap 64 (r3 - k mod n)) in
  xp <- at_mod n x (k + p);;
  x <- put_mod n x (k + p) (Z.lxor xp r3);;
  xq <- at_mod n x (k + q);;
  x <- put_mod n x (k + q) (Z.lxor xq r4);;
  put_mod n x k r4.

(* for(k = from; k < from + cnt; ++k) *)
Fixpoint sq_for (cnt : nat) (k : Z) (body : Z -> list Z -> option (list Z)) (x : list Z) : option (list Z) :=
  match cnt with
  | O => Some x
  | S c => y <- body k x;; sq_for c (k + 1) body y
  end.

(* seed_seq.hpp:68-109, generate for a range of len elements; the new contents.
   Within the loops n is at least 1 for the code to be defined; with n = 0 the
   first iteration divides by zero. *)
Definition sq_generate (W : Z) (v : list Z) (len : nat) : option (list Z) :=
  let x := repeat (wrap W 0x8b8b8b8b) len in
  let s := Z.of_nat (length v) in
  let n := Z.of_nat len in
  let t := sq_t n in
  let p := wrap 64 (n - t) / 2 in
  let q := p + t in
  let m := Z.max (s + 1) n in
  x <- sq_for (Z.to_nat m) 0 (sq_body1 W v n p q) x;;
  sq_for len m (sq_body2 W n p q) x.

(* seed_seq.hpp:107 and 110 *)
Definition sq_size (v : list Z) : Z := Z.of_nat (length v).
Definition sq_param (v : list Z) : list Z := v.

(* seed_seq.hpp:44-56, construction from a sequence of integers: conversion to
   uint_least32_t *)
Definition sq_init (l : list Z) : list Z := map (wrap 32) l.
