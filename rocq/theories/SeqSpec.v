(* The algorithm of seed_seq::generate as in the C++ standard, [rand.util.seedseq]
   paragraph 8.  The output range is a function on all integers, read and written
   modulo n; all arithmetic is modulo 2^32. *)
From Verif Require Import Base.

Definition std_T (x : Z) : Z := Z.lxor x (x / 2 ^ 27).
Definition std_t (n : Z) : Z :=
  if n >=? 623 then 11 else if n >=? 68 then 7 else if n >=? 39 then 5 else if n >=? 7 then 3 else (n - 1) / 2.
Definition std_set (n : Z) (x : Z -> Z) (i val : Z) : Z -> Z :=
  fun j => if j mod n =? i mod n then val else x j.

(* step k of the first transformation *)
Definition std_first (v : list Z) (n : Z) (k : Z) (x : Z -> Z) : Z -> Z :=
  let s := Z.of_nat (length v) in
  let p := (n - std_t n) / 2 in
  let q := p + std_t n in
  let r1 := 1664525 * std_T (Z.lxor (Z.lxor (x k) (x (k + p))) (x (k - 1))) mod 2 ^ 32 in
  let r2 := (r1 + (if k =? 0 then s else if k <=? s then k mod n + nth (Z.to_nat (k - 1)) v 0 else k mod n)) mod 2 ^ 32 in
  let x := std_set n x (k + p) ((x (k + p) + r1) mod 2 ^ 32) in
  let x := std_set n x (k + q) ((x (k + q) + r2) mod 2 ^ 32) in
  std_set n x k r2.

(* step k of the second transformation *)
Definition std_second (n : Z) (k : Z) (x : Z -> Z) : Z -> Z :=
  let p := (n - std_t n) / 2 in
  let q := p + std_t n in
  let r3 := 1566083941 * std_T ((x k + x (k + p) + x (k - 1)) mod 2 ^ 32) mod 2 ^ 32 in
  let r4 := (r3 - k mod n) mod 2 ^ 32 in
  let x := std_set n x (k + p) (Z.lxor (x (k + p)) r3) in
  let x := std_set n x (k + q) (Z.lxor (x (k + q)) r4) in
  std_set n x k r4.

(* k = from, from + 1, ..., from + cnt - 1 *)
Fixpoint std_loop (cnt : nat) (from : Z) (f : Z -> (Z -> Z) -> Z -> Z) (x : Z -> Z) : Z -> Z :=
  match cnt with O => x | S c => std_loop c (from + 1) f (f from x) end.

Definition std_seed_seq (v : list Z) (n : nat) : list Z :=
  let m := Nat.max (length v + 1) n in
  let x := std_loop m 0 (std_first v (Z.of_nat n)) (fun _ => 0x8b8b8b8b) in
  let x := std_loop n (Z.of_nat m) (std_second (Z.of_nat n)) x in
  map (fun i => x (Z.of_nat i)) (seq 0 n).
