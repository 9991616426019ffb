(* splitmix64: the published algorithm. *)
From Verif Require Import Base SplitModel.

Definition M64 := 2 ^ 64.
(* z ^ (z >> k) *)
Definition xsr (k z : Z) : Z := Z.lxor z (z / 2 ^ k).
(* Vigna's splitmix64.c: the output for the counter z *)
Definition sm_mix (z : Z) : Z :=
  xsr 31 (xsr 27 (xsr 30 z * 0xBF58476D1CE4E5B9 mod M64) * 0x94D049BB133111EB mod M64).
(* the counter after n steps *)
Definition sm_counter (s : Z) (n : Z) : Z := (s + n * 0x9E3779B97F4A7C15) mod M64.

Definition word64 (z : Z) : Prop := 0 <= z < M64.

(* the n-th output, n = 0, 1, ... *)
Definition sm_out (s : Z) (n : nat) : Z := fst (sm_next (iter n (fun x => snd (sm_next x)) s)).

(* the number that the decimal digits in a text form, other characters left out *)
Definition dec_digits (l : list Z) : list Z := map (fun c => c - 48) (filter (fun c => (48 <=? c) && (c <=? 57)) l).
Fixpoint dec_value (ds : list Z) : Z :=
  match ds with [] => 0 | d :: r => d * 10 ^ Z.of_nat (length r) + dec_value r end.
