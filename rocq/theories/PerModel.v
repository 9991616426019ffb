(* Typedefs of the congruential engines. *)
From Verif Require Import Base StreamModel ArithModel LcgModel.

(* linear_congruential.hpp:325 and 335 *)
Definition minstd_rand0_next : Z -> option Z := lcg_next u32 16807 0 2147483647.
Definition minstd_rand_next : Z -> option Z := lcg_next u32 48271 0 2147483647.
(* linear_congruential.hpp:446-449, the state of rand48 *)
Definition rand48_state : Z -> option Z := lcg_next u64 r48_a r48_c r48_m.
(* inversive_congruential.hpp:255-256 *)
Definition hellekalek1995_next : Z -> option Z := icg_next u32 9102 (2147483647 - 36884165) 2147483647.
(* additive_combine.hpp:272-275; outputs and both states *)
Definition ecuyer1988_next : Z * Z -> option (Z * (Z * Z)) := ac_next u32 ec_a1 ec_m1 ec_a2 ec_m2.
