(* include/boost/random/ranlux.hpp *)
From Verif Require Import Base StreamModel RingModel SwcModel AdaptModel.

(* subtract_with_carry.hpp:199-211 and 446-458, operator() as a total function;
   the model of operator() has no result on an access outside the array or an
   arithmetic overflow, where this function stays put and returns 0 (it is shown
   that this does not happen) *)
Definition swc_total (up : list Z -> nat -> nat -> Z -> option (list Z * Z)) (s r : nat) (st : swc) : Z * swc :=
  match swc_next up s r st with Some q => q | None => (0, st) end.

(* ranlux.hpp:48-50, the base engines; the values of the _01 engines are
   multiples of 2^-w and stand for these multiples *)
Definition ranlux_base : swc -> Z * swc := swc_total (swc_upd u32 24) 10 24.
Definition ranlux_base_01 : swc -> Z * swc := swc_total (swc01_upd 24) 10 24.
Definition ranlux64_base_01 : swc -> Z * swc := swc_total (swc01_upd 48) 10 24.

(* ranlux.hpp:54-66 *)
Definition ranlux3 : dbs swc -> Z * dbs swc := db_next 223 24 ranlux_base.
Definition ranlux4 : dbs swc -> Z * dbs swc := db_next 389 24 ranlux_base.
Definition ranlux3_01 : dbs swc -> Z * dbs swc := db_next 223 24 ranlux_base_01.
Definition ranlux4_01 : dbs swc -> Z * dbs swc := db_next 389 24 ranlux_base_01.
Definition ranlux64_3_01 : dbs swc -> Z * dbs swc := db_next 223 24 ranlux64_base_01.
Definition ranlux64_4_01 : dbs swc -> Z * dbs swc := db_next 389 24 ranlux64_base_01.

(* ranlux.hpp:69-73 *)
Definition ranlux64_base : swc -> Z * swc := swc_total (swc_upd u64 48) 10 24.
Definition ranlux64_3 : dbs swc -> Z * dbs swc := db_next 223 24 ranlux64_base.
Definition ranlux64_4 : dbs swc -> Z * dbs swc := db_next 389 24 ranlux64_base.

(* ranlux.hpp:77-82 *)
Definition ranlux24_base : swc -> Z * swc := swc_total (swc_upd u32 24) 10 24.
Definition ranlux48_base : swc -> Z * swc := swc_total (swc_upd u64 48) 5 12.
Definition ranlux24 : dbs swc -> Z * dbs swc := db_next 223 23 ranlux24_base.
Definition ranlux48 : dbs swc -> Z * dbs swc := db_next 389 11 ranlux48_base.
