(* qrng_base.hpp:141-168 for engines with an 8 bit UIntType, such as
   sobol_engine<uint8_t, 8>: SizeT is LatticeT::value_type (gray_coded_qrng.hpp:54-63),
   so seq_count is an unsigned char, and is written and read as a character.
   Characters are their codes. *)
From Verif Require Import Base QrngModel.

(* std::isspace in the C locale *)
Definition is_ws (c : Z) : bool := ((9 <=? c) && (c <=? 13)) || (c =? 32).
Definition is_dig (c : Z) : bool := (48 <=? c) && (c <=? 57).

(* os << n for std::size_t: decimal digits; 20 digits are enough for 64 bits *)
Fixpoint dec (fuel : nat) (n : Z) : list Z :=
  match fuel with
  | O => []
  | S f => if n <? 10 then [48 + n] else dec f (n / 10) ++ [48 + n mod 10]
  end.

(* qrng_base.hpp:143: dimension " " seq_count " " curr_elem *)
Definition q_text8 {L V} (e : qeng L V) : list Z :=
  dec 20 (q_dim e) ++ 32 :: q_seq e :: 32 :: dec 20 (q_curr e).

(* is >> std::ws, and the whitespace skipped by operator>> *)
Fixpoint skip_ws (l : list Z) : list Z :=
  match l with c :: r => if is_ws c then skip_ws r else l | [] => [] end.

(* is >> n for a 64 bit unsigned n: None sets failbit.  Simplification: a sign is
   not accepted. *)
Fixpoint digits_in (acc : Z) (l : list Z) : Z * list Z :=
  match l with c :: r => if is_dig c then digits_in (10 * acc + (c - 48)) r else (acc, l) | [] => (acc, []) end.
Definition get_num (l : list Z) : option (Z * list Z) :=
  match skip_ws l with
  | c :: r => if is_dig c then (let (v, l') := digits_in 0 (c :: r) in if v <? 2 ^ 64 then Some (v, l') else None) else None
  | [] => None
  end.

(* is >> c for an unsigned char *)
Definition get_char (l : list Z) : option (Z * list Z) :=
  match skip_ws l with c :: r => Some (c, r) | [] => None end.

(* qrng_base.hpp:153: the three values read, None when the stream fails *)
Definition q_scan8 (l : list Z) : option (Z * Z * Z) :=
  x <- get_num l;; let (dim, l) := x in
  x <- get_char (skip_ws l);; let (seed, l) := x in
  x <- get_num (skip_ws l);; let (z, l) := x in
  Some (dim, seed, z).

(* qrng_base.hpp:148-168: the engine after reading; it is left alone when the stream fails *)
Definition q_read8 (w : Z) (lattice : Z -> option (list Z)) (e : geng) (l : list Z) : res geng unit :=
  match q_scan8 l with
  | Some t => q_read 8 (gray_ops 8 w) (fun _ => lattice) 0 e t
  | None => Ret e tt
  end.
