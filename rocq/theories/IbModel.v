(* independent_bits.hpp and detail/integer_log2.hpp.

   Parameters: tb, bmin, bmax describe the base engine (base_result_type, min()
   and max()), W = bits tb is the width of base_unsigned, w the number of bits
   wanted, WU the width of UIntType (w <= WU).  The engine state is that of the
   base engine; operator() is a program that draws from it.
   Simplification: for a base_unsigned narrower than int the promoted arithmetic
   gives the same values after conversion back, so it is done modulo 2^W
   throughout; BOOST_ASSERT is not modelled. *)
From Verif Require Import Base ProgModel UIntModel.

(* integer_log2.hpp:33-66, integer_log2_impl<2^k>::apply(t, accum) *)
Fixpoint ilog2_impl (k : nat) (t accum : Z) : Z :=
  match k with
  | O => Z.shiftr t 1 + accum
  | S k' =>
      let shift := 2 ^ Z.of_nat k in
      let update := if Z.shiftr t shift =? 0 then 0 else shift in
      ilog2_impl k' (Z.shiftr t update) (accum + update)
  end.

(* integer_log2.hpp:68-76 for arguments of at most 64 bits: max_pow2_less is 16
   for int (31 digits) and 32-bit unsigned types, 32 for wider ones *)
Definition integer_log2 (W t : Z) : Z := ilog2_impl (if W <=? 32 then 4 else 5) t 0.

(* the variables set by calc_params *)
Record ibp := Ibp { ib_w0 : Z; ib_n0 : Z; ib_y0 : Z; ib_y1 : Z; ib_m0 : Z; ib_m1 : Z }.

(* independent_bits.hpp:255-269, calc_params; the shift by w0-1 is undefined if
   w0 = 0 (the amount is then 2^64-1) or if it is not smaller than the width *)
Definition ib_calc (W w n range : Z) : option ibp :=
  let w0 := w / n in
  let n0 := n - w mod n in
  if (w0 =? 0) || (W <=? w0 - 1) then None else
  let y0_mask := wrap W (wrap W (2 * 2 ^ (w0 - 1)) - 1) in
  let y1_mask := Z.lor (wrap W (y0_mask * 2)) 1 in
  let y0 := Z.ldiff (wrap W (range + 1)) y0_mask in
  let y1 := Z.ldiff (wrap W (range + 1)) y1_mask in
  Some (Ibp w0 n0 y0 y1 y0_mask y1_mask).

(* independent_bits.hpp:144-148: n before calc_params; a single-valued base
   engine has m = 0 and divides by zero *)
Definition ib_n (W w range : Z) : option Z :=
  let m := if range =? 2 ^ W - 1 then W else integer_log2 W (wrap W (range + 1)) in
  if m =? 0 then None else Some ((w + m - 1) / m).

(* independent_bits.hpp:148-157: the final n and parameters *)
Definition ib_params (W w range : Z) : option (Z * ibp) :=
  n <- ib_n W w range;;
  q <- ib_calc W w n range;;
  if ib_y0 q / n <? wrap W (range - ib_y0 q + 1) then
    q' <- ib_calc W w (n + 1) range;; Some (n + 1, q')
  else Some (n, q).

(* independent_bits.hpp:166-170, 175-179 and 182-186: one iteration of the
   rejection loop with limit y, and the masked value *)
Definition ib_att (tb : ity) (bmin y mask : Z) : prog (option Z) :=
  v <~ draw;;
  u <~ plift (usub tb v bmin);;
  PRet (if wrap (bits tb) (y - 1) <? u then None else Some (Z.land u mask)).

(* independent_bits.hpp:173-187: for(k = 0; k < count; ++k) { ...; S = (S << s) + ...; } *)
Fixpoint ib_loop (F : nat) (tb : ity) (bmin WU s y mask : Z) (count : nat) (S : Z) : prog Z :=
  match count with
  | O => PRet S
  | Datatypes.S c =>
      x <~ retry F (ib_att tb bmin y mask);;
      if WU <=? s then PUB
      else ib_loop F tb bmin WU s y mask c (wrap WU (wrap WU (S * 2 ^ s) + x))
  end.

(* independent_bits.hpp:137-189, operator(); F bounds each rejection loop *)
Definition ib_next (F : nat) (tb : ity) (bmin bmax WU w : Z) : prog Z :=
  range <~ plift (usub tb bmax bmin);;
  nq <~ plift (ib_params (bits tb) w range);;
  let n := fst nq in let q := snd nq in
  if n =? 1 then
    x <~ retry F (ib_att tb bmin (ib_y0 q) (ib_m0 q));; PRet (wrap WU x)
  else
    S <~ ib_loop F tb bmin WU (ib_w0 q) (ib_y0 q) (ib_m0 q) (Z.to_nat (ib_n0 q)) 0;;
    ib_loop F tb bmin WU (ib_w0 q + 1) (ib_y1 q) (ib_m1 q) (Z.to_nat (n - ib_n0 q)) S.

(* independent_bits.hpp:54-59, 241-244, min() and max() *)
Definition ib_min : Z := 0.
Definition ib_max (w : Z) : Z := 2 ^ w - 1.
