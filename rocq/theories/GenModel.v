(* detail/seed_impl.hpp: generate_from_int and generate_from_real, which implement
   engine.generate(first, last).

   The range [begin,end) has n elements; the words written so far are the list
   [out].  The engine has result_type tb and outputs in [bmin,bmax]; W is the
   width of unsigned_type.  Types narrower than int (32 bits) are promoted. *)
From Verif Require Import Base ProgModel UIntModel IbModel.

(* width of the promoted type, and conversion to it: the intermediate results
   for a narrow unsigned_type are values of type int that do not overflow *)
Definition pw (W : Z) : Z := Z.max 32 W.
Definition pr (W z : Z) : Z := if W <? 32 then z else wrap W z.

(* seed_impl.hpp:140-152; a shift by a negative amount is undefined *)
Definition gi_bits (W range : Z) : option Z :=
  let bits := if range =? 2 ^ W - 1 then W else integer_log2 (pw W) (pr W (range + 1)) in
  let discarded := integer_log2 32 bits in
  if bits - discarded <? 0 then None else
  let excess := wrap W (Z.shiftr (pr W (range + 1)) (bits - discarded)) in
  if excess =? 0 then Some bits
  else Some (bits - discarded + integer_log2 (pw W) (Z.lxor (pr W (excess - 1)) excess)).

(* seed_impl.hpp:154-155 *)
Definition gi_mask (W bits : Z) : option Z :=
  if (bits - 1 <? 0) || (pw W <=? bits - 1) then None else
  Some (wrap W (pr W (pr W (Z.shiftl 2 (bits - 1)) - 1))).
Definition gi_limit (W range mask : Z) : Z :=
  wrap W (pr W (Z.land (pr W (range + 1)) (pr W (Z.lnot mask)) - 1)).

(* seed_impl.hpp:159-161, one iteration of the do loop *)
Definition gi_attempt (tb : ity) (bmin range limit : Z) : prog (option Z) :=
  v <~ draw;; x <~ plift (usub tb v bmin);;
  PRet (if negb (limit =? range) && (limit <? x) then None else Some x).

(* *begin++ = w; undefined at the end of the range *)
Definition put (n : nat) (out : list Z) (w : Z) : option (list Z) :=
  if (length out <? n)%nat then Some (out ++ [w]) else None.
(* if(begin == end) return *)
Definition full (n : nat) (out : list Z) : bool := (length out =? n)%nat.

(* uint_least32_t: x << s, and x >> s for the promoted unsigned_type; shifts by
   the width or more (or negative) are undefined *)
Definition shl32 (x s : Z) : option Z := if (s <? 0) || (32 <=? s) then None else Some (wrap 32 (Z.shiftl x s)).
Definition shrW (W x s : Z) : option Z := if (s <? 0) || (pw W <=? s) then None else Some (Z.shiftr x s).

(* seed_impl.hpp:168-175 and 191-198: words taken from val.  Left: returned. *)
Fixpoint gi_words (W : Z) (n cnt : nat) (val : Z) (out : list Z) : option (list Z + Z * list Z) :=
  match cnt with
  | O => Some (inr (val, out))
  | S c =>
      let word := wrap 32 val in
      val <- shrW W val 32;;
      out <- put n out word;;
      if full n out then Some (inl out) else gi_words W n c val out
  end.

(* remaining_bits, saved_bits, words written *)
Record gst := Gst { g_rem : Z; g_saved : Z; g_out : list Z }.

(* seed_impl.hpp:182-189, inside the last branch: complete the word in saved_bits *)
Definition gi_complete (W bits : Z) (n : nat) (st : gst) (val : Z) : option (list Z + Z * Z * list Z) :=
  if (bits <? 32) || negb (g_rem st =? 0) then
    one <- shl32 1 (32 - g_rem st);;
    let extra := Z.land (wrap 32 val) (wrap 32 (one - 1)) in
    val <- shrW W val (32 - g_rem st);;
    hi <- shl32 extra (g_rem st);;
    out <- put n (g_out st) (Z.lor (g_saved st) hi);;
    if full n out then Some (inl out) else Some (inr (val, bits - (32 - g_rem st), out))
  else Some (inr (val, bits, g_out st)).

(* seed_impl.hpp:162-203, the body of the while loop after val has been drawn *)
Definition gi_body (W bits mask : Z) (n : nat) (st : gst) (val : Z) : option (list Z + gst) :=
  let val := Z.land val mask in
  if bits =? 32 then
    out <- put n (g_out st) (wrap 32 val);;
    if full n out then Some (inl out) else Some (inr (Gst (g_rem st) (g_saved st) out))
  else if bits mod 32 =? 0 then
    r <- gi_words W n (Z.to_nat (bits / 32)) val (g_out st);;
    match r with
    | inl out => Some (inl out)
    | inr (_, out) => Some (inr (Gst (g_rem st) (g_saved st) out))
    end
  else if (bits <? 32) && (bits <? 32 - g_rem st) then
    hi <- shl32 (wrap 32 val) (g_rem st);;
    Some (inr (Gst (g_rem st + bits) (Z.lor (g_saved st) hi) (g_out st)))
  else
    c <- gi_complete W bits n st val;;
    match c with
    | inl out => Some (inl out)
    | inr (val, avail, out) =>
        if 32 <=? bits then
          r <- gi_words W n (Z.to_nat (avail / 32)) val out;;
          match r with
          | inl out => Some (inl out)
          | inr (val, out) => Some (inr (Gst (avail - 32 * Z.of_nat (Z.to_nat (avail / 32))) (wrap 32 val) out))
          end
        else Some (inr (Gst avail (wrap 32 val) out))
    end.

(* seed_impl.hpp:157-204 and 94-128: while(true), with the code that draws val
   (it gets the fuel) and the rest of the body *)
Fixpoint gen_loop (fuel : nat) (dr : nat -> prog Z) (body : gst -> Z -> option (list Z + gst)) (st : gst) : prog (list Z) :=
  match fuel with
  | O => PFuel
  | S f =>
      val <~ dr fuel;;
      r <~ plift (body st val);;
      match r with
      | inl out => PRet out
      | inr st' => gen_loop f dr body st'
      end
  end.

(* seed_impl.hpp:131-205 *)
Definition generate_from_int (fuel : nat) (tb : ity) (bmin bmax : Z) (n : nat) : prog (list Z) :=
  range <~ plift (usub tb bmax bmin);;
  bits <~ plift (gi_bits (Base.bits tb) range);;
  mask <~ plift (gi_mask (Base.bits tb) bits);;
  gen_loop fuel (fun f => retry f (gi_attempt tb bmin range (gi_limit (Base.bits tb) range mask)))
    (gi_body (Base.bits tb) bits mask n) (Gst 0 0 []).

(* ---- generate_from_real.  Simplification: an output of the engine is a
   multiple of 2^-Bits, represented by the multiple, and the arithmetic with
   RealType is exact.  The variable val, which is multiplied and divided by
   powers of two only, is the pair (a, s) that stands for a / 2^s. ---- *)

(* boost::uint_least32_t(fmod(val, mult32)) and static_cast<uint_least32_t>(val):
   truncation; the latter is undefined when the value does not fit *)
Definition gr_low (v : Z * Z) : Z := Z.shiftr (fst v) (snd v) mod 2 ^ 32.
Definition gr_trunc (v : Z * Z) : option Z :=
  let x := Z.shiftr (fst v) (snd v) in if x <? 2 ^ 32 then Some x else None.

(* seed_impl.hpp:119-124 *)
Fixpoint gr_words (n cnt : nat) (v : Z * Z) (out : list Z) : option (list Z + (Z * Z) * list Z) :=
  match cnt with
  | O => Some (inr (v, out))
  | S c =>
      out' <- put n out (gr_low v);;
      if full n out' then Some (inl out') else gr_words n c (fst v, snd v + 32) out'
  end.

(* seed_impl.hpp:107-116 *)
Definition gr_complete (bits : Z) (n : nat) (st : gst) (v : Z * Z) : option (list Z + (Z * Z) * Z * list Z) :=
  if (bits <? 32) || negb (g_rem st =? 0) then
    divisor <- shl32 1 (32 - g_rem st);;
    let extra := Z.land (gr_low v) (wrap 32 (divisor - 1)) in
    hi <- shl32 extra (g_rem st);;
    out <- put n (g_out st) (Z.lor (g_saved st) hi);;
    if full n out then Some (inl out)
    else Some (inr ((fst v, snd v + (32 - g_rem st)), bits - (32 - g_rem st), out))
  else Some (inr (v, bits, g_out st)).

(* seed_impl.hpp:95-128 *)
Definition gr_body (bits : Z) (n : nat) (st : gst) (val : Z) : option (list Z + gst) :=
  let v := (val, 0) in
  if (bits <? 32) && (bits <? 32 - g_rem st) then
    x <- gr_trunc v;;
    hi <- shl32 x (g_rem st);;
    Some (inr (Gst (g_rem st + bits) (Z.lor (g_saved st) hi) (g_out st)))
  else
    c <- gr_complete bits n st v;;
    match c with
    | inl out => Some (inl out)
    | inr (v, avail, out) =>
        if 32 <=? bits then
          r <- gr_words n (Z.to_nat (avail / 32)) v out;;
          match r with
          | inl out => Some (inl out)
          | inr (v, out) => x <- gr_trunc v;; Some (inr (Gst (avail - 32 * Z.of_nat (Z.to_nat (avail / 32))) x out))
          end
        else x <- gr_trunc v;; Some (inr (Gst avail x out))
    end.

(* seed_impl.hpp:84-129 *)
Definition generate_from_real (fuel : nat) (bits : Z) (n : nat) : prog (list Z) :=
  gen_loop fuel (fun _ => draw) (gr_body bits n) (Gst 0 0 []).

(* seed_impl.hpp:49-72 and 74-82; digits is numeric_limits<T>::digits, unsigned
   has 32 digits.  Simplification: exact arithmetic. *)
Fixpoint const_pow_impl (fuel : nat) (N : Z) (arg n result : Z) : Z :=
  match fuel with
  | O => result
  | S f => if N =? 0 then result else const_pow_impl f (N / 2) (arg * arg) (n / 2) (if n mod 2 =? 0 then result else result * arg)
  end.
Definition const_pow (N arg n : Z) : Z := const_pow_impl (S (Z.to_nat N)) N arg n 1.
Definition pow2 (digits n : Z) : Z :=
  let multiplier := Z.shiftl 1 31 * 2 in
  Z.shiftl 1 (n mod 32) * const_pow (digits / 32) multiplier (n / 32).

(* rand48::generate (linear_congruential.hpp:410-416) and splitmix64::generate
   (splitmix64.hpp:173-180): each element is assigned an engine output *)
Fixpoint gen_plain (n : nat) : prog (list Z) :=
  match n with O => PRet [] | S k => v <~ draw;; r <~ gen_plain k;; PRet (v :: r) end.
