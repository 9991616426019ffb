(* include/boost/random/detail/polynomial.hpp.

   digit_t (unsigned long, line 29) has W binary digits: 64 or 32.  A digit is an
   N below 2^W.  A pointer is an array with an index; an access outside the array,
   a shift by W or more and a loop that runs out of fuel are the outcome None.
   std::size_t does not overflow (sizes are nat). *)
From Verif Require Import Base.
From Coq Require Import NArith.
Open Scope nat_scope.

Definition rd {A} (x : list A) (i : nat) : option A := nth_error x i.
Fixpoint wr {A} (x : list A) (i : nat) (v : A) : option (list A) :=
  match x, i with
  | [], _ => None
  | _ :: t, O => Some (v :: t)
  | h :: t, S j => t' <- wr t j v;; Some (h :: t')
  end.
(* for(std::size_t i = 0; i < cnt; ++i) body *)
Fixpoint floop {S} (body : nat -> S -> option S) (i cnt : nat) (s : S) : option S :=
  match cnt with
  | O => Some s
  | Datatypes.S c => s' <- body i s;; floop body (Datatypes.S i) c s'
  end.

Section Poly.
Variable W : nat.

(* the W low-order bits *)
Definition trunc (x : N) : N := (x mod 2 ^ N.of_nat W)%N.
(* x << s and x >> s in digit_t *)
Definition dshl (x : N) (s : nat) : option N :=
  if s <? W then Some (trunc (N.shiftl x (N.of_nat s))) else None.
Definition dshr (x : N) (s : nat) : option N :=
  if s <? W then Some (N.shiftr x (N.of_nat s)) else None.
(* ~x *)
Definition dnot (x : N) : N := N.lxor x (N.ones (N.of_nat W)).
(* x - 1 *)
Definition dpred (x : N) : N := trunc (x + N.ones (N.of_nat W)).

(* lines 31-37, add, when output is neither lhs nor rhs *)
Definition add3 (size : nat) (lhs : list N) (lo : nat) (rhs : list N) (ro : nat)
                (out : list N) (oo : nat) : option (list N) :=
  floop (fun i out => a <- rd lhs (lo + i);; b <- rd rhs (ro + i);; wr out (oo + i) (N.lxor a b)) 0 size out.
(* lines 31-37, add, when output is one of the operands; src is the other one *)
Definition add_to (size : nat) (src : list N) (so : nat) (out : list N) (oo : nat) : option (list N) :=
  floop (fun i out => a <- rd src (so + i);; b <- rd out (oo + i);; wr out (oo + i) (N.lxor a b)) 0 size out.

(* lines 39-54, add_shifted_inplace *)
Definition add_shifted (size : nat) (lhs : list N) (lo : nat) (out : list N) (oo shift : nat) : option (list N) :=
  if shift =? 0 then add_to size lhs lo out oo else
  s <- floop (fun i s =>
         tmp <- rd lhs (lo + i);;
         h <- dshl tmp shift;; l <- dshr (snd s) (W - shift);;
         b <- rd (fst s) (oo + i);;
         out <- wr (fst s) (oo + i) (N.lxor b (N.lor h l));;
         Some (out, tmp)) 0 size (out, 0%N);;
  l <- dshr (snd s) (W - shift);;
  b <- rd (fst s) (oo + size);;
  wr (fst s) (oo + size) (N.lxor b l).

(* std::fill_n(output, n, 0); also lines 60-62 *)
Definition fill0 (n : nat) (out : list N) (oo : nat) : option (list N) :=
  floop (fun i out => wr out (oo + i) 0%N) 0 n out.

(* lines 56-70, multiply_simple *)
Definition mul_simple (size : nat) (lhs : list N) (lo : nat) (rhs : list N) (ro : nat)
                      (out : list N) (oo : nat) : option (list N) :=
  out <- fill0 (2 * size) out oo;;
  floop (fun i out =>
    floop (fun j out =>
      x <- rd lhs (lo + i);; mask <- dshl 1 j;;
      if (N.land x mask =? 0)%N then Some out
      else add_shifted size rhs ro out (oo + i) j) 0 W out) 0 size out.

(* lines 73-98, multiply_karatsuba; fuel bounds the depth of the recursion *)
Fixpoint mul_karatsuba (fuel size : nat) (lhs : list N) (lo : nat) (rhs : list N) (ro : nat)
                       (out : list N) (oo : nat) : option (list N) :=
  match fuel with
  | O => None
  | S fuel =>
    if size <? 64 then mul_simple size lhs lo rhs ro out oo else
    let cutoff := size / 2 in
    let rest := size - cutoff in
    out <- mul_karatsuba fuel cutoff lhs lo rhs ro out oo;;
    out <- mul_karatsuba fuel rest lhs (lo + cutoff) rhs (ro + cutoff) out (oo + cutoff * 2);;
    local1 <- add3 cutoff lhs lo lhs (lo + cutoff) (repeat 0%N rest) 0;;
    local1 <- (if Nat.odd size then x <- rd lhs (lo + (size - 1));; wr local1 cutoff x else Some local1);;
    local2 <- add3 cutoff rhs (ro + cutoff) rhs ro (repeat 0%N rest) 0;;
    local2 <- (if Nat.odd size then x <- rd rhs (ro + (size - 1));; wr local2 cutoff x else Some local2);;
    local3 <- mul_karatsuba fuel rest local1 0 local2 0 (repeat 0%N (rest * 2)) 0;;
    local3 <- add_to (cutoff * 2) out oo local3 0;;
    local3 <- add_to (rest * 2) out (oo + cutoff * 2) local3 0;;
    add_to (rest * 2) local3 0 out (oo + cutoff)
  end.

(* lines 101-108, multiply_add_karatsuba *)
Definition mul_add_karatsuba (size : nat) (lhs : list N) (lo : nat) (rhs : list N) (ro : nat)
                             (out : list N) (oo : nat) : option (list N) :=
  buf <- mul_karatsuba (S size) size lhs lo rhs ro (repeat 0%N (size * 2)) 0;;
  add_to (size * 2) buf 0 out oo.

(* lines 118-136, multiply_add; fuel bounds the number of iterations *)
Fixpoint mul_add (fuel : nat) (lhs : list N) (lo ls : nat) (rhs : list N) (ro rs : nat)
                 (out : list N) (oo : nat) : option (list N) :=
  if ls =? 0 then Some out else
  match fuel with
  | O => None
  | S fuel =>
    if ls <? rs then
      out <- mul_add_karatsuba ls rhs ro lhs lo out oo;;
      mul_add fuel rhs (ro + ls) (rs - ls) lhs lo ls out (oo + ls)
    else
      out <- mul_add_karatsuba rs lhs lo rhs ro out oo;;
      mul_add fuel lhs (lo + rs) (ls - rs) rhs ro rs out (oo + rs)
  end.
(* lines 110-116, multiply *)
Definition multiply (fuel : nat) (lhs rhs out : list N) : option (list N) :=
  out <- fill0 (length lhs + length rhs) out 0;;
  mul_add fuel lhs 0 (length lhs) rhs 0 (length rhs) out 0.

(* lines 138-164, copy_bits *)
Definition copy_bits (x : list N) (low high : nat) (out : list N) : option (list N) :=
  let offset := low / W in
  let low := low - offset * W in
  let high := high - offset * W in
  let n := (high - low) / W in
  out <- (if low =? 0 then
            floop (fun i out => a <- rd x (offset + i);; wr out i a) 0 n out
          else
            floop (fun i out =>
              a <- rd x (offset + i);; a <- dshr a low;;
              b <- rd x (offset + (i + 1));; b <- dshl b (W - low);;
              wr out i (N.lor a b)) 0 n out);;
  if (high - low) mod W =? 0 then Some out else
  one <- dshl 1 ((high - low) mod W);;
  let low_mask := dpred one in
  a <- rd x (offset + n);;
  result <- dshr a low;;
  result <- (if negb (low =? 0) && ((n + 1) * W <? high) then
               b <- rd x (offset + (n + 1));; b <- dshl b (W - low);; Some (N.lor result b)
             else Some result);;
  wr out n (N.land result low_mask).

(* lines 166-177, shift_left *)
Definition shift_left (val : list N) (size shift : nat) : option (list N) :=
  s <- floop (fun i s =>
         tmp <- rd (fst s) i;;
         l <- dshr (snd s) (W - shift);; h <- dshl tmp shift;;
         val <- wr (fst s) i (N.lor l h);;
         Some (val, tmp)) 0 size (val, 0%N);;
  Some (fst s).

(* lines 179-188, sqr(digit_t): the loop for i = i0, i0/2, ..., 2; W is a power of
   two, so that fuel = log2 W + 1 suffices *)
Fixpoint sqr_loop (fuel i : nat) (val mask : N) : option N :=
  match fuel with
  | O => None
  | S fuel =>
    if i <=? 1 then Some val else
    a <- dshl (N.land val (dnot mask)) (i / 2);;
    let val := N.lor a (N.land val mask) in
    b <- dshr mask (i / 4);;
    let mask := N.land mask b in
    c <- dshl mask (i / 2);;
    sqr_loop fuel (i / 2) val (N.lor mask c)
  end.
Definition half_mask : option N := one <- dshl 1 (W / 2);; Some (dpred one).
Definition sqr_digit (val : N) : option N := mask <- half_mask;; sqr_loop (S W) W val mask.

(* lines 190-199, sqr(digit_t *, size) *)
Definition sqr_array (val : list N) (size : nat) : option (list N) :=
  mask <- half_mask;;
  floop (fun i val =>
    x <- rd val (size - i - 1);;
    a <- sqr_digit (N.land x mask);;
    val <- wr val ((size - i - 1) * 2) a;;
    y <- dshr x (W / 2);;
    b <- sqr_digit y;;
    wr val ((size - i - 1) * 2 + 1) b) 0 size val.

(* lines 239-243; _lower_bits is never read *)
Record smod := Smod { sm_pq : list N; sm_rem : nat; sm_block : nat; sm_bits : list nat }.

(* lines 203-223, the constructor of sparse_mod.  _bit_indices.pop_back() on an
   empty vector is undefined; BOOST_ASSERT (line 212) is not modelled. *)
Definition sparse_mod (divisor : list N) (divisor_bits : nat) : option smod :=
  idx <- floop (fun i idx =>
           d <- rd divisor (i / W);; mask <- dshl 1 (i mod W);;
           Some (if (N.land d mask =? 0)%N then idx else idx ++ [i])) 0 divisor_bits [];;
  if length idx =? 0 then None else
  let idx := removelast idx in
  let block := if length idx =? 0 then divisor_bits else divisor_bits - last idx 0 - 1 in
  Some (Smod (repeat 0%N ((block + W - 1) / W)) (divisor_bits - 1) block idx).

(* lines 224-238, operator(); fuel bounds the number of iterations.  The
   _partial_quotient left over from the last call is kept. *)
Fixpoint sm_apply (fuel : nat) (sm : smod) (dividend : list N) (dividend_bits : nat) : option (list N * smod) :=
  if dividend_bits <=? sm_rem sm then Some (dividend, sm) else
  match fuel with
  | O => None
  | S fuel =>
    let block_start := Nat.max (dividend_bits - sm_block sm) (sm_rem sm) in
    let block_size := (dividend_bits - block_start + W - 1) / W in
    pq <- copy_bits dividend block_start dividend_bits (sm_pq sm);;
    dividend <- floop (fun i dividend =>
        b <- rd (sm_bits sm) i;;
        let pos := b + block_start - sm_rem sm in
        add_shifted block_size pq 0 dividend (pos / W) (pos mod W)) 0 (length (sm_bits sm)) dividend;;
    dividend <- add_shifted block_size pq 0 dividend (block_start / W) (block_start mod W);;
    sm_apply fuel (Smod pq (sm_rem sm) (sm_block sm) (sm_bits sm)) dividend block_start
  end.

(* lines 259-262: the highest bit set of exponent, from bit i downwards *)
Fixpoint high_bit (exponent : N) (i : nat) : nat :=
  if N.testbit exponent (N.of_nat i) then i else match i with O => O | S j => high_bit exponent j end.
(* lines 266-274, the loop while(i--) *)
Fixpoint pow_loop (i : nat) (exponent : N) (md : list N) (mod_bits : nat) (sm : smod) (out : list N) : option (list N) :=
  match i with
  | O => Some out
  | S i =>
    let n := (mod_bits + W - 1) / W in
    let highbit := mod_bits - 1 in
    out <- sqr_array out n;;
    r <- sm_apply (2 * mod_bits) sm out (2 * mod_bits - 1);;
    let out := fst r in
    out <- (if N.testbit exponent (N.of_nat i) then
              out <- shift_left out n 1;;
              d <- rd out (highbit / W);; mask <- dshl 1 (highbit mod W);;
              if (N.land d mask =? 0)%N then Some out else add_to n md 0 out 0
            else Some out);;
    pow_loop i exponent md mod_bits (snd r) out
  end.
(* lines 249-275, mod_pow_x; uintmax_t has 64 binary digits *)
Definition ops_mod_pow_x (exponent : N) (md : list N) (mod_bits : nat) (out : list N) : option (list N) :=
  let n := (mod_bits + W - 1) / W in
  if (exponent =? 0)%N then
    out <- wr out 0 1%N;; fill0 (n - 1) out 1
  else
    let i := high_bit exponent 63 in
    out <- wr out 0 2%N;;
    out <- fill0 (n - 1) out 1;;
    sm <- sparse_mod md mod_bits;;
    pow_loop i exponent md mod_bits sm out.

(* class polynomial, lines 278-355 *)
Record polynomial := Polynomial { p_storage : list N; p_size : nat }.
(* line 282 *)
Definition p_empty : polynomial := Polynomial [] 0.
(* lines 329-338, resize; back() on an empty vector is undefined *)
Definition p_resize (p : polynomial) (n : nat) : option polynomial :=
  let len := (n + W - 1) / W in
  let st := firstn len (p_storage p) ++ repeat 0%N (len - length (p_storage p)) in
  if n mod W =? 0 then Some (Polynomial st n) else
  if len =? 0 then None else
  one <- dshl 1 (n mod W);;
  b <- rd st (len - 1);;
  st <- wr st (len - 1) (N.land b (dpred one));;
  Some (Polynomial st n).
(* lines 344-349, ensure_bit *)
Definition p_ensure (p : polynomial) (i : nat) : option polynomial :=
  if p_size p <=? i then p_resize p (i + 1) else Some p.
(* lines 311-316 and 287: the value of this[i]; may grow the polynomial *)
Definition p_get (p : polynomial) (i : nat) : option (bool * polynomial) :=
  p <- p_ensure p i;;
  d <- rd (p_storage p) (i / W);; mask <- dshl 1 (i mod W);;
  Some (negb (N.land d mask =? 0)%N, p).
(* lines 311-316 and 288-296: this[i] = b *)
Definition p_set (p : polynomial) (i : nat) (b : bool) : option polynomial :=
  p <- p_ensure p i;;
  d <- rd (p_storage p) (i / W);; mask <- dshl 1 (i mod W);;
  st <- wr (p_storage p) (i / W) (if b then N.lor d mask else N.land d (dnot mask));;
  Some (Polynomial st (p_size p)).
(* lines 311-316 and 297-301: this[i] ^= b *)
Definition p_xor (p : polynomial) (i : nat) (b : bool) : option polynomial :=
  p <- p_ensure p i;;
  d <- rd (p_storage p) (i / W);; mask <- dshl (if b then 1 else 0)%N (i mod W);;
  st <- wr (p_storage p) (i / W) (N.lxor d mask);;
  Some (Polynomial st (p_size p)).
(* lines 317-324, operator[] const *)
Definition p_cget (p : polynomial) (i : nat) : option bool :=
  if i <? p_size p then
    d <- rd (p_storage p) (i / W);; mask <- dshl 1 (i mod W);; Some (negb (N.land d mask =? 0)%N)
  else Some false.
(* lines 350-354, normalize; fuel bounds the number of iterations *)
Fixpoint p_normalize (fuel : nat) (p : polynomial) : option polynomial :=
  if p_size p =? 0 then Some p else
  b <- p_get p (p_size p - 1);;
  if fst b then Some (snd b) else
  match fuel with
  | O => None
  | S fuel => p <- p_resize (snd b) (p_size (snd b) - 1);; p_normalize fuel p
  end.
(* lines 357-366, operator*; &_storage[0] of an empty vector is undefined *)
Definition p_mul (l r : polynomial) : option polynomial :=
  let ls := p_storage l in let rs := p_storage r in
  if (length ls =? 0) || (length rs =? 0) then None else
  out <- multiply (length ls + length rs) ls rs (repeat 0%N (length ls + length rs));;
  Some (Polynomial out (p_size l + p_size r)).
(* lines 368-378, mod_pow_x *)
Definition p_mod_pow_x (exponent : N) (md : polynomial) : option polynomial :=
  md <- p_normalize (p_size md) md;;
  if length (p_storage md) =? 0 then None else
  out <- ops_mod_pow_x exponent (p_storage md) (p_size md) (repeat 0%N (length (p_storage md) * 2));;
  p_resize (Polynomial out (p_size md * 2)) (p_size md - 1).
End Poly.
