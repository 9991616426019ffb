(* detail/integer_log2.hpp, detail/large_arithmetic.hpp, detail/const_mod.hpp *)
From Verif Require Import Base.

(* ---- include/boost/random/detail/integer_log2.hpp ---- *)

(* integer_log2.hpp:35-68, integer_log2_impl<Shift>::apply; the template
   recursion on Shift = 2^k is recursion on k.  k = 0 is the specialisation
   integer_log2_impl<1> at lines 61-68. *)
Fixpoint log2_impl (k : nat) (t accum : Z) : Z :=
  match k with
  | O => Z.shiftr t 1 + accum
  | S k' =>
      let sh := 2 ^ Z.of_nat k in
      let update := if Z.shiftr t sh =? 0 then 0 else sh in
      log2_impl k' (Z.shiftr t update) (accum + update)
  end.

(* integer_log2.hpp:70-78, integer_log2 on uintmax_t (64 digits): the largest
   power of two below 64 is 32 = 2^5 *)
Definition integer_log2_64 (t : Z) : Z := log2_impl 5 t 0.

(* ---- include/boost/random/detail/large_arithmetic.hpp ---- *)

Definition Bs : Z := 2 ^ 32.
Definition mask32 : Z := Z.shiftl 1 32 - 1.
Definition lo32 (x : Z) : Z := Z.land x mask32.
Definition hi32 (x : Z) : Z := Z.land (Z.shiftr x 32) mask32.
Definition w64 (x : Z) : Z := x mod 2 ^ 64.

(* one row of the product loop, lines 51-62: adds ai * (b1,b0) at the position
   of digits (p0,p1,p2); digit_t is the 32 bit type *)
Definition mul_row (ai b0 b1 p0 p1 p2 : Z) : Z * Z * Z :=
  let t0 := w64 (ai * b0 + 0 + p0) in
  let p0' := lo32 t0 in
  let c0 := lo32 (Z.shiftr t0 32) in
  let t1 := w64 (ai * b1 + c0 + p1) in
  let p1' := lo32 t1 in
  let c1 := lo32 (Z.shiftr t1 32) in
  let p2' := if c1 =? 0 then p2 else lo32 (p2 + c1) in
  (p0', p1', p2').

(* one iteration of the division loop, lines 75-101.  [hd], [ld], [d] are
   product[i], product[i-1], product[i-2].  The result is the quotient digit
   and the new product[i-1], product[i-2]. *)
Definition div_step (m m0 m1 hd ld d : Z) : option (Z * Z * Z) :=
  let temp := Z.lor (Z.shiftl hd 32) ld in
  q <- (if hd =? m1 then Some mask32
        else if m1 =? 0 then None else Some (lo32 (temp / m1)));;
  let rem := w64 (Z.shiftl (w64 (temp - w64 (q * m1))) 32) in
  let rem := w64 (rem + d) in
  let diff := w64 (m0 * q) in
  let error := if rem <? diff then (if m <? diff - rem then 2 else 1) else 0 in
  let q := (q - error) mod Bs in
  let rem := w64 (rem + error * m - diff) in
  Some (q, hi32 rem, lo32 rem).

(* large_arithmetic.hpp:32-108; result (quotient, remainder) *)
Definition muldivmod (a b m : Z) : option (Z * Z) :=
  let shift := 63 - integer_log2_64 m in
  let a := w64 (Z.shiftl a shift) in
  let m := w64 (Z.shiftl m shift) in
  let a0 := lo32 a in let a1 := hi32 a in
  let b0 := lo32 b in let b1 := hi32 b in
  let m0 := lo32 m in let m1 := hi32 m in
  let '(p0, p1, p2) := mul_row a0 b0 b1 0 0 0 in
  let '(p1, p2, p3) := mul_row a1 b0 b1 p1 p2 0 in
  if m =? 0 then
    Some (Z.lor (Z.shiftl p3 32) p2, Z.shiftr (Z.lor (Z.shiftl p1 32) p0) shift)
  else
    r3 <- div_step m m0 m1 p3 p2 p1;;
    let '(q1, p2, p1) := r3 in
    r2 <- div_step m m0 m1 p2 p1 p0;;
    let '(q0, p1, p0) := r2 in
    Some (Z.lor (Z.shiftl q1 32) q0, Z.shiftr (Z.lor (Z.shiftl p1 32) p0) shift).

(* large_arithmetic.hpp:110-114 *)
Definition muldiv (a b m : Z) : option Z := r <- muldivmod a b m;; Some (fst r).
Definition mulmod (a b m : Z) : option Z := r <- muldivmod a b m;; Some (snd r).

(* ---- include/boost/random/detail/const_mod.hpp ---- *)

(* const_mod.hpp:149-156 *)
Definition unsigned_m (t : ity) (m : Z) : Z :=
  if m =? 0 then to_uns t (to_uns t (imax t) + 1) else to_uns t m.

(* the test ((unsigned_m() - 1) & unsigned_m()) == 0, lines 36, 47, 59, 75 *)
Definition cm_pow2 (t : ity) (m : Z) : bool :=
  Z.land (to_uns t (unsigned_m t m - 1)) (unsigned_m t m) =? 0.

(* x & (unsigned_m() - 1), converted back to IntType *)
Definition cm_mask (t : ity) (m x : Z) : Z :=
  cast t (Z.land (to_uns t x) (to_uns t (unsigned_m t m - 1))).

(* const_mod.hpp:34-43 *)
Definition cm_apply (t : ity) (m x : Z) : option Z :=
  if cm_pow2 t m then Some (cm_mask t m x) else remT t x m.

(* const_mod.hpp:45-55 *)
Definition cm_add (t : ity) (m x c : Z) : option Z :=
  if cm_pow2 t m then Some (cm_mask t m (to_uns t x + to_uns t c))
  else if c =? 0 then Some x
  else mc <- subT t m c;;
       if x <? mc then addT t x c else subT t x mc.

(* const_mod.hpp:141-147 *)
Definition cm_sub (t : ity) (m a b : Z) : option Z :=
  if a <? b then (d <- subT t b a;; subT t m d) else subT t a b.

(* const_mod.hpp:109-114 *)
Definition cm_mult_small (t : ity) (m a x : Z) : option Z :=
  p <- mulT t a x;; remT t p m.

(* const_mod.hpp:116-124 *)
Definition cm_mult_schrage (t : ity) (m a value : Z) : option Z :=
  q <- divT t m a;;
  r <- remT t m a;;
  v1 <- remT t value q;;
  v2 <- divT t value q;;
  s1 <- mulT t a v1;;
  s2 <- mulT t r v2;;
  cm_sub t m s1 s2.

(* const_mod.hpp:126-139; uintmax_t has 64 bits *)
Definition cm_mult_general (t : ity) (m a b : Z) : option Z :=
  if m =? 0 then None else
  if w64 m <=? (2 ^ 64 - 1) / w64 m
  then Some (cast t (w64 (w64 a * w64 b) mod w64 m))
  else r <- mulmod (w64 a) (w64 b) (w64 m);; Some (cast t r).

(* const_mod.hpp:57-71 *)
Definition cm_mult (t : ity) (m a x : Z) : option Z :=
  if cm_pow2 t m then Some (cm_mask t m (to_uns t a * to_uns t x))
  else if a =? 0 then Some 0
  else if a =? 1 then Some x
  else lim <- divT t (imax t) a;;
       if m <=? lim then cm_mult_small t m a x
       else ma <- remT t m a;;
            md <- divT t m a;;
            if sgn t && (ma <? md) then cm_mult_schrage t m a x
            else cm_mult_general t m a x.

(* const_mod.hpp:73-85 *)
Definition cm_mult_add (t : ity) (m a x c : Z) : option Z :=
  if cm_pow2 t m then Some (cm_mask t m (to_uns t a * to_uns t x + to_uns t c))
  else if a =? 0 then Some c
  else mc <- subT t (imax t) c;;
       lim <- divT t mc a;;
       if m <=? lim then (p <- mulT t a x;; s <- addT t p c;; remT t s m)
       else (p <- cm_mult t m a x;; cm_add t m p c).

(* const_mod.hpp:87-98; the while loop runs once per binary digit of the
   exponent, so recursion on its binary representation *)
Fixpoint pow_pos (mult : Z -> Z -> option Z) (result a : Z) (e : positive) : option Z :=
  match e with
  | xH => r <- mult result a;; _ <- mult a a;; Some r
  | xO e' => a2 <- mult a a;; pow_pos mult result a2 e'
  | xI e' => r <- mult result a;; a2 <- mult a a;; pow_pos mult r a2 e'
  end.
Definition cm_pow (t : ity) (m a e : Z) : option Z :=
  match e with
  | Z0 => Some 1
  | Zpos p => pow_pos (cm_mult t m) 1 a p
  | Zneg _ => None
  end.

(* const_mod.hpp:159-179, loop of invert_euclidian; None also stands for
   running out of fuel *)
Fixpoint cm_inv_loop (fuel : nat) (t : ity) (m l1 l2 n p : Z) : option Z :=
  match fuel with
  | O => None
  | S f =>
      q <- divT t p n;;
      l1 <- (x <- mulT t q l2;; addT t l1 x);;
      p <- (x <- mulT t q n;; subT t p x);;
      if p =? 0 then Some l2 else
      q2 <- divT t n p;;
      l2 <- (x <- mulT t q2 l1;; addT t l2 x);;
      n <- (x <- mulT t q2 p;; subT t n x);;
      if n =? 0 then subT t m l1 else cm_inv_loop f t m l1 l2 n p
  end.
Definition cm_invert_euclidian (t : ity) (m c : Z) : option Z :=
  cm_inv_loop 100 t m 0 1 c m.

(* const_mod.hpp:182-208, loop of invert_euclidian0 (m = 0).  The BOOST_ASSERT
   at line 193 is not part of the function (it is a no-op in release builds). *)
Fixpoint cm_inv0_loop (fuel : nat) (t : ity) (m l1 l2 n p : Z) : option Z :=
  match fuel with
  | O => None
  | S f =>
      if p =? 0 then Some l2 else
      q2 <- divT t n p;;
      l2 <- (x <- mulT t q2 l1;; addT t l2 x);;
      n <- (x <- mulT t q2 p;; subT t n x);;
      if n =? 0 then subT t m l1 else
      q <- divT t p n;;
      l1 <- (x <- mulT t q l2;; addT t l1 x);;
      p <- (x <- mulT t q n;; subT t p x);;
      cm_inv0_loop f t m l1 l2 n p
  end.
Definition cm_invert_euclidian0 (t : ity) (c : Z) : option Z :=
  if c =? 1 then Some 1 else
  let mx := imax t in
  q <- divT t mx c;;
  l1 <- (x <- mulT t q 1;; addT t 0 x);;
  p <- (x <- mulT t q c;; y <- subT t mx x;; addT t y 1);;
  cm_inv0_loop 100 t 0 l1 1 c p.

(* const_mod.hpp:100-101 *)
Definition cm_invert (t : ity) (m x : Z) : option Z :=
  if x =? 0 then Some 0
  else if m =? 0 then cm_invert_euclidian0 t x else cm_invert_euclidian t m x.
