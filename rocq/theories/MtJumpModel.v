(* include/boost/random/mersenne_twister.hpp: discard, discard_many and the
   functions that only discard_many uses.  D is the number of binary digits of
   polynomial_ops::digit_t (see PolyModel.v). *)
From Coq Require Import NArith.
From Verif Require Import Base RingModel MtModel PolyModel.
Open Scope nat_scope.

Section Jump.
Variable D : nat.

(* lines 409, 428, 469: num_bits = w*n - r *)
Definition num_bits (p : mtp) : nat := Z.to_nat (mw p) * mn p - Z.to_nat (mr p).

(* lines 415-416, 436-441, 460-461: if(i >= n) twist(); x[i++] & UIntType(1), as a bool *)
Definition mt_bit (p : mtp) (st : mt) : option (bool * mt) :=
  st <- (if mn p <=? mi st then x <- mt_twist p (mx st);; Some (Mt x 0) else Some st);;
  v <- get (mx st) (mi st);;
  Some (negb (Z.land v 1 =? 0)%Z, Mt (mx st) (S (mi st))).

(* lines 457-464, as_polynomial *)
Definition as_polynomial (p : mtp) (size : nat) (st : mt) : option (polynomial * mt) :=
  floop (fun j s =>
    b <- mt_bit p (snd s);; q <- p_set D (fst s) j (fst b);; Some (q, snd b)) 0 size (p_empty, st).

(* lines 476-479 *)
Definition rec_y (p : mtp) (y : Z) (b : bool) : Z :=
  if b then Z.lor (wrap (mW p) (Z.shiftl (Z.lxor y (ma p)) 1)) 1 else wrap (mW p) (Z.shiftl y 1).
(* lines 475-481 *)
Definition rec_step (p : mtp) (q : polynomial) (j : nat) (s : list Z * Z) : option (list Z * Z) :=
  u <- get (fst s) (j mod mn p);; v <- get (fst s) ((j + mm p) mod mn p);;
  b <- p_cget D q (j + 1 - mn p);;
  let y1 := rec_y p (Z.lxor u v) b in
  x <- upd (fst s) ((j + 1) mod mn p) (Z.lor (Z.land (snd s) (upper_mask p)) (Z.land y1 (lower_mask p)));;
  Some (x, y1).
(* lines 465-484, reconstruct_state; x is the array before the call.  The second
   loop runs from j = num_bits + 1 down to n - 1; j - n + 1 is computed modulo 2^64. *)
Definition reconstruct_state (p : mtp) (q : polynomial) (x : list Z) : option mt :=
  let nb := num_bits p in let n := mn p in
  x <- floop (fun t x => let j := nb - n + 1 + t in
         b <- p_cget D q j;; upd x (j mod n) (if b then 1 else 0)%Z) 0 n x;;
  s <- floop (fun t s => rec_step p q (nb + 1 - t) s) 0 (nb + 3 - n) (x, 0%Z);;
  Some (Mt (fst s) 0).

(* lines 447-453 (the body of the loop for j): phi and next_bits *)
Definition phi_step (p : mtp) (j : nat) (s : polynomial * polynomial) : option (polynomial * polynomial) :=
  let nb := num_bits p in
  a <- p_get D (snd s) j;; b <- p_get D (fst s) (nb - j - 1);;
  let val := xorb (fst a) (fst b) in
  phi <- p_set D (snd b) (nb - j - 1) val;;
  if val then
    floop (fun t s => let k := j + 1 + t in
      c <- p_get D (snd s) (k - j - 1);; phi <- p_xor D (fst s) (nb - k - 1) (fst c);;
      Some (phi, snd c)) 0 (nb - (j + 1)) (phi, snd a)
  else Some (phi, snd a).
(* lines 426-456, get_characteristic_polynomial; a failed assert is None *)
Definition characteristic_polynomial (p : mtp) : option polynomial :=
  let nb := num_bits p in
  helper <- p_set D p_empty (nb - 1) true;;
  tmp <- mt_seed p 5489;;
  tmp <- reconstruct_state p helper (mx tmp);;
  tmp <- floop (fun j st => b <- mt_bit p st;;
           if Bool.eqb (fst b) (j =? nb - 1) then Some (snd b) else None) 0 nb tmp;;
  phi <- p_set D p_empty nb true;;
  r <- as_polynomial p nb tmp;;
  s <- floop (phi_step p) 0 nb (phi, fst r);;
  Some (fst s).

(* lines 390-425, discard_many *)
Definition mt_discard_many (p : mtp) (z : N) (st : mt) : option mt :=
  let nb := num_bits p in
  phi <- characteristic_polynomial p;;
  g <- p_mod_pow_x D z phi;;
  h <- floop (fun j s =>
         b <- mt_bit p (snd s);; q <- p_set D (fst s) (2 * nb - j - 1) (fst b);; Some (q, snd b))
         0 (nb * 2) (p_empty, st);;
  gh <- p_mul D g (fst h);;
  r <- floop (fun j s =>
         b <- p_get D (fst s) (2 * nb - j - 1);; q <- p_set D (snd s) j (fst b);; Some (snd b, q))
         0 (nb + 1) (gh, p_empty);;
  reconstruct_state p (snd r) (mx (snd h)).

(* lines 203-215, discard; thr is BOOST_RANDOM_MERSENNE_TWISTER_DISCARD_THRESHOLD,
   which is 10000000 unless defined otherwise *)
Definition mt_discard (thr : Z) (p : mtp) (z : Z) (st : mt) : option mt :=
  if (thr <? z)%Z then mt_discard_many p (Z.to_N z) st else mt_discard_short p z st.
End Jump.
