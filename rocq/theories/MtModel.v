(* include/boost/random/mersenne_twister.hpp: mersenne_twister_engine.
   Simplifications: UIntType has W >= 32 binary digits (so that there are no
   integer promotions), and the template parameters are such that the shifts by
   constants are defined (r, u, s, t, l < W; see mt_params in MtSpec.v). *)
From Verif Require Import Base StreamModel RingModel.

(* lines 59-66: template parameters UIntType (W digits), w, n, m, r, a, u, d, s, b, t, c, l, f *)
Record mtp := Mtp { mW : Z; mw : Z; mn : nat; mm : nat; mr : Z; ma : Z; mu : Z; md : Z;
                    ms : Z; mb : Z; mt_ : Z; mc : Z; ml : Z; mf : Z }.

(* lines 491-492: UIntType x[n]; std::size_t i *)
Record mt := Mt { mx : list Z; mi : nat }.

(* (~static_cast<UIntType>(0)) << r, and its complement; lines 315-316, 348-349, 467-468, 536-537 *)
Definition mt_ones (p : mtp) : Z := 2 ^ mW p - 1.
Definition upper_mask (p : mtp) : Z := wrap (mW p) (Z.shiftl (mt_ones p) (mr p)).
Definition lower_mask (p : mtp) : Z := Z.lxor (mt_ones p) (upper_mask p).

(* the expression y and the value stored by the loop bodies of twist(), lines 546-547:
   y = (x[j] & upper_mask) | (x[j+1] & lower_mask);  x[..] ^ (y >> 1) ^ ((x[j+1]&1) * a) *)
Definition tw_val (p : mtp) (xj xj1 xo : Z) : Z :=
  let y := Z.lor (Z.land xj (upper_mask p)) (Z.land xj1 (lower_mask p)) in
  Z.lxor (Z.lxor xo (Z.shiftr y 1)) (wrap (mW p) (Z.land xj1 1 * ma p)).

(* lines 545-548 and 551-554: cnt iterations from j, reading x[j+m] *)
Fixpoint tw_loop_a (p : mtp) (cnt j : nat) (x : list Z) : option (list Z) :=
  match cnt with
  | O => Some x
  | S c => xj <- get x j;; xj1 <- get x (j + 1);; xo <- get x (j + mm p);;
           x' <- upd x j (tw_val p xj xj1 xo);; tw_loop_a p c (S j) x'
  end.
(* lines 557-560 and 563-566: reading x[j-(n-m)] *)
Fixpoint tw_loop_b (p : mtp) (cnt j : nat) (x : list Z) : option (list Z) :=
  match cnt with
  | O => Some x
  | S c => xj <- get x j;; xj1 <- get x (j + 1);; xo <- get x (j - (mn p - mm p));;
           x' <- upd x j (tw_val p xj xj1 xo);; tw_loop_b p c (S j) x'
  end.

(* lines 534-572, twist() without the final i = 0 *)
Definition mt_twist (p : mtp) (x : list Z) : option (list Z) :=
  let n := mn p in let m := mm p in
  let extra1 := ((n - m) mod 6)%nat in
  let extra2 := ((m - 1) mod 6)%nat in
  x <- tw_loop_a p (n - m - extra1) 0 x;;
  x <- tw_loop_a p extra1 (n - m - extra1) x;;
  x <- tw_loop_b p (n - 1 - extra2 - (n - m)) (n - m) x;;
  x <- tw_loop_b p extra2 (n - 1 - extra2) x;;
  xj <- get x (n - 1);; xj1 <- get x 0;; xo <- get x (m - 1);;
  upd x (n - 1) (tw_val p xj xj1 xo).

(* lines 589-593: the output function *)
Definition mt_temper (p : mtp) (z : Z) : Z :=
  let W := mW p in
  let z := Z.lxor z (Z.land (Z.shiftr z (mu p)) (md p)) in
  let z := Z.lxor z (Z.land (wrap W (Z.shiftl z (ms p))) (mb p)) in
  let z := Z.lxor z (Z.land (wrap W (Z.shiftl z (mt_ p))) (mc p)) in
  Z.lxor z (Z.shiftr z (ml p)).

(* lines 582-595, operator() *)
Definition mt_next (p : mtp) (st : mt) : option (Z * mt) :=
  st <- (if (mi st =? mn p)%nat then x <- mt_twist p (mx st);; Some (Mt x 0) else Some st);;
  z <- get (mx st) (mi st);;
  Some (mt_temper p z, Mt (mx st) (S (mi st))).

(* lines 317-322, 328-332, 350-355: undoing the matrix multiplication *)
Definition untwist (p : mtp) (y : Z) : Z :=
  let W := mW p in
  if Z.land y (Z.shiftl 1 (mw p - 1)) =? 0 then wrap W (Z.shiftl y 1)
  else Z.lor (wrap W (Z.shiftl (Z.lxor y (ma p)) 1)) 1.

(* lines 346-363, normalize_state() *)
Definition all_zero (x : list Z) : bool := forallb (fun v => v =? 0) x.
Definition mt_normalize (p : mtp) (x : list Z) : option (list Z) :=
  u <- get x (mm p - 1);; v <- get x (mn p - 1);;
  let y0 := untwist p (Z.lxor u v) in
  x0 <- get x 0;;
  x <- upd x 0 (Z.lor (Z.land x0 (upper_mask p)) (Z.land y0 (lower_mask p)));;
  if all_zero x then upd x 0 (Z.shiftl 1 (mw p - 1)) else Some x.

(* lines 149-153: x[i], x[i+1], ... (cnt words) after prev = x[i-1].  The
   multiplication is done in UIntType, the addition of the std::size_t i in 64 bits. *)
Fixpoint seed_words (p : mtp) (cnt : nat) (i : Z) (prev : Z) : list Z :=
  match cnt with
  | O => []
  | S c =>
      let v := wrap (mW p) (mf p * Z.lxor prev (Z.shiftr prev (mw p - 2))) in
      let v := Z.land (wrap 64 (v + i)) (2 ^ mw p - 1) in
      v :: seed_words p c (i + 1) v
  end.
(* lines 141-156, seed(value); value has been converted to UIntType.  max() is
   low_bits_mask_t<w>::sig_bits = 2^w - 1 (line 107) *)
Definition mt_seed (p : mtp) (value : Z) : option mt :=
  let x0 := Z.land (wrap (mW p) value) (2 ^ mw p - 1) in
  x <- mt_normalize p (x0 :: seed_words p (mn p - 1) 1 x0);;
  Some (Mt x (mn p)).

(* lines 162-167 (seed(seq)) and 171-177 (seed(first, last)) after the array
   has been filled by seed_array_int / fill_array_int *)
Definition mt_seed_array (p : mtp) (arr : list Z) : option mt :=
  x <- mt_normalize p arr;; Some (Mt x (mn p)).

(* lines 203-214, discard for z up to the threshold *)
Definition mt_discard_short (p : mtp) (z : Z) (st : mt) : option mt :=
  iterM (Z.to_nat z) (fun st => r <- mt_next p st;; Some (snd r)) st.

(* lines 370-379, rewind_find.  The array whose last element is [last] is the
   list [back] of the elements written so far: nth k back = *(last - k). *)
Definition rewind_find (p : mtp) (x back : list Z) (size j : nat) : option Z :=
  let n := mn p in
  let index := ((j + n - size + n - 1) mod n)%nat in
  if (index <? n - size)%nat then get x index else get back (n - 1 - index).

(* lines 323-335: the loop of rewind, cnt iterations from sz *)
Fixpoint rewind_loop (p : mtp) (x : list Z) (cnt sz : nat) (y0 : Z) (back : list Z) : option (list Z) :=
  match cnt with
  | O => Some back
  | S c =>
      u <- rewind_find p x back sz (mm p - 1);; v <- rewind_find p x back sz (mn p - 1);;
      let y1 := untwist p (Z.lxor u v) in
      rewind_loop p x c (S sz) y1
        (back ++ [Z.lor (Z.land y0 (upper_mask p)) (Z.land y1 (lower_mask p))])
  end.
(* lines 313-336, rewind(last, z) *)
Definition mt_rewind (p : mtp) (x : list Z) (z : nat) : option (list Z) :=
  u <- get x (mm p - 1);; v <- get x (mn p - 1);;
  rewind_loop p x z 0 (untwist p (Z.lxor u v)) [].

(* lines 294-307, print: the words data[0..n-1] in the order in which they are
   written; data[n-i-1-k] = *(last - k) *)
Definition mt_print (p : mtp) (st : mt) : option (list Z) :=
  if (mi st =? mn p)%nat then Some (firstn (mi st) (mx st))
  else back <- mt_rewind p (mx st) (mn p - mi st);; Some (rev back ++ firstn (mi st) (mx st)).
Definition mt_write (p : mtp) (st : mt) : option (list tok) := d <- mt_print p st;; Some (map TInt d).

(* lines 231-243, operator>> *)
Definition mt_read (p : mtp) (st : mt) (s : istr) : mt * istr :=
  let '(x, s') := read_arr (Ity (mW p) false) (mn p) 0 (mx st) s in (Mt x (mn p), s').

(* lines 279-281: compares x[j] with other[j+off], cnt iterations from j *)
Fixpoint eq_loop1 (x other : list Z) (off cnt j : nat) : option bool :=
  match cnt with
  | O => Some true
  | S c => a <- get x j;; b <- get other (j + off);;
           if a =? b then eq_loop1 x other off c (S j) else Some false
  end.
(* lines 283-285: compares back[j+n-off] = *(last - (off-1-j)) with other[j] *)
Fixpoint eq_loop2 (back other : list Z) (off cnt j : nat) : option bool :=
  match cnt with
  | O => Some true
  | S c => a <- get back (off - 1 - j);; b <- get other j;;
           if a =? b then eq_loop2 back other off c (S j) else Some false
  end.
(* lines 275-287, equal_imp *)
Definition equal_imp (p : mtp) (a b : mt) : option bool :=
  let off := (mi b - mi a)%nat in
  e <- eq_loop1 (mx a) (mx b) off (mn p - off) 0;;
  if e then (back <- mt_rewind p (mx a) off;; eq_loop2 back (mx b) off off 0) else Some false.
(* lines 248-253, operator== *)
Definition mt_eq (p : mtp) (a b : mt) : option bool :=
  if (mi a <? mi b)%nat then equal_imp p a b else equal_imp p b a.

(* lines 609-610, 625-626 and 636-638: the typedefs *)
Definition mt11213b := Mtp 32 32 351 175 19 0xccab8ee7 11 0xffffffff 7 0x31b6ab00 15 0xffe50000 17 1812433253.
Definition mt19937 := Mtp 32 32 624 397 31 0x9908b0df 11 0xffffffff 7 0x9d2c5680 15 0xefc60000 18 1812433253.
Definition mt19937_64 :=
  Mtp 64 64 312 156 31 0xb5026f5aa96619e9 29 0x5555555555555555 17 0x71d67fffeda60000 37 0xfff7eee000000000
      43 6364136223846793005.
