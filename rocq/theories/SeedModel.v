(* detail/seed_impl.hpp: seeding from an iterator range or a seed sequence, and
   the seed functions of the engines that use it.

   An iterator range is the list of its elements; "first" advances by dropping
   elements.  A seed sequence is the function that maps a length to the words
   written by generate.  Throwing std::invalid_argument is the inner None of the
   result, undefined behaviour the outer None. *)
From Verif Require Import Base ArithModel LcgModel RingModel SwcModel LfModel MtModel LfsModel AdaptModel MixModel.

(* numeric_limits<IntType>::digits *)
Definition digits (t : ity) : Z := if sgn t then bits t - 1 else bits t.

(* seed_impl.hpp:227-229 and 246-248; boost::static_log2 is not part of this
   library, it rounds down.  m = 1 does not compile (shift by -1). *)
Definition one_log (t : ity) (m : Z) : Z := if m =? 0 then digits t else Z.log2 m.

(* seed_impl.hpp:230-231 and 249-250 *)
Definition one_k (t : ity) (m : Z) : Z :=
  let log := one_log t m in
  (log + (if Z.land (Z.lnot (cast t (Z.shiftl 2 (log - 1)))) m =? 0 then 31 else 32)) / 32.

(* seed_impl.hpp:236-238 and 256-258, body of the loop for element e; a shift by
   the width or more is undefined *)
Definition one_step (t : ity) (m j e s : Z) : option Z :=
  digit <- cm_apply t m (cast t e);;
  if bits t <=? 32 * j then None else
  cm_mult_add t m (cast t (Z.shiftl 1 (32 * j))) digit s.

(* seed_impl.hpp:251-259 *)
Fixpoint get_one_loop (t : ity) (m : Z) (cnt : nat) (j s : Z) (l : list Z) : option (option Z * list Z) :=
  match cnt with
  | O => Some (Some s, l)
  | S c =>
      match l with
      | [] => Some (None, [])
      | e :: l' => s' <- one_step t m j e s;; get_one_loop t m c (j + 1) s' l'
      end
  end.
(* seed_impl.hpp:243-261 *)
Definition get_one_int (t : ity) (m : Z) (l : list Z) : option (option Z * list Z) :=
  get_one_loop t m (Z.to_nat (one_k t m)) 0 0 l.

(* seed_impl.hpp:234-239 *)
Fixpoint seed_one_loop (t : ity) (m : Z) (array : list Z) (cnt j : nat) (s : Z) : option Z :=
  match cnt with
  | O => Some s
  | S c => e <- get array (j + 3);; s' <- one_step t m (Z.of_nat j) e s;; seed_one_loop t m array c (S j) s'
  end.
(* seed_impl.hpp:224-241; writing past the end of array is undefined *)
Definition seed_one_int (t : ity) (m : Z) (gen : nat -> list Z) : option Z :=
  let k := one_k t m in
  if one_log t m / 32 + 4 <? k + 3 then None else
  seed_one_loop t m (gen (Z.to_nat (k + 3))) (Z.to_nat k) 0 0.

(* (w+31)/32, seed_impl.hpp:267, 268, 271 and 303 *)
Definition wpw (w : Z) : Z := (w + 31) / 32.

(* seed_impl.hpp:302-308, the words of one element; W is the width of UIntType *)
Fixpoint fill_word (W : Z) (cnt : nat) (k val : Z) (l : list Z) : option Z * list Z :=
  match cnt with
  | O => (Some val, l)
  | S c =>
      match l with
      | [] => (None, [])
      | e :: l' => fill_word W c (k + 1) (wrap W (val + wrap W (Z.shiftl (wrap W e) (32 * k)))) l'
      end
  end.
(* seed_impl.hpp:298-311; x is the array before the call.  The result is the
   array after it and the rest of the range, None for a throw. *)
Fixpoint fill_array_int (W w : Z) (x l : list Z) : list Z * option (list Z) :=
  match x with
  | [] => ([], Some l)
  | old :: x' =>
      match fill_word W (Z.to_nat (wpw w)) 0 0 l with
      | (None, _) => (old :: x', None)
      | (Some val, l') =>
          let '(y, r) := fill_array_int W w x' l' in (Z.land val (2 ^ w - 1) :: y, r)
      end
  end.

(* seed_impl.hpp:270-273 *)
Fixpoint seed_word (W : Z) (storage : list Z) (base : nat) (cnt k : nat) (val : Z) : option Z :=
  match cnt with
  | O => Some val
  | S c =>
      e <- get storage (base + k);;
      seed_word W storage base c (S k) (wrap W (val + wrap W (Z.shiftl (wrap W e) (32 * Z.of_nat k))))
  end.
(* seed_impl.hpp:269-275 *)
Fixpoint seed_words_loop (W w : Z) (storage : list Z) (cnt j : nat) : option (list Z) :=
  match cnt with
  | O => Some []
  | S c' =>
      v <- seed_word W storage (Z.to_nat (wpw w) * j) (Z.to_nat (wpw w)) 0 0;;
      r <- seed_words_loop W w storage c' (S j);;
      Some (Z.land v (2 ^ w - 1) :: r)
  end.
(* seed_impl.hpp:264-276; n is the size of the array *)
Definition seed_array_int (W w : Z) (n : nat) (gen : nat -> list Z) : option (list Z) :=
  seed_words_loop W w (gen (Z.to_nat (wpw w) * n)%nat) n 0.

(* seed_impl.hpp:373-379.  Simplification: as in SwcModel and LfModel a RealType
   value is represented by its multiple of 2^-w and the arithmetic is exact;
   [mult] is 2^(32k). *)
Fixpoint fill_word_real (cnt : nat) (mult val : Z) (l : list Z) : option (Z * Z) * list Z :=
  match cnt with
  | O => (Some (val, mult), l)
  | S c =>
      match l with
      | [] => (None, [])
      | e :: l' => fill_word_real c (mult * 2 ^ 32) (val + e * mult) l'
      end
  end.
(* seed_impl.hpp:368 *)
Definition real_mask (w : Z) : Z := wrap 32 (Z.lnot (wrap 32 (Z.shiftl (2 ^ 32 - 1) (w mod 32)))).
(* seed_impl.hpp:365-389 *)
Fixpoint fill_array_real (w : Z) (x l : list Z) : list Z * option (list Z) :=
  match x with
  | [] => ([], Some l)
  | old :: x' =>
      match fill_word_real (Z.to_nat (w / 32)) 1 0 l with
      | (None, _) => (old :: x', None)
      | (Some (val, mult), l') =>
          if real_mask w =? 0 then
            let '(y, r) := fill_array_real w x' l' in (val :: y, r)
          else
            match l' with
            | [] => (old :: x', None)
            | e :: l'' =>
                let '(y, r) := fill_array_real w x' l'' in
                (val + Z.land e (real_mask w) * mult :: y, r)
            end
      end
  end.

(* ---- the engines' seed(first, last); the result is the engine and the rest of
   the range, None inside for a throw ---- *)

(* linear_congruential.hpp:163-165 *)
Definition lcg_seed_range (t : ity) (a c m : Z) (l : list Z) : option (option Z * list Z) :=
  r <- get_one_int t m l;;
  match r with
  | (Some v, l') => x <- lcg_seed t a c m v;; Some (Some x, l')
  | (None, l') => Some (None, l')
  end.
(* linear_congruential.hpp:152-153 *)
Definition lcg_seed_seq (t : ity) (a c m : Z) (gen : nat -> list Z) : option Z :=
  v <- seed_one_int t m gen;; lcg_seed t a c m v.

(* inversive_congruential.hpp:156-158 *)
Definition icg_seed_range (t : ity) (a b p : Z) (l : list Z) : option (option Z * list Z) :=
  r <- get_one_int t p l;;
  match r with
  | (Some v, l') => x <- icg_seed t a b p v;; Some (Some x, l')
  | (None, l') => Some (None, l')
  end.

(* linear_feedback_shift.hpp:110-114; (UIntType(2) << (w - 1)) *)
Definition lfs_seed_range (p : lfp) (l : list Z) : option (option Z * list Z) :=
  r <- get_one_int (Ity (lW p) false) (wrap (lW p) (Z.shiftl 2 (lw p - 1))) l;;
  match r with
  | (Some v, l') => x <- lfs_seed p v;; Some (Some x, l')
  | (None, l') => Some (None, l')
  end.

(* subtract_with_carry.hpp:183-189 (integers) and 415-421; after a throw the
   array is partly overwritten *)
Definition swc_after (r : nat) (st : swc) (q : list Z * option (list Z)) : option (swc * option (list Z)) :=
  match snd q with
  | None => Some (Swc (fst q) (kk st) (cy st), None)
  | Some l => x <- get (fst q) (r - 1);; Some (Swc (fst q) 0 (if x =? 0 then 1 else 0), Some l)
  end.
Definition swc_seed_range (W w : Z) (r : nat) (st : swc) (l : list Z) : option (swc * option (list Z)) :=
  swc_after r st (fill_array_int W w (xs st) l).
Definition swc01_seed_range (w : Z) (r : nat) (st : swc) (l : list Z) : option (swc * option (list Z)) :=
  swc_after r st (fill_array_real w (xs st) l).
(* subtract_with_carry.hpp:170-175 *)
Definition swc_seed_seq (W w : Z) (r : nat) (gen : nat -> list Z) : option swc :=
  y <- seed_array_int W w r gen;;
  x <- get y (r - 1);; Some (Swc y 0 (if x =? 0 then 1 else 0)).

(* lagged_fibonacci.hpp:113-118 and 316-321 *)
Definition lf_after (p : nat) (st : lf) (q : list Z * option (list Z)) : lf * option (list Z) :=
  match snd q with
  | None => (Lf (li st) (fst q), None)
  | Some l => (Lf (Z.of_nat p) (fst q), Some l)
  end.
Definition lf_seed_range (W w : Z) (p : nat) (st : lf) (l : list Z) : lf * option (list Z) :=
  lf_after p st (fill_array_int W w (lx st) l).
Definition lf01_seed_range (w : Z) (p : nat) (st : lf) (l : list Z) : lf * option (list Z) :=
  lf_after p st (fill_array_real w (lx st) l).
(* lagged_fibonacci.hpp:102-106 *)
Definition lf_seed_seq (W w : Z) (p : nat) (gen : nat -> list Z) : option lf :=
  y <- seed_array_int W w p gen;; Some (Lf (Z.of_nat p) y).

(* mersenne_twister.hpp:170-177; the state after a throw is not described *)
Definition mt_seed_range (p : mtp) (st : mt) (l : list Z) : option (option mt * list Z) :=
  match fill_array_int (mW p) (mw p) (mx st) l with
  | (_, None) => Some (None, [])
  | (y, Some l') => s <- mt_seed_array p y;; Some (Some s, l')
  end.
(* mersenne_twister.hpp:161-167 *)
Definition mt_seed_seq (p : mtp) (gen : nat -> list Z) : option mt :=
  y <- seed_array_int (mW p) (mw p) (mn p) gen;; mt_seed_array p y.

(* mixmax.hpp:90-95 *)
Definition mx_seed_range (l : list Z) : option mxst * list Z :=
  match fill_array_int 32 32 [0; 0; 0; 0] l with
  | ([a; b; c; d], Some l') => (Some (mx_seed4 a b c d), l')
  | _ => (None, [])
  end.

(* generator_seed_seq.hpp:26-31 *)
Fixpoint gen_seq_generate {S} (f : S -> option (Z * S)) (n : nat) (s : S) : option (list Z * S) :=
  match n with
  | O => Some ([], s)
  | Datatypes.S k => r <- f s;; q <- gen_seq_generate f k (snd r);; Some (fst r :: fst q, snd q)
  end.

(* an engine whose output is its state, as a generator *)
Definition lcg_gen (a m : Z) (x : Z) : option (Z * Z) := y <- lcg_next u32 a 0 m x;; Some (y, y).

(* subtract_with_carry.hpp:160-167 (and 391-398), seed(value); value has been
   converted to IntType *)
Definition swc_seed_value (W w : Z) (r : nat) (value : Z) : option swc :=
  g <- lcg_seed u32 40014 0 2147483563 (wrap 32 (if value =? 0 then 19780503 else value));;
  q <- gen_seq_generate (lcg_gen 40014 2147483563) (Z.to_nat (wpw w) * r) g;;
  swc_seed_seq W w r (fun _ => fst q).

(* lagged_fibonacci.hpp:91-97, seed(value) *)
Definition lf_seed_value (W w : Z) (p : nat) (value : Z) : option lf :=
  g <- lcg_seed u32 16807 0 2147483647 (wrap 32 value);;
  q <- gen_seq_generate (lcg_gen 16807 2147483647) (Z.to_nat (wpw w) * p) g;;
  lf_seed_seq W w p (fun _ => fst q).

(* xor_combine.hpp:107-111 and additive_combine.hpp:179-183: the two base
   generators are seeded one after the other *)
Definition pair_seed_range {A B} (f : list Z -> option (option A * list Z)) (g : list Z -> option (option B * list Z))
  (l : list Z) : option (option (A * B) * list Z) :=
  r1 <- f l;;
  match r1 with
  | (None, l1) => Some (None, l1)
  | (Some a, l1) =>
      r2 <- g l1;;
      match r2 with
      | (None, l2) => Some (None, l2)
      | (Some b, l2) => Some (Some (a, b), l2)
      end
  end.
