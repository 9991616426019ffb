(* include/boost/random/subtract_with_carry.hpp: subtract_with_carry_engine and
   subtract_with_carry_01_engine *)
From Verif Require Import Base StreamModel RingModel.

(* lines 304-306 and 531-533: x[long_lag], k, carry *)
Record swc := Swc { xs : list Z; kk : nat; cy : Z }.

(* lines 271-286, subtract_with_carry_engine::do_update; modulus = 1 << w,
   line 123 *)
Definition swc_upd (t : ity) (w : Z) (x : list Z) (cur sh : nat) (c : Z) : option (list Z * Z) :=
  xc <- get x cur;;
  temp <- addT t xc c;;
  xsh <- get x sh;;
  if temp <=? xsh then
    delta <- subT t xsh temp;; x' <- upd x cur delta;; Some (x', 0)
  else
    d1 <- subT t (2 ^ w) temp;; delta <- addT t d1 xsh;;
    x' <- upd x cur delta;; Some (x', 1).

(* lines 517-529, subtract_with_carry_01_engine::do_update.  Simplification: the
   RealType values are represented by their multiples of 2^-w (so 1 is 2^w and
   1/_modulus is 1) and the arithmetic is exact; this is what floating point
   computes as long as w <= numeric_limits<RealType>::digits, since every value
   that occurs is a multiple of 2^-w of absolute value at most 1. *)
Definition swc01_upd (w : Z) (x : list Z) (cur sh : nat) (c : Z) : option (list Z * Z) :=
  xsh <- get x sh;;
  xc <- get x cur;;
  let delta := xsh - xc - c in
  if delta <? 0 then x' <- upd x cur (delta + 2 ^ w);; Some (x', 1)
  else x' <- upd x cur delta;; Some (x', 0).

(* lines 199-211 and 446-458, operator(); [up] is do_update *)
Definition swc_next (up : list Z -> nat -> nat -> Z -> option (list Z * Z)) (s r : nat) (st : swc)
  : option (Z * swc) :=
  let k := kk st in
  let short_index := (if (k <? s)%nat then k + r - s else k - s)%nat in
  q <- up (xs st) k short_index (cy st);;
  result <- get (fst q) k;;
  Some (result, Swc (fst q) (if (r <=? S k)%nat then 0%nat else S k) (snd q)).

(* the loops of lines 57-59, 76-78, 86-88: for(j = j0; ...; ++j)
   carry = do_update(j, j + long_lag - short_lag, carry), n iterations *)
Fixpoint swc_loop_a (up : list Z -> nat -> nat -> Z -> option (list Z * Z)) (s r n j : nat) (q : list Z * Z)
  : option (list Z * Z) :=
  match n with
  | O => Some q
  | S n' => q' <- up (fst q) j (j + r - s)%nat (snd q);; swc_loop_a up s r n' (S j) q'
  end.

(* the loops of lines 64-66, 79-81, 89-91: do_update(j, j - short_lag, carry) *)
Fixpoint swc_loop_b (up : list Z -> nat -> nat -> Z -> option (list Z * Z)) (s r n j : nat) (q : list Z * Z)
  : option (list Z * Z) :=
  match n with
  | O => Some q
  | S n' => q' <- up (fst q) j (j - s)%nat (snd q);; swc_loop_b up s r n' (S j) q'
  end.

(* lines 43-95, detail::subtract_with_carry_discard::apply *)
Definition swc_discard (up : list Z -> nat -> nat -> Z -> option (list Z * Z)) (s r : nat) (z : Z) (st : swc)
  : option swc :=
  let k := kk st in
  let q := (xs st, cy st) in
  (* 53-67 *)
  q <- (if (k =? 0)%nat then Some q else
          q <- (if (k <? s)%nat then
                  let limit := if Z.of_nat (s - k) <? z then s else (k + Z.to_nat z)%nat in
                  swc_loop_a up s r (limit - k) k q
                else Some q);;
          let limit := if Z.of_nat (r - k) <? z then r else (k + Z.to_nat z)%nat in
          let start := if (k <? s)%nat then s else k in
          swc_loop_b up s r (limit - start) start q);;
  (* 69 *)
  let k := Z.to_nat ((z mod Z.of_nat r + Z.of_nat k) mod Z.of_nat r) in
  (* 71-92 *)
  q <- (if Z.of_nat k <? z then
          q <- iterM (Z.to_nat ((z - Z.of_nat k) / Z.of_nat r))
                 (fun q => q <- swc_loop_a up s r s 0 q;; swc_loop_b up s r (r - s) s q) q;;
          let limit := if (s <? k)%nat then s else k in
          q <- swc_loop_a up s r limit 0 q;;
          swc_loop_b up s r (k - s) s q
        else Some q);;
  (* 93-94 *)
  Some (Swc (fst q) k (snd q)).

(* lines 264-267 and 510-513, compute *)
Definition swc_compute (r : nat) (st : swc) (index : nat) : option Z :=
  get (xs st) ((kk st + index) mod r).

(* lines 225-231 and 471-481, operator<<: the values computed for j = 0..r-1, then the carry
   (for the 01 engine they are written multiplied by _modulus, i.e. as the
   integers of this model; Simplification: the decimal text of that real number
   is exact) *)
Fixpoint swc_write_from (r : nat) (st : swc) (n j : nat) : option (list tok) :=
  match n with
  | O => Some [TInt (cy st)]
  | S n' => v <- swc_compute r st j;; ts <- swc_write_from r st n' (S j);; Some (TInt v :: ts)
  end.
Definition swc_write (r : nat) (st : swc) : option (list tok) := swc_write_from r st r 0.

(* lines 234-241, operator>> *)
Definition swc_read (t : ity) (r : nat) (st : swc) (i : istr) : swc * istr :=
  let '(x, i) := read_arr t r 0 (xs st) i in
  match get_int t i with
  | (Some c, i') => (Swc x 0 c, i')
  | (None, i') => (Swc x 0 (if failb i then cy st else 0), i')
  end.

(* lines 247-253 and 500-506, operator== *)
Fixpoint swc_eq_from (r : nat) (a b : swc) (n j : nat) : option bool :=
  match n with
  | O => Some true
  | S n' => u <- swc_compute r a j;; v <- swc_compute r b j;;
            if negb (u =? v) then Some false else swc_eq_from r a b n' (S j)
  end.
Definition swc_eq (r : nat) (a b : swc) : option bool := swc_eq_from r a b r 0.
