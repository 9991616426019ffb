(* include/boost/random/lagged_fibonacci.hpp: lagged_fibonacci_engine and
   lagged_fibonacci_01_engine *)
From Verif Require Import Base StreamModel RingModel.

(* lines 181-182 and 404-405: unsigned int i; x[long_lag] *)
Record lf := Lf { li : Z; lx : list Z }.

(* the body of the loops of fill(), lines 206-213:
   (x[j] + x[..]) & low_bits_mask_t<w>::sig_bits *)
Definition lf_op (t : ity) (w : Z) (a b : Z) : option Z :=
  s <- addT t a b;; Some (Z.land s (2 ^ w - 1)).

(* lines 425-436, fill() of lagged_fibonacci_01_engine: t = x[j] + x[..]; if(t >= 1) t -= 1.
   Simplification: the RealType values are represented by their multiples of 2^-w
   and the sum is exact; this is what floating point computes when
   w < numeric_limits<RealType>::digits. *)
Definition lf01_op (w : Z) (a b : Z) : option Z :=
  let t := a + b in if 2 ^ w <=? t then Some (t - 2 ^ w) else Some t.

(* first loop of fill(): x[j] = op x[j] x[j+(long_lag-short_lag)], n iterations from j *)
Fixpoint lf_loop_a (op : Z -> Z -> option Z) (p q n j : nat) (x : list Z) : option (list Z) :=
  match n with
  | O => Some x
  | S n' => a <- get x j;; b <- get x (j + (p - q));; v <- op a b;; x' <- upd x j v;;
            lf_loop_a op p q n' (S j) x'
  end.
(* second loop of fill(): x[j] = op x[j] x[j-short_lag] *)
Fixpoint lf_loop_b (op : Z -> Z -> option Z) (p q n j : nat) (x : list Z) : option (list Z) :=
  match n with
  | O => Some x
  | S n' => a <- get x j;; b <- get x (j - q);; v <- op a b;; x' <- upd x j v;;
            lf_loop_b op p q n' (S j) x'
  end.
(* lines 202-215 and 420-439 without the assignment i = 0 *)
Definition lf_fill (op : Z -> Z -> option Z) (p q : nat) (x : list Z) : option (list Z) :=
  x <- lf_loop_a op p q q 0 x;; lf_loop_b op p q (p - q) q x.

(* lines 118-123 and 330-335, operator() *)
Definition lf_next (op : Z -> Z -> option Z) (p q : nat) (st : lf) : option (Z * lf) :=
  st <- (if Z.of_nat p <=? li st then x <- lf_fill op p q (lx st);; Some (Lf 0 x) else Some st);;
  v <- get (lx st) (Z.to_nat (li st));;
  Some (v, Lf (li st + 1) (lx st)).

(* lines 131-136 and 343-348, discard *)
Definition lf_discard (op : Z -> Z -> option Z) (p q : nat) (z : Z) (st : lf) : option lf :=
  iterM (Z.to_nat z) (fun st => r <- lf_next op p q st;; Some (snd r)) st.

(* lines 141-147 and 353-363, operator<< *)
Definition lf_write (st : lf) : list tok := TInt (li st) :: map TInt (lx st).

(* lines 152-158 and 368-377, operator>>; f.i is an unsigned int *)
Definition lf_read (t : ity) (p : nat) (st : lf) (s : istr) : lf * istr :=
  let '(i, s1) := match get_int u32 s with
                  | (Some v, s') => (v, s')
                  | (None, s') => (if failb s then li st else 0, s')
                  end in
  let '(x, s2) := read_arr t p 0 (lx st) s1 in
  (Lf i x, s2).

(* lines 164-165 and 383-384, operator== *)
Fixpoint list_eqb (a b : list Z) : bool :=
  match a, b with
  | [], _ => true
  | u :: a', v :: b' => (u =? v) && list_eqb a' b'
  | _ :: _, [] => false
  end.
Definition lf_eq (a b : lf) : bool := (li a =? li b) && list_eqb (lx a) (lx b).
