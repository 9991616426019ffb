(* linear_congruential.hpp, inversive_congruential.hpp, additive_combine.hpp *)
From Verif Require Import Base ArithModel StreamModel.

(* ---- include/boost/random/linear_congruential.hpp ---- *)
(* The template arguments are t = IntType, a, c, m; the state is the member _x. *)

(* linear_congruential.hpp:125-147 (the value has already been converted to
   IntType by the caller) *)
Definition lcg_seed (t : ity) (a c m x0 : Z) : option Z :=
  x <- (if m =? 0 then Some x0 else remT t x0 m);;
  x <- (if x <? 0 then addT t x m else Some x);;
  Some (if (c =? 0) && (x =? 0) then 1 else x).

(* linear_congruential.hpp:171-178 *)
Definition lcg_min (c : Z) : Z := if c =? 0 then 1 else 0.
Definition lcg_max (t : ity) (m : Z) : Z := cast t (m - 1).

(* linear_congruential.hpp:181-185; the new state is also the output *)
Definition lcg_next (t : ity) (a c m x : Z) : option Z := cm_mult_add t m a x c.

(* linear_congruential.hpp:205-221, the loop on the bits of the exponent; the
   arithmetic operations are passed in *)
Fixpoint lcg_disc_loop (mult : Z -> Z -> option Z) (mult_add : Z -> Z -> Z -> option Z)
    (add : Z -> Z -> option Z) (b_gcd az ak : Z) (e : positive) : option Z :=
  let comb x y := xy <- mult x y;; s <- add x y;; mult_add b_gcd xy s in
  match e with
  | xH => r <- comb az ak;; _ <- comb ak ak;; Some r
  | xO e' => k <- comb ak ak;; lcg_disc_loop mult mult_add add b_gcd az k e'
  | xI e' => r <- comb az ak;; k <- comb ak ak;; lcg_disc_loop mult mult_add add b_gcd r k e'
  end.

(* linear_congruential.hpp:193-228 *)
Definition lcg_discard (t : ity) (a c m z x : Z) : option Z :=
  am1 <- subT t a 1;;
  b_inv <- cm_invert t m am1;;
  b_gcd <- cm_mult t m am1 b_inv;;
  if b_gcd =? 1 then
    a_z <- cm_pow t m a z;;
    azm1 <- subT t a_z 1;;
    cb <- cm_mult t m c b_inv;;
    k <- cm_mult t m cb azm1;;
    cm_mult_add t m a_z x k
  else
    ak <- divT t am1 b_gcd;;
    az <- match z with
          | Z0 => Some 0
          | Zpos e => lcg_disc_loop (cm_mult t m) (cm_mult_add t m) (cm_add t m) b_gcd 0 ak e
          | Zneg _ => None
          end;;
    a_z <- cm_mult_add t m b_gcd az 1;;
    num <- cm_mult t m c az;;
    u <- divT t am1 b_gcd;;
    b_inv <- cm_invert t m u;;
    k <- cm_mult t m b_inv num;;
    cm_mult_add t m a_z x k.

(* linear_congruential.hpp:230-232 *)
Definition lcg_eq (x y : Z) : bool := x =? y.

(* linear_congruential.hpp:239-245 *)
Definition lcg_write (x : Z) : list tok := [TInt x].

(* linear_congruential.hpp:248-272 (operator>> and read): new state and stream *)
Definition lcg_read (t : ity) (c m x : Z) (s : istr) : Z * istr :=
  match get_int t s with
  | (Some v, s') => if (lcg_min c <=? v) && (v <=? lcg_max t m) then (v, s') else (x, set_fail s')
  | (None, s') => (x, s')
  end.

(* states a user can reach: seeding, operator(), reading from a stream
   (linear_congruential.hpp:125-147, 181-185, 248-272) *)
Inductive lcg_reach (t : ity) (a c m : Z) : Z -> Prop :=
| lr_seed x0 x : inT t x0 -> lcg_seed t a c m x0 = Some x -> lcg_reach t a c m x
| lr_next x y : lcg_reach t a c m x -> lcg_next t a c m x = Some y -> lcg_reach t a c m y
| lr_read x s : lcg_reach t a c m x -> lcg_reach t a c m (fst (lcg_read t c m x s)).

(* ---- class rand48, linear_congruential.hpp:349-455 ---- *)

(* lines 446-449 *)
Definition r48_a : Z := Z.lor 0xDEECE66D (Z.shiftl 0x5 32).
Definition r48_c : Z := 0xB.
Definition r48_m : Z := Z.shiftl 1 48.
(* lines 452-453; the argument has been converted to uint32_t *)
Definition r48_cnv (x : Z) : Z := Z.lor (to_uns u64 (Z.shiftl x 16)) 0x330e.
(* lines 366, 386-391 *)
Definition r48_seed (x0 : Z) : option Z := lcg_seed u64 r48_a r48_c r48_m (r48_cnv x0).
(* line 404: output and new state *)
Definition r48_next (s : Z) : option (Z * Z) :=
  s' <- lcg_next u64 r48_a r48_c r48_m s;; Some (to_uns u32 (Z.shiftr s' 17), s').
(* line 407 *)
Definition r48_discard (z s : Z) : option Z := lcg_discard u64 r48_a r48_c r48_m z s.

(* ---- include/boost/random/inversive_congruential.hpp ---- *)

(* inversive_congruential.hpp:123-141: same text as for the LCG *)
Definition icg_seed (t : ity) (a b p x0 : Z) : option Z :=
  x <- (if p =? 0 then Some x0 else remT t x0 p);;
  x <- (if x <? 0 then addT t x p else Some x);;
  Some (if (b =? 0) && (x =? 0) then 1 else x).

(* inversive_congruential.hpp:77-78 *)
Definition icg_min (b : Z) : Z := if b =? 0 then 1 else 0.
Definition icg_max (t : ity) (p : Z) : Z := cast t (p - 1).

(* inversive_congruential.hpp:161-166 *)
Definition icg_next (t : ity) (a b p x : Z) : option Z :=
  i <- cm_invert t p x;; cm_mult_add t p a i b.

(* inversive_congruential.hpp:174-179 *)
Definition icg_discard (t : ity) (a b p z x : Z) : option Z := iterM (Z.to_nat z) (icg_next t a b p) x.

(* inversive_congruential.hpp:184-197.  When the extraction fails the member is
   assigned by num_get (0 or a limit of the type); this is modelled by 0. *)
Definition icg_write (x : Z) : list tok := [TInt x].
Definition icg_read (t : ity) (x : Z) (s : istr) : Z * istr :=
  match get_int t s with
  | (Some v, s') => (v, s')
  | (None, s') => (if failb s then x else 0, s')
  end.

(* ---- include/boost/random/additive_combine.hpp ---- *)

(* additive_combine.hpp:186-191, on the outputs of the two engines.
   result_type t is that of the first engine. *)
Definition acomb (t : ity) (m1 val1 val2 : Z) : option Z :=
  if val2 <? val1 then subT t val1 val2
  else (d <- subT t val1 val2;; s <- addT t d m1;; subT t s 1).

(* additive_combine.hpp:62-68 *)
Definition acomb_min : Z := 1.
Definition acomb_max (t : ity) (m1 : Z) : Z := cast t (m1 - 1).

(* two component engines with c = 0 over the same IntType:
   additive_combine.hpp:186-191, state = both states *)
Definition ac_next (t : ity) (a1 m1 a2 m2 : Z) (s : Z * Z) : option (Z * (Z * Z)) :=
  v1 <- lcg_next t a1 0 m1 (fst s);;
  v2 <- lcg_next t a2 0 m2 (snd s);;
  r <- acomb t m1 v1 v2;;
  Some (r, (v1, v2)).

(* additive_combine.hpp:138-143 and 162-167 *)
Definition ac_seed (t : ity) (a1 m1 a2 m2 x0 : Z) : option (Z * Z) :=
  s1 <- lcg_seed t a1 0 m1 x0;; s2 <- lcg_seed t a2 0 m2 x0;; Some (s1, s2).
Definition ac_seed2 (t : ity) (a1 m1 a2 m2 x1 x2 : Z) : option (Z * Z) :=
  s1 <- lcg_seed t a1 0 m1 x1;; s2 <- lcg_seed t a2 0 m2 x2;; Some (s1, s2).

(* additive_combine.hpp:199-203 *)
Definition ac_discard (t : ity) (a1 m1 a2 m2 z : Z) (s : Z * Z) : option (Z * Z) :=
  s1 <- lcg_discard t a1 0 m1 z (fst s);; s2 <- lcg_discard t a2 0 m2 z (snd s);; Some (s1, s2).

(* additive_combine.hpp:212-220 *)
Definition ac_write (s : Z * Z) : list tok := lcg_write (fst s) ++ lcg_write (snd s).
Definition ac_read (t : ity) (m1 m2 : Z) (s : Z * Z) (i : istr) : (Z * Z) * istr :=
  let '(x1, i) := lcg_read t 0 m1 (fst s) i in
  let '(x2, i) := lcg_read t 0 m2 (snd s) i in
  ((x1, x2), i).

(* additive_combine.hpp:226-227 *)
Definition ac_eq (x y : Z * Z) : bool := lcg_eq (fst x) (fst y) && lcg_eq (snd x) (snd y).

(* additive_combine.hpp:272-275, ecuyer1988 *)
Definition ec_a1 := 40014. Definition ec_m1 := 2147483563.
Definition ec_a2 := 40692. Definition ec_m2 := 2147483399.
