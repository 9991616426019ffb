(* Specifications for the arithmetic helpers and the congruential engines.
   Nothing here refers to the model of the code except the description of the
   integer type. *)
From Verif Require Import Base.

(* the number the template argument m stands for: 0 means 2^width *)
Definition cmod (t : ity) (m : Z) : Z := if m =? 0 then 2 ^ bits t else m.

(* moduli allowed for a type: 0 (unsigned types) or a positive value *)
Definition cm_wf (t : ity) (m : Z) : Prop :=
  wf_ity t /\ (m = 0 /\ sgn t = false \/ 0 < m <= imax t).

(* m shifted left until its top bit is bit 63 *)
Definition nshift (m : Z) : Z := 63 - Z.log2 m.
Definition nmod (m : Z) : Z := m * 2 ^ nshift m.
(* the two 32 bit digits of the shifted modulus have a sum of at most 2^32 *)
Definition safe_mod (m : Z) : Prop := nmod m / 2 ^ 32 + nmod m mod 2 ^ 32 <= 2 ^ 32.

(* moduli for which 64 bit modular products are reduced exactly *)
Definition exact_mod (m : Z) : Prop := m = 0 \/ m * m < 2 ^ 64 \/ safe_mod m.

(* multiplications by a modulo m that are exact: the modulus is exact, or the
   product fits the type, or Schrage's condition holds for a signed type *)
Definition exact_mult (t : ity) (m a : Z) : Prop :=
  exact_mod m \/ a * m <= imax t \/ (sgn t = true /\ m mod a < m / a).

Definition is_pow2 (M : Z) : Prop := exists k, 0 <= k /\ M = 2 ^ k.

(* congruence modulo M *)
Definition eqm (M x y : Z) : Prop := x mod M = y mod M.

(* r is a residue with r*c = gcd(c,M) modulo M; when c and M are coprime this
   is the multiplicative inverse *)
Definition is_inv (M c r : Z) : Prop := 0 <= r < M /\ (r * c - Z.gcd c M) mod M = 0.

(* one step of the mathematical linear congruential sequence modulo M *)
Definition lcg_spec (a c M x : Z) : Z := (a * x + c) mod M.

(* template arguments that satisfy the static assertions of the class, with a
   non-trivial modulus *)
Definition lcg_wf (t : ity) (a c m : Z) : Prop :=
  cm_wf t m /\ 1 < cmod t m /\ 0 <= a < cmod t m /\ 0 <= c < cmod t m.

(* geometric sum 1 + a + ... + a^(n-1) *)
Fixpoint geo (a : Z) (n : nat) : Z := match n with O => 0 | S k => 1 + a * geo a k end.

(* gcd of a-1 and M, and what is left of it in (a-1)/gcd *)
Definition disc_g (a M : Z) : Z := Z.gcd (a - 1) M.
Definition disc_h (a M : Z) : Z := Z.gcd ((a - 1) / disc_g a M) M.

(* the seed rule of the documentation *)
Definition lcg_seed_spec (c M x0 : Z) : Z :=
  if (c =? 0) && (x0 mod M =? 0) then 1 else x0 mod M.

(* POSIX srand48 / lrand48 *)
Definition posix_seed (x : Z) : Z := (x mod 2 ^ 32) * 2 ^ 16 + 0x330E.
Definition posix_step (X : Z) : Z := (0x5DEECE66D * X + 0xB) mod 2 ^ 48.
Definition posix_lrand48 (X : Z) : Z := X / 2 ^ 17.

(* the n-th state of the sequence generated by f from x *)
Definition nth_state (f : Z -> Z) (x : Z) (n : nat) : Z := iter n f x.

(* the states in range: [1,M) for increment 0, [0,M) otherwise *)
Definition lcg_in (c M x : Z) : Prop := (if c =? 0 then 1 else 0) <= x < M.
